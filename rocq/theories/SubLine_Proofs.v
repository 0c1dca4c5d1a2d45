From Coq Require Import ZArith List Bool Reals Lra Lia.
From Verif Require Import Common Conn_Model Sub_Model Sub_Spec Sub_Proofs.
Import ListNotations.
Local Open Scope Z_scope.

Lemma prepare_two : forall (m : mesh) (s : tfsf) (be f e1 e2 l1 l2 : Z) (d : bool), length (t_attr s) = length (m_everts m) ->
  beside m be f e1 e2 -> 0 <= e1 < numElems m -> 0 <= e2 < numElems m -> localFace m e1 f l1 -> localFace m e2 f l2 ->
  exists s' c, prepare s e1 e2 l1 l2 d = Ok s' /\ contributes m be c /\ clean (t_tf s') = clean (t_tf s) ++ fst c /\ clean (t_sf s') = clean (t_sf s) ++ snd c /\ length (t_attr s') = length (m_everts m).
Proof.
  intros m s be f e1 e2 l1 l2 d La HB H1 H2 L1 L2. unfold numElems in *. unfold prepare, tag. rewrite zset_spec by lia. cbn [bind]. destruct (Z.leb_spec 0 e2); [|lia].
  rewrite zset_spec by (rewrite upd_length; lia). cbn [bind]. unfold store. assert (P2 : l2 <> NotFound) by (destruct L2 as [fs [_ E]]; apply zget_len in E; unfold NotFound; lia).
  destruct (Z.eqb_spec l2 NotFound); [contradiction|]. cbn [negb]. cbn [t_attr t_tf t_sf].
  assert (C1 : clean [(e1, l1)] = [(e1, l1)]) by (unfold clean; cbn [filter fst]; destruct (Z.eqb_spec e1 (-1)); [lia|reflexivity]).
  assert (C2 : clean [(e2, l2)] = [(e2, l2)]) by (unfold clean; cbn [filter fst]; destruct (Z.eqb_spec e2 (-1)); [lia|reflexivity]).
  destruct d; eexists; [exists ([(e1, l1)], [(e2, l2)])|exists ([(e2, l2)], [(e1, l1)])]; (split; [reflexivity|]); (split; [exists f, e1, e2, l1; split; [exact HB|]; split; [exact L1|]; left; split; [lia|]; exists l2; split; [exact L2|auto]|]);
    cbn [t_tf t_sf t_attr fst snd]; rewrite !clean_app, C1, C2, !upd_length; auto.
Qed.
Lemma prepare_one : forall (m : mesh) (s : tfsf) (be f e1 l1 l2 : Z) (d : bool), length (t_attr s) = length (m_everts m) ->
  beside m be f e1 (-1) -> 0 <= e1 < numElems m -> localFace m e1 f l1 ->
  exists s' c, prepare s e1 (-1) l1 l2 d = Ok s' /\ contributes m be c /\ clean (t_tf s') = clean (t_tf s) ++ fst c /\ clean (t_sf s') = clean (t_sf s) ++ snd c /\ length (t_attr s') = length (m_everts m).
Proof.
  intros m s be f e1 l1 l2 d La HB H1 L1. unfold numElems in *. unfold prepare, tag. rewrite zset_spec by lia. cbn [bind]. change (0 <=? -1) with false. cbv iota. cbn [bind]. unfold store.
  assert (C1 : clean [(e1, l1)] = [(e1, l1)]) by (unfold clean; cbn [filter fst]; destruct (Z.eqb_spec e1 (-1)); [lia|reflexivity]).
  assert (C2 : clean [(-1, l2)] = []) by reflexivity.
  destruct d; eexists; [exists ([(e1, l1)], [])|exists ([], [(e1, l1)])]; (split; [reflexivity|]); (split; [exists f, e1, (-1), l1; split; [exact HB|]; split; [exact L1|]; right; split; [lia|auto]|]);
    destruct (l2 =? NotFound); cbn [negb]; cbn [t_tf t_sf t_attr fst snd]; rewrite ?clean_app, ?C1, ?C2, ?upd_length, ?app_nil_r; auto.
Qed.
Lemma beside_ex : forall m be, wfMesh m -> (exists b, zget (m_bdr m) be = Ok b) -> exists f e1 e2, beside m be f e1 e2 /\ faceTrans m be = Ok (e1, e2) /\ zget (m_fels m) f = Ok (e1, e2).
Proof.
  intros m be W [b Hb]. destruct (bdr_beside m be b W Hb) as [e1 [e2 Hf]]. destruct (faceTrans_beside m be b e1 e2 Hb Hf) as [HT HB]. exists (b_face b), e1, e2. auto.
Qed.
Lemma twoPoint_ok : forall (m : mesh) (s : tfsf) (be : Z) (sec : bool), wfMesh m -> lineMesh m -> (exists b, zget (m_bdr m) be = Ok b) -> length (t_attr s) = length (m_everts m) ->
  (if sec then ~ leftEnd m be else ~ rightEnd m be) ->
  exists s' c, twoPoint m sec s be = Ok s' /\ contributes m be c /\ clean (t_tf s') = clean (t_tf s) ++ fst c /\ clean (t_sf s') = clean (t_sf s) ++ snd c /\ length (t_attr s') = length (m_everts m).
Proof.
  intros m s be sec W Lm Hb La HE. destruct (beside_ex m be W Hb) as [f [e1 [e2 [HB [HT Hf]]]]]. destruct (wf_face m W _ _ _ Hf) as [H1 [H2 _]]. unfold twoPoint. rewrite HT. cbn [bind].
  destruct (Lm f e1 e2 Hf) as [[G [E12 [L1 L2]]]|[[-> [-> L0]]|[-> [-> L1]]]].
  - assert (X : (e2 <? 0) = false) by (apply Z.ltb_ge; lia). rewrite X, !andb_false_r. destruct sec; apply (prepare_two m s be f e1 e2 1 0 _ La HB H1); (lia || assumption).
  - change (-1 <? 0) with true. rewrite !andb_true_r. destruct sec; [exfalso; apply HE; exists f; auto|]. change (0 =? 0) with true. cbv iota. apply (prepare_one m s be f 0 0 NotFound true La HB H1 L0).
  - change (-1 <? 0) with true. rewrite !andb_true_r. destruct sec; [|exfalso; apply HE; exists f; auto]. rewrite Z.eqb_refl. apply (prepare_one m s be f _ 1 NotFound true La HB H1 L1).
Qed.
Lemma onePoint_ok : forall (m : mesh) (s : tfsf) (be : Z), wfMesh m -> lineMesh m -> (exists b, zget (m_bdr m) be = Ok b) -> length (t_attr s) = length (m_everts m) ->
  (forall f e2, beside m be f 0 e2 -> leftEnd m be) ->
  exists s' c, onePoint m s be = Ok s' /\ contributes m be c /\ clean (t_tf s') = clean (t_tf s) ++ fst c /\ clean (t_sf s') = clean (t_sf s) ++ snd c /\ length (t_attr s') = length (m_everts m).
Proof.
  intros m s be W Lm Hb La HE. destruct (beside_ex m be W Hb) as [f [e1 [e2 [HB [HT Hf]]]]]. destruct (wf_face m W _ _ _ Hf) as [H1 [H2 _]]. unfold onePoint. rewrite HT. cbn [bind].
  destruct (Z.eqb_spec e1 0) as [->|N0].
  - destruct (HE f e2 HB) as [f' [HB' L0]]. destruct (beside_fun _ _ _ _ _ _ _ _ HB HB') as [<- [_ ->]]. apply (prepare_one m s be f 0 0 NotFound true La HB H1 L0).
  - destruct (Lm f e1 e2 Hf) as [[G [E12 [L1 L2]]]|[[-> [-> L0]]|[-> [-> L1]]]].
    + destruct (Z.eqb_spec e1 (numElems m - 1)); [lia|]. apply (prepare_two m s be f e1 e2 1 0 _ La HB H1); (lia || assumption).
    + congruence.
    + rewrite Z.eqb_refl. apply (prepare_one m s be f _ 1 NotFound true La HB H1 L1).
Qed.

Lemma count_marked : forall m marker l n, covers m marker -> (forall be, In be l -> exists b, zget (m_bdr m) be = Ok b) ->
  foldM (fun n be => k <- isMarked m marker be ;; Ok (if k : bool then n + 1 else n)) l n = Ok (n + Z.of_nat (length (filter (markedB m marker) l))).
Proof.
  intros m marker l. induction l as [|be l IH]; intros n C H; [cbn [foldM filter length]; f_equal; lia|]. cbn [foldM filter].
  destruct (H be (or_introl eq_refl)) as [b Hb]. rewrite (isMarked_ok m marker be b C Hb). cbn [bind].
  rewrite IH by (exact C || (intros x Hx; apply H; right; exact Hx)). destruct (markedB m marker be); cbn [length]; f_equal; lia.
Qed.
Lemma line_ok : forall (m : mesh) (marker attrs : list Z), wfMesh m -> lineMesh m -> covers m marker -> m_dim m = 1 -> length attrs = length (m_everts m) ->
  match marked m marker with
  | [b] => (forall f e2, beside m b f 0 e2 -> leftEnd m b) | [b; b'] => ~ rightEnd m b /\ ~ leftEnd m b' | _ => False end ->
  exists s cs, tfsfSubMesher m marker attrs = Ok s /\ Forall2 (contributes m) (marked m marker) cs /\ t_tf s = concat (map fst cs) /\ t_sf s = concat (map snd cs).
Proof.
  intros m marker attrs W Lm C D La H. unfold tfsfSubMesher. rewrite D. cbn [Z.eqb Pos.eqb]. unfold faces1.
  rewrite (count_marked m marker (numBdr m) 0 C (numBdr_ok m)). cbn [bind]. change (filter (markedB m marker) (numBdr m)) with (marked m marker).
  pose proof (marked_ok m marker) as MO. destruct (marked m marker) as [|b [|b' [|b'' l]]] eqn:EM; try contradiction; cbn [length].
  - change (0 + Z.of_nat 1 =? 1) with true. cbv iota.
    rewrite (foldM_filter m marker (onePoint m) (numBdr m) _ C (numBdr_ok m)). change (filter (markedB m marker) (numBdr m)) with (marked m marker). rewrite EM. cbn [foldM].
    destruct (onePoint_ok m (mkT attrs [] []) b W Lm (MO b (or_introl eq_refl)) La H) as [s [c [E [Hc [T [S _]]]]]]. rewrite E. cbn [bind].
    eexists. exists [c]. split; [reflexivity|]. split; [repeat constructor; exact Hc|]. cbn [t_tf t_sf map concat]. rewrite T, S, !app_nil_r. split; reflexivity.
  - change (0 + Z.of_nat 2 =? 1) with false. change (0 + Z.of_nat 2 =? 2) with true. cbv iota. destruct H as [HR HL].
    set (step := fun (fs : bool * tfsf) be => s' <- twoPoint m (fst fs) (snd fs) be ;; Ok (true, s')).
    rewrite (foldM_filter m marker step (numBdr m) _ C (numBdr_ok m)). change (filter (markedB m marker) (numBdr m)) with (marked m marker). rewrite EM. cbn [foldM]. unfold step. cbn [fst snd].
    destruct (twoPoint_ok m (mkT attrs [] []) b false W Lm (MO b (or_introl eq_refl)) La HR) as [s1 [c1 [E1 [Hc1 [T1 [S1 L1]]]]]]. rewrite E1. cbn [bind fst snd].
    destruct (twoPoint_ok m s1 b' true W Lm (MO b' (or_intror (or_introl eq_refl))) L1 HL) as [s2 [c2 [E2 [Hc2 [T2 [S2 L2]]]]]]. rewrite E2. cbn [bind].
    eexists. exists [c1; c2]. split; [reflexivity|]. split; [repeat constructor; assumption|]. cbn [t_tf t_sf map concat]. rewrite T2, S2, T1, S1, !app_nil_r. cbn [clean filter t_tf t_sf app]. split; reflexivity.
Qed.

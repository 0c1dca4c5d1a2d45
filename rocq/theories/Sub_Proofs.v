From Coq Require Import ZArith List Bool Reals Lra Lia Permutation Sorting.Sorted.
From Verif Require Import Common Conn_Model Conn_Proofs Sub_Model Sub_Spec.
Import ListNotations.
Local Open Scope Z_scope.

(** ** Sorting *)
Lemma sorted_perm_eq : forall a b : list Z, StronglySorted (fun x y => Z.leb x y = true) a -> StronglySorted (fun x y => Z.leb x y = true) b -> Permutation a b -> a = b.
Proof.
  induction a as [|x a IH]; intros b Sa Sb P.
  - apply Permutation_nil in P. congruence.
  - destruct b as [|y b]; [apply Permutation_sym, Permutation_nil in P; discriminate|].
    inversion Sa as [|? ? Sa' Fa]; subst. inversion Sb as [|? ? Sb' Fb]; subst. rewrite Forall_forall in Fa, Fb.
    assert (E : x = y).
    { assert (Hx : In x (y :: b)) by (apply (Permutation_in _ P); left; reflexivity).
      assert (Hy : In y (x :: a)) by (apply (Permutation_in _ (Permutation_sym P)); left; reflexivity).
      destruct Hx as [Hx|Hx]; [congruence|]. destruct Hy as [Hy|Hy]; [congruence|].
      specialize (Fa y Hy). specialize (Fb x Hx). rewrite Z.leb_le in Fa, Fb. lia. }
    subst y. f_equal. apply IH; [exact Sa'|exact Sb'|]. apply Permutation_cons_inv in P. exact P.
Qed.
Lemma sort_eq : forall a b : list Z, sortBy Z.leb a = sortBy Z.leb b <-> Permutation a b.
Proof.
  assert (S : forall l, StronglySorted (fun x y => Z.leb x y = true) (sortBy Z.leb l)).
  { intros l. apply sort_sorted; intros; rewrite ?Z.leb_le, ?Z.leb_gt in *; lia. }
  intros a b. split; intros H.
  - rewrite <- (sort_perm Z.leb a), H. apply sort_perm.
  - apply sorted_perm_eq; [apply S|apply S|]. rewrite !sort_perm. exact H.
Qed.

(** ** Finding the local face *)
Lemma matchFace_found : forall (m : mesh) (bv fs : list Z) (l : nat) (k f : Z) (v : list Z),
  (forall g, In g fs -> exists w, zget (m_fverts m) g = Ok w) ->
  nth_error fs l = Some f -> zget (m_fverts m) f = Ok v -> Permutation bv v ->
  (forall l' f' v', nth_error fs l' = Some f' -> zget (m_fverts m) f' = Ok v' -> Permutation bv v' -> l' = l) ->
  matchFace m bv fs k = Ok (k + Z.of_nat l) /\ hasFace m bv fs = Ok true.
Proof.
  intros m bv fs. induction fs as [|g fs IH]; intros l k f v Hall Hl Hv Hp Hu; [destruct l; discriminate|].
  destruct (Hall g (or_introl eq_refl)) as [w Hw]. cbn [matchFace hasFace]. rewrite Hw. cbn [bind].
  destruct (list_eq_dec Z.eq_dec (sortBy Z.leb w) (sortBy Z.leb bv)) as [E|E].
  - apply sort_eq in E. assert (El : 0%nat = l) by (apply (Hu 0%nat g w); [reflexivity|exact Hw|apply Permutation_sym; exact E]). subst l.
    rewrite Z.add_0_r. split; reflexivity.
  - destruct l as [|l].
    + cbn in Hl. injection Hl as ->. rewrite Hw in Hv. injection Hv as ->. exfalso. apply E. apply sort_eq. apply Permutation_sym. exact Hp.
    + cbn [nth_error] in Hl. destruct (IH l (k + 1) f v) as [A B]; [intros h Hh; apply Hall; right; exact Hh|exact Hl|exact Hv|exact Hp| |].
      * intros l' f' v' H1 H2 H3. specialize (Hu (S l') f' v' H1 H2 H3). lia.
      * rewrite A, B. split; [f_equal; lia|reflexivity].
Qed.
Lemma zget_len : forall {A} (l : list A) i a, zget l i = Ok a -> 0 <= i < Z.of_nat (length l).
Proof. intros A l i a H. apply zget_ok in H as [H1 H2]. assert (Z.to_nat i < length l)%nat by (apply nth_error_Some; congruence). lia. Qed.
Lemma zget_in : forall {A} (l : list A) i a, zget l i = Ok a -> In a l.
Proof. intros A l i a H. apply zget_ok in H as [_ H]. exact (nth_error_In _ _ H). Qed.
Lemma in_zget : forall {A} (l : list A) a, In a l -> exists i, zget l i = Ok a.
Proof. intros A l a H. apply In_nth_error in H as [n H]. exists (Z.of_nat n). apply zget_ok. rewrite Nat2Z.id. split; [lia|exact H]. Qed.
Lemma zget_some : forall {A} (l : list A) i, 0 <= i < Z.of_nat (length l) -> exists a, zget l i = Ok a.
Proof. intros A l i H. destruct (zget_in_range l i H) as [a [E _]]. exists a. exact E. Qed.

Lemma infoOf_ok : forall (m : mesh) (be e l : Z) (b : bdrEl) (flag : bool), wfMesh m -> zget (m_bdr m) be = Ok b -> localFace m e (b_face b) l ->
  infoOf m be e flag = Ok (l, flag).
Proof.
  intros m be e l b flag W Hb [fs [Hfs Hl]]. unfold infoOf. rewrite Hb. cbn [bind]. rewrite Hfs. cbn [bind].
  destruct (wf_bdr m W be b Hb) as [v [Hv Hp]].
  pose proof (proj1 (zget_ok _ _ _) Hl) as [Hl0 Hln].
  destruct (matchFace_found m (b_verts b) fs (Z.to_nat l) 0 (b_face b) v) as [A B].
  - intros g Hg. destruct (in_zget fs g Hg) as [j Hj].
    assert (Hloc : localFace m e g j) by (exists fs; split; assumption). apply (wf_local m W) in Hloc.
    apply zget_some. rewrite (wf_fverts m W). exact Hloc.
  - exact Hln.
  - exact Hv.
  - exact Hp.
  - intros l' f' v' H1 H2 H3.
    assert (E : l = Z.of_nat l').
    { apply (wf_distinct m W e l (Z.of_nat l') (b_face b) f' v v'); [exists fs; split; assumption| |exact Hv|exact H2|].
      - exists fs. split; [exact Hfs|]. apply zget_ok. rewrite Nat2Z.id. split; [lia|exact H1].
      - rewrite <- Hp. exact H3. }
    lia.
  - rewrite B, A. cbn [bind]. rewrite Z.add_0_l, Z2Nat.id by exact Hl0. reflexivity.
Qed.

(** ** One face *)
Lemma faceTrans_beside : forall m be b e1 e2, zget (m_bdr m) be = Ok b -> zget (m_fels m) (b_face b) = Ok (e1, e2) ->
  faceTrans m be = Ok (e1, e2) /\ beside m be (b_face b) e1 e2.
Proof. intros m be b e1 e2 Hb Hf. split; [unfold faceTrans; rewrite Hb; exact Hf|]. exists b. auto. Qed.
Lemma bdr_beside : forall m be b, wfMesh m -> zget (m_bdr m) be = Ok b -> exists e1 e2, zget (m_fels m) (b_face b) = Ok (e1, e2).
Proof.
  intros m be b W Hb. destruct (wf_bdr m W be b Hb) as [v [Hv _]]. apply zget_len in Hv. rewrite (wf_fverts m W) in Hv.
  destruct (zget_some (m_fels m) _ Hv) as [[e1 e2] E]. exists e1, e2. exact E.
Qed.
Lemma beside_fun : forall m be f e1 e2 f' e1' e2', beside m be f e1 e2 -> beside m be f' e1' e2' -> f = f' /\ e1 = e1' /\ e2 = e2'.
Proof.
  intros m be f e1 e2 f' e1' e2' [b [H1 [H2 H3]]] [b' [H1' [H2' H3']]]. rewrite H1 in H1'. injection H1' as <-. subst f f'.
  rewrite H3 in H3'. injection H3' as <- <-. auto.
Qed.

Definition contribOf (e1 e2 l1 l2 : Z) (d : bool) : list (Z * Z) * list (Z * Z) :=
  if 0 <=? e2 then (if d then ([(e1, l1)], [(e2, l2)]) else ([(e2, l2)], [(e1, l1)]))
  else (if d then ([(e1, l1)], []) else ([], [(e1, l1)])).
Definition codeOf (tf : bool) : Z := if tf then TotalFieldMarker else ScatteredFieldMarker.
Lemma clean_app : forall a b, clean (a ++ b) = clean a ++ clean b.
Proof. intros a b. unfold clean. apply filter_app. Qed.
Lemma zset_spec : forall (l : list Z) i a, 0 <= i < Z.of_nat (length l) -> zset l i a = Ok (upd l (Z.to_nat i) a).
Proof.
  intros l i a H. unfold zset. destruct (Z.ltb_spec i 0); [lia|]. destruct (Nat.ltb_spec (Z.to_nat i) (length l)); [reflexivity|lia].
Qed.
Definition attrAt (a : list Z) (e : Z) : option Z := nth_error a (Z.to_nat e).
Lemma attr_upd : forall (l : list Z) i e a, 0 <= i < Z.of_nat (length l) -> 0 <= e ->
  attrAt (upd l (Z.to_nat i) a) e = if e =? i then Some a else attrAt l e.
Proof.
  intros l i e a H He. unfold attrAt. destruct (Z.eqb_spec e i) as [->|N].
  - apply nth_error_upd_same. lia.
  - apply nth_error_upd_other. lia.
Qed.

(** Membership in the two contributions is being on that side. *)
Definition sided (m : mesh) (d : bool) (be : Z) (c : list (Z * Z) * list (Z * Z)) : Prop :=
  forall e t, onSide m (fun _ => d) be e t <-> exists l, In (e, l) (if t : bool then fst c else snd c).
Lemma sided_contrib : forall m be f e1 e2 l1 l2 d, beside m be f e1 e2 -> sided m d be (contribOf e1 e2 l1 l2 d).
Proof.
  intros m be f e1 e2 l1 l2 d HB e t. unfold contribOf. split.
  - intros [f' [x [y [HB' H]]]]. destruct (beside_fun _ _ _ _ _ _ _ _ HB HB') as [_ [<- <-]]. destruct H as [[-> ->]|[G [-> ->]]].
    + exists l1. destruct (0 <=? e2), d; left; reflexivity.
    + exists l2. destruct (Z.leb_spec 0 e2); [|lia]. destruct d; left; reflexivity.
  - intros [l H]. exists f, e1, e2. split; [exact HB|]. destruct (Z.leb_spec 0 e2), d, t; cbn [fst snd In negb] in *; destruct H as [H|[]] || destruct H; injection H as <- <-; auto.
Qed.

Lemma oneFace_ok : forall (m : mesh) (dec : Z -> res bool) (s : tfsf) (be : Z) (b : bdrEl) (d : bool),
  wfMesh m -> zget (m_bdr m) be = Ok b -> dec be = Ok d -> length (t_attr s) = length (m_everts m) ->
  exists s' c, oneFace m dec s be = Ok s' /\ (contributes m be c /\ sided m d be c) /\
    clean (t_tf s') = clean (t_tf s) ++ fst c /\ clean (t_sf s') = clean (t_sf s) ++ snd c /\
    length (t_attr s') = length (m_everts m) /\
    (forall e t, onSide m (fun _ => d) be e t -> attrAt (t_attr s') e = Some (codeOf t)) /\
    (forall e, 0 <= e -> ~ touches m be e -> attrAt (t_attr s') e = attrAt (t_attr s) e).
Proof.
  intros m dec s be b d W Hb Hd La. destruct (bdr_beside m be b W Hb) as [e1 [e2 Hf]].
  destruct (faceTrans_beside m be b e1 e2 Hb Hf) as [HT HB].
  destruct (wf_face m W _ _ _ Hf) as [H1 [H2 [Hne [[l1 L1] Hl2]]]].
  unfold oneFace. rewrite Hd. cbn [bind]. rewrite HT. cbn [bind]. rewrite (infoOf_ok m be e1 l1 b d W Hb L1). cbn [bind].
  assert (HA : forall e t, onSide m (fun _ => d) be e t -> (e = e1 /\ t = d) \/ (0 <= e2 /\ e = e2 /\ t = negb d)).
  { intros e t [f' [e1' [e2' [Hb' H]]]]. destruct (beside_fun _ _ _ _ _ _ _ _ HB Hb') as [_ [<- <-]]. exact H. }
  assert (HN : forall e, ~ touches m be e -> e <> e1 /\ (0 <= e2 -> e <> e2)).
  { intros e N. split; [intros ->; apply N; exists (b_face b), e1, e2; auto|intros G ->; apply N; exists (b_face b), e1, e2; auto]. }
  assert (Nn : numElems m = Z.of_nat (length (t_attr s))) by (unfold numElems; rewrite La; reflexivity).
  destruct (Z.leb_spec 0 e2) as [G|G].
  - destruct (Hl2 G) as [l2 L2]. rewrite (infoOf_ok m be e2 l2 b (negb d) W Hb L2). cbn [bind].
    assert (P2 : l2 <> NotFound) by (destruct L2 as [fs [_ E]]; apply zget_len in E; unfold NotFound; lia).
    unfold prepare, tag. rewrite zset_spec by lia. cbn [bind]. destruct (Z.leb_spec 0 e2); [|lia].
    rewrite zset_spec by (rewrite upd_length; lia). cbn [bind]. unfold store. destruct (Z.eqb_spec l2 NotFound); [contradiction|].
    cbn [negb]. set (A1 := upd (t_attr s) (Z.to_nat e1) _). set (A2 := upd A1 (Z.to_nat e2) _).
    assert (LA1 : length A1 = length (t_attr s)) by (unfold A1; apply upd_length).
    assert (LA2 : length A2 = length (m_everts m)) by (unfold A2; rewrite upd_length, LA1; exact La).
    exists (if d then mkT A2 (t_tf s ++ [(e1, l1)]) (t_sf s ++ [(e2, l2)]) else mkT A2 (t_tf s ++ [(e2, l2)]) (t_sf s ++ [(e1, l1)])).
    exists (contribOf e1 e2 l1 l2 d).
    assert (C1 : clean [(e1, l1)] = [(e1, l1)]) by (unfold clean; cbn [filter fst]; destruct (Z.eqb_spec e1 (-1)); [lia|reflexivity]).
    assert (C2 : clean [(e2, l2)] = [(e2, l2)]) by (unfold clean; cbn [filter fst]; destruct (Z.eqb_spec e2 (-1)); [lia|reflexivity]).
    assert (HAt : forall e t, onSide m (fun _ => d) be e t -> attrAt A2 e = Some (codeOf t)).
    { intros e t H7. apply HA in H7 as [[-> ->]|[_ [-> ->]]].
      - unfold A2. rewrite attr_upd by lia. destruct (Z.eqb_spec e1 e2); [lia|]. unfold A1. rewrite attr_upd by lia. rewrite Z.eqb_refl. destruct d; reflexivity.
      - unfold A2. rewrite attr_upd by lia. rewrite Z.eqb_refl. destruct d; reflexivity. }
    assert (HAu : forall e, 0 <= e -> ~ touches m be e -> attrAt A2 e = attrAt (t_attr s) e).
    { intros e He N. apply HN in N as [N1 N2]. specialize (N2 G). unfold A2. rewrite attr_upd by lia. destruct (Z.eqb_spec e e2); [contradiction|].
      unfold A1. rewrite attr_upd by lia. destruct (Z.eqb_spec e e1); [contradiction|reflexivity]. }
    split; [destruct d; reflexivity|]. split.
    { split; [|apply (sided_contrib m be (b_face b)); exact HB]. exists (b_face b), e1, e2, l1. split; [exact HB|]. split; [exact L1|]. left. split; [exact G|]. exists l2. split; [exact L2|].
      unfold contribOf. destruct (Z.leb_spec 0 e2); [|lia]. destruct d; auto. }
    unfold contribOf. destruct (Z.leb_spec 0 e2); [|lia].
    destruct d; cbn [t_tf t_sf t_attr fst snd]; rewrite !clean_app, ?C1, ?C2; auto 10.
  - assert (E2 : e2 = -1) by lia. cbn [bind].
    unfold prepare, tag. rewrite zset_spec by lia. cbn [bind]. destruct (Z.leb_spec 0 e2); [lia|].
    unfold store. destruct (Z.eqb_spec 0 NotFound) as [Q|_]; [discriminate Q|]. cbn [negb bind]. set (A1 := upd (t_attr s) (Z.to_nat e1) _).
    exists (if d then mkT A1 (t_tf s ++ [(e1, l1)]) (t_sf s ++ [(e2, 0)]) else mkT A1 (t_tf s ++ [(e2, 0)]) (t_sf s ++ [(e1, l1)])).
    exists (contribOf e1 e2 l1 0 d).
    assert (C1 : clean [(e1, l1)] = [(e1, l1)]) by (unfold clean; cbn [filter fst]; destruct (Z.eqb_spec e1 (-1)); [lia|reflexivity]).
    assert (C2 : clean [(e2, 0)] = []) by (unfold clean; cbn [filter fst]; rewrite E2; reflexivity).
    assert (LA1 : length A1 = length (m_everts m)) by (unfold A1; rewrite upd_length; exact La).
    assert (HAt : forall e t, onSide m (fun _ => d) be e t -> attrAt A1 e = Some (codeOf t)).
    { intros e t H0. apply HA in H0 as [[-> ->]|[Q _]]; [|lia].
      unfold A1. rewrite attr_upd by lia. rewrite Z.eqb_refl. destruct d; reflexivity. }
    assert (HAu : forall e, 0 <= e -> ~ touches m be e -> attrAt A1 e = attrAt (t_attr s) e).
    { intros e He N. apply HN in N as [N1 _]. unfold A1. rewrite attr_upd by lia. destruct (Z.eqb_spec e e1); [contradiction|reflexivity]. }
    split; [destruct d; reflexivity|]. split.
    { split; [|apply (sided_contrib m be (b_face b)); exact HB]. exists (b_face b), e1, e2, l1. split; [exact HB|]. split; [exact L1|]. right. split; [lia|].
      unfold contribOf. destruct (Z.leb_spec 0 e2); [lia|]. destruct d; auto. }
    unfold contribOf. destruct (Z.leb_spec 0 e2); [lia|].
    destruct d; cbn [t_tf t_sf t_attr fst snd]; rewrite !clean_app, ?C1, ?C2, ?app_nil_r; auto 10.
Qed.

(** ** The loop *)
Lemma isMarked_ok : forall m marker be b, covers m marker -> zget (m_bdr m) be = Ok b -> isMarked m marker be = Ok (markedB m marker be).
Proof.
  intros m marker be b C Hb. unfold isMarked, markedB. rewrite Hb. cbn [bind]. pose proof (proj1 (zget_ok _ _ _) Hb) as [_ Hn]. rewrite Hn.
  specialize (C b (zget_in _ _ _ Hb)). destruct (zget_in_range marker (b_attr b - 1)) as [k [Hk Hk2]]; [lia|]. rewrite Hk, Hk2. reflexivity.
Qed.
Lemma foldM_filter : forall {S} (m : mesh) (marker : list Z) (step : S -> Z -> res S) (l : list Z) (s : S),
  covers m marker -> (forall be, In be l -> exists b, zget (m_bdr m) be = Ok b) ->
  foldM (fun s be => k <- isMarked m marker be ;; if k : bool then step s be else Ok s) l s = foldM step (filter (markedB m marker) l) s.
Proof.
  intros S m marker step l. induction l as [|be l IH]; intros s C H; [reflexivity|]. cbn [foldM filter].
  destruct (H be (or_introl eq_refl)) as [b Hb]. rewrite (isMarked_ok m marker be b C Hb). cbn [bind].
  assert (H' : forall be, In be l -> exists b, zget (m_bdr m) be = Ok b) by (intros x Hx; apply H; right; exact Hx).
  destruct (markedB m marker be); cbn [foldM bind]; [|apply IH; assumption].
  destruct (step s be); cbn [bind]; [apply IH; assumption|reflexivity|reflexivity].
Qed.
Lemma numBdr_ok : forall m be, In be (numBdr m) -> exists b, zget (m_bdr m) be = Ok b.
Proof. intros m be H. apply in_zseq in H. apply zget_some. exact H. Qed.
Lemma marked_ok : forall m marker be, In be (marked m marker) -> exists b, zget (m_bdr m) be = Ok b.
Proof. intros m marker be H. apply filter_In in H as [H _]. apply numBdr_ok. exact H. Qed.

Lemma onSide_touches : forall m d be e t, onSide m d be e t -> touches m be e.
Proof. intros m d be e t [f [e1 [e2 [H1 H2]]]]. exists f, e1, e2. split; [exact H1|]. destruct H2 as [[-> _]|[G [-> _]]]; auto. Qed.
Lemma touches_onSide : forall m d be e, touches m be e -> exists t, onSide m d be e t.
Proof.
  intros m d be e [f [e1 [e2 [H1 [->|[G ->]]]]]]; [exists (d be)|exists (negb (d be))]; exists f, e1, e2; split; auto 10.
Qed.
Lemma onSide_const : forall m d be e t, onSide m d be e t <-> onSide m (fun _ => d be) be e t.
Proof. intros. unfold onSide. tauto. Qed.
Lemma touch_dec : forall m be e, wfMesh m -> (exists b, zget (m_bdr m) be = Ok b) -> touches m be e \/ ~ touches m be e.
Proof.
  intros m be e W [b Hb]. destruct (bdr_beside m be b W Hb) as [e1 [e2 Hf]]. destruct (faceTrans_beside m be b e1 e2 Hb Hf) as [_ HB].
  destruct (Z.eq_dec e e1) as [->|N1]; [left; exists (b_face b), e1, e2; auto|].
  destruct (Z_le_dec 0 e2) as [G|G].
  - destruct (Z.eq_dec e e2) as [->|N2]; [left; exists (b_face b), e1, e2; auto|].
    right. intros [f [x [y [H [->|[_ ->]]]]]]; destruct (beside_fun _ _ _ _ _ _ _ _ HB H) as [_ [<- <-]]; congruence.
  - right. intros [f [x [y [H [->|[Q ->]]]]]]; destruct (beside_fun _ _ _ _ _ _ _ _ HB H) as [_ [<- <-]]; [congruence|lia].
Qed.
Lemma touches_dec_list : forall m l e, wfMesh m -> (forall be, In be l -> exists b, zget (m_bdr m) be = Ok b) ->
  (exists be, In be l /\ touches m be e) \/ forall be, In be l -> ~ touches m be e.
Proof.
  intros m l e W. induction l as [|x l IH]; intros H; [right; intros be []|].
  destruct (touch_dec m x e W (H x (or_introl eq_refl))) as [T|T]; [left; exists x; split; [left; reflexivity|exact T]|].
  destruct IH as [[be [H1 H2]]|N]; [intros y Hy; apply H; right; exact Hy|left; exists be; split; [right; exact H1|exact H2]|].
  right. intros be [<-|Hb]; [exact T|apply N; exact Hb].
Qed.

Lemma loop_ok : forall (m : mesh) (dec : Z -> res bool) (d : Z -> bool) (l : list Z) (s : tfsf),
  wfMesh m -> (forall be, In be l -> (exists b, zget (m_bdr m) be = Ok b) /\ dec be = Ok (d be)) -> length (t_attr s) = length (m_everts m) ->
  exists s' cs, foldM (oneFace m dec) l s = Ok s' /\ Forall2 (fun be c => contributes m be c /\ sided m (d be) be c) l cs /\
    clean (t_tf s') = clean (t_tf s) ++ concat (map fst cs) /\ clean (t_sf s') = clean (t_sf s) ++ concat (map snd cs) /\
    length (t_attr s') = length (m_everts m) /\
    (forall e t, 0 <= e -> (exists be, In be l /\ onSide m d be e t) -> (forall be t', In be l -> onSide m d be e t' -> t' = t) -> attrAt (t_attr s') e = Some (codeOf t)) /\
    (forall e, 0 <= e -> (forall be, In be l -> ~ touches m be e) -> attrAt (t_attr s') e = attrAt (t_attr s) e).
Proof.
  intros m dec d l. induction l as [|be l IH]; intros s W H La.
  - exists s, []. cbn [foldM map concat]. rewrite !app_nil_r. split; [reflexivity|]. split; [constructor|]. split; [reflexivity|]. split; [reflexivity|].
    split; [exact La|]. split; [intros e t _ [be [[] _]]|reflexivity].
  - destruct (H be (or_introl eq_refl)) as [[b Hb] Hd].
    destruct (oneFace_ok m dec s be b (d be) W Hb Hd La) as [s1 [c [E1 [C1 [T1 [S1 [L1 [A1 U1]]]]]]]].
    assert (H' : forall be, In be l -> (exists b, zget (m_bdr m) be = Ok b) /\ dec be = Ok (d be)) by (intros x Hx; apply H; right; exact Hx).
    destruct (IH s1 W H' L1) as [s2 [cs [E2 [C2 [T2 [S2 [L2 [A2 U2]]]]]]]].
    exists s2, (c :: cs). cbn [foldM]. rewrite E1. cbn [bind map concat]. split; [exact E2|]. split; [constructor; assumption|].
    split; [rewrite T2, T1, app_assoc; reflexivity|]. split; [rewrite S2, S1, app_assoc; reflexivity|]. split; [exact L2|]. split.
    + intros e t He Hex Hu.
      destruct (touches_dec_list m l e W (fun x Hx => proj1 (H' x Hx))) as [[be' [Hin Ht]]|N].
      * destruct (touches_onSide m d be' e Ht) as [t' Ht']. assert (t' = t) by (apply (Hu be'); [right; exact Hin|exact Ht']). subst t'.
        apply A2; [exact He|exists be'; split; assumption|]. intros x t' Hx. apply Hu. right. exact Hx.
      * rewrite U2 by assumption. destruct Hex as [be' [[<-|Hin] Hs]].
        -- apply A1. apply onSide_const. exact Hs.
        -- exfalso. apply (N be' Hin). apply (onSide_touches m d be' e t). exact Hs.
    + intros e He N. rewrite U2; [|exact He|intros x Hx; apply N; right; exact Hx]. apply U1; [exact He|apply N; left; reflexivity].
Qed.

Lemma contributes_valid : forall m be c, wfMesh m -> contributes m be c -> forall e l, In (e, l) (fst c) \/ In (e, l) (snd c) -> 0 <= e < numElems m.
Proof.
  intros m be c W [f [e1 [e2 [l1 [HB [_ H]]]]]] e l Hin. destruct HB as [b [Hb [Eb Hf]]].
  destruct (wf_face m W _ _ _ Hf) as [H1 [H2 _]].
  destruct H as [[G [l2 [_ [->| ->]]]]|[G [->| ->]]]; cbn [fst snd In] in Hin;
    repeat match goal with X : _ \/ _ |- _ => destruct X | X : False |- _ => destruct X end; try lia;
    match goal with X : (_, _) = (_, _) |- _ => injection X as <- <-; lia end.
Qed.

(** ** The decision is always available *)
Lemma mapM_ok : forall {A B} (f : A -> res B) (l : list A), (forall x, In x l -> exists y, f x = Ok y) -> exists ys, mapM f l = Ok ys.
Proof.
  intros A B f l. induction l as [|x l IH]; intros H; [exists []; reflexivity|]. cbn [mapM].
  destruct (H x (or_introl eq_refl)) as [y Hy]. destruct IH as [ys Hys]; [intros z Hz; apply H; right; exact Hz|].
  rewrite Hy, Hys. cbn [bind]. exists (y :: ys). reflexivity.
Qed.
Lemma baryElem_ok : forall m e, wfGeo m -> 0 <= e < numElems m -> exists p, baryElem m e = Ok p.
Proof.
  intros m e [G _] H. unfold baryElem. destruct (zget_some (m_everts m) e H) as [vs Hvs]. rewrite Hvs. cbn [bind].
  destruct (mapM_ok (zget (m_coord m)) vs) as [ps Hps]; [intros v Hv; apply zget_some; apply (G vs); [apply (zget_in _ _ _ Hvs)|exact Hv]|].
  rewrite Hps. eexists. reflexivity.
Qed.
Lemma baryFace_ok : forall m f vs, wfGeo m -> zget (m_fverts m) f = Ok vs -> exists p, baryFace m f = Ok p.
Proof.
  intros m f vs [_ [G _]] Hvs. unfold baryFace. rewrite Hvs. cbn [bind].
  destruct (mapM_ok (zget (m_coord m)) vs) as [ps Hps]; [intros v Hv; apply zget_some; apply (G vs); [apply (zget_in _ _ _ Hvs)|exact Hv]|].
  rewrite Hps. eexists. reflexivity.
Qed.
Lemma bary2_ok : forall m be b e1 e2, wfMesh m -> wfGeo m -> zget (m_bdr m) be = Ok b -> zget (m_fels m) (b_face b) = Ok (e1, e2) ->
  exists p1 p2, baryElem m e1 = Ok p1 /\ (if 0 <=? e2 then baryElem m e2 else baryFace m (b_face b)) = Ok p2.
Proof.
  intros m be b e1 e2 W G Hb Hf. destruct (wf_face m W _ _ _ Hf) as [H1 [H2 _]].
  destruct (baryElem_ok m e1 G H1) as [p1 E1]. destruct (Z.leb_spec 0 e2).
  - destruct (baryElem_ok m e2 G) as [p2 E2]; [lia|]. exists p1, p2. auto.
  - destruct (wf_bdr m W be b Hb) as [v [Hv _]]. destruct (baryFace_ok m _ v G Hv) as [p2 E2]. exists p1, p2. auto.
Qed.
Lemma faceVertex_ok : forall m be b i, wfMesh m -> wfGeo m -> zget (m_bdr m) be = Ok b -> 0 <= i < m_dim m -> exists p, faceVertex m be i = Ok p.
Proof.
  intros m be b i W [_ [G [L _]]] Hb Hi. unfold faceVertex. rewrite Hb. cbn [bind]. destruct (wf_bdr m W be b Hb) as [v [Hv _]]. rewrite Hv. cbn [bind].
  specialize (L v (zget_in _ _ _ Hv)). destruct (zget_some v i) as [x Hx]; [lia|]. rewrite Hx. cbn [bind].
  apply zget_some. apply (G v); [apply (zget_in _ _ _ Hv)|apply (zget_in _ _ _ Hx)].
Qed.
Lemma dec2_ok : forall m be, wfMesh m -> wfGeo m -> m_dim m = 2 -> (exists b, zget (m_bdr m) be = Ok b) -> exists d, elem1IsTF2D m be = Ok d.
Proof.
  intros m be W G D [b Hb]. unfold elem1IsTF2D, faceOrientation. rewrite D. cbn [Z.eqb Pos.eqb].
  destruct (bdr_beside m be b W Hb) as [e1 [e2 Hf]]. destruct (faceTrans_beside m be b e1 e2 Hb Hf) as [HT _].
  destruct (bary2_ok m be b e1 e2 W G Hb Hf) as [p1 [p2 [E1 E2]]].
  unfold baryVector. rewrite Hb. cbn [bind]. rewrite HT. cbn [bind]. rewrite E1. cbn [bind]. rewrite E2. cbn [bind].
  unfold tangent2D. destruct (faceVertex_ok m be b 0 W G Hb) as [v0 V0]; [lia|]. destruct (faceVertex_ok m be b 1 W G Hb) as [v1 V1]; [lia|].
  rewrite V0. cbn [bind]. rewrite V1. cbn [bind]. eexists. reflexivity.
Qed.
Lemma dec3_ok : forall m c be, wfMesh m -> wfGeo m -> (exists b, zget (m_bdr m) be = Ok b) -> exists d, elem1IsTF3D m c be = Ok d.
Proof.
  intros m c be W G [b Hb]. unfold elem1IsTF3D.
  destruct (bdr_beside m be b W Hb) as [e1 [e2 Hf]]. destruct (faceTrans_beside m be b e1 e2 Hb Hf) as [HT _].
  destruct (bary2_ok m be b e1 e2 W G Hb Hf) as [p1 [p2 [E1 E2]]].
  rewrite Hb. cbn [bind]. rewrite HT. cbn [bind]. rewrite E1. cbn [bind]. rewrite E2. cbn [bind]. eexists. reflexivity.
Qed.
Lemma listSet_in : forall vs acc v, In v (listSet acc vs) -> In v acc \/ In v vs.
Proof.
  induction vs as [|x vs IH]; intros acc v H; cbn [listSet] in H; [left; exact H|].
  destruct (existsb (Z.eqb x) acc).
  - apply IH in H as [H|H]; [left; exact H|right; right; exact H].
  - apply IH in H as [H|H]; [|right; right; exact H]. apply in_app_iff in H as [H|[<-|[]]]; [left; exact H|right; left; reflexivity].
Qed.
Lemma center_ok : forall m marker, covers m marker -> wfGeo m -> exists c, tfsfCenter m marker = Ok c.
Proof.
  intros m marker C G. unfold tfsfCenter.
  rewrite (foldM_filter m marker (fun acc be => b <- zget (m_bdr m) be ;; Ok (listSet acc (b_verts b)))) by (exact C || apply numBdr_ok).
  assert (H : forall l acc, (forall be, In be l -> exists b, zget (m_bdr m) be = Ok b) -> (forall v, In v acc -> 0 <= v < Z.of_nat (length (m_coord m))) ->
    exists vs, foldM (fun acc be => b <- zget (m_bdr m) be ;; Ok (listSet acc (b_verts b))) l acc = Ok vs /\ forall v, In v vs -> 0 <= v < Z.of_nat (length (m_coord m))).
  { induction l as [|be l IH]; intros acc Hl Ha; [exists acc; split; [reflexivity|exact Ha]|]. cbn [foldM].
    destruct (Hl be (or_introl eq_refl)) as [b Hb]. rewrite Hb. cbn [bind]. apply IH; [intros x Hx; apply Hl; right; exact Hx|].
    intros v Hv. apply listSet_in in Hv as [Hv|Hv]; [apply Ha; exact Hv|]. destruct G as [_ [_ [_ G]]]. apply (G b); [apply (zget_in _ _ _ Hb)|exact Hv]. }
  destruct (H (filter (markedB m marker) (numBdr m)) []) as [vs [E Hvs]].
  - intros be Hin. apply filter_In in Hin as [Hin _]. apply numBdr_ok. exact Hin.
  - intros v [].
  - rewrite E. cbn [bind]. destruct (mapM_ok (zget (m_coord m)) vs) as [ps Hps]; [intros v Hv; apply zget_some; apply Hvs; exact Hv|].
    rewrite Hps. cbn [bind]. eexists. reflexivity.
Qed.

(** The choice made for each boundary element. *)
Definition choice (m : mesh) (marker : list Z) (be : Z) : bool :=
  let r := if m_dim m =? 2 then elem1IsTF2D m be else c <- tfsfCenter m marker ;; elem1IsTF3D m c be in
  match r with Ok d => d | _ => false end.

Lemma tfsf_ok : forall (m : mesh) (marker attrs : list Z), wfMesh m -> wfGeo m -> covers m marker -> m_dim m = 2 \/ m_dim m = 3 -> length attrs = length (m_everts m) ->
  exists s cs, tfsfSubMesher m marker attrs = Ok s /\ Forall2 (fun be c => contributes m be c /\ sided m (choice m marker be) be c) (marked m marker) cs /\
    t_tf s = concat (map fst cs) /\ t_sf s = concat (map snd cs) /\
    length (t_attr s) = length (m_everts m) /\
    (forall e t, 0 <= e -> (exists be, In be (marked m marker) /\ onSide m (choice m marker) be e t) ->
      (forall be t', In be (marked m marker) -> onSide m (choice m marker) be e t' -> t' = t) -> attrAt (t_attr s) e = Some (codeOf t)) /\
    (forall e, 0 <= e -> (forall be, In be (marked m marker) -> ~ touches m be e) -> attrAt (t_attr s) e = attrAt attrs e).
Proof.
  intros m marker attrs W G C D La. unfold tfsfSubMesher. destruct (center_ok m marker C G) as [c Ec].
  assert (E1 : (m_dim m =? 1) = false) by (apply Z.eqb_neq; lia). rewrite E1.
  set (dec := if m_dim m =? 2 then elem1IsTF2D m else elem1IsTF3D m c).
  assert (Hdec : forall be, In be (marked m marker) -> (exists b, zget (m_bdr m) be = Ok b) /\ dec be = Ok (choice m marker be)).
  { intros be Hin. pose proof (marked_ok m marker be Hin) as Hb. split; [exact Hb|]. unfold dec, choice. destruct (Z.eqb_spec (m_dim m) 2) as [E|E].
    - destruct (dec2_ok m be W G E Hb) as [d Hd]. rewrite Hd. reflexivity.
    - rewrite Ec. cbn [bind]. destruct (dec3_ok m c be W G Hb) as [d Hd]. rewrite Hd. reflexivity. }
  destruct (loop_ok m dec (choice m marker) (marked m marker) (mkT attrs [] []) W Hdec La) as [s [cs [E [F [T [S [L [A U]]]]]]]].
  assert (ER : (if m_dim m =? 2 then faces23 m marker (elem1IsTF2D m) (mkT attrs [] [])
     else c <- tfsfCenter m marker ;; faces23 m marker (elem1IsTF3D m c) (mkT attrs [] [])) = Ok s).
  { rewrite Ec. cbn [bind]. rewrite <- E. unfold dec. destruct (m_dim m =? 2); unfold faces23; apply (foldM_filter m marker _ (numBdr m) _ C (numBdr_ok m)). }
  rewrite ER. cbn [bind]. exists (mkT (t_attr s) (clean (t_tf s)) (clean (t_sf s))), cs. cbn [t_attr t_tf t_sf].
  split; [reflexivity|]. split; [exact F|]. split; [rewrite T; reflexivity|]. split; [rewrite S; reflexivity|]. split; [exact L|]. split; [exact A|exact U].
Qed.

Lemma in_domain : forall (attrs : list Z) k e, In e (domain attrs k) <-> 0 <= e < Z.of_nat (length attrs) /\ attrAt attrs e = Some k.
Proof.
  intros attrs k e. unfold domain, attrAt. rewrite filter_In, in_zseq. destruct (nth_error attrs (Z.to_nat e)) as [a|].
  - rewrite Z.eqb_eq. split; intros [H1 H2]; split; try assumption; congruence.
  - split; intros [H1 H2]; discriminate.
Qed.
Lemma attr_none : forall (attrs : list Z) e k, 0 <= e -> attrAt attrs e = Some k -> e < Z.of_nat (length attrs).
Proof. intros attrs e k He H. unfold attrAt in H. assert (Z.to_nat e < length attrs)%nat by (apply nth_error_Some; congruence). lia. Qed.

Lemma onSide_nonneg : forall m d be e t, wfMesh m -> onSide m d be e t -> 0 <= e.
Proof.
  intros m d be e t W [f [e1 [e2 [[b [Hb [Eb Hf]]] H]]]]. destruct (wf_face m W _ _ _ Hf) as [H1 _]. destruct H as [[-> _]|[G [-> _]]]; lia.
Qed.
(** The sub-meshes hold exactly the elements of each side. *)
Lemma sub_domains : forall (m : mesh) (marker attrs : list Z) (s : tfsf), wfMesh m -> wfGeo m -> covers m marker -> m_dim m = 2 \/ m_dim m = 3 ->
  length attrs = length (m_everts m) -> (forall a, In a attrs -> a <> TotalFieldMarker /\ a <> ScatteredFieldMarker) ->
  consistent m marker (choice m marker) -> tfsfSubMesher m marker attrs = Ok s ->
  forall t e, In e (domain (t_attr s) (codeOf t)) <-> exists be, In be (marked m marker) /\ onSide m (choice m marker) be e t.
Proof.
  intros m marker attrs s W G C D La Ha Hc E t e.
  destruct (tfsf_ok m marker attrs W G C D La) as [s' [cs [E' [_ [_ [_ [L [A U]]]]]]]]. rewrite E in E'. injection E' as <-.
  rewrite in_domain. split.
  - intros [He Hat]. destruct (touches_dec_list m (marked m marker) e W (marked_ok m marker)) as [[be [Hin Ht]]|N].
    + destruct (touches_onSide m (choice m marker) be e Ht) as [t' Ht']. exists be. split; [exact Hin|].
      assert (Et : attrAt (t_attr s) e = Some (codeOf t')).
      { apply A; [lia|exists be; split; assumption|]. intros be' t'' Hin' Hs'. destruct t', t''; try reflexivity; exfalso; [apply (Hc be be' e)|apply (Hc be' be e)]; assumption. }
      rewrite Et in Hat. injection Hat as Hat. destruct t, t'; try discriminate Hat; exact Ht'.
    + rewrite U in Hat by (lia || exact N). unfold attrAt in Hat. apply nth_error_In in Hat. apply Ha in Hat as [H1 H2]. destruct t; cbn [codeOf] in *; congruence.
  - intros [be [Hin Hs]]. pose proof (onSide_nonneg m _ be e t W Hs) as He.
    assert (Et : attrAt (t_attr s) e = Some (codeOf t)).
    { apply A; [exact He|exists be; split; assumption|]. intros be' t' Hin' Hs'. destruct t, t'; try reflexivity; exfalso; [apply (Hc be be' e)|apply (Hc be' be e)]; assumption. }
    split; [|exact Et]. split; [exact He|]. apply (attr_none _ _ _ He Et).
Qed.

(** In terms of the lists. *)
Lemma F2_weaken : forall {A B} (P Q : A -> B -> Prop) l ys, (forall a b, P a b -> Q a b) -> Forall2 P l ys -> Forall2 Q l ys.
Proof. intros A B P Q l ys H F. induction F; constructor; auto. Qed.
Lemma in_concat_sided : forall m (d : Z -> bool) l cs e (t : bool), Forall2 (fun be c => contributes m be c /\ sided m (d be) be c) l cs ->
  (exists k, In (e, k) (concat (map (if t then fst else snd) cs))) <-> exists be, In be l /\ onSide m d be e t.
Proof.
  intros m d l cs e t F. induction F as [|be c l cs [_ Hc] F IH].
  - cbn [map concat]. split; [intros [k []]|intros [be [[] _]]].
  - cbn [map concat]. split.
    + intros [k H]. apply in_app_iff in H as [H|H].
      * exists be. split; [left; reflexivity|]. apply onSide_const. apply Hc. exists k. destruct t; exact H.
      * destruct (proj1 IH (ex_intro _ k H)) as [b [Hb Ho]]. exists b. split; [right; exact Hb|exact Ho].
    + intros [b [[<-|Hb] Ho]].
      * apply onSide_const in Ho. apply Hc in Ho as [k Hk]. exists k. apply in_app_iff. left. destruct t; exact Hk.
      * destruct (proj2 IH (ex_intro _ b (conj Hb Ho))) as [k Hk]. exists k. apply in_app_iff. right. exact Hk.
Qed.
Lemma lists_ok : forall (m : mesh) (marker attrs : list Z), wfMesh m -> wfGeo m -> covers m marker -> m_dim m = 2 \/ m_dim m = 3 -> length attrs = length (m_everts m) ->
  exists s cs, tfsfSubMesher m marker attrs = Ok s /\ Forall2 (contributes m) (marked m marker) cs /\ t_tf s = concat (map fst cs) /\ t_sf s = concat (map snd cs).
Proof.
  intros m marker attrs W G C D La. destruct (tfsf_ok m marker attrs W G C D La) as [s [cs [E [F [T [S _]]]]]]. exists s, cs.
  split; [exact E|]. split; [|split; assumption]. revert F. apply F2_weaken. intros a b [H _]. exact H.
Qed.
Lemma lists_valid : forall (m : mesh) (marker attrs : list Z) (s : tfsf), wfMesh m -> wfGeo m -> covers m marker -> m_dim m = 2 \/ m_dim m = 3 -> length attrs = length (m_everts m) ->
  tfsfSubMesher m marker attrs = Ok s -> forall e l, In (e, l) (t_tf s) \/ In (e, l) (t_sf s) -> 0 <= e < numElems m /\ exists f, localFace m e f l.
Proof.
  intros m marker attrs s W G C D La E e l H. destruct (lists_ok m marker attrs W G C D La) as [s' [cs [E' [F [T S]]]]]. rewrite E in E'. injection E' as <-. rewrite T, S in H. clear T S E.
  induction F as [|be c bl cs Hc F IH]; [destruct H as [[]|[]]|]. cbn [map concat] in H. rewrite !in_app_iff in H.
  assert (H' : (In (e, l) (fst c) \/ In (e, l) (snd c)) \/ In (e, l) (concat (map fst cs)) \/ In (e, l) (concat (map snd cs))) by tauto. destruct H' as [H'|H']; [|apply IH; exact H'].
  split; [apply (contributes_valid m be c W Hc e l H')|]. destruct Hc as [f [e1 [e2 [l1 [HB [L1 Q]]]]]]. exists f.
  destruct Q as [[Gq [l2 [L2 [->| ->]]]]|[Gq [->| ->]]]; cbn [fst snd In] in H';
    repeat match goal with X : _ \/ _ |- _ => destruct X | X : False |- _ => destruct X end;
    match goal with X : (_, _) = (_, _) |- _ => injection X as <- <-; assumption end.
Qed.
Lemma domains_lists : forall (m : mesh) (marker attrs : list Z) (s : tfsf), wfMesh m -> wfGeo m -> covers m marker -> m_dim m = 2 \/ m_dim m = 3 ->
  length attrs = length (m_everts m) -> (forall a, In a attrs -> a <> TotalFieldMarker /\ a <> ScatteredFieldMarker) ->
  tfsfSubMesher m marker attrs = Ok s -> (forall e l l', In (e, l) (t_tf s) -> In (e, l') (t_sf s) -> False) ->
  forall e, (In e (domain (t_attr s) TotalFieldMarker) <-> exists l, In (e, l) (t_tf s)) /\ (In e (domain (t_attr s) ScatteredFieldMarker) <-> exists l, In (e, l) (t_sf s)).
Proof.
  intros m marker attrs s W G C D La Ha E Hd e.
  destruct (tfsf_ok m marker attrs W G C D La) as [s' [cs [E' [F [T [S _]]]]]]. rewrite E in E'. injection E' as <-.
  pose proof (in_concat_sided m (choice m marker) (marked m marker) cs) as K.
  assert (Hc : consistent m marker (choice m marker)).
  { intros be be' x Hb Hb' H1 H2. destruct (proj2 (K x true F)) as [k Hk]; [exists be; split; assumption|]. destruct (proj2 (K x false F)) as [k' Hk']; [exists be'; split; assumption|].
    apply (Hd x k k'); [rewrite T; exact Hk|rewrite S; exact Hk']. }
  pose proof (sub_domains m marker attrs s W G C D La Ha Hc E) as Q. rewrite T, S. split.
  - rewrite (Q true e). symmetry. apply (K e true F).
  - rewrite (Q false e). symmetry. apply (K e false F).
Qed.

(** ** Global sub-mesh *)
Lemma global_ok : forall (m : mesh) (marker attrs : list Z), wfMesh m -> covers m marker -> length attrs = length (m_everts m) ->
  (forall a, In a attrs -> a <> GlobalSubMeshMarker) ->
  exists a, globalAttrs m marker attrs = Ok a /\ forall e, In e (domain a GlobalSubMeshMarker) <-> exists be, In be (marked m marker) /\ touches m be e.
Proof.
  intros m marker attrs W C La Ha. unfold globalAttrs.
  set (step := fun (a : list Z) be => ' (e1, e2) <- faceTrans m be ;; a <- zset a e1 GlobalSubMeshMarker ;; if 0 <=? e2 then zset a e2 GlobalSubMeshMarker else Ok a).
  rewrite (foldM_filter m marker step) by (exact C || apply numBdr_ok). fold (marked m marker).
  assert (H : forall l a, (forall be, In be l -> exists b, zget (m_bdr m) be = Ok b) -> length a = length (m_everts m) ->
    exists a', foldM step l a = Ok a' /\ length a' = length a /\ (forall e, 0 <= e -> (exists be, In be l /\ touches m be e) -> attrAt a' e = Some GlobalSubMeshMarker) /\
      (forall e, 0 <= e -> (forall be, In be l -> ~ touches m be e) -> attrAt a' e = attrAt a e)).
  { induction l as [|be l IH]; intros a Hl L; [exists a; split; [reflexivity|split; [reflexivity|split; [intros e _ [be [[] _]]|reflexivity]]]|].
    destruct (Hl be (or_introl eq_refl)) as [b Hb]. destruct (bdr_beside m be b W Hb) as [e1 [e2 Hf]]. destruct (faceTrans_beside m be b e1 e2 Hb Hf) as [HT HB].
    destruct (wf_face m W _ _ _ Hf) as [H1 [H2 _]]. unfold numElems in H1, H2.
    set (a1 := upd a (Z.to_nat e1) GlobalSubMeshMarker). set (a2 := if 0 <=? e2 then upd a1 (Z.to_nat e2) GlobalSubMeshMarker else a1).
    assert (La1 : length a1 = length a) by (unfold a1; apply upd_length).
    assert (La2 : length a2 = length a) by (unfold a2; destruct (0 <=? e2); [rewrite upd_length|]; exact La1).
    assert (Es : step a be = Ok a2).
    { unfold step. rewrite HT. cbn [bind]. rewrite zset_spec by lia. cbn [bind]. fold a1. unfold a2. destruct (Z.leb_spec 0 e2); [|reflexivity]. apply zset_spec. lia. }
    destruct (IH a2) as [a' [E' [L' [A' U']]]]; [intros x Hx; apply Hl; right; exact Hx|lia|].
    exists a'. cbn [foldM]. rewrite Es. cbn [bind]. split; [exact E'|]. split; [lia|].
    assert (Hat : forall e, 0 <= e -> attrAt a2 e = if (e =? e1) || ((0 <=? e2) && (e =? e2)) then Some GlobalSubMeshMarker else attrAt a e).
    { intros e He. unfold a2. destruct (Z.leb_spec 0 e2); cbn [andb].
      - rewrite attr_upd by lia. destruct (Z.eqb_spec e e2); [rewrite orb_true_r; reflexivity|]. rewrite orb_false_r. unfold a1. apply attr_upd; lia.
      - rewrite orb_false_r. unfold a1. apply attr_upd; lia. }
    split.
    - intros e He [be' [[<-|Hin] Ht]].
      + destruct (touches_dec_list m l e W (fun x Hx => Hl x (or_intror Hx))) as [Q|N]; [apply A'; assumption|].
        rewrite U' by assumption. rewrite Hat by exact He. destruct Ht as [f [x [y [HB' Ht]]]]. destruct (beside_fun _ _ _ _ _ _ _ _ HB HB') as [_ [<- <-]].
        destruct Ht as [->|[G ->]]; [rewrite Z.eqb_refl; reflexivity|]. rewrite Z.eqb_refl. destruct (Z.leb_spec 0 e2); [|lia]. rewrite orb_true_r. reflexivity.
      + apply A'; [exact He|]. exists be'. split; assumption.
    - intros e He N. rewrite U'; [|exact He|intros x Hx; apply N; right; exact Hx]. rewrite Hat by exact He.
      specialize (N be (or_introl eq_refl)). destruct (Z.eqb_spec e e1) as [->|N1]; [exfalso; apply N; exists (b_face b), e1, e2; auto|]. cbn [orb].
      destruct (Z.leb_spec 0 e2); [|reflexivity]. destruct (Z.eqb_spec e e2) as [->|N2]; [exfalso; apply N; exists (b_face b), e1, e2; auto|reflexivity]. }
  destruct (H (marked m marker) attrs (marked_ok m marker) La) as [a [E [L [A U]]]]. exists a. split; [exact E|]. intros e. rewrite in_domain. split.
  - intros [He Hat]. destruct (touches_dec_list m (marked m marker) e W (marked_ok m marker)) as [Q|N]; [exact Q|].
    rewrite U in Hat by (lia || exact N). unfold attrAt in Hat. apply nth_error_In in Hat. apply Ha in Hat. congruence.
  - intros [be [Hin Ht]]. destruct (touches_onSide m (fun _ => true) be e Ht) as [t Hs]. pose proof (onSide_nonneg m _ be e t W Hs) as He.
    assert (Hat : attrAt a e = Some GlobalSubMeshMarker) by (apply A; [exact He|exists be; split; assumption]).
    split; [|exact Hat]. split; [exact He|]. apply (attr_none _ _ _ He Hat).
Qed.

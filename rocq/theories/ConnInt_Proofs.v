(** The maps of the conditions on interior faces and of the total field surface. *)
From Coq Require Import ZArith List Bool Lia Reals Lra Sorted Permutation.
From Verif Require Import Common Face_Model Face_Spec Face_Proofs Nodal_Model Nodal_Spec NodalMult_Proofs Nodal_Proofs Setup_Model Conn_Model Conn_Spec ConnFlux_Proofs Conn_Proofs ConnPos_Proofs ConnBdr_Proofs.
Import ListNotations.
Local Open Scope Z_scope.

Lemma pairEqb_ok : forall p q, pairEqb p q = true <-> p = q.
Proof.
  intros [a b] [c d]. unfold pairEqb. cbn [fst snd]. rewrite andb_true_iff, !Z.eqb_eq. split; [intros [-> ->]; reflexivity|intros E; inversion E; auto].
Qed.
Lemma index_of : forall (g : list (Z * Z)) p k, (k < length g)%nat -> nth k g (0, 0) = p ->
  (forall i, (i < length g)%nat -> nth i g (0, 0) = p -> i = k) -> indexOf p g = Z.of_nat k.
Proof.
  induction g as [|x t IH]; intros p k Hk E U; [cbn in Hk; lia|]. cbn [indexOf]. destruct (pairEqb p x) eqn:Ex.
  - apply pairEqb_ok in Ex. assert (0%nat = k) as <- by (apply U; [cbn; lia|cbn; congruence]). reflexivity.
  - destruct k as [|k]; [cbn in E; subst x; rewrite (proj2 (pairEqb_ok p p) eq_refl) in Ex; discriminate|].
    rewrite (IH p k); [lia|cbn in Hk; lia|exact E|]. intros i Hi Ei. assert (S i = S k); [|congruence]. apply U; [cbn; lia|exact Ei].
Qed.

Lemma startIn_nonneg : forall nodes (ks : list (Z * Z)) e f, 0 <= startIn nodes ks e f.
Proof. induction ks as [|[e' f'] t IH]; intros e f; cbn [startIn]; [lia|]. destruct ((e =? e') && (f =? f')); [lia|]. specialize (IH e f). lia. Qed.

Lemma key_of_position : forall m n nodes (ks : list (Z * Z)) (Bs : list (list (Z * Z))), NoDup ks ->
  Forall2 (fun k B => isBlock m n nodes (fst k) (snd k) B /\ length B = length (nodes (snd k))) ks Bs ->
  forall k, (k < length (concat Bs))%nat -> exists e f B, In (e, f) ks /\ isBlock m n nodes e f B /\
    startIn nodes ks e f <= Z.of_nat k < startIn nodes ks e f + Z.of_nat (length (nodes f)) /\
    nth k (concat Bs) (0, 0) = nth (k - Z.to_nat (startIn nodes ks e f)) B (0, 0).
Proof.
  intros m n nodes ks Bs ND F. induction F as [|[e0 f0] B ks Bs [HB LB] F IH]; intros k Hk; [cbn in Hk; lia|].
  cbn [fst snd] in *. inversion ND as [|? ? NI ND']; subst. cbn [concat] in *. rewrite app_length in Hk.
  destruct (lt_dec k (length B)) as [Hlt|Hge].
  - exists e0, f0, B. cbn [startIn]. rewrite !Z.eqb_refl. cbn [andb]. split; [left; reflexivity|]. split; [exact HB|]. split; [lia|].
    rewrite app_nth1 by lia. rewrite Z2Nat.inj_0, Nat.sub_0_r. reflexivity.
  - destruct (IH ND' (k - length B)%nat) as [e [f [B' [I [HB' [P V]]]]]]; [lia|]. exists e, f, B'. split; [right; exact I|]. split; [exact HB'|].
    cbn [startIn]. assert ((e =? e0) && (f =? f0) = false) as ->.
    { apply andb_false_iff. destruct (Z.eqb_spec e e0) as [-> |]; [|left; reflexivity]. right. apply Z.eqb_neq. intros ->. contradiction. }
    pose proof (startIn_nonneg nodes ks e f). split; [lia|]. rewrite app_nth2 by lia. rewrite V. f_equal. lia.
Qed.

Lemma nth_firstn_lt : forall {A} (l : list A) k i d, (i < k)%nat -> nth i (firstn k l) d = nth i l d.
Proof. intros A l. induction l as [|x t IH]; intros [|k] [|i] d H; cbn; try reflexivity; try lia. apply IH. lia. Qed.
Lemma nth_skipn_add : forall {A} (l : list A) k i d, nth i (skipn k l) d = nth (k + i) l d.
Proof. intros A l. induction l as [|x t IH]; intros [|k] i d; cbn; try reflexivity; [destruct i; reflexivity|]. apply IH. Qed.

Section Int.
  Variables (m : cmesh) (n : nat) (nodes : Z -> list (nat * nat)) (g : list (Z * Z)).
  Hypothesis G : conforming m n nodes.
  Hypothesis O : faceOrder m n nodes.
  Hypothesis HG : isGlobal m n nodes g.

  Lemma position_key : forall k, (k < length g)%nat -> exists e f B, isKey m e f /\ isBlock m n nodes e f B /\
    start m nodes e f <= Z.of_nat k < start m nodes e f + Z.of_nat (length (nodes f)) /\
    nth k g (0, 0) = nth (k - Z.to_nat (start m nodes e f)) B (0, 0).
  Proof.
    intros k Hk. destruct (flat_global _ _ _ _ HG) as [Bs [Eg F2]].
    assert (F3 : Forall2 (fun k B => isBlock m n nodes (fst k) (snd k) B /\ length B = length (nodes (snd k))) (keys m) Bs).
    { assert (KK : forall k, In k (keys m) -> isKey m (fst k) (snd k)) by (intros [e f] H; apply (key_in m); exact H).
      clear Eg. revert F2 KK. generalize (keys m). intros ks F2. induction F2 as [|k0 B ks Bs H F IH]; intros KK; constructor.
      - split; [exact H|]. apply (len_block m n nodes G (fst k0)); [apply KK; left; reflexivity|exact H].
      - apply IH. intros k1 H1. apply KK. right. exact H1. }
    rewrite Eg in Hk. destruct (key_of_position m n nodes (keys m) Bs (keys_nodup m n nodes O) F3 k Hk) as [e [f [B [I [HB [P V]]]]]].
    exists e, f, B. split; [apply (key_in m); exact I|]. rewrite Eg. auto.
  Qed.

  (** The pair of an interior face occurs in the block of that face only. *)
  Lemma pair_index : forall e f B i, isKey m e f -> interior m f -> isBlock m n nodes e f B -> (i < length B)%nat ->
    indexOf (nth i B (0, 0)) g = start m nodes e f + Z.of_nat i /\ valAt g (start m nodes e f + Z.of_nat i) = nth i B (0, 0).
  Proof.
    intros e f B i K Hi HB Hlt. destruct (key_window m n nodes g G O HG e f K) as [B' [HB' [S0 [Hle HW]]]].
    assert (EqB : forall B2, isBlock m n nodes e f B2 -> B2 = B).
    { intros B2 H2. apply (sorted_ext (fun x y : Z * Z => fst x < fst y)); try (intros; lia); [apply H2|apply HB|].
      intros p. destruct HB as [_ I1], H2 as [_ I2]. rewrite I1, I2. reflexivity. }
    rewrite (EqB B' HB') in HW. pose proof (len_block m n nodes G e f B K HB) as L.
    assert (V : nth (Z.to_nat (start m nodes e f) + i) g (0, 0) = nth i B (0, 0)).
    { rewrite <- HW. rewrite nth_firstn_lt by lia. rewrite nth_skipn_add. reflexivity. }
    split; [|unfold valAt; rewrite <- V; f_equal; lia].
    rewrite (index_of g _ (Z.to_nat (start m nodes e f) + i)); [lia|lia|exact V|].
    intros k Hk Ek. destruct (position_key k Hk) as [e' [f' [B2 [K' [HB2 [P V2]]]]]].
    pose proof (len_block m n nodes G e' f' B2 K' HB2) as L2. pose proof (startIn_nonneg nodes (keys m) e' f') as S1. fold (start m nodes e' f') in S1.
    assert (I1 : In (nth i B (0, 0)) B) by (apply nth_In; exact Hlt).
    assert (I2 : In (nth i B (0, 0)) B2) by (rewrite <- Ek, V2; apply nth_In; lia).
    pose proof I1 as J1. pose proof I2 as J2. apply HB in J1 as [ij [Hij E1]]. apply HB2 in J2 as [kl [Hkl E2]].
    destruct (own_dof m n nodes G e f ij K Hij) as [D1 D2]. destruct (own_dof m n nodes G e' f' kl K' Hkl) as [D3 D4].
    assert (e' = e).
    { rewrite <- E1 in D1. rewrite <- E2 in D3. rewrite D1 in D3. apply gdof_inj in D3; [intuition congruence|assumption..]. }
    subst e'. destruct (key_face m n nodes G e f K) as [Hf Hfe]. destruct (key_face m n nodes G e f' K') as [Hf' Hfe'].
    assert (f' = f).
    { pose proof (g_int _ _ _ G f Hf Hi) as [HE [C _]]. pose proof C as [_ [_ [_ [_ [_ [R _]]]]]]. rewrite Forall_forall in R. specialize (R ij Hij).
      assert (Hi' : interior m f' \/ ~ interior m f') by (unfold interior; lia). rewrite E1 in E2. unfold seenFrom in E2.
      replace (0 <=? cf_e2 (faceAt m f)) with true in E2 by (symmetry; apply Z.leb_le; exact Hi).
      destruct Hi' as [Hi'|Hi'].
      - pose proof (g_int _ _ _ G f' Hf' Hi') as [HE' [C' _]]. pose proof C' as [_ [_ [_ [_ [_ [R' _]]]]]]. rewrite Forall_forall in R'. specialize (R' kl Hkl).
        replace (0 <=? cf_e2 (faceAt m f')) with true in E2 by (symmetry; apply Z.leb_le; exact Hi').
        assert (Hg := gdof_inj). specialize (Hg m n).
        destruct (Z.eqb_spec e (cf_e1 (faceAt m f))) as [Q1|Q1]; destruct (Z.eqb_spec e (cf_e1 (faceAt m f'))) as [Q2|Q2]; injection E2 as X1 X2;
          apply Hg in X1 as [X1 _]; try tauto; apply Hg in X2 as [X2 _]; try tauto; try (exfalso; lia);
          apply (g_one _ _ _ G); auto; congruence.
      - exfalso. replace (0 <=? cf_e2 (faceAt m f')) with false in E2 by (symmetry; apply Z.leb_gt; unfold interior in Hi'; lia).
        pose proof (g_bdr _ _ _ G f' Hf' Hi') as [_ [_ [_ [_ [_ [R' _]]]]]]. rewrite Forall_forall in R'. specialize (R' kl Hkl).
        assert (Hg := gdof_inj). specialize (Hg m n).
        destruct (Z.eqb_spec e (cf_e1 (faceAt m f))) as [Q1|Q1]; injection E2 as X1 X2; rewrite <- X1 in X2; apply Hg in X2 as [X2 _]; try tauto; lia. }
    subst f'. pose proof (EqB B2 HB2); subst B2. rewrite V2 in Ek.
    assert (NB : NoDup B).
    { destruct HB as [Sb _]. clear -Sb. induction Sb as [|a t S IH F]; constructor; [|exact IH]. intros H. rewrite Forall_forall in F. specialize (F a H). lia. }
    apply (proj1 (NoDup_nth B (0, 0)) NB) in Ek; lia.
  Qed.

  Lemma one_face : forall f, inF m f -> interior m f -> exists ps, nodePairs m (faceAt m f) [cf_e1 (faceAt m f); cf_e2 (faceAt m f)] = Ok ps /\
    forall b, bdrFace m b = f -> isSides m nodes g b (map fst (interiorMapB g ps), map snd (interiorMapB g ps), map fst ps, map snd ps).
  Proof.
    intros f Hf Hi. destruct (node_pairs m n nodes G f Hf Hi) as [ps [Ep [N1 [N2 [Sp Ip]]]]]. exists ps. split; [exact Ep|].
    intros b Eb. unfold isSides. rewrite Eb. set (F := faceAt m f) in *.
    destruct (ends m n nodes G f Hf Hi) as [R1 [R2 R3]]. fold F in R1, R2, R3.
    pose proof (o_listed _ _ _ O f Hf) as [L1 L2]. specialize (L2 Hi). fold F in L1, L2.
    assert (K1 : isKey m (cf_e1 F) f) by (split; assumption). assert (K2 : isKey m (cf_e2 F) f) by (split; assumption).
    assert (Ic : (0 <=? cf_e2 (faceAt m f)) = true) by (apply Z.leb_le; exact Hi).
    assert (B1 : isBlock m n nodes (cf_e1 F) f ps).
    { split; [exact Sp|]. intros p. rewrite Ip. unfold seenFrom. rewrite Ic. fold F. rewrite Z.eqb_refl. reflexivity. }
    pose proof (len_block m n nodes G _ f ps K1 B1) as LB.
    assert (M1 : map fst (interiorMapB g ps) = range (start m nodes (cf_e1 F) f) (length (nodes f))).
    { unfold interiorMapB, range. rewrite map_map. cbn [fst]. rewrite <- LB. unfold zseq. rewrite map_map.
      apply (nth_ext _ _ 0 0); [rewrite !map_length, seq_length; reflexivity|]. intros i Hlt. rewrite map_length in Hlt.
      rewrite (nth_indep _ 0 (indexOf (0, 0) g)) by (rewrite map_length; exact Hlt). rewrite (map_nth (fun p => indexOf p g)).
      destruct (pair_index _ f ps i K1 Hi B1 Hlt) as [-> _].
      rewrite (nth_indep _ 0 (start m nodes (cf_e1 F) f + Z.of_nat 0)) by (rewrite map_length, seq_length; exact Hlt).
      rewrite (map_nth (fun x => start m nodes (cf_e1 F) f + Z.of_nat x)), seq_nth by exact Hlt. reflexivity. }
    assert (Val : map (valAt g) (range (start m nodes (cf_e1 F) f) (length (nodes f))) = ps).
    { unfold range, zseq. rewrite !map_map, <- LB. apply (nth_ext _ _ (0, 0) (0, 0)); [rewrite !map_length, seq_length; reflexivity|].
      intros i Hlt. rewrite map_length, seq_length in Hlt. rewrite (nth_indep _ (0, 0) (valAt g (start m nodes (cf_e1 F) f + Z.of_nat 0))) by (rewrite map_length, seq_length; exact Hlt).
      rewrite (map_nth (fun x => valAt g (start m nodes (cf_e1 F) f + Z.of_nat x))), seq_nth by exact Hlt.
      apply (pair_index _ f ps i K1 Hi B1 Hlt). }
    split; [exact M1|]. rewrite M1. split; [rewrite <- Val at 1; rewrite map_map; reflexivity|]. split; [rewrite <- Val at 1; rewrite map_map; reflexivity|].
    destruct (key_window m n nodes g G O HG _ f K2) as [B2 [HB2 [S2 [Hle _]]]]. pose proof (len_block m n nodes G _ f B2 K2 HB2) as LB2.
    assert (H2 : Forall2 (fun p q => start m nodes (cf_e2 F) f <= p < start m nodes (cf_e2 F) f + Z.of_nat (length (nodes f)) /\ valAt g p = swapP q)
       (map snd (interiorMapB g ps)) ps).
    { unfold interiorMapB. rewrite map_map. cbn [snd].
      assert (HI : forall p, In p ps -> In (swapP p) B2).
      { intros p Hp. apply Ip in Hp as [ij [Hij ->]]. apply HB2. exists ij. split; [exact Hij|]. unfold seenFrom. rewrite Ic. fold F.
        replace (cf_e2 F =? cf_e1 F) with false by (symmetry; apply Z.eqb_neq; lia). reflexivity. }
      clear -HI G O HG K2 Hi HB2 LB2 Hf. induction ps as [|p t IH]; cbn [map]; constructor.
      - specialize (HI p (or_introl eq_refl)). apply In_nth with (d := (0, 0)) in HI as [i [Hlt Ei]].
        destruct (pair_index _ f B2 i K2 Hi HB2 Hlt) as [X1 X2]. rewrite Ei in X1, X2. rewrite X1. split; [lia|exact X2].
      - apply IH. intros q Hq. apply HI. right. exact Hq. }
    rewrite <- Val in H2 at 2. revert H2. generalize (map snd (interiorMapB g ps)) (range (start m nodes (cf_e1 F) f) (length (nodes f))). clear.
    intros a b. revert a. induction b as [|x t IH]; intros a H; cbn [map] in H; inversion H; subst; constructor; auto.
  Qed.

  Definition appQ (im : ibmaps) (qs : list quad) : ibmaps :=
    mkIB (mapB1 im ++ map (fun q => fst (fst (fst q))) qs) (mapB2 im ++ map (fun q => snd (fst (fst q))) qs)
         (vmapB1 im ++ map (fun q => snd (fst q)) qs) (vmapB2 im ++ map snd qs).
  Lemma appQ_app : forall im a b, appQ (appQ im a) b = appQ im (a ++ b).
  Proof. intros im a b. unfold appQ. cbn [mapB1 mapB2 vmapB1 vmapB2]. rewrite !map_app, <- !app_assoc. reflexivity. Qed.
  Lemma appQ_nil : forall im, appQ im [] = im.
  Proof. intros [a b c d]. unfold appQ. cbn [mapB1 mapB2 vmapB1 vmapB2 map]. rewrite !app_nil_r. reflexivity. Qed.
  Definition tSides (b : Z) (q : quad) : Prop := isSides m nodes g b (if Rle_dec 0 (nth (Z.to_nat b) (cm_ori m) 0%R) then q else flipQ q).
  Definition adds (l : list (Z * cond)) (s s' : bdrMaps) : Prop :=
    exists q1 q2 q3 q4, s' = mkBdr (bPEC s) (bPMC s) (bSMA s) (appQ (iPEC s) q1) (appQ (iPMC s) q2) (appQ (iSMA s) q3) (appQ (bTFSF s) q4) /\
      Forall2 (isSides m nodes g) (sel PEC l) q1 /\ Forall2 (isSides m nodes g) (sel PMC l) q2 /\
      Forall2 (isSides m nodes g) (sel SMA l) q3 /\ Forall2 tSides (sel TotalFieldIn l) q4.
  Lemma adds_nil : forall s, adds [] s s.
  Proof. intros s. exists [], [], [], []. rewrite !appQ_nil. destruct s; cbn. repeat split; constructor. Qed.
  Lemma adds_app : forall l1 l2 s s1 s2, adds l1 s s1 -> adds l2 s1 s2 -> adds (l1 ++ l2) s s2.
  Proof.
    intros l1 l2 s s1 s2 [q1 [q2 [q3 [q4 [-> [H1 [H2 [H3 H4]]]]]]]] [r1 [r2 [r3 [r4 [-> [J1 [J2 [J3 J4]]]]]]]].
    exists (q1 ++ r1), (q2 ++ r2), (q3 ++ r3), (q4 ++ r4). cbn [bPEC bPMC bSMA iPEC iPMC iSMA bTFSF]. rewrite !appQ_app. split; [reflexivity|].
    unfold sel. rewrite !filter_app, !map_app. repeat split; apply Forall2_app; assumption.
  Qed.

  Section IMarkers.
    Variable mks : list (cond * list Z).
    Hypothesis W : wfBdrs m mks.
    Hypothesis LO : length (cm_ori m) = length (cm_bdr m).
    Hypothesis HI : forall b mk, inB m b -> In mk mks -> isMarked (snd mk) (bdrAttr m b) = true ->
      interior m (bdrFace m b) /\ (fst mk = PEC \/ fst mk = PMC \/ fst mk = SMA \/ fst mk = TotalFieldIn).

    Lemma int_maps_loop : forall s, exists s', initIntFaceMaps m g mks (s, cm_attr m) = Ok (s', cm_attr m) /\ adds (flat_map (hits m mks) (zseq (length (cm_bdr m)))) s s'.
    Proof.
      intros s. unfold initIntFaceMaps. cbn [snd].
      set (Fb := fun (st : bdrMaps * list Z) (b : Z) (mk : cond * list Z) => 
        ' (f, a) <- zget (cm_bdr m) b ;; on <- marked (snd mk) a ;;
        if negb on then Ok st else
        F <- zget (cm_face m) f ;; ori <- zget (cm_ori m) b ;;
        ' (sub, attrs') <- interiorFaceSubMesh (cm_attr m) (snd st) F ;;
        ps <- nodePairs m F sub ;;
        s' <- loadIntBdr (interiorMapB g ps) ps (fst mk) ori (fst st) ;; Ok (s', attrs')).
      change (exists s', foldM (fun st b => foldM (fun st mk => Fb st b mk) mks st) (zseq (length (cm_bdr m))) (s, cm_attr m) = Ok (s', cm_attr m) /\
        adds (flat_map (hits m mks) (zseq (length (cm_bdr m)))) s s').
      assert (St : forall s b mk, inB m b -> In mk mks -> exists s', Fb (s, cm_attr m) b mk = Ok (s', cm_attr m) /\ adds (hits m [mk] b) s s').
      { intros s0 b mk Hb Hm. unfold Fb. rewrite (bdr_at m b Hb). cbn [bind]. rewrite (marked_ok m mks W) by assumption. cbn [bind].
        unfold hits. cbn [filter]. destruct (isMarked (snd mk) (bdrAttr m b)) eqn:EM; cbn [negb map]; [|exists s0; split; [reflexivity|apply adds_nil]].
        destruct (HI b mk Hb Hm EM) as [Hi Hc]. destruct W as [_ [HF _]]. pose proof (HF b Hb) as Hf.
        rewrite (face_at m _ Hf). cbn [bind]. rewrite (zget_nth (cm_ori m) b 0%R) by (rewrite LO; exact Hb). cbn [bind].
        destruct (ends m n nodes G _ Hf Hi) as [R1 [R2 R3]]. unfold inR in *. cbn [snd].
        rewrite submesh_two; [|apply (g_tag _ _ _ G)|lia|rewrite (g_attr _ _ _ G); lia]. cbn [bind].
        destruct (one_face _ Hf Hi) as [ps [Ep Hs]]. rewrite Ep. cbn [bind]. specialize (Hs b eq_refl). set (ids := interiorMapB g ps) in *. cbn [fst].
        set (q := (map fst ids, map snd ids, map fst ps, map snd ps)) in Hs.
        assert (P : forall im (l : list quad), l = [q] -> pushIB im (map fst ids) (map snd ids) (map fst ps) (map snd ps) = appQ im l) by (intros im l ->; reflexivity).
        destruct Hc as [E|[E|[E|E]]]; rewrite E; cbn [loadIntBdr].
        - rewrite (P _ _ eq_refl). eexists. split; [reflexivity|]. exists [q], [], [], []. rewrite !appQ_nil. cbn. repeat split; constructor; auto.
        - rewrite (P _ _ eq_refl). eexists. split; [reflexivity|]. exists [], [q], [], []. rewrite !appQ_nil. cbn. repeat split; constructor; auto.
        - rewrite (P _ _ eq_refl). eexists. split; [reflexivity|]. exists [], [], [q], []. rewrite !appQ_nil. cbn. repeat split; constructor; auto.
        - assert (T : exists q4, (if Rle_dec 0 (nth (Z.to_nat b) (cm_ori m) 0%R) then pushIB (bTFSF s0) (map fst ids) (map snd ids) (map fst ps) (map snd ps)
              else pushIB (bTFSF s0) (map snd ids) (map fst ids) (map snd ps) (map fst ps)) = appQ (bTFSF s0) [q4] /\ tSides b q4).
          { unfold tSides. destruct (Rle_dec 0 (nth (Z.to_nat b) (cm_ori m) 0%R)).
            - exists q. split; [reflexivity|exact Hs].
            - exists (flipQ q). split; [reflexivity|]. unfold q, flipQ in *. exact Hs. }
          destruct T as [q4 [T1 T2]]. cbn [bind]. rewrite T1. eexists. split; [reflexivity|]. exists [], [], [], [q4]. rewrite !appQ_nil. cbn. repeat split; constructor; auto. }
      assert (In1 : forall b, inB m b -> forall mk0, (forall mk, In mk mk0 -> In mk mks) -> forall s, exists s',
        foldM (fun st mk => Fb st b mk) mk0 (s, cm_attr m) = Ok (s', cm_attr m) /\ adds (hits m mk0 b) s s').
      { intros b Hb. induction mk0 as [|mk t IH]; intros Hm s0; [exists s0; split; [reflexivity|apply adds_nil]|].
        cbn [foldM]. destruct (St s0 b mk Hb (Hm mk (or_introl eq_refl))) as [s1 [E1 A1]]. rewrite E1. cbn [bind].
        destruct (IH (fun mk H => Hm mk (or_intror H)) s1) as [s2 [E2 A2]]. exists s2. split; [exact E2|].
        replace (hits m (mk :: t) b) with (hits m [mk] b ++ hits m t b); [eapply adds_app; eassumption|].
        unfold hits. cbn [filter]. destruct (isMarked (snd mk) (bdrAttr m b)); reflexivity. }
      clearbody Fb. clear St. assert (Hbs : forall b, In b (zseq (length (cm_bdr m))) -> inB m b) by (intros b H; apply in_zseq in H; exact H).
      revert s Hbs. generalize (zseq (length (cm_bdr m))). intros bs.
      induction bs as [|b t IH]; intros s Hbs; [exists s; split; [reflexivity|apply adds_nil]|].
      cbn [foldM flat_map]. destruct (In1 b (Hbs b (or_introl eq_refl)) mks (fun mk H => H) s) as [s1 [E1 A1]]. rewrite E1. cbn [bind].
      destruct (IH s1 (fun b0 H => Hbs b0 (or_intror H))) as [s2 [E2 A2]]. exists s2. split; [exact E2|]. eapply adds_app; eassumption.
    Qed.
  End IMarkers.
End Int.

(** ** The whole constructor *)
Lemma connectivities_right : forall m n nodes bdrMk intMk tfsfMk,
  conforming m n nodes -> faceOrder m n nodes -> wfBdrs m bdrMk -> wfBdrs m intMk -> wfBdrs m tfsfMk ->
  intOk m intMk -> intOk m tfsfMk -> length (cm_ori m) = length (cm_bdr m) -> trueB m <> [] ->
  exists g s, connectivities m bdrMk intMk tfsfMk = Ok (g, s, cm_attr m) /\ isGlobal m n nodes g /\
    isBMap m nodes g (wanted m bdrMk PEC (trueB m)) (bPEC s) /\
    isBMap m nodes g (wanted m bdrMk PMC (trueB m)) (bPMC s) /\
    isBMap m nodes g (wanted m bdrMk SMA (trueB m)) (bSMA s) /\
    isIMap m nodes g (wanted m intMk PEC (allB m) ++ wanted m tfsfMk PEC (allB m)) (iPEC s) /\
    isIMap m nodes g (wanted m intMk PMC (allB m) ++ wanted m tfsfMk PMC (allB m)) (iPMC s) /\
    isIMap m nodes g (wanted m intMk SMA (allB m) ++ wanted m tfsfMk SMA (allB m)) (iSMA s) /\
    isTMap m nodes g (wanted m intMk TotalFieldIn (allB m) ++ wanted m tfsfMk TotalFieldIn (allB m)) (bTFSF s).
Proof.
  intros m n nodes bdrMk intMk tfsfMk G O W1 W2 W3 I2 I3 LO TB. destruct (global_map m n nodes G) as [g [Eg HG]].
  destruct (bdr_maps m n nodes g G O HG bdrMk W1) as [s1 [E1 [P1 [P2 [P3 [Q1 [Q2 [Q3 Q4]]]]]]]].
  destruct (int_maps_loop m n nodes g G O HG intMk W2 LO I2 s1) as [s2 [E2 A2]].
  destruct (int_maps_loop m n nodes g G O HG tfsfMk W3 LO I3 s2) as [s3 [E3 A3]].
  exists g, s3. unfold connectivities. rewrite Eg. cbn [bind]. rewrite (true_bdr m bdrMk W1). cbn [bind].
  destruct (trueB m) as [|b0 bt] eqn:ET; [congruence|]. rewrite E1. cbn [bind]. rewrite E2. cbn [bind]. rewrite E3. cbn [bind].
  split; [reflexivity|]. split; [exact HG|].
  pose proof (adds_app m nodes g _ _ _ _ _ A2 A3) as [q1 [q2 [q3 [q4 [-> [F1 [F2 [F3 F4]]]]]]]].
  assert (SW : forall c, sel c (flat_map (hits m intMk) (zseq (length (cm_bdr m))) ++ flat_map (hits m tfsfMk) (zseq (length (cm_bdr m))))
    = wanted m intMk c (allB m) ++ wanted m tfsfMk c (allB m)).
  { intros c. unfold sel. rewrite filter_app, map_app. fold (sel c (flat_map (hits m intMk) (zseq (length (cm_bdr m))))). fold (sel c (flat_map (hits m tfsfMk) (zseq (length (cm_bdr m))))).
    rewrite !sel_wanted. reflexivity. }
  rewrite SW in F1, F2, F3, F4. cbn [bPEC bPMC bSMA iPEC iPMC iSMA bTFSF]. rewrite Q1, Q2, Q3, Q4.
  split; [exact P1|]. split; [exact P2|]. split; [exact P3|].
  split; [exists q1; split; [reflexivity|exact F1]|]. split; [exists q2; split; [reflexivity|exact F2]|]. split; [exists q3; split; [reflexivity|exact F3]|].
  exists q4. split; [reflexivity|exact F4].
Qed.

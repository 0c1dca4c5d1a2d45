(** The condition the connectivity gives each node is that of its face, walls inside the mesh
    included. *)
From Coq Require Import ZArith List Bool Lia Reals Sorted.
From Verif Require Import Common Geo_Spec Nodal_Model Nodal_Spec Step_Model Face_Model Face_Spec Setup_Model Conn_Model Form_Model Form_Spec Global_Spec Hest_Model Hest_Spec Twin_Spec Conn_Spec.
From Verif Require Import ConnPos_Proofs ConnInt_Proofs Hest_Proofs HestMesh_Proofs HestKind_Proofs.
Import ListNotations.
Local Open Scope Z_scope.

Section Walls.
Variables (m : cmesh) (n : nat) (mnodes : Z -> list (nat * nat)) (NF nf : nat) (conn : list (Z * Z)).
Hypothesis G : conforming m n mnodes.
Hypothesis FO : faceOrder m n mnodes.
Hypothesis HG : isGlobal m n mnodes conn.
Hypothesis U : uniform m mnodes NF nf.

Lemma range_length : forall s k, length (range s k) = k.
Proof. intros. unfold range. rewrite map_length. apply zseq_length. Qed.
Lemma vals_window : forall s k, 0 <= s -> (Z.to_nat s + k <= length conn)%nat -> map (valAt conn) (range s k) = firstn k (skipn (Z.to_nat s) conn).
Proof.
  intros s k Hs L. apply nth_ext with (d := valAt conn 0) (d' := (0, 0)).
  - rewrite map_length, range_length, firstn_length, skipn_length. lia.
  - intros i Hi. rewrite map_length, range_length in Hi. rewrite map_nth, nth_firstn_lt, nth_skipn_add by exact Hi.
    unfold valAt. f_equal. unfold range. rewrite (nth_indep _ 0 (s + 0)) by (rewrite map_length, zseq_length; exact Hi). rewrite (map_nth (fun z => s + z)).
    unfold zseq. change 0 with (Z.of_nat 0). rewrite map_nth, seq_nth by exact Hi. lia.
Qed.
Lemma block_distinct : forall e f, isKey m e f -> NoDup (map (valAt conn) (range (start m mnodes e f) (length (mnodes f)))).
Proof.
  intros e f K. destruct (key_window m n mnodes conn G FO HG e f K) as [B [[S1 _] [H0 [HL E]]]]. rewrite vals_window, E by assumption.
  apply (NoDup_map_inv fst). apply sorted_nodup. apply sorted_map_fst. exact S1.
Qed.
Lemma covers : forall f m1 m2, inF m f -> interior m f -> m1 = range (start m mnodes (cf_e1 (faceAt m f)) f) (length (mnodes f)) ->
  Forall2 (fun p p1 => start m mnodes (cf_e2 (faceAt m f)) f <= p < start m mnodes (cf_e2 (faceAt m f)) f + Z.of_nat (length (mnodes f)) /\ valAt conn p = swapP (valAt conn p1)) m2 m1 ->
  forall p, In p m2 <-> In p (range (start m mnodes (cf_e2 (faceAt m f)) f) (length (mnodes f))).
Proof.
  intros f m1 m2 Hf HI E1 F. set (s2 := start m mnodes (cf_e2 (faceAt m f)) f) in *. set (k := length (mnodes f)) in *.
  assert (K1 : isKey m (cf_e1 (faceAt m f)) f) by (split; [apply (g_el1 _ _ _ G); exact Hf|apply (o_listed _ _ _ FO); exact Hf]).
  assert (I2 : incl m2 (range s2 k)).
  { intros p Ip. clear - F Ip. induction F as [|a b l l' [H _] F IH]; [destruct Ip|]. destruct Ip as [<-|Ip]; [|apply IH; exact Ip].
    apply in_range. exists (Z.to_nat (a - s2)). lia. }
  assert (E2 : map (valAt conn) m2 = map swapP (map (valAt conn) m1)).
  { clear - F. induction F as [|a b l l' [_ H] F IH]; [reflexivity|]. cbn [map]. rewrite H, IH. reflexivity. }
  assert (N2 : NoDup m2).
  { apply (NoDup_map_inv (valAt conn)). rewrite E2. apply FinFun.Injective_map_NoDup; [intros [a b] [c d] E; injection E as -> ->; reflexivity|]. rewrite E1. apply (block_distinct _ _ K1). }
  assert (L2 : length m2 = k) by (rewrite (Forall2_length _ _ _ F), E1; apply range_length).
  intros p. split; [apply I2|]. apply (NoDup_length_incl N2); [rewrite range_length; lia|exact I2].
Qed.

Lemma imap_mem : forall bs im, (forall b, In b bs -> inF m (bdrFace m b) /\ interior m (bdrFace m b)) -> isIMap m mnodes conn bs im ->
  forall e lf b, inR e (Z.of_nat (cm_ne m)) -> (lf < NF)%nat -> (b < nf)%nat ->
  (imem (pos NF nf e lf b) im = true <-> exists b', In b' bs /\ bdrFace m b' = fAt m e lf).
Proof.
  intros bs im Hb [qs [-> F]] e lf b He Hl Hb'. unfold imem. rewrite orb_true_iff, !mem_iff. unfold ofQuads. cbn [mapB1 mapB2].
  assert (P : forall b' q, isSides m mnodes conn b' q -> inF m (bdrFace m b') -> interior m (bdrFace m b') ->
    (In (pos NF nf e lf b) (fst (fst (fst q))) \/ In (pos NF nf e lf b) (snd (fst (fst q))) <-> fAt m e lf = bdrFace m b')).
  { intros b' [[[m1 m2] v1] v2] [E1 [_ [_ F2]]] Hf HI. cbn [fst snd]. rewrite (covers _ _ _ Hf HI E1 F2), E1. rewrite (proj2 U _ Hf).
    assert (K1 : isKey m (cf_e1 (faceAt m (bdrFace m b'))) (bdrFace m b')) by (split; [apply (g_el1 _ _ _ G); exact Hf|apply (o_listed _ _ _ FO); exact Hf]).
    assert (K2 : isKey m (cf_e2 (faceAt m (bdrFace m b'))) (bdrFace m b')).
    { destruct (g_int _ _ _ G _ Hf HI) as [Q _]. split; [unfold inR, interior in *; lia|]. apply (o_listed _ _ _ FO); assumption. }
    rewrite (block_positions m n mnodes NF nf G FO U _ _ _ _ _ K1 He Hl Hb'), (block_positions m n mnodes NF nf G FO U _ _ _ _ _ K2 He Hl Hb').
    split; [intros [[_ Q]|[_ Q]]; exact Q|]. intros Q.
    assert (Ke : isKey m e (fAt m e lf)) by (split; [exact He|apply nth_In; rewrite (proj1 U e He); exact Hl]).
    destruct (key_face m n mnodes G _ _ Ke) as [_ T]. rewrite Q in T. destruct T as [T|T]; [left|right]; (split; [symmetry; exact T|exact Q]). }
  induction F as [|b0 q bs qs S0 F IH].
  - split; [intros [[l [[] _]]|[l [[] _]]]|intros [b' [[] _]]].
  - specialize (IH (fun b' I => Hb b' (or_intror I))). destruct (Hb b0 (or_introl eq_refl)) as [Hf HI]. specialize (P b0 q S0 Hf HI). cbn [map]. split.
    + intros [[l [[<-|I] J]]|[l [[<-|I] J]]].
      * exists b0. split; [left; reflexivity|symmetry; apply P; left; exact J].
      * destruct (proj1 IH (or_introl (ex_intro _ l (conj I J)))) as [b' [I' E']]. exists b'. split; [right; exact I'|exact E'].
      * exists b0. split; [left; reflexivity|symmetry; apply P; right; exact J].
      * destruct (proj1 IH (or_intror (ex_intro _ l (conj I J)))) as [b' [I' E']]. exists b'. split; [right; exact I'|exact E'].
    + intros [b' [[<-|I] E']].
      * destruct (proj2 P (eq_sym E')) as [J|J]; [left|right]; eexists; (split; [left; reflexivity|exact J]).
      * destruct (proj2 IH (ex_intro _ b' (conj I E'))) as [[l [I' J]]|[l [I' J]]]; [left|right]; exists l; (split; [right; exact I'|exact J]).
Qed.
End Walls.

(** ** The kinds of the faces *)
Lemma faceKind_cases : forall fm gb gi fi F, faceKind fm gb gi fi F = None \/ faceKind fm gb gi fi F = Some PEC \/ faceKind fm gb gi fi F = Some PMC \/
  faceKind fm gb gi fi F = Some SMA \/ faceKind fm gb gi fi F = Some SGBC.
Proof.
  intros. unfold faceKind. destruct (tagOf (fm_bdr fm) fi) as [a|]; [|left; reflexivity]. unfold kindOf.
  destruct (find _ _) as [[? []]|]; auto 6.
Qed.
Definition kindsFm (fm : fmesh) (gb gi : list (Z * cond)) (f : Z) : kind :=
  match nth_error (fm_faces fm) (Z.to_nat f) with Some F => kindFrom fm gb gi (Z.to_nat f) F | None => KInterior end.

Lemma kinds_right : forall m n mnodes fc t nf bdrMk intMk tfsfMk conn maps attrs elems fm gb gi,
  n = fc_n fc t -> operatorMesh m n mnodes bdrMk intMk tfsfMk -> uniform m mnodes (length (fc_faces fc t)) nf ->
  connectivities m bdrMk intMk tfsfMk = Ok (conn, maps, attrs) -> sameFaces m mnodes fc t elems fm -> sameConds m fm gb gi bdrMk (intMk ++ tfsfMk) ->
  sameKinds m fm gb gi (kindsFm fm gb gi) /\ oneKind m nf maps (kindsFm fm gb gi).
Proof.
  intros m n mnodes fc t nf bdrMk intMk tfsfMk conn maps attrs elems fm gb gi En HM U HC HF HS. set (NF := length (fc_faces fc t)) in *.
  destruct HM as [M1 M2 M3 M4 M5 M6 M7 M8 M9].
  destruct (connectivities_right m n mnodes bdrMk intMk tfsfMk M1 M2 M3 M4 M5 M6 M7 M8 M9) as [g [mp [E [HG [B1 [B2 [B3 [J1 [J2 [J3 _]]]]]]]]]].
  rewrite HC in E. injection E as <- <- _. destruct HF as [LF HF].
  assert (GF : forall f, inF m f -> exists F, nth_error (fm_faces fm) (Z.to_nat f) = Some F).
  { intros f Hf. destruct (nth_error (fm_faces fm) (Z.to_nat f)) as [F|] eqn:EF; [exists F; reflexivity|]. apply nth_error_None in EF. unfold inF in Hf. lia. }
  assert (EL : forall f F, inF m f -> nth_error (fm_faces fm) (Z.to_nat f) = Some F -> (interior m f <-> f_el2 (mf_face F) <> None)).
  { intros f F Hf EF. specialize (HF f F Hf EF). cbv zeta in HF. destruct HF as [lf1 [g1 [_ [_ [_ [_ [HO HI]]]]]]]. split.
    - intros I. destruct (HI I) as [lf2 [g2 [rs [Q _]]]]. exact Q.
    - intros Q. destruct (Z.leb_spec 0 (cf_e2 (faceAt m f))) as [L|L]; [exact L|]. exfalso. apply Q. apply HO. unfold interior. lia. }
  split.
  - intros f F Hf EF. specialize (HS f F Hf EF). destruct HS as [_ [S1 S2]]. specialize (EL f F Hf EF). unfold kindsFm, kindFrom. rewrite EF.
    destruct (faceKind_cases fm gb gi (Z.to_nat f) F) as [Q|[Q|[Q|[Q|Q]]]]; rewrite Q in *; destruct (f_el2 (mf_face F)) as [k|]; cbn [condOf innerKind];
      try (exfalso; apply S1; reflexivity); try (split; [reflexivity|split; [intros _; apply EL; discriminate|intros _; exact I]]);
      try (split; [reflexivity|split; [intros []|intros X; exfalso; apply (proj1 EL X); reflexivity]]).
    exfalso. apply S2; [|reflexivity]. intros X. apply (proj1 EL X). reflexivity.
  - split.
    + intros f Hf Hk. destruct (GF f Hf) as [F EF]. specialize (EL f F Hf EF). unfold kindsFm, kindFrom in Hk. rewrite EF in Hk. apply EL. intros Q. rewrite Q in Hk.
      destruct (faceKind fm gb gi (Z.to_nat f) F) as [[]|]; discriminate.
    + intros e lf b He Hl Hb. pose proof (proj1 U e He) as LN. rewrite LN in Hl |- *. fold (fAt m e lf).
      change ((e * Z.of_nat NF + Z.of_nat lf) * Z.of_nat nf + Z.of_nat b) with (pos NF nf e lf b).
      assert (Ke : isKey m e (fAt m e lf)) by (split; [exact He|apply nth_In; rewrite LN; exact Hl]).
      destruct (key_face m n mnodes M1 _ _ Ke) as [Hf _]. set (f := fAt m e lf) in *. destruct (GF f Hf) as [F EF].
      destruct (HS f F Hf EF) as [S0 [S1 S2]]. specialize (EL f F Hf EF).
      assert (Bd : forall c bm, isBMap m mnodes conn (wanted m bdrMk c (trueB m)) bm -> (c = PEC \/ c = PMC \/ c = SMA) ->
        (mem (pos NF nf e lf b) (mapB bm) = true <-> f_el2 (mf_face F) = None /\ faceKind fm gb gi (Z.to_nat f) F = Some c)).
      { intros c bm HB Hc. rewrite (bmap_mem m n mnodes NF nf conn M1 M2 U (wanted m bdrMk c (trueB m)) bm); [|
          intros b0 I; apply wanted_iff in I as [I _]; apply filter_In in I as [I1 I2]; apply in_zseq in I1; split; [apply M3; exact I1|];
          unfold isTrueB in I2; apply negb_true_iff, Z.leb_gt in I2; unfold interior; lia|exact HB|exact He|exact Hl|exact Hb].
        fold f. split.
        - intros [b' [I Ef]]. apply wanted_iff in I as [I [mk [Im [Ec Hm]]]]. apply filter_In in I as [I1 I2]. apply in_zseq in I1.
          unfold isTrueB in I2. apply negb_true_iff, Z.leb_gt in I2. rewrite Ef in I2.
          assert (NI : f_el2 (mf_face F) = None) by (destruct (f_el2 (mf_face F)); [|reflexivity]; exfalso; assert (interior m f) by (apply EL; discriminate); unfold interior in *; lia).
          split; [exact NI|]. apply (S0 c Hc). replace (0 <=? cf_e2 (faceAt m f)) with false by (symmetry; apply Z.leb_gt; lia). exists b', mk. auto.
        - intros [NI Q]. apply (S0 c Hc) in Q. assert (L : cf_e2 (faceAt m f) < 0).
          { destruct (Z.leb_spec 0 (cf_e2 (faceAt m f))) as [L|L]; [|lia]. exfalso. apply (proj1 EL L). exact NI. }
          replace (0 <=? cf_e2 (faceAt m f)) with false in Q by (symmetry; apply Z.leb_gt; lia). destruct Q as [b' [mk [Ib [Ef [Im [Ec Hm]]]]]].
          exists b'. split; [|exact Ef]. apply wanted_iff. split; [|exists mk; auto]. apply filter_In. split; [apply in_zseq; exact Ib|].
          unfold isTrueB. rewrite Ef. apply negb_true_iff, Z.leb_gt. exact L. }
      assert (Id : forall c im, isIMap m mnodes conn (wanted m intMk c (allB m) ++ wanted m tfsfMk c (allB m)) im -> (c = PEC \/ c = PMC \/ c = SMA) ->
        (imem (pos NF nf e lf b) im = true <-> f_el2 (mf_face F) <> None /\ faceKind fm gb gi (Z.to_nat f) F = Some c)).
      { intros c im HB Hc.
        assert (WI : forall b0, In b0 (wanted m intMk c (allB m) ++ wanted m tfsfMk c (allB m)) <-> inB m b0 /\ exists mk, In mk (intMk ++ tfsfMk) /\ fst mk = c /\ isMarked (snd mk) (bdrAttr m b0) = true).
        { intros b0. rewrite in_app_iff, !wanted_iff. unfold allB. rewrite in_zseq. split.
          - intros [[I [mk [A B]]]|[I [mk [A B]]]]; (split; [exact I|exists mk; split; [apply in_or_app; auto|exact B]]).
          - intros [I [mk [A B]]]. apply in_app_or in A as [A|A]; [left|right]; (split; [exact I|exists mk; auto]). }
        rewrite (imap_mem m n mnodes NF nf conn M1 M2 HG U (wanted m intMk c (allB m) ++ wanted m tfsfMk c (allB m)) im); [| |exact HB|exact He|exact Hl|exact Hb].
        2:{ intros b0 I. apply WI in I as [I [mk [A [_ B]]]]. split; [apply M3; exact I|]. apply in_app_or in A as [A|A]; [apply (M6 b0 mk I A B)|apply (M7 b0 mk I A B)]. }
        fold f. split.
        - intros [b' [I Ef]]. apply WI in I as [I [mk [A [Ec B]]]].
          assert (IN : interior m f) by (rewrite <- Ef; apply in_app_or in A as [A|A]; [apply (M6 b' mk I A B)|apply (M7 b' mk I A B)]).
          split; [apply EL; exact IN|]. apply (S0 c Hc). replace (0 <=? cf_e2 (faceAt m f)) with true by (symmetry; apply Z.leb_le; exact IN). exists b', mk. auto.
        - intros [NI Q]. apply (S0 c Hc) in Q. apply EL in NI. replace (0 <=? cf_e2 (faceAt m f)) with true in Q by (symmetry; apply Z.leb_le; exact NI).
          destruct Q as [b' [mk [Ib [Ef [Im [Ec Hm]]]]]]. exists b'. split; [|exact Ef]. apply WI. split; [exact Ib|]. exists mk. auto. }
      assert (W1 : forall (x : bool) (P : Prop), (x = true <-> P) -> (P /\ x = true) \/ (~ P /\ x = false)).
      { intros x P Q. destruct x; [left; split; [apply Q; reflexivity|reflexivity]|right; split; [intros X; apply Q in X; discriminate|reflexivity]]. }
      unfold kindAt, kindsFm, kindFrom. rewrite EF.
      pose proof (W1 _ _ (Id SMA _ J3 ltac:(auto))) as X1. pose proof (W1 _ _ (Id PMC _ J2 ltac:(auto))) as X2. pose proof (W1 _ _ (Id PEC _ J1 ltac:(auto))) as X3.
      pose proof (W1 _ _ (Bd SMA _ B3 ltac:(auto))) as X4. pose proof (W1 _ _ (Bd PMC _ B2 ltac:(auto))) as X5. pose proof (W1 _ _ (Bd PEC _ B1 ltac:(auto))) as X6.
      assert (IO : f_el2 (mf_face F) = None -> faceKind fm gb gi (Z.to_nat f) F <> None).
      { intros Q. apply S2. intros X. apply (proj1 EL X). exact Q. }
      clear - X1 X2 X3 X4 X5 X6 S1 IO.
      destruct X1 as [[[A1 C1] ->]|[N1 ->]]; [rewrite C1; destruct (f_el2 (mf_face F)); [reflexivity|congruence]|].
      destruct X2 as [[[A2 C2] ->]|[N2 ->]]; [rewrite C2; destruct (f_el2 (mf_face F)); [reflexivity|congruence]|].
      destruct X3 as [[[A3 C3] ->]|[N3 ->]]; [rewrite C3; destruct (f_el2 (mf_face F)); [reflexivity|congruence]|].
      destruct X4 as [[[A4 C4] ->]|[N4 ->]]; [rewrite C4, A4; reflexivity|].
      destruct X5 as [[[A5 C5] ->]|[N5 ->]]; [rewrite C5, A5; reflexivity|].
      destruct X6 as [[[A6 C6] ->]|[N6 ->]]; [rewrite C6, A6; reflexivity|].
      destruct (faceKind_cases fm gb gi (Z.to_nat f) F) as [Q|[Q|[Q|[Q|Q]]]]; rewrite Q in *; destruct (f_el2 (mf_face F)) as [k|]; try reflexivity; try (exfalso; apply IO; reflexivity);
        exfalso; first [apply S1; reflexivity | apply N1; split; congruence | apply N2; split; congruence | apply N3; split; congruence | apply N4; split; congruence | apply N5; split; congruence | apply N6; split; congruence].
Qed.

(** The maps meet what the nodal operator requires of them. *)
From Coq Require Import ZArith List Bool Lia Reals Lra Sorted Permutation.
From Verif Require Import Common Face_Model Face_Spec Face_Proofs Nodal_Model Nodal_Spec NodalMult_Proofs Nodal_Proofs Setup_Model Conn_Model Conn_Spec ConnFlux_Proofs Conn_Proofs ConnPos_Proofs ConnBdr_Proofs ConnInt_Proofs.
Import ListNotations.
Local Open Scope Z_scope.

Lemma global_range : forall m n nodes g, conforming m n nodes -> isGlobal m n nodes g ->
  Forall (fun ab => inR (fst ab) (cm_N m) /\ inR (snd ab) (cm_N m)) g.
Proof.
  intros m n nodes g G HG. destruct (flat_global _ _ _ _ HG) as [Bs [-> F2]]. apply Forall_forall. intros p Hp.
  apply in_concat in Hp as [B [HB Hp]].
  assert (exists e f, isKey m e f /\ isBlock m n nodes e f B) as [e [f [K HBl]]].
  { clear Hp HG. assert (KK : forall k, In k (keys m) -> isKey m (fst k) (snd k)) by (intros [e f] H; apply (key_in m); exact H).
    revert HB F2 KK. generalize (keys m). intros ks HB F2. induction F2 as [|k B0 ks Bs H F IH]; intros KK; [destruct HB|].
    destruct HB as [<-|HB]; [exists (fst k), (snd k); split; [apply KK; left; reflexivity|exact H]|apply (IH HB)]. intros k1 H1. apply KK. right. exact H1. }
  destruct HBl as [_ HBl]. rewrite HBl in Hp. destruct Hp as [ij [Hij ->]]. destruct (key_face m n nodes G e f K) as [Hf He].
  assert (D : forall e k, inR e (Z.of_nat (cm_ne m)) -> (k < n)%nat -> inR (gdof n e k) (cm_N m)) by (intros e0 k He0 Hk; rewrite (g_N _ _ _ G); unfold inR, gdof in *; nia).
  unfold seenFrom. destruct (Z.leb_spec 0 (cf_e2 (faceAt m f))) as [Hi|Hi].
  - pose proof (g_int _ _ _ G f Hf Hi) as [HE [C _]]. pose proof C as [_ [_ [_ [_ [_ [R _]]]]]]. rewrite Forall_forall in R. specialize (R ij Hij).
    pose proof (g_el1 _ _ _ G f Hf) as R1. assert (R2 : inR (cf_e2 (faceAt m f)) (Z.of_nat (cm_ne m))) by (unfold inR in *; lia).
    destruct (e =? cf_e1 (faceAt m f)); cbn [fst snd]; split; apply D; tauto.
  - assert (Hi' : ~ interior m f) by (unfold interior; lia). pose proof (g_bdr _ _ _ G f Hf Hi') as [E2 [_ [_ [_ [_ [R' _]]]]]]. rewrite Forall_forall in R'. specialize (R' ij Hij).
    destruct K as [K _]. cbn [fst snd]. split; apply D; tauto.
Qed.

Section Wf.
  Variables (m : cmesh) (n : nat) (nodes : Z -> list (nat * nat)) (g : list (Z * Z)).
  Hypothesis G : conforming m n nodes.
  Hypothesis O : faceOrder m n nodes.
  Hypothesis HG : isGlobal m n nodes g.

  Lemma bmap_wf : forall bs bm, (forall b, In b bs -> inF m (bdrFace m b)) -> isBMap m nodes g bs bm -> wfB g bm.
  Proof.
    intros bs bm Hb [E1 E2]. unfold wfB. rewrite E2, E1. clear E1 E2. induction bs as [|b t IH]; cbn [map]; constructor; [|apply IH; intros; apply Hb; right; assumption].
    cbv zeta. pose proof (Hb b (or_introl eq_refl)) as Hf.
    assert (K : isKey m (cf_e1 (faceAt m (bdrFace m b))) (bdrFace m b)) by (split; [apply (g_el1 _ _ _ G _ Hf)|apply (o_listed _ _ _ O _ Hf)]).
    assert (V : forall p, In p (range (start m nodes (cf_e1 (faceAt m (bdrFace m b))) (bdrFace m b)) (length (nodes (bdrFace m b)))) -> inR p (Z.of_nat (length g)))
      by (intros p Hp; apply (ids_valid m n nodes g G O HG _ _ p K Hp)).
    revert V. generalize (range (start m nodes (cf_e1 (faceAt m (bdrFace m b))) (bdrFace m b)) (length (nodes (bdrFace m b)))). clear. intros l V.
    induction l as [|p t IH]; cbn [map]; constructor; [split; [apply V; left; reflexivity|reflexivity]|]. apply IH. intros; apply V; right; assumption.
  Qed.

  Lemma sides_wf : forall b q M1 M2 V1 V2, inF m (bdrFace m b) -> interior m (bdrFace m b) -> isSides m nodes g b q -> wfI g M1 M2 V1 V2 ->
    wfI g (fst (fst (fst q)) :: M1) (snd (fst (fst q)) :: M2) (snd (fst q) :: V1) (snd q :: V2).
  Proof.
    intros b [[[m1 m2] v1] v2] M1 M2 V1 V2 Hf Hi S HW. cbn [fst snd]. unfold isSides in S. destruct S as [E1 [E2 [E3 F]]].
    destruct (o_listed _ _ _ O _ Hf) as [L1 L2]. specialize (L2 Hi). destruct (ends m n nodes G _ Hf Hi) as [R1 [R2 R3]].
    assert (K1 : isKey m (cf_e1 (faceAt m (bdrFace m b))) (bdrFace m b)) by (split; assumption).
    assert (K2 : isKey m (cf_e2 (faceAt m (bdrFace m b))) (bdrFace m b)) by (split; assumption).
    pose proof (Forall2_length _ _ _ F) as L. constructor; [lia|subst v1; rewrite map_length; reflexivity|subst v2; rewrite map_length; reflexivity| |exact HW].
    intros k Hk.
    assert (I1 : In (nth k m1 0) m1) by (apply nth_In; exact Hk).
    assert (V1' : inR (nth k m1 0) (Z.of_nat (length g))) by (apply (ids_valid m n nodes g G O HG _ _ _ K1); rewrite E1 in I1 at 2; exact I1).
    assert (P : start m nodes (cf_e2 (faceAt m (bdrFace m b))) (bdrFace m b) <= nth k m2 0 < start m nodes (cf_e2 (faceAt m (bdrFace m b))) (bdrFace m b) + Z.of_nat (length (nodes (bdrFace m b)))
      /\ valAt g (nth k m2 0) = swapP (valAt g (nth k m1 0))).
    { clear -F Hk. revert k Hk. induction F as [|x y l l' H F IH]; intros k Hk; [cbn in Hk; lia|]. destruct k as [|k]; [exact H|]. apply IH. cbn in Hk. lia. }
    destruct P as [P1 P2].
    assert (V2' : inR (nth k m2 0) (Z.of_nat (length g))) by (apply (ids_valid m n nodes g G O HG _ _ _ K2), range_in; exact P1).
    assert (N1 : nth k v1 0 = fst (valAt g (nth k m1 0))).
    { rewrite E2. rewrite (nth_indep _ 0 (fst (valAt g 0))) by (rewrite map_length; exact Hk). rewrite (map_nth (fun p => fst (valAt g p))). reflexivity. }
    assert (N2 : nth k v2 0 = snd (valAt g (nth k m1 0))).
    { rewrite E3. rewrite (nth_indep _ 0 (snd (valAt g 0))) by (rewrite map_length; exact Hk). rewrite (map_nth (fun p => snd (valAt g p))). reflexivity. }
    split; [exact V1'|]. split; [exact V2'|]. rewrite N1, N2. change (nth (Z.to_nat ?p) g (0, 0)) with (valAt g p). split; [apply surjective_pairing|exact P2].
  Qed.
  Lemma wfI_flip : forall M1 M2 V1 V2, wfI g M1 M2 V1 V2 -> wfI g M2 M1 V2 V1.
  Proof.
    intros M1 M2 V1 V2 H. induction H as [|m1 m2 v1 v2 M1 M2 V1 V2 L1 L2 L3 P H IH]; constructor; [congruence|congruence|congruence| |exact IH].
    intros k Hk. rewrite <- L1 in Hk. destruct (P k Hk) as [A [B [C D]]]. auto.
  Qed.
  Lemma imap_wf : forall bs im, (forall b, In b bs -> inF m (bdrFace m b) /\ interior m (bdrFace m b)) -> isIMap m nodes g bs im -> wfIB g im.
  Proof.
    intros bs im Hb [qs [-> F]]. unfold wfIB, ofQuads. cbn [mapB1 mapB2 vmapB1 vmapB2]. induction F as [|b q bs qs H F IH]; cbn [map]; [constructor|].
    destruct (Hb b (or_introl eq_refl)). apply (sides_wf b); auto. apply IH. intros; apply Hb; right; assumption.
  Qed.
  Lemma tmap_wf : forall bs im, (forall b, In b bs -> inF m (bdrFace m b) /\ interior m (bdrFace m b)) -> isTMap m nodes g bs im -> wfIB g im.
  Proof.
    intros bs im Hb [qs [-> F]]. unfold wfIB, ofQuads. cbn [mapB1 mapB2 vmapB1 vmapB2]. induction F as [|b q bs qs H F IH]; cbn [map]; [constructor|].
    destruct (Hb b (or_introl eq_refl)) as [Hf Hi]. assert (Hb' : forall b, In b bs -> inF m (bdrFace m b) /\ interior m (bdrFace m b)) by (intros; apply Hb; right; assumption).
    destruct (Rle_dec 0 (nth (Z.to_nat b) (cm_ori m) 0%R)); [apply (sides_wf b); auto|].
    destruct q as [[[m1 m2] v1] v2]. apply wfI_flip. apply (sides_wf b _ _ _ _ _ Hf Hi H). apply wfI_flip. apply (IH Hb').
  Qed.
End Wf.

Lemma wanted_in : forall m mks c bs b, In b (wanted m mks c bs) -> In b bs /\ exists mk, In mk mks /\ fst mk = c /\ isMarked (snd mk) (bdrAttr m b) = true.
Proof.
  intros m mks c bs b H. unfold wanted in H. apply in_flat_map in H as [b0 [Hb H]]. apply in_map_iff in H as [mk [<- H]]. apply filter_In in H as [Hm H].
  apply andb_true_iff in H as [H1 H2]. split; [exact Hb|]. exists mk. split; [exact Hm|]. split; [|exact H2]. destruct (fst mk), c; try discriminate; reflexivity.
Qed.

Lemma connectivities_usable : forall m n nodes bdrMk intMk tfsfMk,
  conforming m n nodes -> faceOrder m n nodes -> wfBdrs m bdrMk -> wfBdrs m intMk -> wfBdrs m tfsfMk ->
  intOk m intMk -> intOk m tfsfMk -> length (cm_ori m) = length (cm_bdr m) -> trueB m <> [] ->
  exists g s, connectivities m bdrMk intMk tfsfMk = Ok (g, s, cm_attr m) /\
    Forall (fun ab => inR (fst ab) (cm_N m) /\ inR (snd ab) (cm_N m)) g /\
    wfB g (bPEC s) /\ wfB g (bPMC s) /\ wfB g (bSMA s) /\ wfIB g (iPEC s) /\ wfIB g (iPMC s) /\ wfIB g (iSMA s) /\ wfIB g (bTFSF s).
Proof.
  intros m n nodes bdrMk intMk tfsfMk G O W1 W2 W3 I2 I3 LO TB.
  destruct (connectivities_right m n nodes bdrMk intMk tfsfMk G O W1 W2 W3 I2 I3 LO TB) as [g [s [E [HG [B1 [B2 [B3 [J1 [J2 [J3 J4]]]]]]]]]].
  exists g, s. split; [exact E|]. split; [apply (global_range m n nodes g G HG)|].
  assert (HB : forall c b, In b (wanted m bdrMk c (trueB m)) -> inF m (bdrFace m b)).
  { intros c b H. apply wanted_in in H as [H _]. apply filter_In in H as [H _]. apply in_zseq in H. apply W1. exact H. }
  assert (HI : forall c b, In b (wanted m intMk c (allB m) ++ wanted m tfsfMk c (allB m)) -> inF m (bdrFace m b) /\ interior m (bdrFace m b)).
  { intros c b H. apply in_app_or in H as [H|H]; apply wanted_in in H as [H [mk [Hm [_ Hk]]]]; apply in_zseq in H.
    - split; [apply W2; exact H|apply (I2 b mk); auto].
    - split; [apply W3; exact H|apply (I3 b mk); auto]. }
  split; [eapply bmap_wf; eauto|]. split; [eapply bmap_wf; eauto|]. split; [eapply bmap_wf; eauto|].
  split; [eapply imap_wf; eauto|]. split; [eapply imap_wf; eauto|]. split; [eapply imap_wf; eauto|]. eapply tmap_wf; eauto.
Qed.

(** ** Elements with equally sized faces *)
Lemma nth_concat_uniform : forall {A} (L : list (list A)) K e i d, Forall (fun l => length l = K) L -> (e < length L)%nat -> (i < K)%nat ->
  nth (e * K + i) (concat L) d = nth i (nth e L []) d /\ (e * K + i < length (concat L))%nat.
Proof.
  intros A L K. induction L as [|l t IH]; intros e i d F He Hi; [cbn in He; lia|]. inversion F; subst. cbn [concat]. rewrite app_length. destruct e as [|e]; cbn [nth].
  - rewrite app_nth1 by lia. cbn. split; [reflexivity|lia].
  - cbn in He. destruct (IH e i d H2) as [E L]; [lia|exact Hi|]. rewrite app_nth2 by nia. rewrite <- E. split; [f_equal; nia|nia].
Qed.
Lemma concat_length_uniform : forall {A} (L : list (list A)) K, Forall (fun l => length l = K) L -> length (concat L) = (length L * K)%nat.
Proof. intros A L K F. induction F as [|l t H F IH]; [reflexivity|]. cbn [concat length]. rewrite app_length. lia. Qed.

Lemma forall2_nth : forall (R : Z -> list (Z * Z) -> Prop) fs Bs k, Forall2 R fs Bs -> (k < length fs)%nat -> R (nth k fs 0) (nth k Bs []).
Proof.
  intros R fs Bs k F. revert k. induction F as [|x y l l' H F IH]; intros k Hl; [cbn in Hl; lia|]. destruct k as [|k]; [exact H|]. apply IH. cbn in Hl. lia.
Qed.

Lemma positions_block : forall m n nodes g nf k, conforming m n nodes -> isGlobal m n nodes g -> uniform m nodes nf k ->
  length g = (cm_ne m * (nf * k))%nat /\
  forall e lf, inR e (Z.of_nat (cm_ne m)) -> (lf < nf)%nat ->
    exists B, isBlock m n nodes e (nth lf (nth (Z.to_nat e) (cm_elface m) []) 0) B /\ length B = k /\
      forall i, (i < k)%nat -> valAt g ((e * Z.of_nat nf + Z.of_nat lf) * Z.of_nat k + Z.of_nat i) = nth i B (0, 0).
Proof.
  intros m n nodes g nf k G [blocks [-> F2]] [U1 U2].
  assert (LB : length blocks = cm_ne m) by (rewrite <- (Forall2_length _ _ _ F2); apply zseq_length).
  assert (Nth : forall e, inR e (Z.of_nat (cm_ne m)) -> Forall2 (isBlock m n nodes e) (nth (Z.to_nat e) (cm_elface m) []) (nth (Z.to_nat e) blocks [])).
  { intros e He. assert (H : forall j, (j < length (zseq (cm_ne m)))%nat ->
      Forall2 (isBlock m n nodes (nth j (zseq (cm_ne m)) 0)) (nth (Z.to_nat (nth j (zseq (cm_ne m)) 0)) (cm_elface m) []) (nth j blocks [])).
    { clear -F2. induction F2 as [|x y l l' H F IH]; intros j Hj; [cbn in Hj; lia|]. destruct j as [|j]; [exact H|]. apply IH. cbn in Hj. lia. }
    unfold inR in He. specialize (H (Z.to_nat e)). rewrite zseq_length in H. assert (Ez : nth (Z.to_nat e) (zseq (cm_ne m)) 0 = e).
    { unfold zseq. rewrite (nth_indep _ 0 (Z.of_nat 0)) by (rewrite map_length, seq_length; lia). rewrite map_nth, seq_nth by lia. lia. }
    rewrite Ez in H. apply H. lia. }
  assert (BK : forall e, inR e (Z.of_nat (cm_ne m)) -> Forall (fun B => length B = k) (nth (Z.to_nat e) blocks []) /\ length (nth (Z.to_nat e) blocks []) = nf).
  { intros e He. pose proof (Nth e He) as F. split; [|rewrite <- (Forall2_length _ _ _ F); apply U1, He].
    assert (KK : forall f, In f (nth (Z.to_nat e) (cm_elface m) []) -> isKey m e f) by (intros f Hf; split; assumption).
    revert F KK. generalize (nth (Z.to_nat e) (cm_elface m) []) (nth (Z.to_nat e) blocks []). intros fs Bs F KK.
    induction F as [|f B fs Bs H F IH]; constructor; [|apply IH; intros; apply KK; right; assumption].
    assert (K : isKey m e f) by (apply KK; left; reflexivity). rewrite (len_block m n nodes G e f B K H). apply U2. apply (key_face m n nodes G e f K). }
  assert (CK : Forall (fun l => length l = (nf * k)%nat) (map (@concat _) blocks)).
  { apply Forall_forall. intros l Hl. apply in_map_iff in Hl as [bs [<- Hbs]]. apply In_nth with (d := []) in Hbs as [j [Hj Ej]].
    assert (HR : inR (Z.of_nat j) (Z.of_nat (cm_ne m))) by (unfold inR; lia). destruct (BK _ HR) as [Q1 Q2]. rewrite Nat2Z.id, Ej in Q1, Q2.
    rewrite (concat_length_uniform _ k Q1), Q2. reflexivity. }
  split; [rewrite (concat_length_uniform _ _ CK), map_length, LB; reflexivity|].
  intros e lf He Hlf. destruct (BK e He) as [Q1 Q2]. pose proof He as He'. unfold inR in He'.
  exists (nth lf (nth (Z.to_nat e) blocks []) []). pose proof (Nth e He) as F.
  split; [apply forall2_nth; [exact F|rewrite U1; assumption]|].
  split; [rewrite Forall_forall in Q1; apply Q1, nth_In; lia|]. intros i Hi.
  assert (P1 : (lf * k + i < nf * k)%nat) by nia.
  destruct (nth_concat_uniform (map (@concat _) blocks) (nf * k) (Z.to_nat e) (lf * k + i) (0, 0) CK) as [V1 _]; [rewrite map_length; lia|exact P1|].
  change (@nil (Z * Z)) with (@concat (Z * Z) []) in V1. rewrite map_nth in V1.
  destruct (nth_concat_uniform (nth (Z.to_nat e) blocks []) k lf i (0, 0) Q1) as [V2 _]; [lia|exact Hi|].
  unfold valAt. rewrite <- V2, <- V1. f_equal. nia.
Qed.
Lemma positions_right : forall m n nodes g nf k, conforming m n nodes -> isGlobal m n nodes g -> uniform m nodes nf k ->
  length g = (cm_ne m * (nf * k))%nat /\
  forall e lf i, inR e (Z.of_nat (cm_ne m)) -> (lf < nf)%nat -> (i < k)%nat ->
    let f := nth lf (nth (Z.to_nat e) (cm_elface m) []) 0 in
    exists ij, In ij (nodes f) /\ valAt g ((e * Z.of_nat nf + Z.of_nat lf) * Z.of_nat k + Z.of_nat i) = seenFrom m n e f ij /\
      exists j, (j < n)%nat /\ fst (valAt g ((e * Z.of_nat nf + Z.of_nat lf) * Z.of_nat k + Z.of_nat i)) = gdof n e j.
Proof.
  intros m n nodes g nf k G HG U. destruct (positions_block m n nodes g nf k G HG U) as [L P]. split; [exact L|].
  intros e lf i He Hlf Hi f. destruct (P e lf He Hlf) as [B [HB [LB V]]]. fold f in HB. rewrite (V i Hi).
  assert (HIn : In (nth i B (0, 0)) B) by (apply nth_In; lia).
  apply HB in HIn as [ij [Hij E]]. exists ij. split; [exact Hij|]. split; [exact E|].
  assert (K : isKey m e f) by (split; [exact He|apply nth_In; rewrite (proj1 U); assumption]).
  destruct (own_dof m n nodes G e f ij K Hij) as [D1 D2]. exists (ownLocal m e f ij). split; [exact D2|]. rewrite E. exact D1.
Qed.

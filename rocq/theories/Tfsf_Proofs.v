(** A total-field/scattered-field run is the total field run seen with the incident field
    removed from the scattered zone. *)
From Coq Require Import ZArith List Bool Reals Lia Lra.
From Verif Require Import Common Csr_Model Csr_Spec Geo_Spec Face_Model Face_Spec Face_Proofs Setup_Model Setup_Spec Assembly_Model Assembly_Spec Assembly_Proofs Form_Model Form_Spec Form_Proofs Nodal_Spec Nodal_Proofs NodalMult_Proofs NodalEnergy_Spec NodalEnergy_Proofs Global_Spec Global_Proofs GlobalEnergy_Proofs GlobalBalance_Proofs Tfsf_Spec TfsfLil_Proofs.
Import ListNotations.
Local Open Scope R_scope.

(** Traces only see the dofs of their side. *)
Lemma t1_ext : forall N F v v' q, wfMF N F -> wfPoint (mf_face F) q -> (forall i, In i (mf_dofs1 F) -> v i = v' i) -> t1 F v q = t1 F v' q.
Proof.
  intros N F v v' q (L1 & L2 & _) (_ & Q1 & _) H. unfold t1, side1, tr. apply sumN_ext. intros i Hi. f_equal. unfold local. rewrite Nat.add_0_r.
  rewrite app_nth1 by lia. apply H. apply nth_In. lia.
Qed.
Lemma t2_ext : forall N F v v' q, wfMF N F -> wfPoint (mf_face F) q -> (forall i, In i (mf_dofs2 F) -> v i = v' i) -> t2 F v q = t2 F v' q.
Proof.
  intros N F v v' q (L1 & L2 & _) (_ & Q1 & Q2) H. unfold t2, side2. destruct (f_el2 (mf_face F)) as [n|]; [|reflexivity].
  unfold tr. apply sumN_ext. intros i Hi. f_equal. unfold local.
  rewrite app_nth2 by lia. apply H. apply nth_In. lia.
Qed.
Lemma t1_scal : forall F k v q, t1 F (fun i => k * v i) q = k * t1 F v q.
Proof. intros. unfold t1, side1, tr. rewrite <- sumN_scal. apply sumN_ext. intros i _. unfold local. ring. Qed.
Lemma t2_scal : forall F k v q, t2 F (fun i => k * v i) q = k * t2 F v q.
Proof. intros. unfold t2, side2. destruct (f_el2 (mf_face F)); [|ring]. unfold tr. rewrite <- sumN_scal. apply sumN_ext. intros i _. unfold local. ring. Qed.
Lemma t1_zero : forall F q, t1 F (fun _ => 0) q = 0.
Proof. intros. unfold t1, side1, tr. apply sumN_zero. intros i _. unfold local. ring. Qed.
Lemma t2_zero : forall F q, t2 F (fun _ => 0) q = 0.
Proof. intros. unfold t2, side2. destruct (f_el2 (mf_face F)); [|reflexivity]. unfold tr. apply sumN_zero. intros i _. unfold local. ring. Qed.

(** The product is linear. *)
Lemma csr_lin : forall (A : csr R) u p x r a b, length u = length x -> length p = length x ->
  (forall i, nth i x 0 = nth i u 0 - nth i p 0) -> csr_mult_row A u r = Ok a -> csr_mult_row A p r = Ok b -> csr_mult_row A x r = Ok (a - b).
Proof.
  intros A u p x r a b Lu Lp Hx. unfold csr_mult_row. destruct (zget_init (c_I A) r) as [lo| |]; cbn [bind]; try discriminate.
  destruct (zget_init (c_I A) (r + 1)) as [hi| |]; cbn [bind]; try discriminate.
  assert (G : forall ks aa bb a b,
    foldM (fun acc k => a <- zget_init (c_A A) (lo + k) ;; j <- zget_init (c_J A) (lo + k) ;; xj <- zget u j ;; Ok (acc + a * xj)) ks aa = Ok a ->
    foldM (fun acc k => a <- zget_init (c_A A) (lo + k) ;; j <- zget_init (c_J A) (lo + k) ;; xj <- zget p j ;; Ok (acc + a * xj)) ks bb = Ok b ->
    foldM (fun acc k => a <- zget_init (c_A A) (lo + k) ;; j <- zget_init (c_J A) (lo + k) ;; xj <- zget x j ;; Ok (acc + a * xj)) ks (aa - bb) = Ok (a - b)).
  { induction ks as [|k ks IH]; intros aa bb a0 b0; cbn [foldM]; [intros E1 E2; injection E1 as <-; injection E2 as <-; reflexivity|].
    destruct (zget_init (c_A A) (lo + k)) as [c| |]; cbn [bind]; try discriminate. destruct (zget_init (c_J A) (lo + k)) as [j| |]; cbn [bind]; try discriminate.
    destruct (zget u j) as [uj| |] eqn:Eu; cbn [bind]; try discriminate. destruct (zget p j) as [pj| |] eqn:Ep; cbn [bind]; try discriminate.
    intros E1 E2. assert (Ex : zget x j = Ok (uj - pj)).
    { unfold zget in *. destruct (j <? 0)%Z; [discriminate|]. specialize (Hx (Z.to_nat j)).
      destruct (nth_error u (Z.to_nat j)) eqn:Nu; [|discriminate]. destruct (nth_error p (Z.to_nat j)) eqn:Np; [|discriminate]. injection Eu as ->. injection Ep as ->.
      assert (Z.to_nat j < length x)%nat by (rewrite <- Lu; apply nth_error_Some; rewrite Nu; discriminate).
      rewrite (nth_error_nth' x 0 H), Hx, (nth_error_nth u _ 0 Nu), (nth_error_nth p _ 0 Np). reflexivity. }
    rewrite Ex. cbn [bind]. replace (aa - bb + c * (uj - pj)) with ((aa + c * uj) - (bb + c * pj)) by ring. apply (IH _ _ _ _ E1 E2). }
  intros E1 E2. replace 0 with (0 - 0) at 1 by ring. apply (G _ 0 0 a b E1 E2).
Qed.

Section Tfsf.
Variable N : nat.
Variable m : fmesh.
Variable dim : Z.
Variable alpha : R.
Variable gb gi : list (Z * cond).
Variable ob ib : list (cond * marker).
Variable Mass MInv D : Z -> mat.
Variable MSigma : mat.
Variable sm : marker.
Variable s : nat -> bool.
Hypothesis S : dgSpace N m dim Mass MInv D.
Hypothesis T : tables m gb gi ob ib.
Hypothesis Msm : marks (markerSize (fm_battrs m)) gi TotalFieldIn sm.
Hypothesis Sp : splits m gi s.
Notation op := (factoryRows N m dim alpha ob ib MInv D MSigma sm).
Notation fmat := (factoryMat N m dim alpha ob ib MInv D MSigma sm).
Notation kind := (faceKind m gb gi).

Definition markedb (fi : nat) : bool := match tagOf (fm_bdr m) fi with Some a => selects (Some sm) a | None => false end.
Lemma tag_rng : forall fi a, tagOf (fm_bdr m) fi = Some a -> (1 <= a <= markerSize (fm_battrs m))%Z.
Proof. destruct S as (_ & W & _). apply (tag_range N m W). Qed.
Lemma marked_surface : forall fi, markedb fi = true <-> isSurface m gi fi.
Proof.
  intros fi. unfold markedb, isSurface. destruct Msm as (L & H). destruct (tagOf (fm_bdr m) fi) as [a|] eqn:E.
  - pose proof (tag_rng fi a E) as R0. specialize (H (a - 1)%Z ltac:(lia)). replace (a - 1 + 1)%Z with a in H by lia.
    unfold selects. assert (G : forall v, zget sm (a - 1) = Ok v -> nth (Z.to_nat (a - 1)) sm 0%Z = v).
    { intros v Z1. unfold zget in Z1. destruct (a - 1 <? 0)%Z; [discriminate|]. destruct (nth_error sm (Z.to_nat (a - 1))) eqn:Ne; [|discriminate]. injection Z1 as ->. apply (nth_error_nth _ _ _ Ne). }
    destruct H as [(Z1 & In1)|(Z1 & In1)]; rewrite (G _ Z1); cbn [Z.eqb negb]; split; try discriminate.
    + intros _. exists a. split; [reflexivity|exact In1].
    + reflexivity.
    + intros (a' & Ea & Ia). injection Ea as <-. contradiction.
  - split; [discriminate|]. intros (a & Ea & _). discriminate.
Qed.
Lemma marked_kind : forall fi F, isInteriorFace F = true -> markedb fi = true -> kind fi F = None.
Proof.
  intros fi F I Mk. apply marked_surface in Mk. destruct Mk as (a & E & Ia). unfold faceKind. rewrite E.
  unfold isInteriorFace in I. destruct (f_el2 (mf_face F)); [|discriminate]. unfold kindOf. destruct T as (_ & A2 & _).
  rewrite (find_asc gi a TotalFieldIn A2 Ia). reflexivity.
Qed.

Definition OSpt (fi : nat) (F : mface) (a : Z) (v1 v2 u1 u2 : R) : R :=
  if isInteriorFace F then (if markedb fi then (u1 - u2) * ((v1 + v2) / 2) else 0) else 0.
Definition PSpt (fi : nat) (F : mface) (f : Z) (v1 v2 u1 u2 : R) : R :=
  if isInteriorFace F then (if markedb fi then alpha / 2 * ((v1 - v2) * (u1 - u2)) else 0) else 0.
Lemma src_sum : forall (k : integ) B w,
  (forall F, In F (fm_faces m) -> exists gg, integrates (mf_face F) (k (mf_face F)) gg /\
     forall v u q fi, isInteriorFace F = true -> markedb fi = true -> gg (local F v) (local F u) q = w q * B fi F (t1 F v q) (t2 F v q) (t1 F u q) (t2 F u q)) ->
  (forall fi F v1 v2 u1 u2, isInteriorFace F = false \/ markedb fi = false -> B fi F v1 v2 u1 u2 = 0) ->
  exists A, sourceForm N m k sm = Ok A /\ forall v u, mform N A v u = fsum m B w v u.
Proof.
  intros k B w Hk HB. destruct S as (_ & W & ND & _).
  destruct (source_form N m W ND k sm) as (A & E & V).
  - apply marker_size. apply Msm.
  - intros f If _. destruct (Hk f If) as (gg & (K & EK & _) & _). exists K. exact EK.
  - exists A. split; [exact E|]. intros v u. rewrite V. unfold fsum. rewrite facesum_over. apply over_ext. intros fi F EF.
    destruct (isInteriorFace F) eqn:I.
    + transitivity (if markedb fi then bil k F v u else 0); [unfold markedb; destruct (tagOf (fm_bdr m) fi); reflexivity|].
      destruct (markedb fi) eqn:Mk.
      * destruct (Hk F (face_in m fi F EF)) as (gg & Ig & Vg). rewrite (bil_of k F gg Ig). apply suml_ext. intros q _. f_equal. exact (Vg v u q fi I Mk).
      * symmetry. apply suml_zero. intros q _. rewrite HB by (right; exact Mk). ring.
    + symmetry. apply suml_zero. intros q _. rewrite HB by (left; exact I). ring.
Qed.

Lemma srcZ : exists A, sourceForm N m (zeroNormalJump alpha) sm = Ok A /\ forall v u, mform N A v u = fsum m (fun fi F => PSpt fi F 0) (fun _ => 1) v u.
Proof.
  apply src_sum.
  - intros F I. exists (fun v u q => alpha / 2 * (jump (mf_face F) v q * jump (mf_face F) u q)). split; [apply (zero_value (mf_face F) (faces_wf N m dim Mass MInv D S F I))|].
    intros v u q fi II Mk. unfold PSpt. rewrite II, Mk. unfold jump, t1, t2. ring.
  - intros fi F v1 v2 u1 u2 [H|H]; unfold PSpt; rewrite H; [reflexivity|destruct (isInteriorFace F); reflexivity].
Qed.
Lemma srcO : forall k, (k < 3)%nat -> exists A, sourceForm N m (oneNormalJump [k] 1) sm = Ok A /\ forall v u, mform N A v u = fsum m (fun fi F => OSpt fi F 0) (fun q => unitN q k) v u.
Proof.
  intros k Hk. apply src_sum.
  - intros F I. exists (fun v u q => 1 * (unitN q k * jump (mf_face F) u q * avg (mf_face F) v q)). split; [apply (one_value (mf_face F) (faces_wf N m dim Mass MInv D S F I) k 1 Hk)|].
    intros v u q fi II Mk. unfold OSpt. rewrite II, Mk. unfold jump, avg, t1, t2. ring.
  - intros fi F v1 v2 u1 u2 [H|H]; unfold OSpt; rewrite H; [reflexivity|destruct (isInteriorFace F); reflexivity].
Qed.
Lemma srcT : forall k l, (k < 3)%nat -> (l < 3)%nat -> exists A, sourceForm N m (twoNormalJump [k; l] alpha) sm = Ok A /\ forall v u, mform N A v u = fsum m (fun fi F => PSpt fi F 0) (fun q => unitN q k * unitN q l) v u.
Proof.
  intros k l Hk Hl. apply src_sum.
  - intros F I. exists (fun v u q => alpha / 2 * (unitN q k * unitN q l * jump (mf_face F) v q * jump (mf_face F) u q)). split; [apply (two_value (mf_face F) (faces_wf N m dim Mass MInv D S F I) k l alpha Hk Hl)|].
    intros v u q fi II Mk. unfold PSpt. rewrite II, Mk. unfold jump, t1, t2. ring.
  - intros fi F v1 v2 u1 u2 [H|H]; unfold PSpt; rewrite H; [reflexivity|destruct (isInteriorFace F); reflexivity].
Qed.
Section SrcRows.
Variable g : list R.
Variable tw : Z -> Z -> nat -> R.
Notation ap := (app op (Z.of_nat N) 0).
Lemma src_rows : forall f d, (f = 0 \/ f = 1)%Z -> (0 <= d < 3)%Z ->
  mform N (Mass f) (tw f d) (fun i => jump_term op dim (Z.of_nat N) 0 OpSourceOneNormal g f d i + penalty_term op dim (Z.of_nat N) 0 OpSourceZeroNormal OpSourceTwoNormal g f d i) =
  facesum m (fun fi F q => rowJump N g tw OSpt f d fi F q + rowPen N g tw PSpt f d fi F q).
Proof.
  intros f d Hf Hd. rewrite mform_plus, facesum_plus. f_equal.
  - apply (jump_rows N m dim alpha ob ib Mass MInv D MSigma sm g tw OpSourceOneNormal OSpt f d Hf Hd).
    intros k v f' d' Hk. rewrite if_form. destruct (k <? dim)%Z eqn:K.
    + destruct (srcO (Z.to_nat k) ltac:(lia)) as (A & E & V). change (fun fi F => OSpt fi F (1 - f)) with (fun fi F => OSpt fi F 0). rewrite <- V.
      apply (op_form N m dim alpha ob ib Mass MInv D MSigma sm S g _ f A); [exact Hf|]. cbn [factoryMat]. rewrite E. reflexivity.
    + symmetry. apply fsum_zero. intros fi F q EF I. apply (norm_zero N m dim Mass MInv D S fi F q k EF I); [lia|exact K].
  - apply (pen_rows N m dim alpha ob ib Mass MInv D MSigma sm S g tw OpSourceZeroNormal OpSourceTwoNormal PSpt f d Hf Hd).
    + intros v f' d'. destruct srcZ as (A & E & V). change (fun fi F => PSpt fi F f) with (fun fi F => PSpt fi F 0). rewrite <- V.
      apply (op_form N m dim alpha ob ib Mass MInv D MSigma sm S g _ f A); [exact Hf|]. cbn [factoryMat]. rewrite E. reflexivity.
    + intros l v f' d' Hl. rewrite if_form. destruct (l <? dim)%Z eqn:K.
      * destruct (srcT (Z.to_nat d) (Z.to_nat l) ltac:(lia) ltac:(lia)) as (A & E & V). change (fun fi F => PSpt fi F f) with (fun fi F => PSpt fi F 0). rewrite <- V.
        apply (op_form N m dim alpha ob ib Mass MInv D MSigma sm S g _ f A); [exact Hf|]. cbn [factoryMat]. rewrite E. reflexivity.
      * symmetry. apply fsum_zero. intros fi F q EF I. rewrite (norm_zero N m dim Mass MInv D S fi F q l EF I); [ring|lia|exact K].
Qed.
End SrcRows.

Lemma zone_form : forall (b : bool) M v w, zonal N s M -> (forall i, (i < N)%nat -> s i <> b -> v i = 0) -> (forall i, (i < N)%nat -> s i = b -> w i = 0) -> mform N M v w = 0.
Proof.
  intros b M v w Z0 Hv Hw. unfold mform. apply sumN_zero. intros i Hi. apply sumN_zero. intros j Hj.
  destruct (bool_dec (s i) b) as [E|E]; [|rewrite (Hv i Hi E); ring]. destruct (bool_dec (s j) b) as [E'|E']; [rewrite (Hw j Hj E'); ring|].
  rewrite (Z0 i j Hi Hj) by congruence. ring.
Qed.
Hypothesis Zd : forall d, (0 <= d < dim)%Z -> zonal N s (D d).
Hypothesis Zs : zonal N s MSigma.
Definition sg (b : bool) : R := if b then -1 else 1.
Lemma cross : forall (b : bool) tw p inc g f d,
  (forall f d i, (0 <= f <= 1)%Z -> (0 <= d <= 2)%Z -> (i < N)%nat -> s i <> b -> tw f d i = 0) ->
  (forall f d i, (0 <= f <= 1)%Z -> (0 <= d <= 2)%Z -> (i < N)%nat -> fld N p f d i = if Bool.eqb (s i) b then 0 else fld N inc f d i) ->
  continuous m gi N inc -> halved m gi N s inc g -> (f = 0 \/ f = 1)%Z -> (0 <= d < 3)%Z ->
  curlForm N dim D p tw f d + facesum m (rowPoint N m alpha gb gi p tw f d) + (if (f =? 0)%Z then - mform N MSigma (tw 0%Z d) (fld N p 0 d) else 0) =
  sg b * facesum m (fun fi F q => rowJump N g tw OSpt f d fi F q + rowPen N g tw PSpt f d fi F q).
Proof.
  intros b tw p inc g f d Htw Hp Hc Hg Hf Hd.
  assert (P0 : forall f d i, (0 <= f <= 1)%Z -> (0 <= d <= 2)%Z -> (i < N)%nat -> s i = b -> fld N p f d i = 0).
  { intros f' d' i H1 H2 H3 E. rewrite Hp by assumption. rewrite E, eqb_reflx. reflexivity. }
  assert (P1 : forall f d i, (0 <= f <= 1)%Z -> (0 <= d <= 2)%Z -> (i < N)%nat -> s i <> b -> fld N p f d i = fld N inc f d i).
  { intros f' d' i H1 H2 H3 E. rewrite Hp by assumption. replace (Bool.eqb (s i) b) with false; [reflexivity|]. symmetry. apply eqb_false_iff. exact E. }
  assert (C0 : curlForm N dim D p tw f d = 0).
  { unfold curlForm. cbv zeta. assert (B1 : (0 <= (d + 1) mod 3 < 3)%Z) by (apply Z.mod_pos_bound; lia). assert (B2 : (0 <= (d + 2) mod 3 < 3)%Z) by (apply Z.mod_pos_bound; lia).
    assert (DF : forall k d', (0 <= k < 3)%Z -> (0 <= d' < 3)%Z -> dform N dim D k (tw f d) (fld N p (1 - f) d') = 0).
    { intros k d' Hk Hd'. unfold dform. destruct (k <? dim)%Z eqn:K; [|reflexivity]. apply Z.ltb_lt in K. apply (zone_form b); [apply Zd; lia|intros i Hi Hs; apply Htw; (assumption || lia)|intros i Hi Hs; apply P0; (assumption || lia)]. }
    rewrite !DF by assumption. ring. }
  assert (S0 : mform N MSigma (tw 0%Z d) (fld N p 0 d) = 0).
  { apply (zone_form b); [exact Zs|intros i Hi Hs; apply Htw; (assumption || lia)|intros i Hi Hs; apply P0; (assumption || lia)]. }
  rewrite C0, S0. replace (if (f =? 0)%Z then - 0 else 0) with 0 by (destruct (f =? 0)%Z; ring).
  rewrite Rplus_0_l, Rplus_0_r, <- facesum_scal. apply facesum_ext. intros fi F q EF Iq.
  pose proof S as (_ & (WM & _) & _). rewrite Forall_forall in WM. pose proof (face_in m fi F EF) as IF. specialize (WM F IF).
  pose proof (faces_wf N m dim Mass MInv D S F IF) as WF. unfold wfFace in WF. rewrite Forall_forall in WF. specialize (WF q Iq).
  pose proof WM as (_ & _ & WD). rewrite Forall_forall in WD.
  assert (DL1 : forall i, In i (mf_dofs1 F) -> (i < N)%nat) by (intros i I; apply WD; apply in_or_app; left; exact I).
  assert (DL2 : forall i, In i (mf_dofs2 F) -> (i < N)%nat) by (intros i I; apply WD; apply in_or_app; right; exact I).
  destruct (Sp fi F EF) as (s1 & s2 & H1 & H2 & H12).
  assert (V1 : s1 <> b -> forall f d, (0 <= f <= 1)%Z -> (0 <= d <= 2)%Z -> t1 F (tw f d) q = 0).
  { intros X f' d' Y1 Y2. rewrite <- (t1_zero F q). apply (t1_ext N F _ _ q WM WF). intros i I. apply Htw; auto. rewrite (H1 i I). exact X. }
  assert (V2 : s2 <> b -> forall f d, (0 <= f <= 1)%Z -> (0 <= d <= 2)%Z -> t2 F (tw f d) q = 0).
  { intros X f' d' Y1 Y2. rewrite <- (t2_zero F q). apply (t2_ext N F _ _ q WM WF). intros i I. apply Htw; auto. rewrite (H2 i I). exact X. }
  assert (U1 : s1 = b -> forall f d, (0 <= f <= 1)%Z -> (0 <= d <= 2)%Z -> t1 F (fld N p f d) q = 0).
  { intros X f' d' Y1 Y2. rewrite <- (t1_zero F q). apply (t1_ext N F _ _ q WM WF). intros i I. apply P0; auto. rewrite (H1 i I). exact X. }
  assert (U2 : s2 = b -> forall f d, (0 <= f <= 1)%Z -> (0 <= d <= 2)%Z -> t2 F (fld N p f d) q = 0).
  { intros X f' d' Y1 Y2. rewrite <- (t2_zero F q). apply (t2_ext N F _ _ q WM WF). intros i I. apply P0; auto. rewrite (H2 i I). exact X. }
  destruct (isInteriorFace F) eqn:II.
  - assert (EL : f_el2 (mf_face F) <> None) by (unfold isInteriorFace in II; destruct (f_el2 (mf_face F)); [discriminate|discriminate]).
    specialize (H12 EL). destruct (bool_dec s1 s2) as [Es|Es].
    + assert (Mk : markedb fi = false). { apply not_true_is_false. intros X. apply marked_surface in X. apply H12 in X. contradiction. }
      unfold rowPoint, rowJump, rowPen, OSpt, PSpt, Opt, Ppt, OIpt, PIpt. rewrite II, Mk. cbv zeta.
      destruct Hf as [->| ->]; (assert (d = 0 \/ d = 1 \/ d = 2)%Z as [->|[->| ->]] by lia);
      repeat match goal with |- context [((?a) mod 3)%Z] => let v := eval compute in (a mod 3)%Z in change (a mod 3)%Z with v end;
      change (1 - 0)%Z with 1%Z; change (1 - 1)%Z with 0%Z;
      (destruct (bool_dec s1 b) as [Eb|Eb];
        [assert (Eb2 : s2 = b) by congruence; rewrite !(U1 Eb), !(U2 Eb2) by lia
        |assert (Eb2 : s2 <> b) by congruence; rewrite !(V1 Eb), !(V2 Eb2) by lia]);
      (destruct (kind fi F) as [[]|]; field).
    + assert (Mk : markedb fi = true) by (apply marked_surface; apply H12; exact Es).
      pose proof (proj1 (marked_surface fi) Mk) as Sf. pose proof (marked_kind fi F II Mk) as Kn.
      assert (CC : forall f d, (0 <= f <= 1)%Z -> (0 <= d <= 2)%Z -> t1 F (fld N inc f d) q = t2 F (fld N inc f d) q) by (intros; apply (Hc fi F q); assumption).
      assert (G1 : forall f d, (0 <= f <= 1)%Z -> (0 <= d <= 2)%Z -> t1 F (fld N g f d) q = (if s1 then / 2 else - / 2) * t1 F (fld N inc f d) q).
      { intros f' d' Y1 Y2. rewrite <- t1_scal. apply (t1_ext N F _ _ q WM WF). intros i I. rewrite (Hg fi F f' d' i EF EL Sf) by (try assumption; apply in_or_app; left; exact I). rewrite (H1 i I). reflexivity. }
      assert (G2 : forall f d, (0 <= f <= 1)%Z -> (0 <= d <= 2)%Z -> t2 F (fld N g f d) q = (if s2 then / 2 else - / 2) * t2 F (fld N inc f d) q).
      { intros f' d' Y1 Y2. rewrite <- t2_scal. apply (t2_ext N F _ _ q WM WF). intros i I. rewrite (Hg fi F f' d' i EF EL Sf) by (try assumption; apply in_or_app; right; exact I). rewrite (H2 i I). reflexivity. }
      assert (Q1 : s1 <> b -> forall f d, (0 <= f <= 1)%Z -> (0 <= d <= 2)%Z -> t1 F (fld N p f d) q = t1 F (fld N inc f d) q).
      { intros X f' d' Y1 Y2. apply (t1_ext N F _ _ q WM WF). intros i I. apply P1; auto. rewrite (H1 i I). exact X. }
      assert (Q2 : s2 <> b -> forall f d, (0 <= f <= 1)%Z -> (0 <= d <= 2)%Z -> t2 F (fld N p f d) q = t2 F (fld N inc f d) q).
      { intros X f' d' Y1 Y2. apply (t2_ext N F _ _ q WM WF). intros i I. apply P1; auto. rewrite (H2 i I). exact X. }
      unfold rowPoint, rowJump, rowPen, OSpt, PSpt, Opt, Ppt, OIpt, PIpt. rewrite II, Mk, Kn. cbv zeta.
      destruct Hf as [->| ->]; (assert (d = 0 \/ d = 1 \/ d = 2)%Z as [->|[->| ->]] by lia);
      repeat match goal with |- context [((?a) mod 3)%Z] => let v := eval compute in (a mod 3)%Z in change (a mod 3)%Z with v end;
      change (1 - 0)%Z with 1%Z; change (1 - 1)%Z with 0%Z;
      rewrite !G1, !G2 by lia;
      (destruct (bool_dec s1 b) as [Eb|Eb];
        [assert (Eb2 : s2 <> b) by congruence; rewrite !(U1 Eb), !(Q2 Eb2), !(V2 Eb2), !CC by lia
        |assert (Eb2 : s2 = b) by (destruct s1, s2, b; congruence); rewrite !(Q1 Eb), !(U2 Eb2), !(V1 Eb), !CC by lia]);
      unfold sg; destruct s1, s2, b; try congruence; cbv iota; field.
  - assert (O2 : forall v, t2 F v q = 0) by (intros v; apply outer_side2; exact II).
    unfold rowPoint, rowJump, rowPen, OSpt, PSpt, Opt, Ppt, OIpt, PIpt. rewrite II. cbv zeta. rewrite !O2.
    destruct Hf as [->| ->]; (assert (d = 0 \/ d = 1 \/ d = 2)%Z as [->|[->| ->]] by lia);
      repeat match goal with |- context [((?a) mod 3)%Z] => let v := eval compute in (a mod 3)%Z in change (a mod 3)%Z with v end;
      change (1 - 0)%Z with 1%Z; change (1 - 1)%Z with 0%Z;
      (destruct (bool_dec s1 b) as [Eb|Eb]; [rewrite !(U1 Eb) by lia|rewrite !(V1 Eb) by lia]);
      (destruct (kind fi F) as [c|]; field).
Qed.
End Tfsf.

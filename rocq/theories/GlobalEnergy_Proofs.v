(** The energy balance of the assembled operator. *)
From Coq Require Import ZArith List Bool Reals Lia Lra.
From Verif Require Import Common Geo_Spec Csr_Model Csr_Spec Face_Model Face_Spec Face_Proofs Setup_Model Setup_Spec Assembly_Model Assembly_Spec Assembly_Proofs Form_Model Form_Spec Form_Proofs Nodal_Spec Nodal_Proofs NodalMult_Proofs NodalEnergy_Spec NodalEnergy_Proofs Global_Spec Global_Proofs.
Import ListNotations.
Local Open Scope R_scope.

(** ** Forms *)
Lemma mform_plus : forall n M v a b, mform n M v (fun i => a i + b i) = mform n M v a + mform n M v b.
Proof. intros. unfold mform. rewrite <- sumN_plus. apply sumN_ext. intros i _. rewrite <- sumN_plus. apply sumN_ext. intros. ring. Qed.
Lemma mform_scal : forall n M v c a, mform n M v (fun i => c * a i) = c * mform n M v a.
Proof. intros. unfold mform. rewrite <- sumN_scal. apply sumN_ext. intros i _. rewrite <- sumN_scal. apply sumN_ext. intros. ring. Qed.
Lemma mform_ext : forall n M v a b, (forall i, (i < n)%nat -> a i = b i) -> mform n M v a = mform n M v b.
Proof. intros n M v a b H. unfold mform. apply sumN_ext. intros i _. apply sumN_ext. intros j Hj. rewrite (H j Hj). reflexivity. Qed.
Lemma mform_null : forall n M v, mform n M v (fun _ => 0) = 0.
Proof. intros. unfold mform. apply sumN_zero. intros. apply sumN_zero. intros. ring. Qed.
Lemma sumN_swap : forall n k (f : nat -> nat -> R), sumN n (fun i => sumN k (f i)) = sumN k (fun j => sumN n (fun i => f i j)).
Proof. intros. rewrite !suml_sumN. transitivity (suml (fun i => suml (f i) (seq 0 k)) (seq 0 n)); [reflexivity|]. rewrite suml_swap. reflexivity. Qed.
Lemma mass_mul : forall N Ms Mi A v u,
  (forall i j, (i < N)%nat -> (j < N)%nat -> sumN N (fun k => Ms i k * Mi k j) = if (i =? j)%nat then 1 else 0) ->
  mform N Ms v (fun i => sumN N (fun k => mmul N Mi A i k * u k)) = mform N A v u.
Proof.
  intros N Ms Mi A v u H. unfold mform. apply sumN_ext. intros i Hi.
  transitivity (sumN N (fun p => sumN N (fun l => sumN N (fun j => v i * (Ms i j * Mi j p) * (A p l * u l))))).
  - transitivity (sumN N (fun j => sumN N (fun l => sumN N (fun p => v i * (Ms i j * Mi j p) * (A p l * u l))))).
    + apply sumN_ext. intros j _. rewrite <- sumN_scal. apply sumN_ext. intros l _. unfold mmul.
      change (fold_right Rplus 0 (map (fun k => Mi j k * A k l) (seq 0 N))) with (sumN N (fun k => Mi j k * A k l)).
      replace (v i * Ms i j * (sumN N (fun k => Mi j k * A k l) * u l)) with (v i * Ms i j * u l * sumN N (fun k => Mi j k * A k l)) by ring.
      rewrite <- sumN_scal. apply sumN_ext. intros. ring.
    + transitivity (sumN N (fun j => sumN N (fun p => sumN N (fun l => v i * (Ms i j * Mi j p) * (A p l * u l))))).
      * apply sumN_ext. intros j _. apply sumN_swap.
      * rewrite sumN_swap. apply sumN_ext. intros p _. apply sumN_swap.
  - rewrite <- (sumN_delta N i (fun p => sumN N (fun l => v i * A p l * u l)) Hi). apply sumN_ext. intros p Hp.
    transitivity (sumN N (fun l => (if (p =? i)%nat then 1 else 0) * (v i * A p l * u l))).
    + apply sumN_ext. intros l _. transitivity (v i * A p l * u l * sumN N (fun j => Ms i j * Mi j p)).
      * rewrite <- sumN_scal. apply sumN_ext. intros. ring.
      * rewrite (H i p Hi Hp), (Nat.eqb_sym i p). ring.
    + destruct (p =? i)%nat; [apply sumN_ext; intros; ring|apply sumN_zero; intros; ring].
Qed.

(** ** Sums over faces *)
Section FaceSums.
Variable m : fmesh.
Lemma facesum_over : forall h, facesum m h = over m (fun fi f => suml (fun q => ds q * h fi f q) (f_pts (mf_face f))).
Proof. reflexivity. Qed.
Lemma facesum_ext : forall h h', (forall fi f q, nth_error (fm_faces m) fi = Some f -> In q (f_pts (mf_face f)) -> h fi f q = h' fi f q) -> facesum m h = facesum m h'.
Proof. intros h h' H. rewrite !facesum_over. apply over_ext. intros fi f E. apply suml_ext. intros q I. rewrite (H fi f q E I). reflexivity. Qed.
Lemma facesum_plus : forall h h', facesum m (fun fi f q => h fi f q + h' fi f q) = facesum m h + facesum m h'.
Proof.
  intros. rewrite !facesum_over, <- over_plus. apply over_ext. intros fi f _. rewrite <- suml_plus. apply suml_ext. intros. ring.
Qed.
Lemma facesum_scal : forall c h, facesum m (fun fi f q => c * h fi f q) = c * facesum m h.
Proof.
  intros. unfold facesum. rewrite <- suml_scal. apply suml_ext. intros fi _. destruct (nth_error (fm_faces m) fi); [|ring].
  rewrite <- suml_scal. apply suml_ext. intros. ring.
Qed.
Lemma facesum_zero : forall h, (forall fi f q, nth_error (fm_faces m) fi = Some f -> In q (f_pts (mf_face f)) -> h fi f q = 0) -> facesum m h = 0.
Proof.
  intros h H. unfold facesum. apply suml_zero. intros fi _. destruct (nth_error (fm_faces m) fi) as [f|] eqn:E; [|reflexivity].
  apply suml_zero. intros q I. rewrite (H fi f q E I). ring.
Qed.
End FaceSums.

(** ** Values of the sub-operators *)
Definition cf (c : cond) (f : Z) : R :=
  match c with PEC => if (f =? 0)%Z then 2 else 0 | PMC => if (f =? 0)%Z then 0 else 2 | SMA | SGBC => 1 | _ => 0 end.
Definition pf (alpha : R) (c : cond) (f : Z) : R := match c with SMA => 1 | _ => cf c f * alpha end.
Lemma coeff_ok : forall alpha c f, mapped c -> (f = 0 \/ f = 1)%Z -> coeffAt alpha c f = Ok (cf c f).
Proof.
  intros alpha c f Mc [->| ->]; unfold coeffAt, bdrCoeffCheck; destruct (Req_EM_T alpha 0); destruct Mc as [->|[->|[->| ->]]]; reflexivity.
Qed.

Section Energy.
Variable N : nat.
Variable m : fmesh.
Variable dim : Z.
Variable alpha : R.
Variable gb gi : list (Z * cond).
Variable ob ib : list (cond * marker).
Variable Mass MInv D : Z -> mat.
Variable MSigma : mat.
Variable sm : marker.
Hypothesis S : dgSpace N m dim Mass MInv D.
Hypothesis T : tables m gb gi ob ib.

Notation op := (factoryRows N m dim alpha ob ib MInv D MSigma sm).
Notation fmat := (factoryMat N m dim alpha ob ib MInv D MSigma sm).
Notation kind := (faceKind m gb gi).

Lemma faces_wf : forall f, In f (fm_faces m) -> wfFace (mf_face f).
Proof. intros f I. destruct S as (_ & _ & _ & F & _). rewrite Forall_forall in F. apply (F f I). Qed.
Lemma face_in : forall fi f, nth_error (fm_faces m) fi = Some f -> In f (fm_faces m).
Proof. intros fi f E. apply (nth_error_In _ _ E). Qed.

Definition t1 (F : mface) (v : nat -> R) (q : qpoint) : R := side1 (mf_face F) (local F v) q.
Definition t2 (F : mface) (v : nat -> R) (q : qpoint) : R := side2 (mf_face F) (local F v) q.

Lemma bil_of : forall (k : integ) F g, integrates (mf_face F) (k (mf_face F)) g -> forall v u, bil k F v u = suml (fun q => ds q * g (local F v) (local F u) q) (f_pts (mf_face F)).
Proof. intros k F g (M & E & V) v u. unfold bil. rewrite E. apply V. Qed.

(** Point values: plain faces and boundaries, then interior boundaries. *)
Definition Opt (fi : nat) (F : mface) (a : Z) (v1 v2 u1 u2 : R) : R :=
  if isInteriorFace F then match kind fi F with None => (u1 - u2) * ((v1 + v2) / 2) | Some _ => 0 end
  else match kind fi F with Some c => cf c a * ((u1 - u2) * ((v1 + v2) / 2)) | None => 0 end.
Definition Ppt (fi : nat) (F : mface) (f : Z) (v1 v2 u1 u2 : R) : R :=
  if isInteriorFace F then match kind fi F with None => alpha / 2 * ((v1 - v2) * (u1 - u2)) | Some _ => 0 end
  else match kind fi F with Some c => pf alpha c f / 2 * ((v1 - v2) * (u1 - u2)) | None => 0 end.
Definition OIpt (fi : nat) (F : mface) (a : Z) (v1 v2 u1 u2 : R) : R :=
  if isInteriorFace F then match kind fi F with Some SGBC => 0 | Some c => cf c a / 2 * (v1 * u1 - v2 * u2) | None => 0 end else 0.
Definition PIpt (fi : nat) (F : mface) (f : Z) (v1 v2 u1 u2 : R) : R :=
  if isInteriorFace F then match kind fi F with Some SGBC => 0 | Some c => pf alpha c f / 2 * (v1 * u1 + v2 * u2) | None => 0 end else 0.
Definition fsum (B : nat -> mface -> R -> R -> R -> R -> R) (w : qpoint -> R) (v u : nat -> R) : R :=
  facesum m (fun fi F q => w q * B fi F (t1 F v q) (t2 F v q) (t1 F u q) (t2 F u q)).

Ltac fin := first [assumption | reflexivity | lia].
Lemma zero_sum : forall f, (f = 0 \/ f = 1)%Z -> exists A, buildZeroNormalSubOperator N m alpha ob ib f = Ok A /\
  forall v u, mform N A v u = fsum (fun fi F => Ppt fi F f) (fun _ => 1) v u.
Proof.
  intros f Hf. destruct S as (_ & W & ND & _). unfold buildZeroNormalSubOperator.
  destruct (face_form N m gb gi ob ib W ND T zeroNormalJump alpha (fun c => v <- coeffAt alpha c f ;; Ok (v * alpha)) (fun c => pf alpha c f)) as (A & E & V).
  - intros c F I. destruct (zero_value (mf_face F) (faces_wf F I) c) as (K & E & _). exists K. exact E.
  - intros c Mc. rewrite (coeff_ok alpha c f Mc Hf). destruct Mc as [->|[->|[->| ->]]]; reflexivity.
  - exists A. split; [exact E|]. intros v u. rewrite V. unfold fsum. rewrite facesum_over. apply over_ext. intros fi F EF. pose proof (faces_wf F (face_in fi F EF)) as WF.
    unfold Ppt. destruct (isInteriorFace F), (kind fi F);
      try (rewrite (bil_of _ F _ (zero_value (mf_face F) WF _)); apply suml_ext; intros q _; unfold jump, t1, t2; ring);
      symmetry; apply suml_zero; intros; ring.
Qed.
Lemma one_sum : forall f k, (f = 0 \/ f = 1)%Z -> (k < 3)%nat -> exists A, buildOneNormalSubOperator N m alpha ob ib f [k] = Ok A /\
  forall v u, mform N A v u = fsum (fun fi F => Opt fi F f) (fun q => unitN q k) v u.
Proof.
  intros f k Hf Hk. destruct S as (_ & W & ND & _). unfold buildOneNormalSubOperator.
  destruct (face_form N m gb gi ob ib W ND T (oneNormalJump [k]) 1 (fun c => coeffAt alpha c f) (fun c => cf c f)) as (A & E & V).
  - intros c F I. destruct (one_value (mf_face F) (faces_wf F I) k c Hk) as (K & E & _). exists K. exact E.
  - intros c Mc. rewrite (coeff_ok alpha c f Mc Hf). destruct Mc as [->|[->|[->| ->]]]; reflexivity.
  - exists A. split; [exact E|]. intros v u. rewrite V. unfold fsum. rewrite facesum_over. apply over_ext. intros fi F EF. pose proof (faces_wf F (face_in fi F EF)) as WF.
    unfold Opt. destruct (isInteriorFace F), (kind fi F);
      try (rewrite (bil_of _ F _ (one_value (mf_face F) WF k _ Hk)); apply suml_ext; intros q _; unfold jump, avg, t1, t2; ring);
      symmetry; apply suml_zero; intros; ring.
Qed.
Lemma two_sum : forall f k l, (f = 0 \/ f = 1)%Z -> (k < 3)%nat -> (l < 3)%nat -> exists A, buildTwoNormalSubOperator N m alpha ob ib f [k; l] = Ok A /\
  forall v u, mform N A v u = fsum (fun fi F => Ppt fi F f) (fun q => unitN q k * unitN q l) v u.
Proof.
  intros f k l Hf Hk Hl. destruct S as (_ & W & ND & _). unfold buildTwoNormalSubOperator.
  destruct (face_form N m gb gi ob ib W ND T (twoNormalJump [k; l]) alpha (fun c => v <- coeffAt alpha c f ;; Ok (v * alpha)) (fun c => pf alpha c f)) as (A & E & V).
  - intros c F I. destruct (two_value (mf_face F) (faces_wf F I) k l c Hk Hl) as (K & E & _). exists K. exact E.
  - intros c Mc. rewrite (coeff_ok alpha c f Mc Hf). destruct Mc as [->|[->|[->| ->]]]; reflexivity.
  - exists A. split; [exact E|]. intros v u. rewrite V. unfold fsum. rewrite facesum_over. apply over_ext. intros fi F EF. pose proof (faces_wf F (face_in fi F EF)) as WF.
    unfold Ppt. destruct (isInteriorFace F), (kind fi F);
      try (rewrite (bil_of _ F _ (two_value (mf_face F) WF k l _ Hk Hl)); apply suml_ext; intros q _; unfold jump, t1, t2; ring);
      symmetry; apply suml_zero; intros; ring.
Qed.
Lemma int_some : forall F, isInteriorFace F = true -> f_el2 (mf_face F) <> None.
Proof. intros F H. unfold isInteriorFace in H. destruct (f_el2 (mf_face F)); [discriminate|discriminate]. Qed.
Lemma dirs_ok : forall dirs, Forall (fun d => (d < 3)%nat) dirs -> (length dirs <= 2)%nat -> intOk m (interiorJump dirs).
Proof. intros dirs H1 H2 c F I II. destruct (interior_value (mf_face F) (faces_wf F I) dirs c (int_some F II) H1 H2) as (K & E & _). exists K. exact E. Qed.
Lemma ibfi_sum : forall k' dirs coeff co, Forall (fun d => (d < 3)%nat) dirs -> (length dirs <= 2)%nat ->
  (forall c, c = PEC \/ c = PMC -> coeff c = Ok (co c)) -> co SMA = 1 ->
  exists A, ibfiForm N m ib (interiorJump dirs) k' coeff = Ok A /\
  forall v u, mform N A v u = fsum (fun fi F v1 v2 u1 u2 => if isInteriorFace F then match kind fi F with Some SGBC => 0 | Some c => co c / 2 * (v1 * u1 + flip dirs * (v2 * u2)) | None => 0 end else 0)
    (normals dirs) v u.
Proof.
  intros k' dirs coeff co H1 H2 Hc Hs. destruct S as (_ & W & ND & _).
  destruct (ibfi_form N m gb gi ob ib W ND T (interiorJump dirs) k' coeff co (dirs_ok dirs H1 H2) Hc Hs) as (A & E & V).
  exists A. split; [exact E|]. intros v u. rewrite V. unfold fsum. rewrite facesum_over. apply over_ext. intros fi F EF. pose proof (faces_wf F (face_in fi F EF)) as WF.
  destruct (isInteriorFace F) eqn:I; [|symmetry; apply suml_zero; intros; ring].
  destruct (kind fi F) as [[]|]; try (symmetry; apply suml_zero; intros; ring);
    rewrite (bil_of _ F _ (interior_value (mf_face F) WF dirs _ (int_some F I) H1 H2)); apply suml_ext; intros q _; unfold t1, t2; field.
Qed.
Lemma fsum_ext : forall B B' w w' v u, (forall fi F v1 v2 u1 u2, B fi F v1 v2 u1 u2 = B' fi F v1 v2 u1 u2) -> (forall q, w q = w' q) -> fsum B w v u = fsum B' w' v u.
Proof. intros B B' w w' v u H H'. unfold fsum. apply facesum_ext. intros. rewrite H, H'. reflexivity. Qed.
Ltac conv E V := eexists; split; [exact E|]; intros v u; rewrite V; apply fsum_ext;
  [intros fi F v1 v2 u1 u2; unfold PIpt, OIpt, pf; destruct (isInteriorFace F); [|reflexivity]; destruct (kind fi F) as [[]|]; cbn [flip]; try reflexivity; field
  |intros q; unfold normals; cbn [fold_right]; ring].
Lemma zeroI_sum : forall f, (f = 0 \/ f = 1)%Z -> exists A, buildZeroNormalIBFISubOperator N m alpha ib f = Ok A /\
  forall v u, mform N A v u = fsum (fun fi F => PIpt fi F f) (fun _ => 1) v u.
Proof.
  intros f Hf. unfold buildZeroNormalIBFISubOperator.
  destruct (ibfi_sum zeroNormalJump [] (fun c => v <- coeffAt alpha c f ;; Ok (v * alpha)) (fun c => pf alpha c f)) as (A & E & V);
    [constructor|cbn; lia|intros c Hc; rewrite (coeff_ok alpha c f) by (try exact Hf; unfold mapped; tauto); destruct Hc as [->| ->]; reflexivity|reflexivity|].
  conv E V.
Qed.
Lemma oneI_sum : forall f k, (f = 0 \/ f = 1)%Z -> (k < 3)%nat -> exists A, buildOneNormalIBFISubOperator N m alpha ib f [k] = Ok A /\
  forall v u, mform N A v u = fsum (fun fi F => OIpt fi F f) (fun q => unitN q k) v u.
Proof.
  intros f k Hf Hk. unfold buildOneNormalIBFISubOperator.
  destruct (ibfi_sum (oneNormalJump [k]) [k] (fun c => coeffAt alpha c f) (fun c => cf c f)) as (A & E & V);
    [constructor; [exact Hk|constructor]|cbn; lia|intros c Hc; apply coeff_ok; [unfold mapped; tauto|exact Hf]|reflexivity|].
  conv E V.
Qed.
Lemma twoI_sum : forall f k l, (f = 0 \/ f = 1)%Z -> (k < 3)%nat -> (l < 3)%nat -> exists A, buildTwoNormalIBFISubOperator N m alpha ib f [k; l] = Ok A /\
  forall v u, mform N A v u = fsum (fun fi F => PIpt fi F f) (fun q => unitN q k * unitN q l) v u.
Proof.
  intros f k l Hf Hk Hl. unfold buildTwoNormalIBFISubOperator.
  destruct (ibfi_sum (twoNormalJump [k; l]) [k; l] (fun c => v <- coeffAt alpha c f ;; Ok (v * alpha)) (fun c => pf alpha c f)) as (A & E & V);
    [constructor; [exact Hk|constructor; [exact Hl|constructor]]|cbn; lia|intros c Hc; rewrite (coeff_ok alpha c f) by (try exact Hf; unfold mapped; tauto); destruct Hc as [->| ->]; reflexivity|reflexivity|].
  conv E V.
Qed.

(** ** Rows of the operator, against a test function *)
Section Rows.
Variable x : list R.
Variable tw : Z -> Z -> nat -> R.
Notation ap := (app op (Z.of_nat N) 0).
Notation u := (fld N x).

Lemma app_rows : forall o A f d i, fmat o = Ok A -> (i < N)%nat -> ap o x f d i = sumN N (fun k => A i k * u f d k).
Proof.
  intros o A f d i E Hi. unfold app, factoryRows. rewrite E. unfold rowsOf.
  rewrite (nth_indep _ [] ((fun i => map (fun j => (Z.of_nat j, A i j)) (seq 0 N)) 0%nat)) by (rewrite map_length, seq_length; exact Hi).
  rewrite (map_nth (fun i => map (fun j => (Z.of_nat j, A i j)) (seq 0 N)) (seq 0 N) 0%nat i), seq_nth by exact Hi.
  rewrite map_map. unfold rsum, sumN. f_equal. apply map_ext. intros k. cbn [fst snd Nat.add]. unfold comp, fld. rewrite Z.add_0_r. reflexivity.
Qed.
Lemma op_form : forall o g A v f d, (g = 0 \/ g = 1)%Z -> fmat o = Ok (mmul N (MInv g) A) ->
  mform N (Mass g) v (fun i => ap o x f d i) = mform N A v (u f d).
Proof.
  intros o g A v f d Hg E. rewrite (mform_ext N _ v _ (fun i => sumN N (fun k => mmul N (MInv g) A i k * u f d k))).
  - apply mass_mul. intros i j. destruct S as (_ & _ & _ & _ & I & _). apply I. exact Hg.
  - intros i Hi. apply (app_rows o _ f d i E Hi).
Qed.
Lemma if_form : forall g v k (h : nat -> R), mform N (Mass g) v (fun i => ifdim dim k (h i)) = if (k <? dim)%Z then mform N (Mass g) v h else 0.
Proof. intros. unfold ifdim. destruct (k <? dim)%Z; [reflexivity|apply mform_null]. Qed.
Lemma norm_zero : forall fi F q d, nth_error (fm_faces m) fi = Some F -> In q (f_pts (mf_face F)) -> (0 <= d)%Z -> (d <? dim)%Z = false -> unitN q (Z.to_nat d) = 0.
Proof.
  intros fi F q d E I H0 H. destruct S as (_ & _ & _ & X & _). rewrite Forall_forall in X. apply (X F (face_in fi F E)); [exact I|]. apply Z.ltb_ge in H. lia.
Qed.
Lemma fsum_zero : forall B w v u', (forall fi F q, nth_error (fm_faces m) fi = Some F -> In q (f_pts (mf_face F)) -> w q = 0) -> fsum B w v u' = 0.
Proof. intros B w v u' H. apply facesum_zero. intros fi F q E I. rewrite (H fi F q E I). ring. Qed.

Lemma one_form : forall g k v f d, (g = 0 \/ g = 1)%Z -> (0 <= k < 3)%Z ->
  mform N (Mass g) v (fun i => ifdim dim k (ap (OpOneNormal g (1 - g) k) x f d i)) = fsum (fun fi F => Opt fi F (1 - g)) (fun q => unitN q (Z.to_nat k)) v (u f d).
Proof.
  intros g k v f d Hg Hk. rewrite if_form. destruct (k <? dim)%Z eqn:K.
  - destruct (one_sum (1 - g) (Z.to_nat k) ltac:(lia) ltac:(lia)) as (A & E & V). rewrite <- V. apply (op_form _ g A); [exact Hg|]. cbn [factoryMat]. rewrite E. reflexivity.
  - symmetry. apply fsum_zero. intros fi F q EF I. apply (norm_zero fi F q k EF I); [lia|exact K].
Qed.
Lemma oneI_form : forall g k v f d, (g = 0 \/ g = 1)%Z -> (0 <= k < 3)%Z ->
  mform N (Mass g) v (fun i => ifdim dim k (ap (OpOneNormalIBFI g (1 - g) k) x f d i)) = fsum (fun fi F => OIpt fi F (1 - g)) (fun q => unitN q (Z.to_nat k)) v (u f d).
Proof.
  intros g k v f d Hg Hk. rewrite if_form. destruct (k <? dim)%Z eqn:K.
  - destruct (oneI_sum (1 - g) (Z.to_nat k) ltac:(lia) ltac:(lia)) as (A & E & V). rewrite <- V. apply (op_form _ g A); [exact Hg|]. cbn [factoryMat]. rewrite E. reflexivity.
  - symmetry. apply fsum_zero. intros fi F q EF I. apply (norm_zero fi F q k EF I); [lia|exact K].
Qed.
Lemma zero_form : forall g v f d, (g = 0 \/ g = 1)%Z -> mform N (Mass g) v (fun i => ap (OpZeroNormal g) x f d i) = fsum (fun fi F => Ppt fi F g) (fun _ => 1) v (u f d).
Proof.
  intros g v f d Hg. destruct (zero_sum g Hg) as (A & E & V). rewrite <- V. apply (op_form _ g A); [exact Hg|]. cbn [factoryMat]. rewrite E. reflexivity.
Qed.
Lemma zeroI_form : forall g v f d, (g = 0 \/ g = 1)%Z -> mform N (Mass g) v (fun i => ap (OpZeroNormalIBFI g) x f d i) = fsum (fun fi F => PIpt fi F g) (fun _ => 1) v (u f d).
Proof.
  intros g v f d Hg. destruct (zeroI_sum g Hg) as (A & E & V). rewrite <- V. apply (op_form _ g A); [exact Hg|]. cbn [factoryMat]. rewrite E. reflexivity.
Qed.
Lemma two_form : forall g k l v f d, (g = 0 \/ g = 1)%Z -> (0 <= k < 3)%Z -> (0 <= l < 3)%Z ->
  mform N (Mass g) v (fun i => ifdim dim l (ap (OpTwoNormal g k l) x f d i)) = fsum (fun fi F => Ppt fi F g) (fun q => unitN q (Z.to_nat k) * unitN q (Z.to_nat l)) v (u f d).
Proof.
  intros g k l v f d Hg Hk Hl. rewrite if_form. destruct (l <? dim)%Z eqn:L.
  - destruct (two_sum g (Z.to_nat k) (Z.to_nat l) Hg ltac:(lia) ltac:(lia)) as (A & E & V). rewrite <- V. apply (op_form _ g A); [exact Hg|]. cbn [factoryMat]. rewrite E. reflexivity.
  - symmetry. apply fsum_zero. intros fi F q EF I. rewrite (norm_zero fi F q l EF I); [ring|lia|exact L].
Qed.
Lemma twoI_form : forall g k l v f d, (g = 0 \/ g = 1)%Z -> (0 <= k < 3)%Z -> (0 <= l < 3)%Z ->
  mform N (Mass g) v (fun i => ifdim dim l (ap (OpTwoNormalIBFI g k l) x f d i)) = fsum (fun fi F => PIpt fi F g) (fun q => unitN q (Z.to_nat k) * unitN q (Z.to_nat l)) v (u f d).
Proof.
  intros g k l v f d Hg Hk Hl. rewrite if_form. destruct (l <? dim)%Z eqn:L.
  - destruct (twoI_sum g (Z.to_nat k) (Z.to_nat l) Hg ltac:(lia) ltac:(lia)) as (A & E & V). rewrite <- V. apply (op_form _ g A); [exact Hg|]. cbn [factoryMat]. rewrite E. reflexivity.
  - symmetry. apply fsum_zero. intros fi F q EF I. rewrite (norm_zero fi F q l EF I); [ring|lia|exact L].
Qed.

(** Point values of the rows. *)
Definition nk (q : qpoint) (k : Z) : R := unitN q (Z.to_nat k).
Definition rowJump (B : nat -> mface -> Z -> R -> R -> R -> R -> R) (g d : Z) (fi : nat) (F : mface) (q : qpoint) : R :=
  let d1 := ((d + 1) mod 3)%Z in let d2 := ((d + 2) mod 3)%Z in let a := (1 - g)%Z in
  - sgn g * (nk q d1 * B fi F a (t1 F (tw g d) q) (t2 F (tw g d) q) (t1 F (u a d2) q) (t2 F (u a d2) q) -
             nk q d2 * B fi F a (t1 F (tw g d) q) (t2 F (tw g d) q) (t1 F (u a d1) q) (t2 F (u a d1) q)).
Definition rowPen (B : nat -> mface -> Z -> R -> R -> R -> R -> R) (g d : Z) (fi : nat) (F : mface) (q : qpoint) : R :=
  let b e := B fi F g (t1 F (tw g d) q) (t2 F (tw g d) q) (t1 F (u g e) q) (t2 F (u g e) q) in
  - b d + nk q d * (nk q 0 * b 0%Z + nk q 1 * b 1%Z + nk q 2 * b 2%Z).

Lemma jump_rows : forall o B g d, (g = 0 \/ g = 1)%Z -> (0 <= d < 3)%Z ->
  (forall k v f' d', (0 <= k < 3)%Z -> mform N (Mass g) v (fun i => ifdim dim k (ap (o g (1 - g)%Z k) x f' d' i)) = fsum (fun fi F => B fi F (1 - g)%Z) (fun q => unitN q (Z.to_nat k)) v (u f' d')) ->
  mform N (Mass g) (tw g d) (jump_term op dim (Z.of_nat N) 0 o x g d) = facesum m (rowJump B g d).
Proof.
  intros o B g d Hg Hd H. unfold jump_term. cbv zeta.
  set (d1 := ((d + 1) mod 3)%Z). set (d2 := ((d + 2) mod 3)%Z). set (a := (1 - g)%Z).
  assert (B1 : (0 <= d1 < 3)%Z) by (apply Z.mod_pos_bound; lia). assert (B2 : (0 <= d2 < 3)%Z) by (apply Z.mod_pos_bound; lia).
  rewrite mform_scal.
  rewrite (mform_ext N _ _ _ (fun i => ifdim dim d1 (ap (o g a d1) x a d2 i) + (-1) * ifdim dim d2 (ap (o g a d2) x a d1 i))) by (intros; ring).
  rewrite mform_plus, mform_scal. unfold a. rewrite !H by assumption. unfold fsum. rewrite <- facesum_scal, <- facesum_plus, <- facesum_scal.
  apply facesum_ext. intros fi F q _ _. unfold rowJump, nk. cbv zeta. fold d1 d2. ring.
Qed.
Lemma pen_rows : forall o0 o2 B g d, (g = 0 \/ g = 1)%Z -> (0 <= d < 3)%Z ->
  (forall v f' d', mform N (Mass g) v (fun i => ap (o0 g) x f' d' i) = fsum (fun fi F => B fi F g) (fun _ => 1) v (u f' d')) ->
  (forall l v f' d', (0 <= l < 3)%Z -> mform N (Mass g) v (fun i => ifdim dim l (ap (o2 g d l) x f' d' i)) = fsum (fun fi F => B fi F g) (fun q => unitN q (Z.to_nat d) * unitN q (Z.to_nat l)) v (u f' d')) ->
  mform N (Mass g) (tw g d) (penalty_term op dim (Z.of_nat N) 0 o0 o2 x g d) = facesum m (rowPen B g d).
Proof.
  intros o0 o2 B g d Hg Hd H0 H2. unfold penalty_term.
  rewrite (mform_ext N _ _ _ (fun i => (-1) * ap (o0 g) x g d i + ifdim dim d (ifdim dim 0 (ap (o2 g d 0%Z) x g 0%Z i) + ifdim dim 1 (ap (o2 g d 1%Z) x g 1%Z i) + ifdim dim 2 (ap (o2 g d 2%Z) x g 2%Z i)))) by (intros; ring).
  rewrite mform_plus, mform_scal, if_form, H0. destruct (d <? dim)%Z eqn:Kd.
  - rewrite !mform_plus, !H2 by lia. unfold fsum. rewrite <- !facesum_plus, <- facesum_scal, <- facesum_plus. apply facesum_ext. intros fi F q _ _. unfold rowPen, nk. cbv zeta.
    change (Z.to_nat 0) with 0%nat. change (Z.to_nat 1) with 1%nat. change (Z.to_nat 2) with 2%nat. ring.
  - rewrite Rplus_0_r. unfold fsum. rewrite <- facesum_scal. apply facesum_ext. intros fi F q EF I. unfold rowPen, nk. cbv zeta.
    rewrite (norm_zero fi F q d EF I ltac:(lia) Kd). ring.
Qed.
Definition dform (k : Z) (v w : nat -> R) : R := if (k <? dim)%Z then mform N (D k) v w else 0.
Definition curlForm (g d : Z) : R :=
  let d1 := ((d + 1) mod 3)%Z in let d2 := ((d + 2) mod 3)%Z in let a := (1 - g)%Z in
  sgn g * (dform d1 (tw g d) (u a d2) - dform d2 (tw g d) (u a d1)).
Lemma der_form : forall g k v f d, (g = 0 \/ g = 1)%Z -> mform N (Mass g) v (fun i => ifdim dim k (ap (OpDerivative g k) x f d i)) = dform k v (u f d).
Proof.
  intros g k v f d Hg. rewrite if_form. unfold dform. destruct (k <? dim)%Z eqn:K; [|reflexivity].
  apply (op_form _ g (D k)); [exact Hg|]. cbn [factoryMat]. unfold buildDerivativeSubOperator. apply Z.ltb_lt in K.
  replace (dim <=? k)%Z with false by (symmetry; apply Z.leb_gt; lia). reflexivity.
Qed.
Lemma curl_rows : forall g d, (g = 0 \/ g = 1)%Z -> mform N (Mass g) (tw g d) (curl_term op dim (Z.of_nat N) 0 x g d) = curlForm g d.
Proof.
  intros g d Hg. unfold curl_term, curlForm. cbv zeta. set (d1 := ((d + 1) mod 3)%Z). set (d2 := ((d + 2) mod 3)%Z). set (a := (1 - g)%Z).
  rewrite mform_scal. f_equal.
  rewrite (mform_ext N _ _ _ (fun i => ifdim dim d1 (ap (OpDerivative g d1) x a d2 i) + (-1) * ifdim dim d2 (ap (OpDerivative g d2) x a d1 i))) by (intros; ring).
  rewrite mform_plus, mform_scal, !der_form by exact Hg. ring.
Qed.
Lemma cond_rows : forall g d, (g = 0 \/ g = 1)%Z -> mform N (Mass g) (tw g d) (conductive_term op (Z.of_nat N) 0 x g d) = if (g =? 0)%Z then - mform N MSigma (tw 0%Z d) (u 0 d) else 0.
Proof.
  intros g d [->| ->]; unfold conductive_term; cbn [Z.eqb]; [|apply mform_null].
  rewrite (mform_ext N _ _ _ (fun i => (-1) * ap OpConductive x 0 d i)) by (intros; ring). rewrite mform_scal, (op_form _ 0 MSigma); [ring|auto|reflexivity].
Qed.
Definition hasInt : bool := match ib with [] => false | _ => true end.
Lemma no_int : ib = [] -> forall fi F, isInteriorFace F = true -> kind fi F = None.
Proof.
  intros E fi F I. destruct T as (_ & A & _ & (_ & _ & C)). unfold faceKind. destruct (tagOf (fm_bdr m) fi) as [a|]; [|reflexivity].
  unfold isInteriorFace in I. destruct (f_el2 (mf_face F)); [|discriminate]. destruct (kindOf gi a) as [c|] eqn:K; [|reflexivity].
  apply (kind_in gi a c A) in K. destruct K as (Mc & In'). destruct (C a c Mc In') as (mk & X). rewrite E in X. destruct X.
Qed.
Definition rowPoint (g d : Z) (fi : nat) (F : mface) (q : qpoint) : R :=
  rowJump Opt g d fi F q + rowPen Ppt g d fi F q + (rowJump OIpt g d fi F q + rowPen PIpt g d fi F q).
Lemma rhs_rows : forall g d, (g = 0 \/ g = 1)%Z -> (0 <= d < 3)%Z ->
  mform N (Mass g) (tw g d) (fun i => rhs op dim (Z.of_nat N) 0 hasInt x g d i) =
  curlForm g d + facesum m (rowPoint g d) + (if (g =? 0)%Z then - mform N MSigma (tw 0%Z d) (u 0 d) else 0).
Proof.
  intros g d Hg Hd. unfold rhs. rewrite !mform_plus, (curl_rows g d Hg), (cond_rows g d Hg).
  rewrite (jump_rows OpOneNormal Opt g d Hg Hd) by (intros; apply one_form; assumption).
  rewrite (pen_rows OpZeroNormal OpTwoNormal Ppt g d Hg Hd) by (intros; first [apply zero_form; assumption|apply two_form; assumption]).
  unfold rowPoint. rewrite !facesum_plus.
  assert (E : mform N (Mass g) (tw g d) (fun i => if hasInt then jump_term op dim (Z.of_nat N) 0 OpOneNormalIBFI x g d i + penalty_term op dim (Z.of_nat N) 0 OpZeroNormalIBFI OpTwoNormalIBFI x g d i else 0) =
     facesum m (rowJump OIpt g d) + facesum m (rowPen PIpt g d)).
  { assert (Hb : hasInt = false -> ib = []) by (unfold hasInt; destruct ib; [reflexivity|discriminate]).
    destruct hasInt; [|specialize (Hb eq_refl); rename Hb into Eb].
    2:{ rewrite mform_null, <- facesum_plus. symmetry. apply facesum_zero. intros fi F q _ _. unfold rowJump, rowPen, OIpt, PIpt. cbv zeta.
      destruct (isInteriorFace F) eqn:I; [rewrite (no_int Eb fi F I)|]; ring. }
    rewrite mform_plus. f_equal.
      + apply (jump_rows OpOneNormalIBFI OIpt g d Hg Hd). intros. apply oneI_form; assumption.
      + apply (pen_rows OpZeroNormalIBFI OpTwoNormalIBFI PIpt g d Hg Hd); intros; [apply zeroI_form|apply twoI_form]; assumption. }
  rewrite E. ring.
Qed.

End Rows.

Variable x : list R.
Notation u := (fld N x).
(** The curl terms, by integration by parts. *)
Definition Spt (k : Z) (v w : nat -> R) : R := facesum m (fun _ F q => nk q k * (t1 F v q * t1 F w q - t2 F v q * t2 F w q)).
Lemma sbp : forall k v w, (0 <= k)%Z -> dform k v w + dform k w v = Spt k v w.
Proof.
  intros k v w Hk. unfold dform, Spt. destruct (k <? dim)%Z eqn:K.
  - destruct S as (_ & _ & _ & _ & _ & P). apply P. apply Z.ltb_lt in K. lia.
  - rewrite facesum_zero; [ring|]. intros fi F q EF I. unfold nk. rewrite (norm_zero fi F q k EF I Hk K). ring.
Qed.
Lemma curl_total : suml (fun g => suml (fun d => curlForm x u g d) [0; 1; 2]%Z) [0; 1]%Z =
  facesum m (fun _ F q => outflow (normalAt q) (fieldAt side2 N x 0 F q) (fieldAt side2 N x 1 F q) - outflow (normalAt q) (fieldAt side1 N x 0 F q) (fieldAt side1 N x 1 F q)).
Proof.
  transitivity (Spt 0 (u 0 2) (u 1 1) - Spt 0 (u 0 1) (u 1 2) + (Spt 1 (u 0 0) (u 1 2) - Spt 1 (u 0 2) (u 1 0)) + (Spt 2 (u 0 1) (u 1 0) - Spt 2 (u 0 0) (u 1 1))).
  - rewrite <- !sbp by lia. unfold suml, curlForm. cbn [map fold_right]. cbv zeta.
    repeat match goal with |- context [((?a) mod 3)%Z] => let v := eval compute in (a mod 3)%Z in change (a mod 3)%Z with v end.
    change (1 - 0)%Z with 1%Z. change (1 - 1)%Z with 0%Z. unfold sgn. cbn [Z.eqb]. ring.
  - unfold Spt.
    match goal with |- facesum m ?a - facesum m ?b + (facesum m ?c - facesum m ?d) + (facesum m ?e - facesum m ?f) = _ =>
      transitivity (facesum m (fun fi F q => (a fi F q + -1 * b fi F q) + (c fi F q + -1 * d fi F q) + (e fi F q + -1 * f fi F q)))
    end.
    + rewrite !facesum_plus, !facesum_scal. ring.
    + apply facesum_ext. intros fi F q _ _. unfold outflow, normalAt, fieldAt, dotp, crossp, nk, t1, t2.
      change (Z.to_nat 0) with 0%nat. change (Z.to_nat 1) with 1%nat. change (Z.to_nat 2) with 2%nat. ring.
Qed.

(** ** The balance *)
Lemma outer_side2 : forall F v q, isInteriorFace F = false -> t2 F v q = 0.
Proof. intros F v q H. unfold t2, side2. unfold isInteriorFace in H. destruct (f_el2 (mf_face F)); [discriminate|reflexivity]. Qed.
Lemma point_unit : forall fi F q, nth_error (fm_faces m) fi = Some F -> In q (f_pts (mf_face F)) -> sq (normalAt q) = 1.
Proof.
  intros fi F q E I. pose proof (faces_wf F (face_in fi F E)) as WF. unfold wfFace in WF. rewrite Forall_forall in WF.
  unfold sq, normalAt, dotp. apply (unit_normal (mf_face F) q (WF q I)).
Qed.
Lemma kind_mapped : forall fi F c, kind fi F = Some c -> mappedb c = true.
Proof.
  intros fi F c H. unfold faceKind in H. destruct (tagOf (fm_bdr m) fi); [|discriminate]. unfold kindOf in H.
  destruct (find _ _) as [[a []]|]; try discriminate; injection H as <-; reflexivity.
Qed.
Lemma point_identity : forall fi F q, nth_error (fm_faces m) fi = Some F -> In q (f_pts (mf_face F)) ->
  suml (fun g => suml (fun d => rowPoint x u g d fi F q) [0; 1; 2]%Z) [0; 1]%Z +
  (outflow (normalAt q) (fieldAt side2 N x 0 F q) (fieldAt side2 N x 1 F q) - outflow (normalAt q) (fieldAt side1 N x 0 F q) (fieldAt side1 N x 1 F q)) =
  pointRate N alpha m gb gi x fi F q.
Proof.
  intros fi F q E I. pose proof (point_unit fi F q E I) as U.
  unfold suml. cbn [map fold_right]. unfold rowPoint, rowJump, rowPen. cbv zeta.
  repeat match goal with |- context [((?a) mod 3)%Z] => let v := eval compute in (a mod 3)%Z in change (a mod 3)%Z with v end.
  change (1 - 0)%Z with 1%Z. change (1 - 1)%Z with 0%Z. unfold sgn. cbn [Z.eqb].
  assert (O2 : isInteriorFace F = false -> forall v, t2 F v q = 0) by (intros X v; apply outer_side2; exact X).
  unfold pointRate. cbv zeta.
  assert (EI : isInteriorFace F = match f_el2 (mf_face F) with Some _ => true | None => false end) by reflexivity.
  unfold Opt, Ppt, OIpt, PIpt, pf, cf. rewrite EI in *.
  destruct (f_el2 (mf_face F)) as [n2|]; destruct (kind fi F) as [[]|] eqn:K; try (apply kind_mapped in K; discriminate); clear K; cbn [Z.eqb innerRate outerRate];
    rewrite ?sq_tang by exact U; clear U EI;
    try (rewrite !(O2 eq_refl) in *);
    unfold outflow, tang, subp, addp, scalep, normalAt, fieldAt, dotp, crossp, nk, sq;
    change (Z.to_nat 0) with 0%nat; change (Z.to_nat 1) with 1%nat; change (Z.to_nat 2) with 2%nat;
    unfold t1, t2 in *; try (rewrite !(O2 eq_refl)); try field.
Qed.
End Energy.

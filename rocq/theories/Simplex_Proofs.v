(** Integration by parts on straight simplices. *)
From Coq Require Import ZArith List Bool Reals Lia Lra Psatz Permutation.
From Verif Require Import Common Csr_Model Geo_Spec Face_Model Face_Spec Face_Proofs Nodal_Spec Nodal_Proofs NodalMult_Proofs NodalEnergy_Spec NodalEnergy_Proofs Setup_Model Setup_Spec Form_Model Form_Spec Global_Spec GlobalEnergy_Proofs HestElem_Proofs Step_Model Step_Spec Cfl_Spec CflLine_Proofs Elem_Spec Elem_Proofs ElemGeo_Proofs ElemSpace_Proofs Simplex_Spec.
Import ListNotations.
Local Open Scope R_scope.

(** ** Monomials *)
Lemma fact_pos : forall n, INR (fact n) <> 0.
Proof. intros n. apply not_0_INR. apply fact_neq_0. Qed.
Lemma facts_dec : forall a i k, nth i a 0%nat = S k -> facts a = INR (S k) * facts (dec i a) /\ degree a = S (degree (dec i a)).
Proof.
  induction a as [|x t IH]; intros i k H; [destruct i; discriminate|]. destruct i as [|i]; cbn [nth] in H.
  - subst x. cbn [dec Nat.pred]. unfold facts, degree. cbn [map fold_right]. split; [|reflexivity].
    change (fact (S k)) with (S k * fact k)%nat. rewrite mult_INR. ring.
  - destruct (IH i k H) as (F & G). cbn [dec]. unfold facts, degree in *. cbn [map fold_right]. rewrite F, G. split; [ring|lia].
Qed.
Lemma times_comm : forall a b, times a b = times b a.
Proof. induction a as [|x a IH]; intros [|y b]; try reflexivity. unfold times in *. cbn [combine map fst snd]. rewrite IH, Nat.add_comm. reflexivity. Qed.
Lemma times_len : forall a b, length a = length b -> length (times a b) = length a.
Proof. intros a b H. unfold times. rewrite map_length, combine_length, H. apply Nat.min_id. Qed.
Lemma times_nth : forall a b i, length a = length b -> nth i (times a b) 0%nat = (nth i a 0 + nth i b 0)%nat.
Proof. induction a as [|x a IH]; intros [|y b] i H; try discriminate; [destruct i; reflexivity|]. destruct i as [|i]; [reflexivity|]. cbn in H. apply (IH b i). lia. Qed.
Lemma times_dec : forall a b i k, length a = length b -> nth i b 0%nat = S k -> times a (dec i b) = dec i (times a b).
Proof.
  induction a as [|x a IH]; intros [|y b] i k L H; try discriminate; [destruct i; discriminate|]. destruct i as [|i]; cbn [nth] in H.
  - subst y. unfold times. cbn [dec combine map fst snd]. f_equal. lia.
  - unfold times in *. cbn [dec combine map fst snd]. f_equal. cbn in L. apply (IH b i k); [lia|exact H].
Qed.
Lemma times_deg : forall a b, length a = length b -> degree (times a b) = (degree a + degree b)%nat.
Proof. induction a as [|x a IH]; intros [|y b] H; try discriminate; [reflexivity|]. unfold times, degree in *. cbn [combine map fold_right fst snd]. cbn in H. rewrite IH by lia. lia. Qed.
Lemma times_at : forall a b l, length a = length b -> monoAt (times a b) l = monoAt a l * monoAt b l.
Proof.
  induction a as [|x a IH]; intros [|y b] l H; try discriminate; [cbn; ring|]. destruct l as [|z l]; [cbn; ring|]. unfold times in *. cbn [combine map fst snd monoAt].
  cbn in H. rewrite IH by lia. rewrite pow_add. ring.
Qed.
(** The derivative with respect to coordinate [i] against the values on face [i]. *)
Lemma flux : forall D i a, (1 <= D)%nat ->
  INR (nth i a 0%nat) * meanT D (dec i a) + INR D * meanF D i a = INR (fact D) * facts a / INR (fact (D - 1 + degree a)).
Proof.
  intros D i a HD. unfold meanF. destruct (nth i a 0%nat) as [|k] eqn:E; cbn [Nat.eqb].
  - cbn [INR]. destruct D as [|D]; [lia|]. replace (S D - 1)%nat with D by lia. change (fact (S D)) with (S D * fact D)%nat. rewrite mult_INR. field. apply fact_pos.
  - destruct (facts_dec a i k E) as (F & G). unfold meanT. rewrite F, G. replace (D - 1 + S (degree (dec i a)))%nat with (D + degree (dec i a))%nat by lia. field. apply fact_pos.
Qed.
Lemma leibniz : forall D i a b, length a = length b ->
  meanD D i a b + meanD D i b a = INR (nth i (times a b) 0%nat) * meanT D (dec i (times a b)).
Proof.
  intros D i a b L. unfold meanD. rewrite times_nth by exact L.
  destruct (nth i b 0%nat) as [|kb] eqn:Eb; destruct (nth i a 0%nat) as [|ka] eqn:Ea; cbn [Nat.add INR]; try ring.
  - rewrite (times_dec b a i ka (eq_sym L) Ea), (times_comm b a), Nat.add_0_r. ring.
  - rewrite (times_dec a b i kb L Eb). cbn [INR]. ring.
  - rewrite (times_dec b a i ka (eq_sym L) Ea), (times_dec a b i kb L Eb), (times_comm b a). change (match (ka + S kb)%nat with 0%nat => 1 | S _ => INR (ka + S kb) + 1 end) with (INR (S (ka + S kb))).
    replace (S (ka + S kb)) with (S ka + S kb)%nat by lia. rewrite plus_INR. change (match kb with 0%nat => 1 | S _ => INR kb + 1 end) with (INR (S kb)). change (match ka with 0%nat => 1 | S _ => INR ka + 1 end) with (INR (S ka)). ring.
Qed.
Lemma mono_parts : forall D i j a b, (1 <= D)%nat -> length a = length b ->
  (meanD D i a b - meanD D j a b) + (meanD D i b a - meanD D j b a) = - INR D * (meanF D i (times a b) - meanF D j (times a b)).
Proof.
  intros D i j a b HD L. pose proof (leibniz D i a b L) as Li. pose proof (leibniz D j a b L) as Lj.
  pose proof (flux D i (times a b) HD) as Fi. pose proof (flux D j (times a b) HD) as Fj. lra.
Qed.

(** ** Polynomials *)
Definition prodF (D i : nat) (f g : poly) : R := suml (fun s => suml (fun t => fst s * fst t * meanF D i (times (snd s) (snd t))) g) f.
Lemma poly_parts : forall D e f g, (1 <= D)%nat -> (forall c a, In (c, a) f -> length a = S D) -> (forall c a, In (c, a) g -> length a = S D) ->
  meanDiff D e f g + meanDiff D e g f = - INR D * (prodF D (S e) f g - prodF D 0 f g).
Proof.
  intros D e f g HD Hf Hg. unfold meanDiff, prodF.
  rewrite (suml_swap (fun s t => fst s * fst t * (meanD D (S e) (snd s) (snd t) - meanD D 0 (snd s) (snd t))) g f).
  replace (suml (fun s => suml (fun t => fst s * fst t * meanF D (S e) (times (snd s) (snd t))) g) f - suml (fun s => suml (fun t => fst s * fst t * meanF D 0 (times (snd s) (snd t))) g) f)
    with (suml (fun s => suml (fun t => fst s * fst t * (meanF D (S e) (times (snd s) (snd t)) - meanF D 0 (times (snd s) (snd t)))) g) f).
  2:{ unfold Rminus at 2. rewrite <- (Ropp_mult_distr_l_reverse 1) || idtac.
      replace (- suml (fun s => suml (fun t => fst s * fst t * meanF D 0 (times (snd s) (snd t))) g) f) with (-1 * suml (fun s => suml (fun t => fst s * fst t * meanF D 0 (times (snd s) (snd t))) g) f) by ring.
      rewrite <- NodalEnergy_Proofs.suml_scal, <- suml_plus. apply suml_ext. intros s _. rewrite <- NodalEnergy_Proofs.suml_scal, <- suml_plus. apply suml_ext. intros t _. ring. }
  rewrite <- suml_plus, <- NodalEnergy_Proofs.suml_scal. apply suml_ext. intros [c a] Ia. rewrite <- suml_plus, <- NodalEnergy_Proofs.suml_scal. apply suml_ext. intros [c' b] Ib. cbn [fst snd].
  assert (L : length a = length b) by (rewrite (Hf c a Ia), (Hg c' b Ib); reflexivity).
  pose proof (mono_parts D (S e) 0 a b HD L) as M. 
  replace (- INR D * (c * c' * (meanF D (S e) (times a b) - meanF D 0 (times a b)))) with (c * c' * (- INR D * (meanF D (S e) (times a b) - meanF D 0 (times a b)))) by ring.
  rewrite <- M. ring.
Qed.
Lemma poly_face : forall D i deg lam pts f g, exactOn D i deg lam pts ->
  (forall c a, In (c, a) f -> length a = S D /\ (2 * degree a <= deg)%nat) -> (forall c a, In (c, a) g -> length a = S D /\ (2 * degree a <= deg)%nat) ->
  suml (fun p => q_w p * (polyAt f (lam p) * polyAt g (lam p))) pts = / INR (fact (D - 1)) * prodF D i f g.
Proof.
  intros D i deg lam pts f g X Hf Hg. unfold prodF.
  transitivity (suml (fun p => suml (fun s => suml (fun t => fst s * fst t * (q_w p * monoAt (times (snd s) (snd t)) (lam p))) g) f) pts).
  - apply suml_ext. intros p _. unfold polyAt.
    rewrite <- (HestElem_Proofs.suml_scal (q_w p * 1)) || idtac.
    replace (q_w p * (suml (fun t => fst t * monoAt (snd t) (lam p)) f * suml (fun t => fst t * monoAt (snd t) (lam p)) g))
      with (suml (fun t => fst t * monoAt (snd t) (lam p)) g * q_w p * suml (fun t => fst t * monoAt (snd t) (lam p)) f) by ring.
    rewrite <- NodalEnergy_Proofs.suml_scal. apply suml_ext. intros [c a] Ia. cbn [fst snd].
    replace (suml (fun t => fst t * monoAt (snd t) (lam p)) g * q_w p * (c * monoAt a (lam p))) with (c * (q_w p * monoAt a (lam p)) * suml (fun t => fst t * monoAt (snd t) (lam p)) g) by ring.
    rewrite <- NodalEnergy_Proofs.suml_scal. apply suml_ext. intros [c' b] Ib. cbn [fst snd].
    rewrite times_at by (rewrite (proj1 (Hf c a Ia)), (proj1 (Hg c' b Ib)); reflexivity). ring.
  - rewrite suml_swap. rewrite <- NodalEnergy_Proofs.suml_scal. apply suml_ext. intros [c a] Ia. rewrite suml_swap. rewrite <- NodalEnergy_Proofs.suml_scal. apply suml_ext. intros [c' b] Ib. cbn [fst snd].
    destruct (Hf c a Ia) as (La & Da). destruct (Hg c' b Ib) as (Lb & Db).
    rewrite NodalEnergy_Proofs.suml_scal. rewrite (X (times a b)); [ring|rewrite times_len; congruence|rewrite times_deg by congruence; lia].
Qed.

(** ** Elements *)
Lemma value_map : forall phi l x, value (map (fun g => polyAt g l) phi) x = sumN (length phi) (fun a => polyAt (nth a phi []) l * x a).
Proof.
  intros phi l x. unfold value. rewrite map_length. apply sumN_ext. intros a Ha. f_equal.
  rewrite (nth_indep _ 0 (polyAt [] l)) by (rewrite map_length; exact Ha). apply (map_nth (fun g => polyAt g l)).
Qed.
Lemma sum_sides : forall (h : nat * bool -> R) m el k,
  suml h (sides m el k) = sumN (length (fm_faces m)) (fun fi => (if (fst (el fi) =? k)%nat then h (fi, true) else 0) +
     (match snd (el fi) with Some j => if (j =? k)%nat then h (fi, false) else 0 | None => 0 end)).
Proof.
  intros h m el k. unfold sides, sumN, suml. induction (seq 0 (length (fm_faces m))) as [|fi l IH]; [reflexivity|]. cbn [flat_map map fold_right]. rewrite <- IH.
  rewrite !map_app, !fold_right_app. set (rest := fold_right Rplus 0 (map h _)). clearbody rest.
  destruct (fst (el fi) =? k)%nat; destruct (snd (el fi)) as [j|]; try destruct (j =? k)%nat; cbn [map fold_right]; ring.
Qed.
Section Elements.
Variables D p : nat.
Variable phi : list poly.
Variable r : reference.
Variable n : nat.
Variable m : fmesh.
Variable el : nat -> nat * option nat.
Variable C : nat -> Z -> nat -> R.
Hypothesis HD : (1 <= D)%nat.
Hypothesis PE : polynomialElement D p phi r.
Hypothesis WF : Forall (fun f => wfFace (mf_face f)) (fm_faces m).
Hypothesis SM : straightMesh D p phi n m el C.
Notation Q := (length phi).
(** The two functions on face [i]. *)
Definition pairF (i : nat) (x y : nat -> R) : R := sumN Q (fun a => sumN Q (fun b => x a * y b * prodF D i (nth a phi []) (nth b phi []))).
Lemma deg_ok : forall a c al, (a < Q)%nat -> In (c, al) (nth a phi []) -> length al = S D /\ (2 * degree al <= 2 * p)%nat.
Proof. intros a c al Ha I. destruct PE as (_ & H & _). destruct (H (nth a phi []) c al (nth_In _ _ Ha) I). split; [assumption|lia]. Qed.
Lemma diff_parts : forall e x y, (e < D)%nat -> mform (r_dofs r) (r_diff r e) x y + mform (r_dofs r) (r_diff r e) y x = - INR D * (pairF (S e) x y - pairF 0 x y).
Proof.
  intros e x y He. destruct PE as (Eq & _ & ED). rewrite Eq. unfold mform, pairF.
  rewrite (sumN_swap Q Q (fun i j => y i * r_diff r e i j * x j)). rewrite <- sumN_plus.
  replace (- INR D * (sumN Q (fun a => sumN Q (fun b => x a * y b * prodF D (S e) (nth a phi []) (nth b phi []))) - sumN Q (fun a => sumN Q (fun b => x a * y b * prodF D 0 (nth a phi []) (nth b phi [])))))
    with (- INR D * sumN Q (fun a => sumN Q (fun b => x a * y b * prodF D (S e) (nth a phi []) (nth b phi []))) + INR D * sumN Q (fun a => sumN Q (fun b => x a * y b * prodF D 0 (nth a phi []) (nth b phi [])))) by ring.
  rewrite <- !sumN_scal, <- sumN_plus. apply sumN_ext. intros a Ha. rewrite <- !sumN_scal, <- !sumN_plus. apply sumN_ext. intros b Hb.
  rewrite (ED e a b He Ha Hb), (ED e b a He Hb Ha).
  pose proof (poly_parts D e (nth a phi []) (nth b phi []) HD (fun c al I => proj1 (deg_ok a c al Ha I)) (fun c al I => proj1 (deg_ok b c al Hb I))) as X.
  replace (x a * meanDiff D e (nth a phi []) (nth b phi []) * y b + y b * meanDiff D e (nth b phi []) (nth a phi []) * x a)
    with (x a * y b * (meanDiff D e (nth a phi []) (nth b phi []) + meanDiff D e (nth b phi []) (nth a phi []))) by ring.
  rewrite X. ring.
Qed.
Lemma grad_sum : forall c d (h : nat -> R), sumN D (fun e => c d e * (h (S e) - h 0%nat)) = sumN (S D) (fun i => gradient D c d i * h i).
Proof.
  intros c d h. unfold sumN at 2. cbn [seq map fold_right gradient]. rewrite <- seq_shift, map_map. cbn [gradient].
  change (fold_right Rplus 0 (map (fun e => c d e * h (S e)) (seq 0 D))) with (sumN D (fun e => c d e * h (S e))).
  rewrite (sumN_ext D _ (fun e => c d e * h (S e) + - h 0%nat * c d e)) by (intros; ring). rewrite sumN_plus, sumN_scal. ring.
Qed.
(** Quadrature on one side of the element. *)
Lemma side_parts : forall k loc fi b f d x y, (k < n)%nat -> (0 <= d < Z.of_nat D)%Z -> nth_error (fm_faces m) fi = Some f ->
  (exists lam, exactOn D (loc (fi, b)) (2 * p) lam (f_pts (mf_face f)) /\
      forall q, In q (f_pts (mf_face f)) -> shapeOf b q = map (fun g => polyAt g (lam q)) phi /\
        forall d, (0 <= d < Z.of_nat D)%Z -> (if b then 1 else -1) * normalOf (q_geo q) (Z.to_nat d) = - (INR (fact D) * gradient D (C k) d (loc (fi, b)))) ->
  suml (fun q => ds q * (unitN q (Z.to_nat d) * ((if b then 1 else -1) * (value (shapeOf b q) x * value (shapeOf b q) y)))) (f_pts (mf_face f)) =
  - INR D * (gradient D (C k) d (loc (fi, b)) * pairF (loc (fi, b)) x y).
Proof.
  intros k loc fi b f d x y Hk Hd Ef (lam & X & H). set (i := loc (fi, b)) in *. set (Gi := gradient D (C k) d i) in *.
  assert (W : forall q, In q (f_pts (mf_face f)) -> weightOf (q_geo q) <> 0).
  { intros q Iq. rewrite Forall_forall in WF. pose proof (WF f (nth_error_In _ _ Ef)) as Wf. unfold wfFace in Wf. rewrite Forall_forall in Wf. destruct (Wf q Iq) as (G & _).
    unfold geoOk in G. destruct (q_geo q); cbn [weightOf] in *; lra. }
  transitivity (suml (fun q => - (INR (fact D) * Gi) * (q_w q * (sumN Q (fun a => polyAt (nth a phi []) (lam q) * x a) * sumN Q (fun b => polyAt (nth b phi []) (lam q) * y b)))) (f_pts (mf_face f))).
  { apply suml_ext. intros q Iq. destruct (H q Iq) as (Sh & No). specialize (No d Hd). fold Gi in No. rewrite <- No, Sh, !value_map. unfold ds, unitN.
    set (v1 := sumN Q _). set (v2 := sumN Q _). clearbody v1 v2. specialize (W q Iq). destruct b; field; exact W. }
  rewrite NodalEnergy_Proofs.suml_scal.
  assert (E : suml (fun q => q_w q * (sumN Q (fun a => polyAt (nth a phi []) (lam q) * x a) * sumN Q (fun b => polyAt (nth b phi []) (lam q) * y b))) (f_pts (mf_face f)) = / INR (fact (D - 1)) * pairF i x y).
  { transitivity (suml (fun q => suml (fun a => suml (fun b => x a * y b * (q_w q * (polyAt (nth a phi []) (lam q) * polyAt (nth b phi []) (lam q)))) (seq 0 Q)) (seq 0 Q)) (f_pts (mf_face f))).
    - apply suml_ext. intros q _. rewrite !suml_sumN. set (s2 := suml (fun b0 => polyAt (nth b0 phi []) (lam q) * y b0) (seq 0 Q)).
      replace (q_w q * (suml (fun a => polyAt (nth a phi []) (lam q) * x a) (seq 0 Q) * s2)) with (q_w q * s2 * suml (fun a => polyAt (nth a phi []) (lam q) * x a) (seq 0 Q)) by ring.
      rewrite <- NodalEnergy_Proofs.suml_scal. apply suml_ext. intros a _.
      replace (q_w q * s2 * (polyAt (nth a phi []) (lam q) * x a)) with (x a * q_w q * polyAt (nth a phi []) (lam q) * s2) by ring. unfold s2. rewrite <- NodalEnergy_Proofs.suml_scal. apply suml_ext. intros c _. ring.
    - rewrite suml_swap. unfold pairF. rewrite <- sumN_scal. apply (sumN_ext Q). intros a Ha. rewrite suml_swap. rewrite <- sumN_scal. apply (sumN_ext Q). intros c Hc.
      rewrite NodalEnergy_Proofs.suml_scal. rewrite (poly_face D i (2 * p) lam (f_pts (mf_face f)) (nth a phi []) (nth c phi []) X (fun c0 al I => deg_ok a c0 al Ha I) (fun c0 al I => deg_ok c c0 al Hc I)). ring. }
  rewrite E. destruct D as [|D']; [lia|]. replace (S D' - 1)%nat with D' by lia. change (fact (S D')) with (S D' * fact D')%nat. rewrite mult_INR. field. apply fact_pos.
Qed.
Theorem simplex_parts : elementParts r n m el (Z.of_nat D) C.
Proof.
  intros k d x y Hk Hd. rewrite Nat2Z.id.
  rewrite (sumN_ext D _ (fun e => - INR D * (C k d e * (pairF (S e) x y - pairF 0 x y)))) by (intros e He; rewrite (diff_parts e x y He); ring).
  rewrite sumN_scal, (grad_sum (C k) d (fun i => pairF i x y)).
  destruct (SM k Hk) as (loc & Pm & H).
  transitivity (suml (fun s => - INR D * (gradient D (C k) d (loc s) * pairF (loc s) x y)) (sides m el k)).
  - rewrite NodalEnergy_Proofs.suml_scal. f_equal. rewrite suml_sumN. rewrite <- (suml_perm _ _ _ Pm). unfold suml. rewrite map_map. reflexivity.
  - rewrite sum_sides. apply sumN_ext. intros fi Hfi. destruct (nth_error (fm_faces m) fi) as [f|] eqn:Ef.
    2:{ apply nth_error_None in Ef. lia. }
    assert (IS : forall b, In (fi, b) (sides m el k) -> exists lam, exactOn D (loc (fi, b)) (2 * p) lam (f_pts (mf_face f)) /\
      forall q, In q (f_pts (mf_face f)) -> shapeOf b q = map (fun g => polyAt g (lam q)) phi /\
        forall d, (0 <= d < Z.of_nat D)%Z -> (if b then 1 else -1) * normalOf (q_geo q) (Z.to_nat d) = - (INR (fact D) * gradient D (C k) d (loc (fi, b)))) by (intros b I; exact (H fi b f I Ef)).
    f_equal.
    + destruct (fst (el fi) =? k)%nat eqn:E1; [|reflexivity].
      assert (I : In (fi, true) (sides m el k)) by (unfold sides; apply in_flat_map; exists fi; split; [apply in_seq; lia|rewrite E1; left; reflexivity]).
      rewrite <- (side_parts k loc fi true f d x y Hk Hd Ef (IS true I)). unfold suml. f_equal. apply map_ext. intros q. cbn [shapeOf]. ring.
    + destruct (snd (el fi)) as [j|] eqn:Ej; [|reflexivity]. destruct (j =? k)%nat eqn:E2; [|reflexivity].
      assert (I : In (fi, false) (sides m el k)) by (unfold sides; apply in_flat_map; exists fi; split; [apply in_seq; lia|rewrite Ej, E2; apply in_or_app; right; left; reflexivity]).
      rewrite <- (side_parts k loc fi false f d x y Hk Hd Ef (IS false I)). unfold suml. f_equal. apply map_ext. intros q. cbn [shapeOf]. ring.
Qed.
End Elements.

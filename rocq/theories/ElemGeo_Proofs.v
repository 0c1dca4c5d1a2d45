(** Traces from the shape functions and the faces; derivatives of straight elements. *)
From Coq Require Import ZArith List Bool Reals Lia Lra Psatz Permutation.
From Verif Require Import Common Csr_Model Geo_Spec Face_Model Face_Spec Face_Proofs Nodal_Spec Nodal_Proofs NodalMult_Proofs NodalEnergy_Spec NodalEnergy_Proofs Setup_Model Setup_Spec Form_Model Form_Spec Global_Spec GlobalEnergy_Proofs HestElem_Proofs Step_Model Step_Spec StepGeo_Proofs StepMain_Proofs Step_Proofs Cfl_Spec CflLine_Proofs Elem_Spec Elem_Proofs.
Import ListNotations.
Local Open Scope R_scope.

Lemma sumSq_sum : forall l, sumSq l = sumN (length l) (fun i => nth i l 0 * nth i l 0).
Proof.
  intros l. induction l as [|x l IH]; [reflexivity|]. cbn [sumSq fold_right length]. fold (sumSq l). rewrite IH.
  unfold sumN. cbn [seq map fold_right]. rewrite <- seq_shift, map_map. reflexivity.
Qed.
Lemma tr_bound : forall v off l, tr v off l * tr v off l <= sumSq l * sumN (length l) (fun i => v (i + off)%nat * v (i + off)%nat).
Proof. intros v off l. rewrite sumSq_sum. apply (sumN_cs (length l) (fun i => nth i l 0) (fun i => v (i + off)%nat)). Qed.
Section Trace.
Variable q n : nat.
Variable m : fmesh.
Variable el : nat -> nat * option nat.
Variable S : nat -> R.
Variable T : R.
Hypothesis TO : touches q n m el.
Hypothesis FM : faceMeasures m el n S.
Hypothesis SH : shapeSize m T.
Hypothesis Wt : nonnegWeights m.
Hypothesis WF : Forall (fun f => wfFace (mf_face f)) (fm_faces m).
Hypothesis LE : Forall (fun f => length (mf_dofs1 f) = f_el1 (mf_face f)) (fm_faces m).
Definition second_sq (v : nat -> R) (x : option nat) : R := match x with Some k => elemSq q v k | None => 0 end.
Lemma point_bound : forall fi f p v, nth_error (fm_faces m) fi = Some f -> In p (f_pts (mf_face f)) ->
  side1 (mf_face f) (local f v) p * side1 (mf_face f) (local f v) p + side2 (mf_face f) (local f v) p * side2 (mf_face f) (local f v) p <= T * (elemSq q v (fst (el fi)) + second_sq v (snd (el fi))).
Proof.
  intros fi f p v E Ip. destruct (TO fi f E) as (K1 & D1 & D2). pose proof (nth_error_In _ _ E) as If. destruct SH as (T0 & SB). destruct (SB f p If Ip) as (B1 & B2).
  rewrite Forall_forall in WF, LE. pose proof (WF f If) as W. unfold wfFace in W. rewrite Forall_forall in W. destruct (W p Ip) as (_ & L1 & L2). pose proof (LE f If) as LD.
  assert (Eq : f_el1 (mf_face f) = q) by (rewrite <- LD, D1; apply seq_length).
  rewrite Rmult_plus_distr_l. apply Rplus_le_compat.
  - unfold side1. eapply Rle_trans; [apply tr_bound|]. rewrite L1, Eq. replace (sumN q (fun i => local f v (i + 0)%nat * local f v (i + 0)%nat)) with (elemSq q v (fst (el fi))).
    + apply Rmult_le_compat_r; [apply sumN_nn; intros; apply sq_nn|exact B1].
    + apply sumN_ext. intros a Ha. unfold local. rewrite D1, app_nth1 by (unfold dofsOf; rewrite seq_length; lia). unfold dofsOf. rewrite seq_nth by lia. now rewrite Nat.add_0_r.
  - unfold side2. destruct (snd (el fi)) as [k|]; destruct (f_el2 (mf_face f)) as [q'|]; try contradiction; cbn [second_sq]; [|lra].
    destruct D2 as (K2 & -> & D2). eapply Rle_trans; [apply tr_bound|]. rewrite L2, Eq. replace (sumN q (fun i => local f v (i + q)%nat * local f v (i + q)%nat)) with (elemSq q v k).
    + apply Rmult_le_compat_r; [apply sumN_nn; intros; apply sq_nn|exact B2].
    + apply sumN_ext. intros a Ha. unfold local. rewrite D1, app_nth2 by (unfold dofsOf; rewrite seq_length; lia). rewrite D2. unfold dofsOf. rewrite seq_length, seq_nth by lia. now replace (a + q - q)%nat with a by lia.
Qed.
Lemma suml_le : forall {A} (f g : A -> R) l, (forall a, In a l -> f a <= g a) -> suml f l <= suml g l.
Proof. intros A f g l. unfold suml. induction l as [|a l IH]; intros H; cbn [map fold_right]; [lra|]. pose proof (H a (or_introl eq_refl)). pose proof (IH (fun b Hb => H b (or_intror Hb))). lra. Qed.
Lemma face_trace : traceSize m q n S T.
Proof.
  split; [apply SH|]. intros v. unfold facesum.
  set (F := fun fi => match nth_error (fm_faces m) fi with Some f => T * (faceMeasure f * (elemSq q v (fst (el fi)) + second_sq v (snd (el fi)))) | None => 0 end).
  apply Rle_trans with (sumN (length (fm_faces m)) F).
  - rewrite suml_sumN. apply suml_le. intros fi _. unfold F. destruct (nth_error (fm_faces m) fi) as [f|] eqn:E; [|cbn; lra].
    unfold faceMeasure. change (fold_right Rplus 0 (map ds (f_pts (mf_face f)))) with (suml ds (f_pts (mf_face f))).
    replace (T * (suml ds (f_pts (mf_face f)) * (elemSq q v (fst (el fi)) + second_sq v (snd (el fi))))) with ((T * (elemSq q v (fst (el fi)) + second_sq v (snd (el fi)))) * suml ds (f_pts (mf_face f))) by ring.
    rewrite <- suml_scal. apply suml_le. intros p Ip. rewrite Rmult_comm. apply Rmult_le_compat_r.
    + pose proof (nth_error_In _ _ E) as If. unfold nonnegWeights in Wt. rewrite Forall_forall in Wt. specialize (Wt f If). rewrite Forall_forall in Wt. specialize (Wt p Ip). rewrite Forall_forall in WF. pose proof (WF f If) as W. unfold wfFace in W. rewrite Forall_forall in W. destruct (W p Ip) as (G & _).
      unfold ds. apply Rmult_le_pos; [exact Wt|]. destruct (q_geo p); cbn in *; lra || apply sqrt_pos.
    + now apply point_bound.
  - rewrite (sumN_ext _ F (fun fi => T * sumN n (fun k => elemSq q v k * match nth_error (fm_faces m) fi with
      | Some f => (if (fst (el fi) =? k)%nat then faceMeasure f else 0) + (match snd (el fi) with Some j => if (j =? k)%nat then faceMeasure f else 0 | None => 0 end) | None => 0 end))).
    + rewrite sumN_scal. apply Rmult_le_compat_l; [apply SH|]. rewrite sumN_swap. apply sumN_mono. intros k Hk. rewrite sumN_scal. rewrite Rmult_comm.
      apply Rmult_le_compat_r; [apply sumN_nn; intros; apply sq_nn|]. now apply FM.
    + intros fi _. unfold F. destruct (nth_error (fm_faces m) fi) as [f|] eqn:E.
      2:{ rewrite (sumN_ext n _ (fun _ => 0)) by (intros; ring). rewrite sumN_zero by reflexivity. ring. }
      destruct (TO fi f E) as (K1 & _ & D2). f_equal.
      rewrite (sumN_ext n _ (fun k => (if (fst (el fi) =? k)%nat then faceMeasure f * elemSq q v k else 0) + (match snd (el fi) with Some j => if (j =? k)%nat then faceMeasure f * elemSq q v k else 0 | None => 0 end))).
      2:{ intros k _. destruct (fst (el fi) =? k)%nat; destruct (snd (el fi)) as [j|]; try destruct (j =? k)%nat; ring. }
      rewrite sumN_plus, (sumN_one n (fst (el fi)) (fun k => faceMeasure f * elemSq q v k) K1). destruct (snd (el fi)) as [j|]; cbn [second_sq].
      * destruct (f_el2 (mf_face f)); [|contradiction]. rewrite (sumN_one n j (fun k => faceMeasure f * elemSq q v k)) by apply D2. ring.
      * rewrite sumN_zero by reflexivity. ring.
Qed.
End Trace.

(** ** Straight elements *)
Lemma two : forall f, sumN (Z.to_nat 2) f = f 0%nat + f 1%nat.
Proof. intros f. change (Z.to_nat 2) with 2%nat. rewrite !CflLine_Proofs.sumN_S, CflLine_Proofs.sumN_0. ring. Qed.
Lemma three : forall f, sumN (Z.to_nat 3) f = f 0%nat + f 1%nat + f 2%nat.
Proof. intros f. change (Z.to_nat 3) with 3%nat. rewrite !CflLine_Proofs.sumN_S, CflLine_Proofs.sumN_0. ring. Qed.
Lemma abs_le_sqrt : forall x y, 0 <= y -> Rabs x <= sqrt (x * x + y).
Proof. intros x y H. rewrite <- sqrt_Rsqr_abs. apply sqrt_le_1_alt. unfold Rsqr. lra. Qed.
Lemma dist_coord : forall p p' d, (d = 0 \/ d = 1)%Z -> Rabs (coord d p - coord d p') <= dist 2 p p'.
Proof.
  intros [[x y] z] [[x' y'] z'] d Hd. unfold dist, dist2, sq, coord. change (0 <? 2)%Z with true. change (1 <? 2)%Z with true. change (2 <? 2)%Z with false. cbv iota. rewrite Rplus_0_r.
  destruct Hd as [-> | ->]; cbn [Z.eqb]; [|rewrite Rplus_comm]; apply abs_le_sqrt; apply sq_nn.
Qed.
Lemma half_abs_le : forall D g x y, D * g = x -> Rabs x <= y -> 0 <= y -> Rabs (Rabs D / 2 * g) <= y.
Proof.
  intros D g x y E L Y. replace (Rabs D / 2 * g) with (Rabs D * g / 2) by field. unfold Rdiv. rewrite !Rabs_mult, Rabs_Rabsolu, <- Rabs_mult, E. rewrite (Rabs_pos_eq (/ 2)) by lra. pose proof (Rabs_pos x). lra.
Qed.
Lemma triangle_deriv : forall el a b c g ms s, m_dim ms = 2%Z -> m_sdim ms = 2%Z -> triangleElement el a b c -> derivativesOf 2 [b; c] a g -> boundary ms el s ->
  forall d e, (0 <= d < 2)%Z -> (e < 2)%nat -> Rabs (e_volume el * g d e) <= s.
Proof.
  intros el a b c g ms s Dm Sd TE DO Bd d e Hd He. destruct (triangle_boundary ms el a b c Dm Sd TE) as (B' & _).
  rewrite (boundary_fun ms el s _ ltac:(lia) Bd B'). destruct TE as (_ & EV & _). rewrite EV.
  assert (P : forall p p', 0 <= dist 2 p p') by (intros; apply sqrt_pos). pose proof (P a b) as Pab. pose proof (P b c) as Pbc. pose proof (P c a) as Pca.
  pose proof (DO e 0%nat b He eq_refl) as E0. pose proof (DO e 1%nat c He eq_refl) as E1. rewrite two in E0, E1. cbn [Z.of_nat Pos.of_succ_nat Pos.succ] in E0, E1.
  assert (Q : forall i p p', (i = 0 \/ i = 1)%Z -> Rabs (coord i p - coord i p') <= dist 2 a b + dist 2 b c + dist 2 c a -> Rabs (- (coord i p - coord i p')) <= dist 2 a b + dist 2 b c + dist 2 c a) by (intros; rewrite Rabs_Ropp; assumption).
  assert (Eca : forall i, (i = 0 \/ i = 1)%Z -> Rabs (coord i c - coord i a) <= dist 2 a b + dist 2 b c + dist 2 c a) by (intros i Hi; pose proof (dist_coord c a i Hi); lra).
  assert (Eba : forall i, (i = 0 \/ i = 1)%Z -> Rabs (coord i b - coord i a) <= dist 2 a b + dist 2 b c + dist 2 c a) by (intros i Hi; pose proof (dist_coord a b i Hi) as X; rewrite Rabs_minus_sym in X; lra).
  assert (AA : area2 a b c = (coord 0 b - coord 0 a) * (coord 1 c - coord 1 a) - (coord 1 b - coord 1 a) * (coord 0 c - coord 0 a)) by (destruct a as [[? ?] ?], b as [[? ?] ?], c as [[? ?] ?]; reflexivity).
  set (b0 := coord 0 b - coord 0 a) in *. set (b1 := coord 1 b - coord 1 a) in *. set (c0 := coord 0 c - coord 0 a) in *. set (c1 := coord 1 c - coord 1 a) in *.
  assert (G0 : area2 a b c * g 0%Z e = (g 0%Z e * b0 + g 1%Z e * b1) * c1 - (g 0%Z e * c0 + g 1%Z e * c1) * b1) by (rewrite AA; ring).
  assert (G1 : area2 a b c * g 1%Z e = (g 0%Z e * c0 + g 1%Z e * c1) * b0 - (g 0%Z e * b0 + g 1%Z e * b1) * c0) by (rewrite AA; ring).
  rewrite E0, E1 in G0, G1. assert (Hd' : d = 0%Z \/ d = 1%Z) by lia. destruct Hd' as [-> | ->]; destruct e as [|[|e]]; try lia; cbn [Nat.eqb] in G0, G1.
  - apply (half_abs_le _ _ _ _ G0); [|lra]. replace (1 * c1 - 0 * b1) with c1 by ring. apply Eca; auto.
  - apply (half_abs_le _ _ _ _ G0); [|lra]. replace (0 * c1 - 1 * b1) with (- b1) by ring. apply Q, Eba; auto.
  - apply (half_abs_le _ _ _ _ G1); [|lra]. replace (0 * b0 - 1 * c0) with (- c0) by ring. apply Q, Eca; auto.
  - apply (half_abs_le _ _ _ _ G1); [|lra]. replace (1 * b0 - 0 * c0) with b0 by ring. apply Eba; auto.
Qed.
(** Components of the normal of a triangle of space. *)
Lemma normal_coord : forall a b c x y z, normal2 a b c = x * x + y * y + z * z -> Rabs x <= 2 * triArea a b c /\ Rabs y <= 2 * triArea a b c /\ Rabs z <= 2 * triArea a b c.
Proof.
  intros a b c x y z E. unfold triArea. rewrite heron_normal, E. replace (4 * (x * x + y * y + z * z)) with (2 * 2 * (x * x + y * y + z * z)) by ring.
  pose proof (sq_nn x). pose proof (sq_nn y). pose proof (sq_nn z). rewrite sqrt_mult_alt by lra. rewrite sqrt_square by lra.
  replace (2 * (2 * sqrt (x * x + y * y + z * z) / 4)) with (sqrt (x * x + y * y + z * z)) by field. repeat split.
  - rewrite Rplus_assoc. apply abs_le_sqrt. lra.
  - replace (x * x + y * y + z * z) with (y * y + (x * x + z * z)) by ring. apply abs_le_sqrt. lra.
  - replace (x * x + y * y + z * z) with (z * z + (x * x + y * y)) by ring. apply abs_le_sqrt. lra.
Qed.
Lemma sixth_abs_le : forall D g x y, D * g = x -> Rabs x <= 2 * y -> 0 <= y -> Rabs (Rabs D / 6 * g) <= y.
Proof.
  intros D g x y E L Y. replace (Rabs D / 6 * g) with (Rabs D * g / 6) by field. unfold Rdiv. rewrite !Rabs_mult, Rabs_Rabsolu, <- Rabs_mult, E. rewrite (Rabs_pos_eq (/ 6)) by lra. pose proof (Rabs_pos x). lra.
Qed.
Lemma tetra_deriv : forall el a b c d' g ms s, m_dim ms = 3%Z -> (m_sdim ms <= 3)%Z -> tetraElement el a b c d' -> derivativesOf 3 [b; c; d'] a g -> boundary ms el s ->
  forall d e, (0 <= d < 3)%Z -> (e < 3)%nat -> Rabs (e_volume el * g d e) <= s.
Proof.
  intros el a b c t g ms s Dm Sd TE DO Bd d e Hd He. destruct (tetra_boundary ms el a b c t Dm TE) as (B' & _).
  rewrite (boundary_fun ms el s _ Sd Bd B'). destruct TE as (_ & EV & _). rewrite EV.
  assert (NN : forall p q r, 0 <= triArea p q r). { intros p q r. unfold triArea. pose proof (sqrt_pos (heron16 (dist2 3 p q) (dist2 3 q r) (dist2 3 r p))). lra. }
  pose proof (NN b c t). pose proof (NN a c t). pose proof (NN a b t). pose proof (NN a b c). clear NN.
  pose proof (DO e 0%nat b He eq_refl) as E0. pose proof (DO e 1%nat c He eq_refl) as E1. pose proof (DO e 2%nat t He eq_refl) as E2. rewrite three in E0, E1, E2. cbn [Z.of_nat Pos.of_succ_nat Pos.succ] in E0, E1, E2.
  destruct a as [[a0 a1] a2], b as [[b0 b1] b2], c as [[c0 c1] c2], t as [[t0 t1] t2]. cbn [coord Z.eqb Pos.eqb] in E0, E1, E2.
  set (B0 := b0 - a0) in *. set (B1 := b1 - a1) in *. set (B2 := b2 - a2) in *. set (C0 := c0 - a0) in *. set (C1 := c1 - a1) in *. set (C2 := c2 - a2) in *. set (T0 := t0 - a0) in *. set (T1 := t1 - a1) in *. set (T2 := t2 - a2) in *.
  assert (VV : volume6 (a0, a1, a2) (b0, b1, b2) (c0, c1, c2) (t0, t1, t2) = B0 * (C1 * T2 - C2 * T1) + B1 * (C2 * T0 - C0 * T2) + B2 * (C0 * T1 - C1 * T0)) by (unfold volume6; fold B0 B1 B2 C0 C1 C2 T0 T1 T2; ring).
  destruct (normal_coord (a0, a1, a2) (c0, c1, c2) (t0, t1, t2) (C1 * T2 - C2 * T1) (C2 * T0 - C0 * T2) (C0 * T1 - C1 * T0) ltac:(unfold normal2, sq; reflexivity)) as (N1 & N2 & N3).
  destruct (normal_coord (a0, a1, a2) (b0, b1, b2) (t0, t1, t2) (B1 * T2 - B2 * T1) (B2 * T0 - B0 * T2) (B0 * T1 - B1 * T0) ltac:(unfold normal2, sq; reflexivity)) as (N4 & N5 & N6).
  destruct (normal_coord (a0, a1, a2) (b0, b1, b2) (c0, c1, c2) (B1 * C2 - B2 * C1) (B2 * C0 - B0 * C2) (B0 * C1 - B1 * C0) ltac:(unfold normal2, sq; reflexivity)) as (N7 & N8 & N9).
  set (Vl := volume6 _ _ _ _) in *. set (x := triArea (b0, b1, b2) (c0, c1, c2) (t0, t1, t2)) in *. set (y := triArea (a0, a1, a2) (c0, c1, c2) (t0, t1, t2)) in *. set (z := triArea (a0, a1, a2) (b0, b1, b2) (t0, t1, t2)) in *. set (u := triArea (a0, a1, a2) (b0, b1, b2) (c0, c1, c2)) in *.
  set (X0 := g 0%Z e * B0 + g 1%Z e * B1 + g 2%Z e * B2) in *. set (X1 := g 0%Z e * C0 + g 1%Z e * C1 + g 2%Z e * C2) in *. set (X2 := g 0%Z e * T0 + g 1%Z e * T1 + g 2%Z e * T2) in *.
  assert (G0 : Vl * g 0%Z e = X0 * (C1 * T2 - C2 * T1) + X1 * - (B1 * T2 - B2 * T1) + X2 * (B1 * C2 - B2 * C1)) by (rewrite VV; unfold X0, X1, X2; ring).
  assert (G1 : Vl * g 1%Z e = X0 * (C2 * T0 - C0 * T2) + X1 * - (B2 * T0 - B0 * T2) + X2 * (B2 * C0 - B0 * C2)) by (rewrite VV; unfold X0, X1, X2; ring).
  assert (G2 : Vl * g 2%Z e = X0 * (C0 * T1 - C1 * T0) + X1 * - (B0 * T1 - B1 * T0) + X2 * (B0 * C1 - B1 * C0)) by (rewrite VV; unfold X0, X1, X2; ring).
  rewrite E0, E1, E2 in G0, G1, G2. clearbody Vl x y z u.
  assert (Hd' : d = 0%Z \/ d = 1%Z \/ d = 2%Z) by lia.
  assert (Fin : forall gd (p1 p2 p3 : R), Vl * gd = (if (e =? 0)%nat then 1 else 0) * p1 + (if (e =? 1)%nat then 1 else 0) * - p2 + (if (e =? 2)%nat then 1 else 0) * p3 ->
    Rabs p1 <= 2 * y -> Rabs p2 <= 2 * z -> Rabs p3 <= 2 * u -> Rabs (Rabs Vl / 6 * gd) <= x + y + z + u).
  { intros gd p1 p2 p3 Eq L1 L2 L3. destruct e as [|[|[|e]]]; try lia; cbn [Nat.eqb] in Eq.
    - apply (sixth_abs_le Vl gd p1); [rewrite Eq; ring|lra|lra].
    - apply (sixth_abs_le Vl gd (- p2)); [rewrite Eq; ring|rewrite Rabs_Ropp; lra|lra].
    - apply (sixth_abs_le Vl gd p3); [rewrite Eq; ring|lra|lra]. }
  destruct Hd' as [-> | [-> | ->]]; eapply Fin; eauto.
Qed.
Lemma triangles_bound : forall n ms C V S, m_dim ms = 2%Z -> m_sdim ms = 2%Z -> triangles n ms C -> sameElements n V S ms ->
  forall k d e, (k < n)%nat -> (0 <= d < 2)%Z -> (e < Z.to_nat 2)%nat -> Rabs (C k d e) <= S k.
Proof.
  intros n ms C V S Dm Sd TR (L & SE) k d e Hk Hd He. destruct (TR k Hk) as (el & a & b & c & g & Ek & TE & DO & EC). destruct (SE k el Ek) as (_ & B & _). rewrite EC. eapply triangle_deriv; eauto.
Qed.
Lemma tetrahedra_bound : forall n ms C V S, m_dim ms = 3%Z -> (m_sdim ms <= 3)%Z -> tetrahedra n ms C -> sameElements n V S ms ->
  forall k d e, (k < n)%nat -> (0 <= d < 3)%Z -> (e < Z.to_nat 3)%nat -> Rabs (C k d e) <= S k.
Proof.
  intros n ms C V S Dm Sd TR (L & SE) k d e Hk Hd He. destruct (TR k Hk) as (el & a & b & c & t & g & Ek & TE & DO & EC). destruct (SE k el Ek) as (_ & B & _). rewrite EC. eapply tetra_deriv; eauto.
Qed.

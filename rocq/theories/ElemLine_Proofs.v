(** Lines of elements of any order: the space, and runs with the automatic time step. *)
From Coq Require Import ZArith List Bool Reals Lia Lra Psatz.
From Verif Require Import Common Csr_Model Geo_Spec Face_Model Face_Spec Face_Proofs Nodal_Spec Nodal_Proofs NodalMult_Proofs NodalEnergy_Spec NodalEnergy_Proofs Setup_Model Setup_Spec Assembly_Model Form_Model Form_Spec Global_Spec Global_Proofs GlobalEnergy_Proofs GlobalBalance_Proofs HestElem_Proofs Twin_Spec Step_Model Step_Spec StepLine_Proofs Time_Model Ode_Model Ode_Spec OdeFin_Proofs OdeEx_Proofs Cfl_Spec CflLine_Proofs Elem_Spec Elem_Proofs ElemStep_Proofs.
Import ListNotations.
Local Open Scope R_scope.

Section Faces.
Variable n : nat.
Variable q : nat.
Variable e : ends.
Variable bdr : list (Z * nat).
Variable battrs : list Z.
Hypothesis n0 : (0 < n)%nat.
Hypothesis Ll : length (at_left e) = q.
Hypothesis Lr : length (at_right e) = q.
Notation m := (lineOf q e n bdr battrs).
Lemma sides_len : length (fm_faces m) = Datatypes.S n.
Proof using n0 Ll Lr. unfold lineOf. cbn [fm_faces length]. rewrite app_length, map_length, seq_length. cbn [length]. lia. Qed.
Lemma side_mid : forall k, (1 <= k < n)%nat -> nth_error (fm_faces m) k = Some (midSide q e k).
Proof using n0 Ll Lr.
  intros k Hk. unfold lineOf. cbn [fm_faces]. destruct k as [|k]; [lia|]. cbn [nth_error]. rewrite nth_error_app1 by (rewrite map_length, seq_length; lia).
  rewrite nth_error_map, (nth_error_nth' _ 0%nat) by (rewrite seq_length; lia). rewrite seq_nth by lia. reflexivity.
Qed.
Lemma side_right : nth_error (fm_faces m) n = Some (rightSide q e n).
Proof using n0 Ll Lr.
  unfold lineOf. cbn [fm_faces]. destruct n as [|n']; [lia|]. cbn [nth_error]. rewrite nth_error_app2 by (rewrite map_length, seq_length; lia).
  rewrite map_length, seq_length. replace (n' - (Datatypes.S n' - 1))%nat with 0%nat by lia. reflexivity.
Qed.
Lemma side_cases : forall fi F, nth_error (fm_faces m) fi = Some F -> (fi = 0%nat /\ F = leftSide q e) \/ ((1 <= fi < n)%nat /\ F = midSide q e fi) \/ (fi = n /\ F = rightSide q e n).
Proof using n0 Ll Lr.
  intros fi F E. assert (Hl : (fi < Datatypes.S n)%nat) by (rewrite <- sides_len; apply nth_error_Some; congruence).
  destruct fi as [|fi]; [left; cbn in E; injection E as <-; auto|]. right. destruct (Nat.eq_dec (Datatypes.S fi) n) as [En|Hn].
  - right. rewrite En, side_right in E. injection E as <-. auto.
  - left. rewrite side_mid in E by lia. injection E as <-. split; [lia|reflexivity].
Qed.
Lemma sides_sum : forall hh, facesum m hh = hh 0%nat (leftSide q e) (leftPt e) + sumN (n - 1) (fun k => hh (k + 1)%nat (midSide q e (k + 1)) (midPt e)) + hh n (rightSide q e n) (rightPt e).
Proof using n0 Ll Lr.
  intros hh. unfold facesum. rewrite sides_len. replace (Datatypes.S n) with (1 + ((n - 1) + 1))%nat by lia. rewrite !seq_app, !suml_app.
  assert (P : forall F p, f_pts (mf_face F) = [p] -> q_w p = 1 -> weightOf (q_geo p) = 1 -> forall fi, suml (fun p => ds p * hh fi F p) (f_pts (mf_face F)) = hh fi F p).
  { intros F p E W1 W2 fi. rewrite E. unfold suml, ds. cbn [map fold_right]. rewrite W1, W2. ring. }
  replace (0 + 1 + (n - 1))%nat with n by lia. cbn [seq].
  assert (O : forall (f : nat -> R) a, suml f [a] = f a) by (intros; unfold suml; cbn [map fold_right]; ring). rewrite !O.
  change (nth_error (fm_faces m) 0) with (Some (leftSide q e)). rewrite side_right.
  rewrite (P (leftSide q e) (leftPt e)), (P (rightSide q e n) (rightPt e)) by reflexivity. rewrite Rplus_assoc. f_equal. f_equal.
  change (0 + 1)%nat with 1%nat. unfold sumN, suml.
  rewrite <- (map_map (fun k => (k + 1)%nat) (fun k => hh k (midSide q e k) (midPt e))). replace (map (fun k => (k + 1)%nat) (seq 0 (n - 1))) with (seq 1 (n - 1)).
  2:{ rewrite <- seq_shift. apply map_ext. intros. lia. }
  f_equal. apply map_ext_in. intros k Hk. apply in_seq in Hk. rewrite side_mid by lia. apply (P (midSide q e k) (midPt e)); reflexivity.
Qed.
(** Values at the ends of element [k]. *)
Definition onLeft (v : nat -> R) (k : nat) : R := sumN q (fun a => nth a (at_left e) 0 * v (k * q + a)%nat).
Definition onRight (v : nat -> R) (k : nat) : R := sumN q (fun a => nth a (at_right e) 0 * v (k * q + a)%nat).
Lemma v_left : forall v, side1 (mf_face (leftSide q e)) (local (leftSide q e) v) (leftPt e) = onLeft v 0 /\ side2 (mf_face (leftSide q e)) (local (leftSide q e) v) (leftPt e) = 0.
Proof using n0 Ll Lr.
  intros v. split; [|reflexivity]. unfold side1, tr, local, onLeft, leftSide, leftPt. cbn [q_s1 mf_dofs1 mf_dofs2]. rewrite Ll, app_nil_r. apply sumN_ext. intros a Ha. unfold dofsOf. rewrite seq_nth by lia. do 2 f_equal. lia.
Qed.
Lemma v_right : forall v, side1 (mf_face (rightSide q e n)) (local (rightSide q e n) v) (rightPt e) = onRight v (n - 1) /\ side2 (mf_face (rightSide q e n)) (local (rightSide q e n) v) (rightPt e) = 0.
Proof using n0 Ll Lr.
  intros v. split; [|reflexivity]. unfold side1, tr, local, onRight, rightSide, rightPt. cbn [q_s1 mf_dofs1 mf_dofs2]. rewrite Lr, app_nil_r. apply sumN_ext. intros a Ha. unfold dofsOf. rewrite seq_nth by lia. do 2 f_equal. lia.
Qed.
Lemma v_mid : forall k v, side1 (mf_face (midSide q e (k + 1))) (local (midSide q e (k + 1)) v) (midPt e) = onRight v k /\ side2 (mf_face (midSide q e (k + 1))) (local (midSide q e (k + 1)) v) (midPt e) = onLeft v (k + 1).
Proof using n0 Ll Lr.
  intros k v. unfold side1, side2, tr, local, onLeft, onRight, midSide, midPt. cbn [q_s1 q_s2 mf_dofs1 mf_dofs2 mf_face f_el1 f_el2]. rewrite Ll, Lr. replace (k + 1 - 1)%nat with k by lia. split; apply sumN_ext; intros a Ha; unfold dofsOf.
  - rewrite app_nth1 by (rewrite seq_length; lia). rewrite seq_nth by lia. do 2 f_equal. lia.
  - rewrite app_nth2 by (rewrite seq_length; lia). rewrite seq_length. rewrite seq_nth by lia. do 2 f_equal. lia.
Qed.
Lemma ends_traces : forall v, facesum m (fun _ f p => side1 (mf_face f) (local f v) p * side1 (mf_face f) (local f v) p + side2 (mf_face f) (local f v) p * side2 (mf_face f) (local f v) p) =
  sumN n (fun k => onLeft v k * onLeft v k + onRight v k * onRight v k).
Proof using n0 Ll Lr.
  intros v. rewrite sides_sum. destruct (v_left v) as (E1 & E2). destruct (v_right v) as (E3 & E4). rewrite E1, E2, E3, E4.
  rewrite (sumN_ext (n - 1) _ (fun k => onRight v k * onRight v k + onLeft v (k + 1) * onLeft v (k + 1))).
  2:{ intros k _. destruct (v_mid k v) as (E5 & E6). rewrite E5, E6. reflexivity. }
  rewrite <- (regroup n n0 (fun k => onRight v k * onRight v k) (fun k => onLeft v k * onLeft v k)). ring.
Qed.
Lemma ends_parts : forall v u, facesum m (fun _ f p => unitN p 0 * (side1 (mf_face f) (local f v) p * side1 (mf_face f) (local f u) p - side2 (mf_face f) (local f v) p * side2 (mf_face f) (local f u) p)) =
  sumN n (fun k => onRight v k * onRight u k - onLeft v k * onLeft u k).
Proof using n0 Ll Lr.
  intros v u. rewrite sides_sum. destruct (v_left v) as (E1 & E2). destruct (v_right v) as (E3 & E4). destruct (v_left u) as (E1' & E2'). destruct (v_right u) as (E3' & E4').
  rewrite E1, E2, E3, E4, E1', E2', E3', E4'.
  assert (U1 : unitN (leftPt e) 0 = -1) by (unfold unitN; cbn; field). assert (U2 : unitN (midPt e) 0 = 1) by (unfold unitN; cbn; field). assert (U3 : unitN (rightPt e) 0 = 1) by (unfold unitN; cbn; field). rewrite U1, U3.
  rewrite (sumN_ext (n - 1) _ (fun k => onRight v k * onRight u k + - (onLeft v (k + 1) * onLeft u (k + 1)))).
  2:{ intros k _. destruct (v_mid k v) as (E5 & E6). destruct (v_mid k u) as (E7 & E8). rewrite E5, E6, E7, E8, U2. ring. }
  rewrite (sumN_ext n _ (fun k => - (onLeft v k * onLeft u k) + onRight v k * onRight u k)) by (intros; ring).
  rewrite <- (regroup n n0 (fun k => onRight v k * onRight u k) (fun k => - (onLeft v k * onLeft u k))). ring.
Qed.
Lemma ends_weights : nonnegWeights m.
Proof using n0 Ll Lr.
  apply Forall_forall. intros f If. apply In_nth_error in If. destruct If as (fi & E). destruct (side_cases fi f E) as [(_ & ->)|[(Hk & ->)|(_ & ->)]];
    apply Forall_forall; intros p [<-|[]]; cbn; lra.
Qed.
Lemma ends_size : traceSize m q n (fun _ => 1) (endSize q e).
Proof using n0 Ll Lr.
  unfold endSize. set (X := sumN q (fun a => nth a (at_left e) 0 * nth a (at_left e) 0)). set (Y := sumN q (fun a => nth a (at_right e) 0 * nth a (at_right e) 0)).
  assert (X0 : 0 <= X) by (apply sumN_nn; intros; apply sq_nn). assert (Y0 : 0 <= Y) by (apply sumN_nn; intros; apply sq_nn).
  split; [lra|]. intros v. rewrite ends_traces, <- sumN_scal. apply sumN_mono. intros k _. rewrite Rmult_1_l, Rmult_plus_distr_r.
  apply Rplus_le_compat; [apply (sumN_cs q (fun a => nth a (at_left e) 0) (fun a => v (k * q + a)%nat))|apply (sumN_cs q (fun a => nth a (at_right e) 0) (fun a => v (k * q + a)%nat))].
Qed.
End Faces.

Section Line.
Variable n : nat.
Variable r : reference.
Variable e : ends.
Variable bdr : list (Z * nat).
Variable battrs : list Z.
Variable h : nat -> R.
Variable w : Z -> nat -> R.
Hypothesis n0 : (0 < n)%nat.
Hypothesis SG : segmentOk r e.
Hypothesis HT : lineTags n bdr battrs.
Hypothesis Hh : forall k, (k < n)%nat -> 0 < h k.
Hypothesis Hw : forall g k, 1 <= w g k.
Notation q := (r_dofs r).
Notation m := (lineOf q e n bdr battrs).
Lemma one_form : forall v u d, mform (n * q) (affineD r 1 unitC d) v u = sumN n (fun k => mform q (r_diff r 0%nat) (fun a => v (k * q + a)%nat) (fun a => u (k * q + a)%nat)).
Proof.
  intros v u d. unfold affineD. rewrite per_form. apply sumN_ext. intros k _. rewrite (mform_msum q 1 (fun e => unitC k d e) (r_diff r)). rewrite CflLine_Proofs.sumN_S, CflLine_Proofs.sumN_0. unfold unitC. ring.
Qed.
Lemma parts_form : forall v u, mform q (r_diff r 0%nat) v u + mform q (r_diff r 0%nat) u v =
  sumN q (fun a => nth a (at_right e) 0 * v a) * sumN q (fun a => nth a (at_right e) 0 * u a) - sumN q (fun a => nth a (at_left e) 0 * v a) * sumN q (fun a => nth a (at_left e) 0 * u a).
Proof.
  intros v u. destruct SG as (_ & _ & _ & P).
  assert (Pr : forall s : nat -> R, sumN q (fun a => s a * v a) * sumN q (fun a => s a * u a) = sumN q (fun a => sumN q (fun b => v a * (s a * s b) * u b))).
  { intros s. rewrite <- sumN_scal_r. apply sumN_ext. intros a _. rewrite <- sumN_scal. apply sumN_ext. intros; ring. }
  rewrite !(Pr (fun a => nth a _ 0)). unfold mform at 2. rewrite sumN_swap. unfold mform. rewrite <- sumN_plus.
  match goal with |- _ = ?A - ?B => replace (A - B) with (A + (-1) * B) by ring end. rewrite <- sumN_scal, <- sumN_plus. apply sumN_ext. intros a Ha.
  rewrite <- sumN_scal, <- !sumN_plus. apply sumN_ext. intros b Hb. pose proof (P a b Ha Hb) as E.
  replace (v a * r_diff r 0%nat a b * u b + u b * r_diff r 0%nat b a * v a) with (v a * u b * (r_diff r 0%nat a b + r_diff r 0%nat b a)) by ring. rewrite E. ring.
Qed.
Lemma smallest : exists k, (k < n)%nat /\ forall j, (j < n)%nat -> h k <= h j.
Proof.
  clear HT Hh. induction n as [|p IH]; [lia|]. destruct p as [|p].
  - exists 0%nat. split; [lia|]. intros j Hj. replace j with 0%nat by lia. lra.
  - destruct (IH ltac:(lia)) as (k & Hk & M). destruct (Rle_or_lt (h k) (h (Datatypes.S p))) as [L|L].
    + exists k. split; [lia|]. intros j Hj. destruct (Nat.eq_dec j (Datatypes.S p)) as [->|]; [exact L|apply M; lia].
    + exists (Datatypes.S p). split; [lia|]. intros j Hj. destruct (Nat.eq_dec j (Datatypes.S p)) as [->|]; [lra|]. pose proof (M j ltac:(lia)). lra.
Qed.
Theorem ends_space : dgSpace (n * q) m 1 (affineMass r h w) (affineInv r h w) (affineD r 1 unitC).
Proof.
  pose proof SG as (RO & Ll & Lr & _). destruct HT as (T1 & T2 & T3). split; [lia|]. split; [split; [|split]|split; [|split; [|split]]].
  - apply Forall_forall. intros f If. apply In_nth_error in If. destruct If as (fi & E).
    destruct (side_cases n q e bdr battrs n0 Ll Lr fi f E) as [(_ & ->)|[(Hk & ->)|(_ & ->)]];
      (split; [apply seq_length|split; [apply seq_length || reflexivity|]]); apply Forall_forall; cbn [mf_dofs1 mf_dofs2 leftSide midSide rightSide]; intros d Hd;
      apply in_app_or in Hd; destruct Hd as [Hd|Hd]; try (apply in_seq in Hd); try (destruct Hd; fail); nia.
  - exact T2.
  - rewrite Forall_forall in *. intros b Ib. rewrite (sides_len n q e bdr battrs n0 Ll Lr). destruct (T3 b Ib). split; [assumption|lia].
  - exact T1.
  - apply Forall_forall. intros f If. apply In_nth_error in If. destruct If as (fi & E).
    destruct (side_cases n q e bdr battrs n0 Ll Lr fi f E) as [(_ & ->)|[(Hk & ->)|(_ & ->)]]; (split; [apply Forall_forall; intros p [<-|[]]; (split; [cbn; auto|split; cbn; auto])|]);
      intros p d [<-|[]] Hd; (destruct d as [|d]; [lia|]); unfold unitN, normalOf; cbn [q_geo leftPt midPt rightPt]; unfold Rdiv; apply Rmult_0_l.
  - intros g i j _ Hi Hj. destruct smallest as (k & Hk & M). apply (affine_inverse n r h (fun _ => 1) w (h k) RO); auto. intros l Hl. split; [lra|]. pose proof (M l Hl). lra.
  - intros d v u Hd. assert (d = 0%Z) by lia. subst d. rewrite !one_form. change (Z.to_nat 0) with 0%nat. rewrite (ends_parts n q e bdr battrs n0 Ll Lr).
    rewrite <- sumN_plus. apply sumN_ext. intros k _. apply parts_form.
Qed.
End Line.

(** ** The automatic step *)
Section Auto.
Variable n : nat.
Variable r : reference.
Variable e : ends.
Variable bdr : list (Z * nat).
Variable battrs : list Z.
Variable h : nat -> R.
Variable w : Z -> nat -> R.
Variable dmax alpha : R.
Variable gl : Z -> list R.
Variable st : list (list R).
Variable ms : mesh.
Variable o : stepOptions.
Variable xi : list R.
Variable gap : R.
Variable gb gi : list (Z * cond).
Variable ob ib : list (cond * marker).
Variable MSigma : mat.
Variable sm : marker.
Hypothesis n0 : (0 < n)%nat.
Hypothesis SG : segmentOk r e.
Hypothesis HT : lineTags n bdr battrs.
Hypothesis Hh : forall k, (k < n)%nat -> 0 < h k /\ h k * gap <= dmax.
Hypothesis Hw : forall g k, 1 <= w g k.
Hypothesis SL : sameLineOf n h xi ms.
Hypothesis GP : smallestGap xi gap.
Hypothesis G0 : 0 < gap.
Hypothesis O1 : (1 <= so_order o)%Z.
Hypothesis C0 : 0 < so_cfl o.
Notation q := (r_dofs r).
Notation m := (lineOf q e n bdr battrs).
Hypothesis TB : tables m gb gi ob ib.
Notation step := (so_cfl o * gap / (IZR (so_order o) * sqrt (IZR (so_order o)))).
Lemma gap_of : forall k el x0 d, (k < n)%nat -> e_nodes el = map (fun t => x0 + h k * t) xi -> nodeGap el d -> gap * h k <= d.
Proof.
  intros k el x0 d Hk E G. destruct (Hh k Hk) as (Hp & _). destruct GP as ((i0 & j0 & a0 & b0 & N0 & I0 & J0 & _) & M).
  assert (D : exists i j x y, i <> j /\ nth_error (e_nodes el) i = Some x /\ nth_error (e_nodes el) j = Some y /\ d = Rabs (x - y)).
  { unfold nodeGap in G. destruct (e_nodes el) as [|u [|u' us]] eqn:En; [exact G| |exact G]. exfalso. destruct xi as [|z [|z' zs]]; cbn in E; try discriminate.
    destruct i0 as [|i0], j0 as [|j0]; cbn in I0, J0; try congruence; try (destruct i0; discriminate); destruct j0; discriminate. }
  destruct D as (i & j & x & y & Nij & Hi & Hj & ->). rewrite E, nth_error_map in Hi, Hj. destruct (nth_error xi i) as [s|] eqn:Ei; [|discriminate]. destruct (nth_error xi j) as [t|] eqn:Ej; [|discriminate].
  cbn in Hi, Hj. injection Hi as <-. injection Hj as <-. replace (x0 + h k * s - (x0 + h k * t)) with (h k * (s - t)) by ring. rewrite Rabs_mult, (Rabs_pos_eq (h k)) by lra.
  pose proof (M i j s t Nij Ei Ej). rewrite Rmult_comm. apply Rmult_le_compat_l; lra.
Qed.
Lemma of_gap : forall k el x0, (k < n)%nat -> e_nodes el = map (fun t => x0 + h k * t) xi -> nodeGap el (gap * h k).
Proof.
  intros k el x0 Hk E. destruct (Hh k Hk) as (Hp & _). destruct GP as ((i & j & s & t & Nij & Ei & Ej & Eg) & _).
  assert (Hi : nth_error (e_nodes el) i = Some (x0 + h k * s)) by (rewrite E, nth_error_map, Ei; reflexivity).
  assert (Hj : nth_error (e_nodes el) j = Some (x0 + h k * t)) by (rewrite E, nth_error_map, Ej; reflexivity).
  assert (D : exists i j x y, i <> j /\ nth_error (e_nodes el) i = Some x /\ nth_error (e_nodes el) j = Some y /\ gap * h k = Rabs (x - y)).
  { exists i, j, (x0 + h k * s), (x0 + h k * t). repeat split; auto. replace (x0 + h k * s - (x0 + h k * t)) with (h k * (s - t)) by ring. rewrite Rabs_mult, (Rabs_pos_eq (h k)) by lra. rewrite Eg. ring. }
  unfold nodeGap. destruct (e_nodes el) as [|u [|u' us]]; [exact D| |exact D]. exfalso. destruct i as [|i], j as [|j]; cbn in Hi, Hj; try congruence; try (destruct i; discriminate); destruct j; discriminate.
Qed.
Lemma auto_dt : exists rho, 0 < rho /\ (forall k, (k < n)%nat -> 0 < 1 /\ rho * 1 <= h k) /\ estimateTimeStep dmax gl st ms o = Ok (step * rho) /\ 0 < step * rho.
Proof.
  destruct SL as (Dm & L & E). destruct (m_elements ms) as [|e0 es] eqn:Es; [cbn in L; lia|]. destruct (E 0%nat e0 eq_refl) as (x0 & En).
  destruct (step_line dmax gl st ms o e0 (gap * h 0%nat) Dm ltac:(lia) ltac:(rewrite Es; now left) (of_gap 0%nat e0 x0 n0 En) ltac:(rewrite Rmult_comm; apply Hh, n0)) as (d & Td & (el & Ie & Ge) & Mn).
  assert (Dp : 0 < d).
  { rewrite Es in Ie. apply In_nth_error in Ie. destruct Ie as (k & Ek). assert (Hk : (k < n)%nat) by (rewrite <- L; apply nth_error_Some; congruence).
    destruct (E k el Ek) as (x1 & E1). pose proof (gap_of k el x1 d Hk E1 Ge). destruct (Hh k Hk). assert (0 < gap * h k) by (apply Rmult_lt_0_compat; assumption). lra. }
  assert (O0 : 0 < IZR (so_order o)) by (apply IZR_lt; lia). pose proof (sqrt_lt_R0 _ O0) as Q0.
  assert (R0 : 0 < d / gap) by (unfold Rdiv; apply Rmult_lt_0_compat; [exact Dp|apply Rinv_0_lt_compat, G0]).
  exists (d / gap). split; [exact R0|]. split; [|split].
  - intros k Hk. split; [lra|]. destruct (nth_error (e0 :: es) k) as [e'|] eqn:Ek; [|apply nth_error_None in Ek; lia]. destruct (E k e' Ek) as (x1 & E1).
    pose proof (Mn e' (gap * h k) ltac:(rewrite Es; eapply nth_error_In; exact Ek) (of_gap k e' x1 Hk E1)) as M. rewrite Rmult_1_r. apply (Rmult_le_reg_l gap); [exact G0|]. replace (gap * (d / gap)) with d by (field; lra). exact M.
  - rewrite Td. replace (so_order o =? 0)%Z with false by (symmetry; apply Z.eqb_neq; lia). apply f_equal. field. repeat split; lra.
  - apply Rmult_lt_0_compat; [|exact R0]. unfold Rdiv. repeat (apply Rmult_lt_0_compat || apply Rinv_0_lt_compat); assumption.
Qed.
Lemma unit_bound : forall k d i, (k < n)%nat -> (0 <= d < 1)%Z -> (i < Z.to_nat 1)%nat -> Rabs (unitC k d i) <= 1.
Proof. intros. unfold unitC. rewrite Rabs_R1. lra. Qed.
Theorem order_bounded : forall Sg, 0 <= alpha -> passive m gb gi -> (forall v, 0 <= mform (n * q) MSigma v v) -> lossBound (n * q) (affineMass r h w) MSigma Sg ->
  exists A dt, buildGlobalOperator R Rplus Rmult 1 (-1) (factoryRows (n * q) m 1 alpha ob ib (affineInv r h w) (affineD r 1 unitC) MSigma sm) 1 (Z.of_nat (n * q)) 0
              (match ib with [] => false | _ => true end) = Ok A /\
  estimateTimeStep dmax gl st ms o = Ok dt /\ 0 < dt /\
  (step * refSize r 1 alpha (endSize q e) + dt * Sg <= 1 / 4 ->
   forall f imp, evaluates A (n * q) f -> forall s tr s', s_dt s = dt -> length (s_fields s) = (6 * (n * q))%nat -> runR (list R) (odeStep f imp 0) s tr s' ->
   Forall (fun st => fieldEnergy (n * q) (affineMass r h w) (s_fields st) <= 10001 / 10000 * (10001 / 10000) * fieldEnergy (n * q) (affineMass r h w) (s_fields s)) tr).
Proof.
  intros Sg A0 Ps Psd LB. pose proof SG as (RO & Ll & Lr & _). destruct auto_dt as (rho & R0 & HS & E & P).
  destruct (elem_run n r h (fun _ => 1) w m 1 unitC (endSize q e) alpha gb gi ob ib MSigma sm RO Hw unit_bound (ends_size n q e bdr battrs n0 Ll Lr) (ends_weights n q e bdr battrs n0 Ll Lr)
    (ends_space n r e bdr battrs h w n0 SG HT (fun k Hk => proj1 (Hh k Hk)) Hw) TB rho Sg R0 HS A0 Ps Psd LB) as (A & EA & G).
  exists A, (step * rho). split; [exact EA|]. split; [exact E|]. split; [exact P|]. intros Sml. apply G; [exact P|].
  assert (O0 : 0 < IZR (so_order o)) by (apply IZR_lt; lia). pose proof (sqrt_lt_R0 _ O0) as Q0.
  match goal with |- ?x * ?y * (?z / ?y + ?s) <= _ => replace (x * y * (z / y + s)) with (x * z + x * y * s) by (field; repeat split; lra) end. exact Sml.
Qed.
Theorem order_lossless : alpha = 0 -> reflecting m gb gi -> (forall v u, mform (n * q) MSigma v u = 0) ->
  exists A dt, buildGlobalOperator R Rplus Rmult 1 (-1) (factoryRows (n * q) m 1 alpha ob ib (affineInv r h w) (affineD r 1 unitC) MSigma sm) 1 (Z.of_nat (n * q)) 0
              (match ib with [] => false | _ => true end) = Ok A /\
  estimateTimeStep dmax gl st ms o = Ok dt /\ 0 < dt /\
  (step * refSize r 1 alpha (endSize q e) <= sqrt 8 ->
   forall f imp, evaluates A (n * q) f -> forall s tr s', s_dt s = dt -> length (s_fields s) = (6 * (n * q))%nat -> runR (list R) (odeStep f imp 0) s tr s' ->
   neverRises (energies (n * q) (affineMass r h w) s tr)).
Proof.
  intros A0 Rf Zs. pose proof SG as (RO & Ll & Lr & _). destruct auto_dt as (rho & R0 & HS & E & P).
  destruct (elem_lossless n r h (fun _ => 1) w m 1 unitC (endSize q e) alpha gb gi ob ib MSigma sm RO Hw unit_bound (ends_size n q e bdr battrs n0 Ll Lr) (ends_weights n q e bdr battrs n0 Ll Lr)
    (ends_space n r e bdr battrs h w n0 SG HT (fun k Hk => proj1 (Hh k Hk)) Hw) TB rho R0 HS A0 Rf Zs) as (A & EA & G).
  exists A, (step * rho). split; [exact EA|]. split; [exact E|]. split; [exact P|]. intros Sml. apply G; [exact P|].
  assert (O0 : 0 < IZR (so_order o)) by (apply IZR_lt; lia). pose proof (sqrt_lt_R0 _ O0) as Q0.
  match goal with |- ?x * ?y * (?z / ?y) <= _ => replace (x * y * (z / y)) with (x * z) by (field; repeat split; lra) end. exact Sml.
Qed.
End Auto.

(** Piecewise linear functions on a line: a discontinuous Galerkin space with explicit inverse
    and trace inequalities. *)
From Coq Require Import ZArith List Bool Reals Lia Lra Psatz.
From Verif Require Import Common Csr_Model Geo_Spec Face_Model Face_Spec Face_Proofs Nodal_Spec Nodal_Proofs NodalMult_Proofs NodalEnergy_Spec NodalEnergy_Proofs Setup_Model Setup_Spec Assembly_Model Form_Model Form_Spec Global_Spec Global_Proofs GlobalEnergy_Proofs GlobalBalance_Proofs Ode_Spec Cfl_Spec.
Import ListNotations.
Local Open Scope R_scope.

Lemma sumN_S : forall n f, sumN (Datatypes.S n) f = sumN n f + f n.
Proof. intros n f. unfold sumN. rewrite seq_S, map_app, fold_right_app. cbn [map fold_right Nat.add]. generalize (map f (seq 0 n)). induction l as [|a l IH]; cbn [fold_right]; [ring|]. rewrite IH. ring. Qed.
Lemma sumN_0 : forall f, sumN 0 f = 0.
Proof. reflexivity. Qed.
Lemma sumN_pairs : forall n f, sumN (2 * n) f = sumN n (fun k => f (2 * k)%nat + f (2 * k + 1)%nat).
Proof.
  induction n as [|n IH]; intros f; [reflexivity|]. replace (2 * Datatypes.S n)%nat with (Datatypes.S (Datatypes.S (2 * n))) by lia.
  rewrite !sumN_S, IH. replace (2 * n + 1)%nat with (Datatypes.S (2 * n)) by lia. ring.
Qed.
Lemma sumN_one : forall n k (X : nat -> R), (k < n)%nat -> sumN n (fun j => if (k =? j)%nat then X j else 0) = X k.
Proof.
  induction n as [|n IH]; intros k X H; [lia|]. rewrite sumN_S. destruct (Nat.eq_dec k n) as [->|Hn].
  - rewrite Nat.eqb_refl. rewrite (sumN_ext n _ (fun _ => 0)); [rewrite sumN_zero by reflexivity; ring|]. intros i Hi. replace (n =? i)%nat with false by (symmetry; apply Nat.eqb_neq; lia). reflexivity.
  - rewrite IH by lia. replace (k =? n)%nat with false by (symmetry; apply Nat.eqb_neq; exact Hn). ring.
Qed.
Lemma sumN_mono : forall n f g, (forall k, (k < n)%nat -> f k <= g k) -> sumN n f <= sumN n g.
Proof. induction n as [|n IH]; intros f g H; [rewrite !sumN_0; lra|]. rewrite !sumN_S. pose proof (IH f g ltac:(intros; apply H; lia)). pose proof (H n ltac:(lia)). lra. Qed.
Lemma div_even : forall k, (2 * k / 2 = k)%nat.
Proof. intros k. rewrite Nat.mul_comm. apply Nat.div_mul. lia. Qed.
Lemma div_odd : forall k, ((2 * k + 1) / 2 = k)%nat.
Proof. intros k. rewrite Nat.mul_comm, Nat.div_add_l by lia. cbn. lia. Qed.
(** A form with one block per element. *)
Lemma block_form : forall n (B : nat -> nat -> nat -> R) v u,
  mform (2 * n) (fun i j => inElement i j (fun k => B k i j)) v u =
  sumN n (fun k => v (2 * k)%nat * B k (2 * k)%nat (2 * k)%nat * u (2 * k)%nat + v (2 * k)%nat * B k (2 * k)%nat (2 * k + 1)%nat * u (2 * k + 1)%nat +
                   (v (2 * k + 1)%nat * B k (2 * k + 1)%nat (2 * k)%nat * u (2 * k)%nat + v (2 * k + 1)%nat * B k (2 * k + 1)%nat (2 * k + 1)%nat * u (2 * k + 1)%nat)).
Proof.
  intros n B v u. unfold mform. rewrite sumN_pairs. apply sumN_ext. intros k Hk. rewrite !sumN_pairs.
  assert (Q : forall i, (i / 2 = k)%nat -> sumN n (fun l => v i * inElement i (2 * l)%nat (fun k => B k i (2 * l)%nat) * u (2 * l)%nat + v i * inElement i (2 * l + 1)%nat (fun k => B k i (2 * l + 1)%nat) * u (2 * l + 1)%nat) =
     v i * B k i (2 * k)%nat * u (2 * k)%nat + v i * B k i (2 * k + 1)%nat * u (2 * k + 1)%nat).
  { intros i Ei. unfold inElement. rewrite Ei.
    rewrite (sumN_ext n _ (fun l => if (k =? l)%nat then v i * B k i (2 * l)%nat * u (2 * l)%nat + v i * B k i (2 * l + 1)%nat * u (2 * l + 1)%nat else 0)).
    - exact (sumN_one n k (fun l => v i * B k i (2 * l)%nat * u (2 * l)%nat + v i * B k i (2 * l + 1)%nat * u (2 * l + 1)%nat) Hk).
    - intros l _. rewrite div_even, div_odd. destruct (k =? l)%nat; ring. }
  rewrite !Q by (try apply div_even; apply div_odd). reflexivity.
Qed.
Lemma not_next : forall k, (2 * k =? 2 * k + 1)%nat = false /\ (2 * k + 1 =? 2 * k)%nat = false.
Proof. intros k. split; apply Nat.eqb_neq; lia. Qed.
Lemma even_two : forall k, Nat.even (2 * k) = true /\ Nat.even (2 * k + 1) = false.
Proof. intros k. split; [rewrite Nat.even_mul; reflexivity|rewrite Nat.even_add, Nat.even_mul; reflexivity]. Qed.
Lemma mass_form : forall n h w g v u, mform (2 * n) (lineMass h w g) v u =
  sumN n (fun k => w g k * h k / 6 * (2 * v (2 * k)%nat * u (2 * k)%nat + v (2 * k)%nat * u (2 * k + 1)%nat + v (2 * k + 1)%nat * u (2 * k)%nat + 2 * v (2 * k + 1)%nat * u (2 * k + 1)%nat)).
Proof.
  intros n h w g v u. unfold lineMass. rewrite (block_form n (fun k i j => w g k * h k * (if (i =? j)%nat then / 3 else / 6))). apply sumN_ext. intros k _.
  destruct (not_next k) as (E1 & E2). rewrite E1, E2, !Nat.eqb_refl. field.
Qed.
Lemma d_form : forall n d v u, mform (2 * n) (lineD d) v u = sumN n (fun k => (v (2 * k)%nat + v (2 * k + 1)%nat) / 2 * (u (2 * k + 1)%nat - u (2 * k)%nat)).
Proof.
  intros n d v u. unfold lineD. rewrite (block_form n (fun k i j => if Nat.even j then - / 2 else / 2)). apply sumN_ext. intros k _.
  destruct (even_two k) as (E1 & E2). rewrite E1, E2. field.
Qed.
Lemma inv_rows : forall n h w, (forall k, (k < n)%nat -> 0 < h k) -> (forall g k, 1 <= w g k) -> forall g i j, (i < 2 * n)%nat -> (j < 2 * n)%nat ->
  sumN (2 * n) (fun k => lineMass h w g i k * lineInv h w g k j) = if (i =? j)%nat then 1 else 0.
Proof.
  intros n h w Hh Hw g i j Hi Hj. rewrite sumN_pairs.
  set (a := (i / 2)%nat). set (b := (j / 2)%nat).
  assert (Ha : (a < n)%nat) by (apply Nat.div_lt_upper_bound; lia). assert (Hb : (b < n)%nat) by (apply Nat.div_lt_upper_bound; lia).
  rewrite (sumN_ext n _ (fun l => if (a =? l)%nat then lineMass h w g i (2 * l)%nat * lineInv h w g (2 * l)%nat j + lineMass h w g i (2 * l + 1)%nat * lineInv h w g (2 * l + 1)%nat j else 0)).
  2:{ intros l _. unfold lineMass, inElement. rewrite div_even, div_odd. fold a. destruct (a =? l)%nat; ring. }
  rewrite (sumN_one n a (fun l => lineMass h w g i (2 * l)%nat * lineInv h w g (2 * l)%nat j + lineMass h w g i (2 * l + 1)%nat * lineInv h w g (2 * l + 1)%nat j) Ha).
  unfold lineMass, lineInv, inElement. rewrite !div_even, !div_odd. fold a b. rewrite Nat.eqb_refl.
  assert (P : w g a * h a <> 0). { pose proof (Hh a Ha). pose proof (Hw g a). assert (0 < w g a * h a) by (apply Rmult_lt_0_compat; lra). lra. }
  assert (Ei : (i = 2 * a \/ i = 2 * a + 1)%nat). { pose proof (Nat.div_mod i 2 ltac:(lia)). pose proof (Nat.mod_upper_bound i 2 ltac:(lia)). fold a in H. lia. }
  assert (Ej : (j = 2 * b \/ j = 2 * b + 1)%nat). { pose proof (Nat.div_mod j 2 ltac:(lia)). pose proof (Nat.mod_upper_bound j 2 ltac:(lia)). fold b in H. lia. }
  clearbody a b. destruct (Nat.eq_dec a b) as [Eab|Nab].
  - rewrite <- Eab in *. rewrite Nat.eqb_refl.
    destruct (not_next a) as (E1 & E2). assert (w g a <> 0 /\ h a <> 0) by (split; intros Z; apply P; rewrite Z; ring).
    destruct Ei as [Ei|Ei]; destruct Ej as [Ej|Ej]; rewrite Ei, Ej, ?E1, ?E2, ?Nat.eqb_refl; field; intuition.
  - replace (a =? b)%nat with false by (symmetry; apply Nat.eqb_neq; exact Nab). replace (i =? j)%nat with false; [ring|]. symmetry. apply Nat.eqb_neq. lia.
Qed.

(** ** Faces *)
Section Faces.
Variable n : nat.
Variable bdr : list (Z * nat).
Variable battrs : list Z.
Hypothesis n0 : (0 < n)%nat.
Notation m := (lineMesh n bdr battrs).
Definition qL := mkQ 1 (G1 0) [1; 0] [].
Definition qM := mkQ 1 (G1 1) [0; 1] [1; 0].
Definition qR := mkQ 1 (G1 1) [0; 1] [].
Lemma faces_len : length (fm_faces m) = Datatypes.S n.
Proof. unfold lineMesh. cbn [fm_faces length]. rewrite app_length, map_length, seq_length. cbn [length]. lia. Qed.
Lemma face_mid : forall k, (1 <= k < n)%nat -> nth_error (fm_faces m) k = Some (midFace k).
Proof.
  intros k Hk. unfold lineMesh. cbn [fm_faces]. destruct k as [|k]; [lia|]. cbn [nth_error]. rewrite nth_error_app1 by (rewrite map_length, seq_length; lia).
  rewrite nth_error_map, (nth_error_nth' _ 0%nat) by (rewrite seq_length; lia). rewrite seq_nth by lia. reflexivity.
Qed.
Lemma face_right : nth_error (fm_faces m) n = Some (rightFace n).
Proof.
  unfold lineMesh. cbn [fm_faces]. destruct n as [|n']; [lia|]. cbn [nth_error]. rewrite nth_error_app2 by (rewrite map_length, seq_length; lia).
  rewrite map_length, seq_length. replace (n' - (Datatypes.S n' - 1))%nat with 0%nat by lia. reflexivity.
Qed.
Lemma face_cases : forall fi F, nth_error (fm_faces m) fi = Some F -> (fi = 0%nat /\ F = leftFace) \/ ((1 <= fi < n)%nat /\ F = midFace fi) \/ (fi = n /\ F = rightFace n).
Proof.
  intros fi F E. assert (Hl : (fi < Datatypes.S n)%nat) by (rewrite <- faces_len; apply nth_error_Some; congruence).
  destruct fi as [|fi]; [left; cbn in E; injection E as <-; auto|]. right. destruct (Nat.eq_dec (Datatypes.S fi) n) as [En|Hn].
  - right. rewrite En, face_right in E. injection E as <-. auto.
  - left. rewrite face_mid in E by lia. injection E as <-. split; [lia|reflexivity].
Qed.
Lemma line_facesum : forall hh, facesum m hh = hh 0%nat leftFace qL + sumN (n - 1) (fun k => hh (k + 1)%nat (midFace (k + 1)) qM) + hh n (rightFace n) qR.
Proof.
  intros hh. unfold facesum. rewrite faces_len. replace (Datatypes.S n) with (1 + ((n - 1) + 1))%nat by lia. rewrite !seq_app, !suml_app.
  assert (P : forall F q, f_pts (mf_face F) = [q] -> q_w q = 1 -> weightOf (q_geo q) = 1 -> forall fi, suml (fun q => ds q * hh fi F q) (f_pts (mf_face F)) = hh fi F q).
  { intros F q E W1 W2 fi. rewrite E. unfold suml, ds. cbn [map fold_right]. rewrite W1, W2. ring. }
  replace (0 + 1 + (n - 1))%nat with n by lia. cbn [seq].
  assert (O : forall (f : nat -> R) a, suml f [a] = f a) by (intros; unfold suml; cbn [map fold_right]; ring). rewrite !O.
  change (nth_error (fm_faces m) 0) with (Some leftFace). rewrite face_right.
  rewrite (P leftFace qL), (P (rightFace n) qR) by reflexivity. rewrite Rplus_assoc. f_equal. f_equal.
  change (0 + 1)%nat with 1%nat. unfold sumN, suml.
  rewrite <- (map_map (fun k => (k + 1)%nat) (fun k => hh k (midFace k) qM)). replace (map (fun k => (k + 1)%nat) (seq 0 (n - 1))) with (seq 1 (n - 1)).
  2:{ rewrite <- seq_shift. apply map_ext. intros. lia. }
  f_equal. apply map_ext_in. intros k Hk. apply in_seq in Hk. rewrite face_mid by lia. apply (P (midFace k) qM); reflexivity.
Qed.
Lemma s_left : forall v, side1 (mf_face leftFace) (local leftFace v) qL = v 0%nat /\ side2 (mf_face leftFace) (local leftFace v) qL = 0.
Proof. intros v. split; [|reflexivity]. unfold side1, tr, local, sumN. cbn. ring. Qed.
Lemma s_mid : forall k v, side1 (mf_face (midFace (k + 1))) (local (midFace (k + 1)) v) qM = v (2 * k + 1)%nat /\ side2 (mf_face (midFace (k + 1))) (local (midFace (k + 1)) v) qM = v (2 * (k + 1))%nat.
Proof.
  intros k v. unfold side1, side2, tr, local, sumN, midFace. cbn [mf_face f_el2 f_el1 mf_dofs1 mf_dofs2 app qM q_s1 q_s2 length seq map fold_right nth Nat.add].
  replace (k + 1 - 1)%nat with k by lia. split; ring.
Qed.
Lemma s_right : forall v, side1 (mf_face (rightFace n)) (local (rightFace n) v) qR = v (2 * (n - 1) + 1)%nat /\ side2 (mf_face (rightFace n)) (local (rightFace n) v) qR = 0.
Proof. intros v. split; [|reflexivity]. unfold side1, tr, local, sumN, rightFace. cbn [mf_face f_el2 f_el1 mf_dofs1 mf_dofs2 app qR q_s1 q_s2 length seq map fold_right nth Nat.add]. ring. Qed.
(** Ends of elements, by points and by elements. *)
Lemma regroup : forall P Q : nat -> R, Q 0%nat + sumN (n - 1) (fun k => P k + Q (k + 1)%nat) + P (n - 1)%nat = sumN n (fun k => Q k + P k).
Proof.
  intros P Q. destruct n as [|p]; [lia|]. replace (Datatypes.S p - 1)%nat with p by lia. clear n0. induction p as [|p IH].
  - rewrite sumN_S, !sumN_0. ring.
  - rewrite sumN_S. rewrite (sumN_S (Datatypes.S p)). rewrite <- IH. replace (p + 1)%nat with (Datatypes.S p) by lia. ring.
Qed.
Lemma nrmL : normalAt qL = (-1, 0, 0).
Proof. unfold normalAt, unitN. cbn. repeat f_equal; field. Qed.
Lemma nrmM : normalAt qM = (1, 0, 0) /\ normalAt qR = (1, 0, 0).
Proof. unfold normalAt, unitN. cbn. split; repeat f_equal; field. Qed.
Lemma line_traces : forall v, facesum m (fun _ f q => side1 (mf_face f) (local f v) q * side1 (mf_face f) (local f v) q + side2 (mf_face f) (local f v) q * side2 (mf_face f) (local f v) q) =
  sumN n (fun k => v (2 * k)%nat * v (2 * k)%nat + v (2 * k + 1)%nat * v (2 * k + 1)%nat).
Proof.
  intros v. rewrite line_facesum. destruct (s_left v) as (E1 & E2). destruct (s_right v) as (E3 & E4). rewrite E1, E2, E3, E4.
  rewrite (sumN_ext (n - 1) _ (fun k => v (2 * k + 1)%nat * v (2 * k + 1)%nat + v (2 * (k + 1))%nat * v (2 * (k + 1))%nat)).
  2:{ intros k _. destruct (s_mid k v) as (E5 & E6). rewrite E5, E6. reflexivity. }
  rewrite <- (regroup (fun k => v (2 * k + 1)%nat * v (2 * k + 1)%nat) (fun k => v (2 * k)%nat * v (2 * k)%nat)). cbv beta. change (2 * 0)%nat with 0%nat. ring.
Qed.
Lemma line_parts : forall v u, facesum m (fun _ f q => unitN q 0 * (side1 (mf_face f) (local f v) q * side1 (mf_face f) (local f u) q - side2 (mf_face f) (local f v) q * side2 (mf_face f) (local f u) q)) =
  sumN n (fun k => v (2 * k + 1)%nat * u (2 * k + 1)%nat - v (2 * k)%nat * u (2 * k)%nat).
Proof.
  intros v u. rewrite line_facesum. destruct (s_left v) as (E1 & E2). destruct (s_right v) as (E3 & E4). destruct (s_left u) as (E1' & E2'). destruct (s_right u) as (E3' & E4').
  rewrite E1, E2, E3, E4, E1', E2', E3', E4'.
  assert (U1 : unitN qL 0 = -1) by (unfold unitN; cbn; field). assert (U2 : unitN qM 0 = 1) by (unfold unitN; cbn; field). assert (U3 : unitN qR 0 = 1) by (unfold unitN; cbn; field). rewrite U1, U3.
  rewrite (sumN_ext (n - 1) _ (fun k => v (2 * k + 1)%nat * u (2 * k + 1)%nat + - (v (2 * (k + 1))%nat * u (2 * (k + 1))%nat))).
  2:{ intros k _. destruct (s_mid k v) as (E5 & E6). destruct (s_mid k u) as (E7 & E8). rewrite E5, E6, E7, E8, U2. ring. }
  rewrite (sumN_ext n _ (fun k => - (v (2 * k)%nat * u (2 * k)%nat) + v (2 * k + 1)%nat * u (2 * k + 1)%nat)) by (intros; ring).
  rewrite <- (regroup (fun k => v (2 * k + 1)%nat * u (2 * k + 1)%nat) (fun k => - (v (2 * k)%nat * u (2 * k)%nat))). cbv beta. change (2 * 0)%nat with 0%nat. ring.
Qed.
End Faces.

(** ** The space *)
Section Space.
Variable n : nat.
Variable bdr : list (Z * nat).
Variable battrs : list Z.
Variable h : nat -> R.
Variable w : Z -> nat -> R.
Variable hm : R.
Hypothesis n0 : (0 < n)%nat.
Hypothesis HT : lineTags n bdr battrs.
Hypothesis hm0 : 0 < hm.
Hypothesis Hh : forall k, (k < n)%nat -> hm <= h k.
Hypothesis Hw : forall g k, 1 <= w g k.
Notation m := (lineMesh n bdr battrs).
Lemma line_space : dgSpace (2 * n) m 1 (lineMass h w) (lineInv h w) lineD.
Proof.
  destruct HT as (T1 & T2 & T3). split; [lia|]. split; [split; [|split]|split; [|split; [|split]]].
  - apply Forall_forall. intros f If. apply In_nth_error in If. destruct If as (fi & E). destruct (face_cases n bdr battrs n0 fi f E) as [(_ & ->)|[(Hk & ->)|(_ & ->)]];
      (split; [reflexivity|split; [reflexivity|]]); apply Forall_forall; cbn; intros d Hd; lia.
  - exact T2.
  - rewrite Forall_forall in *. intros b Ib. rewrite (faces_len n bdr battrs n0). destruct (T3 b Ib). split; [assumption|lia].
  - exact T1.
  - apply Forall_forall. intros f If. apply In_nth_error in If. destruct If as (fi & E).
    destruct (face_cases n bdr battrs n0 fi f E) as [(_ & ->)|[(Hk & ->)|(_ & ->)]]; (split; [apply Forall_forall; intros q [<-|[]]; (split; [cbn; auto|split; reflexivity || (cbn; auto)])|]);
      intros q d [<-|[]] Hd; (destruct d as [|d]; [lia|]); unfold unitN, normalOf; cbn [q_geo]; unfold Rdiv; apply Rmult_0_l.
  - intros g i j _ Hi Hj. apply inv_rows; [|exact Hw|exact Hi|exact Hj]. intros k Hk. specialize (Hh k Hk). lra.
  - intros d v u Hd. assert (d = 0%Z) by lia. subst d. rewrite !d_form. change (Z.to_nat 0) with 0%nat. rewrite (line_parts n bdr battrs n0).
    rewrite <- sumN_plus. apply sumN_ext. intros k _. field.
Qed.
Lemma line_weights : nonnegWeights m.
Proof.
  apply Forall_forall. intros f If. apply In_nth_error in If. destruct If as (fi & E). destruct (face_cases n bdr battrs n0 fi f E) as [(_ & ->)|[(Hk & ->)|(_ & ->)]];
    apply Forall_forall; intros q [<-|[]]; cbn; lra.
Qed.
Notation sqs v k := (v (2 * k)%nat * v (2 * k)%nat + v (2 * k)%nat * v (2 * k + 1)%nat + v (2 * k + 1)%nat * v (2 * k + 1)%nat).
Lemma mass_diag : forall g v, mform (2 * n) (lineMass h w g) v v = sumN n (fun k => w g k * h k / 3 * sqs v k).
Proof. intros g v. rewrite mass_form. apply sumN_ext. intros k _. field. Qed.
Lemma sqs_pos : forall v k, 0 <= sqs v k.
Proof. intros v k. set (a := v (2 * k)%nat). set (b := v (2 * k + 1)%nat). clearbody a b. pose proof (Rle_0_sqr (a + b)). pose proof (Rle_0_sqr a). pose proof (Rle_0_sqr b). unfold Rsqr in *. lra. Qed.
Lemma wh_le : forall g k, (k < n)%nat -> hm <= w g k * h k.
Proof. intros g k Hk. pose proof (Hh k Hk). pose proof (Hw g k). assert (1 * h k <= w g k * h k) by (apply Rmult_le_compat_r; lra). lra. Qed.
Lemma line_mass : massForm (2 * n) (lineMass h w).
Proof.
  split.
  - intros g i j. unfold lineMass, inElement. rewrite (Nat.eqb_sym i j), (Nat.eqb_sym (i / 2) (j / 2)). destruct (j / 2 =? i / 2)%nat eqn:E; [|reflexivity]. apply Nat.eqb_eq in E. rewrite E. reflexivity.
  - intros g v. rewrite mass_diag. rewrite <- (sumN_zero n (fun _ => 0)) by reflexivity. apply sumN_mono. intros k Hk. pose proof (wh_le g k Hk). apply Rmult_le_pos; [lra|apply sqs_pos].
Qed.
Lemma line_below : forall g v (q : nat -> R), (forall k, q k <= / 3 * sqs v k) -> (forall k, 0 <= q k) -> hm * sumN n q <= mform (2 * n) (lineMass h w g) v v.
Proof.
  intros g v q H Q. rewrite mass_diag, <- sumN_scal. apply sumN_mono. intros k Hk. pose proof (wh_le g k Hk) as W.
  pose proof (Rmult_le_compat_r (q k) _ _ (Q k) W). pose proof (Rmult_le_compat_l (w g k * h k) _ _ ltac:(lra) (H k)).
  replace (w g k * h k / 3 * sqs v k) with (w g k * h k * (/ 3 * sqs v k)) by (unfold Rdiv; ring). lra.
Qed.
Lemma line_coercive : coercive (2 * n) (lineMass h w) (hm / 6).
Proof.
  split; [lra|]. intros g v. rewrite sumN_pairs. replace (hm / 6) with (hm * / 6) by reflexivity. rewrite Rmult_assoc, <- sumN_scal. apply line_below.
  - intros k. set (a := v (2 * k)%nat). set (b := v (2 * k + 1)%nat). clearbody a b. pose proof (Rle_0_sqr (a + b)). unfold Rsqr in *. lra.
  - intros k. set (a := v (2 * k)%nat). set (b := v (2 * k + 1)%nat). clearbody a b. pose proof (Rle_0_sqr a). pose proof (Rle_0_sqr b). unfold Rsqr in *. lra.
Qed.
Lemma line_trace : traceBound (2 * n) m (lineMass h w) (6 / hm).
Proof.
  split; [left; apply Rdiv_lt_0_compat; lra|]. intros g v _. rewrite (line_traces n bdr battrs n0).
  destruct line_coercive as (_ & C). specialize (C g v). rewrite sumN_pairs in C.
  set (s := sumN n _) in *. apply Rmult_le_reg_l with (hm / 6); [lra|]. replace (hm / 6 * (6 / hm * mform (2 * n) (lineMass h w g) v v)) with (mform (2 * n) (lineMass h w g) v v) by (field; lra). exact C.
Qed.
Lemma sumN_cs : forall p a b, sumN p (fun k => a k * b k) * sumN p (fun k => a k * b k) <= sumN p (fun k => a k * a k) * sumN p (fun k => b k * b k).
Proof.
  intros p a b. set (X := sumN p (fun k => a k * a k)). set (Y := sumN p (fun k => b k * b k)). set (Z := sumN p (fun k => a k * b k)).
  assert (Q : forall t, 0 <= X * (t * t) + -2 * t * Z + Y).
  { intros t. replace (X * (t * t) + -2 * t * Z + Y) with (sumN p (fun k => (t * a k - b k) * (t * a k - b k))).
    - rewrite <- (sumN_zero p (fun _ => 0)) by reflexivity. apply sumN_mono. intros k _. pose proof (Rle_0_sqr (t * a k - b k)). unfold Rsqr in *. lra.
    - rewrite (sumN_ext p _ (fun k => t * t * (a k * a k) + (-2 * t * (a k * b k) + b k * b k))) by (intros; ring). rewrite !sumN_plus, !sumN_scal. unfold X, Y, Z. ring. }
  assert (X0 : 0 <= X). { unfold X. rewrite <- (sumN_zero p (fun _ => 0)) by reflexivity. apply sumN_mono. intros k _. pose proof (Rle_0_sqr (a k)). unfold Rsqr in *. lra. }
  clearbody X Y Z. destruct (Req_EM_T X 0) as [->|NX].
  - destruct (Req_EM_T Z 0) as [->|NZ]; [lra|]. specialize (Q ((Y + 1) / (2 * Z))). replace (0 * ((Y + 1) / (2 * Z) * ((Y + 1) / (2 * Z))) + -2 * ((Y + 1) / (2 * Z)) * Z + Y) with (-1) in Q by (field; exact NZ). lra.
  - assert (XP : 0 < X) by lra. specialize (Q (Z / X)). replace (X * (Z / X * (Z / X)) + -2 * (Z / X) * Z + Y) with ((X * Y - Z * Z) / X) in Q by (field; lra).
    apply (Rmult_le_compat_l X) in Q; [|lra]. rewrite Rmult_0_r in Q. replace (X * ((X * Y - Z * Z) / X)) with (X * Y - Z * Z) in Q by (field; lra). lra.
Qed.
Lemma line_deriv : derivBound (2 * n) 1 (lineMass h w) lineD (sqrt 12 / hm).
Proof.
  split; [left; apply Rdiv_lt_0_compat; [apply sqrt_lt_R0; lra|lra]|]. intros d g v u _ _. rewrite d_form.
  pose proof (sumN_cs n (fun k => (v (2 * k)%nat + v (2 * k + 1)%nat) / 2) (fun k => u (2 * k + 1)%nat - u (2 * k)%nat)) as CS.
  pose proof (line_below g v (fun k => (v (2 * k)%nat + v (2 * k + 1)%nat) / 2 * ((v (2 * k)%nat + v (2 * k + 1)%nat) / 2))) as B1.
  pose proof (line_below (1 - g)%Z u (fun k => / 12 * ((u (2 * k + 1)%nat - u (2 * k)%nat) * (u (2 * k + 1)%nat - u (2 * k)%nat)))) as B2.
  cbv beta in CS, B1, B2. rewrite sumN_scal in B2.
  set (X := sumN n (fun k => (v (2 * k)%nat + v (2 * k + 1)%nat) / 2 * ((v (2 * k)%nat + v (2 * k + 1)%nat) / 2))) in *.
  set (Y := sumN n (fun k => (u (2 * k + 1)%nat - u (2 * k)%nat) * (u (2 * k + 1)%nat - u (2 * k)%nat))) in *.
  assert (X0 : 0 <= X). { unfold X. rewrite <- (sumN_zero n (fun _ => 0)) by reflexivity. apply sumN_mono. intros k _. pose proof (Rle_0_sqr ((v (2 * k)%nat + v (2 * k + 1)%nat) / 2)). unfold Rsqr in *. lra. }
  assert (Y0 : 0 <= Y). { unfold Y. rewrite <- (sumN_zero n (fun _ => 0)) by reflexivity. apply sumN_mono. intros k _. pose proof (Rle_0_sqr (u (2 * k + 1)%nat - u (2 * k)%nat)). unfold Rsqr in *. lra. }
  assert (C1 : hm * X <= mform (2 * n) (lineMass h w g) v v).
  { apply B1; intros k; set (a := v (2 * k)%nat); set (b := v (2 * k + 1)%nat); clearbody a b; pose proof (Rle_0_sqr (a - b)); pose proof (Rle_0_sqr (a + b)); unfold Rsqr in *; lra. }
  assert (C2 : hm * (/ 12 * Y) <= mform (2 * n) (lineMass h w (1 - g)%Z) u u).
  { apply B2; intros k; set (a := u (2 * k)%nat); set (b := u (2 * k + 1)%nat); clearbody a b; pose proof (Rle_0_sqr (a + b)); pose proof (Rle_0_sqr (b - a)); unfold Rsqr in *; lra. }
  apply (Rle_trans _ _ _ CS). clear CS B1 B2. clearbody X Y.
  replace (sqrt 12 / hm * (sqrt 12 / hm)) with (12 / hm / hm).
  2:{ transitivity (sqrt 12 * sqrt 12 / hm / hm); [rewrite sqrt_sqrt by lra; reflexivity|field; lra]. }
  set (V := mform _ _ v v) in *. set (W := mform _ _ u u) in *. clearbody V W.
  assert (P : (hm * X) * (hm * (/ 12 * Y)) <= V * W). { apply Rmult_le_compat; try assumption; apply Rmult_le_pos; lra. }
  apply Rmult_le_reg_l with (hm * (hm * / 12)); [apply Rmult_lt_0_compat; lra|].
  replace (hm * (hm * / 12) * (12 / hm / hm * V * W)) with (V * W) by (field; lra). lra.
Qed.
End Space.

From Coq Require Import ZArith List Bool Reals Lra Lia Psatz.
From Flocq Require Import Core.Core.
From Flocq.IEEE754 Require Import BinarySingleNaN.
From Verif Require Import Common Rcs_Model Far_Model Print_Model Print_Spec Print_Proofs.
Import ListNotations.
Local Open Scope R_scope.

#[local] Instance P53 : Prec_gt_0 53 := eq_refl _.
#[local] Instance Vfexp : Valid_exp (SpecFloat.fexp 53 1024) := fexp_correct 53 1024 _.

Lemma six_val : forall x m e, bpow radix10 (e + 5) <= Rabs x < bpow radix10 (e + 6) -> Rabs (x * bpow radix10 (- e) - IZR m) < / 2 ->
  significant 6 x = IZR m * bpow radix10 e.
Proof.
  intros x m e B H. unfold significant, round, F2R, scaled_mantissa, cexp. cbn [Fnum Fexp].
  rewrite (mag_unique radix10 x (e + 6)) by (replace (e + 6 - 1)%Z with (e + 5)%Z by lia; exact B).
  replace (FLX_exp 6 (e + 6)) with e by (unfold FLX_exp; lia). rewrite (Znearest_imp _ _ m H). reflexivity.
Qed.
(** Two times a thousandth apart. *)
Definition t1 : R := 1024.
Definition t2 : R := 1024 + / 1024.
Lemma pow10 : bpow radix10 3 = 1000 /\ bpow radix10 4 = 10000 /\ bpow radix10 2 = 100 /\ bpow radix10 (-2) = / 100 /\ bpow radix10 6 = 1000000 /\ bpow radix10 (-6) = / 1000000.
Proof. repeat split; cbn; lra. Qed.
Lemma t1_text : timeText t1 = 1024.
Proof.
  unfold timeText. destruct pow10 as (A & B & C & D & _). rewrite (six_val t1 102400 (-2)); change (-2 + 5)%Z with 3%Z; change (-2 + 6)%Z with 4%Z; change (- -2)%Z with 2%Z; unfold t1.
  - rewrite D. lra.
  - rewrite Rabs_pos_eq, A, B by lra. lra.
  - rewrite C. apply Rabs_def1; lra.
Qed.
Lemma t2_text : timeText t2 = 1024.
Proof.
  unfold timeText. destruct pow10 as (A & B & C & D & _). rewrite (six_val t2 102400 (-2)); change (-2 + 5)%Z with 3%Z; change (-2 + 6)%Z with 4%Z; change (- -2)%Z with 2%Z; unfold t2.
  - rewrite D. lra.
  - rewrite Rabs_pos_eq, A, B by lra. lra.
  - rewrite C. apply Rabs_def1; lra.
Qed.
Lemma t1_double : isDouble t1.
Proof. exists 1%Z, 10%Z. unfold t1. split; [lia|]. split; [lia|]. change (powerRZ 2 10) with (2 ^ 10). lra. Qed.
Lemma t2_double : isDouble t2.
Proof. exists 1048577%Z, (-10)%Z. unfold t2. split; [lia|]. split; [lia|]. change (powerRZ 2 (-10)) with (/ 2 ^ 10). lra. Qed.
Lemma t1_back : stod 1024 = 1024.
Proof. apply round_generic; auto with typeclass_instances. apply double_format. exact t1_double. Qed.

Lemma times_refuted : ~ (forall t, isDouble t -> getTime t = t) /\ ~ (forall a b, isDouble a -> isDouble b -> 0 < a -> a + / 10 ^ 4 < b -> getTime a < getTime b).
Proof.
  split; intros H.
  - specialize (H t2 t2_double). unfold getTime in H. rewrite t2_text, t1_back in H. unfold t2 in H. lra.
  - specialize (H t1 t2 t1_double t2_double ltac:(unfold t1; lra) ltac:(unfold t1, t2; lra)).
    unfold getTime in H. rewrite t1_text, t2_text in H. lra.
Qed.
Lemma position_lost : ~ forall a b, isDouble a -> isDouble b -> a <> b -> positionText a <> positionText b.
Proof.
  intros H. assert (Z0 : positionText 0 = 0) by (apply round_0; auto with typeclass_instances).
  assert (D0 : isDouble 0) by (exists 0%Z, 0%Z; split; [lia|]; split; [lia|]; change (powerRZ 2 0) with 1; lra).
  assert (D1 : isDouble (/ 4194304)) by (exists 1%Z, (-22)%Z; split; [lia|]; split; [lia|]; change (powerRZ 2 (-22)) with (/ 2 ^ 22); lra).
  apply (H 0 (/ 4194304) D0 D1); [lra|]. rewrite Z0. symmetry.
  unfold positionText, fixedPoint, round, F2R, scaled_mantissa, cexp, FIX_exp. cbn [Fnum Fexp]. change (- -6)%Z with 6%Z.
  destruct pow10 as (_ & _ & _ & _ & E & F). rewrite E, F. rewrite (Znearest_imp _ _ 0%Z); [lra|]. apply Rabs_def1; lra.
Qed.

Lemma ex_back : isDouble (1 + / 4503599627370496) /\ stod (morText (1 + / 4503599627370496)) = 1 + / 4503599627370496 /\ getTime t2 <> t2.
Proof.
  assert (D : isDouble (1 + / 4503599627370496)) by (exists 4503599627370497%Z, (-52)%Z; split; [lia|]; split; [lia|]; change (powerRZ 2 (-52)) with (/ 2 ^ 52); lra).
  split; [exact D|]. split; [apply mor_exact; exact D|]. unfold getTime. rewrite t2_text, t1_back. unfold t2. lra.
Qed.
Lemma small_1000 : / 2 ^ 1000 <= 1.
Proof. rewrite <- Rinv_1. apply Rinv_le_contravar; [lra|]. apply pow_R1_Rle. lra. Qed.
Lemma ex_times : plainTime 0 /\ plainTime t1 /\ plainTime 2048 /\ getTime 0 < getTime t1 < getTime 2048.
Proof.
  assert (A : plainTime 0) by (left; reflexivity).
  assert (B : plainTime t1) by (right; unfold t1; rewrite Rabs_pos_eq by lra; pose proof small_1000; lra).
  assert (C : plainTime 2048) by (right; rewrite Rabs_pos_eq by lra; pose proof small_1000; lra).
  repeat split; try assumption; apply time_distinct; try assumption; unfold t1.
  - rewrite Rabs_R0, (Rabs_pos_eq 1024) by lra. rewrite Rmax_right; lra.
  - rewrite !Rabs_pos_eq by lra. rewrite Rmax_right; lra.
Qed.
Lemma ex_spectrum : exists snaps, (forall s, In s snaps -> plainTime (sn_t s)) /\ map readSnap snaps <> snaps.
Proof.
  exists [mkSnap t1 (fun _ _ => 1); mkSnap t2 (fun _ _ => 1)]. split.
  - intros s [<- | [<- | []]]; right; cbn [sn_t]; unfold t1, t2; rewrite Rabs_pos_eq by lra; pose proof small_1000; lra.
  - intros E. cbn [map] in E. apply (f_equal (map sn_t)) in E. cbn [map readSnap sn_t] in E. injection E as _ E. exact (proj2 (proj2 ex_back) E).
Qed.

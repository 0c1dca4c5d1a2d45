(** The integrators over an abstract energy form and a linear operator. *)
From Coq Require Import ZArith List Bool Reals Lia Lra.
From Verif Require Import Common Ode_Model.
Import ListNotations.
Local Open Scope R_scope.

Lemma addv_len : forall n a k x, length k = n -> length x = n -> length (addv a k x) = n.
Proof. intros. unfold addv. rewrite map_length, combine_length. lia. Qed.
Lemma addv_nth : forall n a k x i, length k = n -> length x = n -> nth i (addv a k x) 0 = nth i x 0 + a * nth i k 0.
Proof.
  intros n a k x i Hk Hx. destruct (lt_dec i n) as [H|H].
  - unfold addv. rewrite (nth_indep _ 0 ((fun p => fst p + a * snd p) (0, 0))) by (rewrite map_length, combine_length; lia).
    rewrite (map_nth (fun p => fst p + a * snd p)), combine_nth by lia. reflexivity.
  - rewrite !nth_overflow; try lia; [ring|]. rewrite (addv_len n); lia.
Qed.
Lemma addv_ext : forall n a k x y, length k = n -> length x = n -> length y = n ->
  (forall i, nth i y 0 = nth i x 0 + a * nth i k 0) -> y = addv a k x.
Proof.
  intros n a k x y Hk Hx Hy H. apply (nth_ext y _ 0 0); [rewrite (addv_len n a k x Hk Hx); exact Hy|]. intros i _. rewrite (addv_nth n) by assumption. apply H.
Qed.

Section Form.
Variable n : nat.
Variable B : list R -> list R -> R.
Hypothesis Badd : forall a k x y, length k = n -> length x = n -> length y = n -> B (addv a k x) y = B x y + a * B k y.
Hypothesis Bsym : forall x y, length x = n -> length y = n -> B x y = B y x.
Hypothesis Bpos : forall x, length x = n -> 0 <= B x x.
Variable F : list R -> list R.
Hypothesis Flen : forall x, length x = n -> length (F x) = n.
Hypothesis Fadd : forall a k x, length k = n -> length x = n -> F (addv a k x) = addv a (F k) (F x).
Hypothesis Diss : forall x, length x = n -> B x (F x) <= 0.

Lemma Badd2 : forall a k x y, length k = n -> length x = n -> length y = n -> B y (addv a k x) = B y x + a * B y k.
Proof. intros. rewrite Bsym by (auto using addv_len). rewrite Badd by assumption. rewrite (Bsym x y), (Bsym k y) by assumption. reflexivity. Qed.

Ltac lens := repeat first [assumption | apply addv_len | apply Flen].
Ltac expand := repeat first [rewrite Badd by lens | rewrite Badd2 by lens].

(** A stage. *)
Definition stage (h : R) (x k : list R) : Prop := length k = n /\ k = F (addv h k x).

Lemma stage_F : forall h x k, stage h x k -> F (addv h k x) = k.
Proof. intros h x k (_ & E). symmetry. exact E. Qed.

(** One stage: k = F(x + a h k), the new state is x + b h k. *)
Theorem backwardEuler : forall h x k, 0 <= h -> length x = n -> stage h x k -> B (addv h k x) (addv h k x) <= B x x.
Proof.
  intros h x k Hh Hx K. pose proof (stage_F _ _ _ K) as EF. destruct K as (Lk & _).
  pose proof (Diss (addv h k x) ltac:(lens)) as D. rewrite EF in D. rewrite Badd in D by lens.
  pose proof (Bpos k Lk) as P. expand. rewrite (Bsym k x) by lens. rewrite ?(Bsym k x) in D by lens.
  assert (D' : h * (B x k + h * B k k) <= 0) by (apply Rmult_le_compat_l with (r := h) in D; lra). nra.
Qed.
Theorem midpoint_exact : forall h x k, length x = n -> stage (h / 2) x k ->
  B (addv h k x) (addv h k x) = B x x + 2 * h * B (addv (h / 2) k x) (F (addv (h / 2) k x)).
Proof.
  intros h x k Hx K. rewrite (stage_F _ _ _ K). destruct K as (Lk & _). expand. rewrite (Bsym k x) by lens. field.
Qed.
Theorem midpoint : forall h x k, 0 <= h -> length x = n -> stage (h / 2) x k -> B (addv h k x) (addv h k x) <= B x x.
Proof.
  intros h x k Hh Hx K. rewrite (midpoint_exact h x k Hx K). assert (Lk : length k = n) by apply K.
  pose proof (Diss (addv (h / 2) k x) ltac:(lens)) as D. nra.
Qed.
(** Trapezoidal rule. *)
Theorem trapezoidal_exact : forall h x k, length x = n -> stage (h / 2) (addv (h / 2) (F x) x) k ->
  B (addv (h / 2) k (addv (h / 2) (F x) x)) (addv (h / 2) k (addv (h / 2) (F x) x)) =
  B x x + h / 2 * B (addv 1 (addv (h / 2) k (addv (h / 2) (F x) x)) x) (F (addv 1 (addv (h / 2) k (addv (h / 2) (F x) x)) x)).
Proof.
  intros h x k Hx K. pose proof (stage_F _ _ _ K) as EF. assert (Lk : length k = n) by apply K.
  assert (E2 : F (addv 1 (addv (h / 2) k (addv (h / 2) (F x) x)) x) = addv 1 k (F x)) by (rewrite Fadd by lens; rewrite EF; reflexivity).
  rewrite E2. clear E2. expand. rewrite (Bsym k (F x)), (Bsym k x), (Bsym (F x) x) by lens. field.
Qed.
Theorem trapezoidal : forall h x k, 0 <= h -> length x = n -> stage (h / 2) (addv (h / 2) (F x) x) k ->
  B (addv (h / 2) k (addv (h / 2) (F x) x)) (addv (h / 2) k (addv (h / 2) (F x) x)) <= B x x.
Proof.
  intros h x k Hh Hx K. rewrite (trapezoidal_exact h x k Hx K). assert (Lk : length k = n) by apply K.
  pose proof (Diss (addv 1 (addv (h / 2) k (addv (h / 2) (F x) x)) x) ltac:(lens)) as D. nra.
Qed.

(** Several stages: the facts the certificates use. *)
Section Stages.
Variable h : R.
Hypothesis Hh : 0 <= h.
Variables x k1 k2 k3 : list R.
Variables a11 a21 a22 a31 a32 a33 : R.
Hypothesis Lx : length x = n.
Hypothesis L1 : length k1 = n.
Hypothesis L2 : length k2 = n.
Hypothesis L3 : length k3 = n.
Definition Y1 := addv (a11 * h) k1 x.
Definition Y2 := addv (a22 * h) k2 (addv (a21 * h) k1 x).
Definition Y3 := addv (a33 * h) k3 (addv (a32 * h) k2 (addv (a31 * h) k1 x)).
Hypothesis E1 : F Y1 = k1.
Hypothesis E2 : F Y2 = k2.
Hypothesis E3 : F Y3 = k3.
Let p1 := h * B x k1.
Let p2 := h * B x k2.
Let p3 := h * B x k3.
Let q11 := h * h * B k1 k1.
Let q12 := h * h * B k1 k2.
Let q13 := h * h * B k1 k3.
Let q22 := h * h * B k2 k2.
Let q23 := h * h * B k2 k3.
Let q33 := h * h * B k3 k3.

Lemma stages_diss : forall l1 l2 l3,
  l1 * l1 * (p1 + a11 * q11) + l1 * l2 * (p2 + a11 * q12) + l1 * l3 * (p3 + a11 * q13) +
  l2 * l1 * (p1 + a21 * q11 + a22 * q12) + l2 * l2 * (p2 + a21 * q12 + a22 * q22) + l2 * l3 * (p3 + a21 * q13 + a22 * q23) +
  l3 * l1 * (p1 + a31 * q11 + a32 * q12 + a33 * q13) + l3 * l2 * (p2 + a31 * q12 + a32 * q22 + a33 * q23) + l3 * l3 * (p3 + a31 * q13 + a32 * q23 + a33 * q33) <= 0.
Proof.
  intros l1 l2 l3.
  assert (LY1 : length Y1 = n) by (unfold Y1; lens). assert (LY2 : length Y2 = n) by (unfold Y2; lens). assert (LY3 : length Y3 = n) by (unfold Y3; lens).
  set (z := addv (-1) x x). assert (Lz : length z = n) by (unfold z; lens).
  set (Y := addv l1 Y1 (addv l2 Y2 (addv l3 Y3 z))).
  assert (LY : length Y = n) by (unfold Y; lens).
  assert (FY : F Y = addv l1 k1 (addv l2 k2 (addv l3 k3 (addv (-1) (F x) (F x))))).
  { unfold Y. rewrite !Fadd by (unfold z; lens). rewrite E1, E2, E3. unfold z. rewrite Fadd by lens. reflexivity. }
  pose proof (Diss Y LY) as D. rewrite FY in D.
  apply (Rmult_le_compat_l h _ _ Hh) in D. rewrite Rmult_0_r in D. eapply Rle_trans; [|exact D]. apply Req_le.
  unfold Y, z, Y1, Y2, Y3. expand. unfold p1, p2, p3, q11, q12, q13, q22, q23, q33.
  rewrite (Bsym k2 k1), (Bsym k3 k1), (Bsym k3 k2) by lens. ring.
Qed.
Lemma stages_pos : forall l1 l2 l3, 0 <= l1 * l1 * q11 + 2 * l1 * l2 * q12 + 2 * l1 * l3 * q13 + l2 * l2 * q22 + 2 * l2 * l3 * q23 + l3 * l3 * q33.
Proof.
  intros l1 l2 l3. set (z := addv (-1) x x). assert (Lz : length z = n) by (unfold z; lens).
  pose proof (Bpos (addv l1 k1 (addv l2 k2 (addv l3 k3 z))) ltac:(lens)) as P.
  apply (Rmult_le_compat_l (h * h)) in P; [|nra]. rewrite Rmult_0_r in P. eapply Rle_trans; [exact P|]. apply Req_le.
  unfold z. expand. unfold q11, q12, q13, q22, q23, q33. rewrite (Bsym k2 k1), (Bsym k3 k1), (Bsym k3 k2), (Bsym k1 x), (Bsym k2 x), (Bsym k3 x) by lens. ring.
Qed.
Lemma stages_new : forall b1 b2 b3, let y := addv (b3 * h) k3 (addv (b2 * h) k2 (addv (b1 * h) k1 x)) in
  B y y = B x x + 2 * (b1 * p1 + b2 * p2 + b3 * p3) + b1 * b1 * q11 + 2 * b1 * b2 * q12 + 2 * b1 * b3 * q13 + b2 * b2 * q22 + 2 * b2 * b3 * q23 + b3 * b3 * q33.
Proof.
  intros b1 b2 b3. cbv zeta. expand. unfold p1, p2, p3, q11, q12, q13, q22, q23, q33.
  rewrite (Bsym k2 k1), (Bsym k3 k1), (Bsym k3 k2), (Bsym k1 x), (Bsym k2 x), (Bsym k3 x) by lens. ring.
Qed.
End Stages.
End Form.

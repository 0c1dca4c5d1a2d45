(** The error of one step of each integrator. *)
From Coq Require Import ZArith List Bool Reals Lia Lra.
From Verif Require Import Common Ode_Model Ode_Proofs OdeRk_Proofs OdeLin_Proofs OdeStep_Proofs OdeNorm_Proofs OdeExact_Proofs.
Import ListNotations.
Local Open Scope R_scope.

(** Series of the steps, with the operator times the step as variable, and constants of their errors. *)
Definition stc (a : R) (c : list R) : list R := 0 :: go a 0 c.
Definition ste (a : R) (c : list R) (e : R) : R := e + Rabs (a * lastd 0 (go a 0 c)).
Definition ex (p : nat) : list R := firstn (Datatypes.S p) [1; 1; 1 / 2; 1 / 6; 1 / 24].

Definition beC := let c0 := [1] in cadd 1 (stc 1 c0) c0.
Definition beE := let c0 := [1] in 0 + Rabs 1 * ste 1 c0 0.
Definition mpC := let c0 := [1; 0] in cadd 1 (stc (1 / 2) c0) c0.
Definition mpE := let c0 := [1; 0] in 0 + Rabs 1 * ste (1 / 2) c0 0.
Definition trY := let c0 := [1] in cadd (1 / 2) (0 :: c0) c0.
Definition trC := cadd (1 / 2) (stc (1 / 2) trY) trY.
Definition trE0 := 0 + Rabs (1 / 2) * 0.
Definition trE := trE0 + Rabs (1 / 2) * ste (1 / 2) trY trE0.
Section Sd.
Variables g c2 b1 b2 : R.
Let c0 := [1; 0].
Definition s2Y := cadd c2 (stc g c0) c0.
Definition s2YE := 0 + Rabs c2 * ste g c0 0.
Definition s2C := cadd b2 (stc g s2Y) (cadd b1 (stc g c0) c0).
Definition s2E := (0 + Rabs b1 * ste g c0 0) + Rabs b2 * ste g s2Y s2YE.
End Sd.
Section Sd3.
Variables a c21 c31 c32 b1 b2 b3 : R.
Variable c0 : list R.
Definition s3Y := cadd c21 (stc a c0) c0.
Definition s3YE := 0 + Rabs c21 * ste a c0 0.
Definition s3Z := cadd c32 (stc a s3Y) (cadd c31 (stc a c0) c0).
Definition s3ZE := (0 + Rabs c31 * ste a c0 0) + Rabs c32 * ste a s3Y s3YE.
Definition s3C := cadd b3 (stc a s3Z) (cadd b2 (stc a s3Y) (cadd b1 (stc a c0) c0)).
Definition s3E := ((0 + Rabs b1 * ste a c0 0) + Rabs b2 * ste a s3Y s3YE) + Rabs b3 * ste a s3Z s3ZE.
End Sd3.

Definition localC (ty : Z) : R :=
  if (ty =? 1)%Z then beE + labs (skipn 2 beC)
  else if (ty =? 2)%Z then trE + labs (skipn 3 trC)
  else if (ty =? 3)%Z then mpE + labs (skipn 3 mpC)
  else if (ty =? 4)%Z then s3E a33 (c33 - a33) b33 (1 - a33 - b33) b33 (1 - a33 - b33) a33 [1; 0; 0] + labs (skipn 4 (s3C a33 (c33 - a33) b33 (1 - a33 - b33) b33 (1 - a33 - b33) a33 [1; 0; 0]))
  else if (ty =? 5)%Z then s2E gamma23 (1 - 2 * gamma23) (1 / 2) (1 / 2) + labs (skipn 3 (s2C gamma23 (1 - 2 * gamma23) (1 / 2) (1 / 2)))
  else if (ty =? 6)%Z then s3E a34 (/ 2 - a34) (2 * a34) (1 - 4 * a34) b34 (1 - 2 * b34) b34 [1; 0; 0; 0] + labs (skipn 5 (s3C a34 (/ 2 - a34) (2 * a34) (1 - 4 * a34) b34 (1 - 2 * b34) b34 [1; 0; 0; 0]))
  else 0.
Definition orderN (ty : Z) : nat :=
  if (ty =? 1)%Z then 1 else if (ty =? 4)%Z then 3 else if (ty =? 2)%Z then 2 else if (ty =? 3)%Z then 2 else if (ty =? 5)%Z then 2 else 4.
Definition excess (ty : Z) : R := if (ty =? 4)%Z then / 10 ^ 16 else 0.

Lemma ste_pos : forall a c e, 0 <= e -> 0 <= ste a c e. Proof. intros. unfold ste. pose proof (Rabs_pos (a * lastd 0 (go a 0 c))). lra. Qed.
Lemma plus_pos : forall e a e', 0 <= e -> 0 <= e' -> 0 <= e + Rabs a * e'. Proof. intros. pose proof (Rmult_le_pos _ _ (Rabs_pos a) H0). lra. Qed.

Lemma be_series : firstn 2 beC = ex 1. Proof. unfold beC, stc, ex. cbn [go cadd firstn]. repeat (f_equal; [field|]). f_equal. field. Qed.
Lemma mp_series : firstn 3 mpC = ex 2. Proof. unfold mpC, stc, ex. cbn [go cadd firstn]. repeat (f_equal; [field|]). f_equal. field. Qed.
Lemma tr_series : firstn 3 trC = ex 2. Proof. unfold trC, trY, stc, ex. cbn [go cadd firstn]. repeat (f_equal; [field|]). f_equal. field. Qed.
Lemma s23_series : firstn 3 (s2C gamma23 (1 - 2 * gamma23) (1 / 2) (1 / 2)) = ex 2.
Proof. unfold s2C, s2Y, stc, ex. cbn [go cadd firstn]. repeat (f_equal; [field|]). f_equal. field. Qed.
Lemma cons_eq : forall (a b : R) l m, a = b -> l = m -> a :: l = b :: m. Proof. intros; subst; reflexivity. Qed.
Lemma s34_series : firstn 5 (s3C a34 (/ 2 - a34) (2 * a34) (1 - 4 * a34) b34 (1 - 2 * b34) b34 [1; 0; 0; 0]) = ex 4.
Proof.
  destruct a34_facts as (A1 & A2). destruct b34_facts as (_ & _ & B3).
  assert (Hb : b34 * (24 * ((a34 - / 2) * (a34 - / 2))) = 1) by (unfold b34; field; lra).
  set (b := b34) in *. clearbody b. set (a := a34) in *. clearbody a. set (w := a - / 2) in *. assert (Ea : a = w + / 2) by (unfold w; ring). clearbody w. subst a.
  assert (H1 : b * w = w * w - / 4) by (apply Rmult_eq_reg_r with (24 * w); [|lra]; lra).
  assert (H2 : b * w * w = / 24) by lra. assert (H3 : b * w * w * w = w / 24) by (rewrite H2; field).
  unfold s3C, s3Z, s3Y, stc, ex. cbn [go cadd firstn].
  apply cons_eq; [field|]. apply cons_eq; [field|]. apply cons_eq; [field|]. apply cons_eq; [|apply cons_eq; [|reflexivity]].
  - transitivity (4 * (b * w * w) + b * w - w * w + / 4); [field|]. rewrite H2, H1. field.
  - transitivity (12 * (b * w * w * w) + 9 * (b * w * w) + 3 / 2 * (b * w) - 2 * w * w * w - 3 / 2 * w * w + / 8); [field|]. rewrite H3, H2, H1. lra.
Qed.
Definition s33 := s3C a33 (c33 - a33) b33 (1 - a33 - b33) b33 (1 - a33 - b33) a33 [1; 0; 0].
Lemma s33_series : exists u v, firstn 4 s33 = [1; 1; u; v] /\ Rabs (u - 1 / 2) + Rabs (v - 1 / 6) <= / 10 ^ 16.
Proof.
  unfold s33, s3C, s3Z, s3Y, stc. cbn [go cadd firstn]. eexists. eexists. split.
  - apply cons_eq; [ring|]. apply cons_eq; [field|]. reflexivity.
  - unfold a33, b33, c33. match goal with |- Rabs ?a + Rabs ?b <= _ => assert (Ha : Rabs a <= / 10 ^ 16 / 2); [|assert (Hb : Rabs b <= / 10 ^ 16 / 2); [|lra]] end.
    + apply Rabs_le. split; lra.
    + apply Rabs_le. split; lra.
Qed.

Section Local.
Variable n : nat.
Variable B : list R -> list R -> R.
Hypothesis Badd : forall a k x y, length k = n -> length x = n -> length y = n -> B (addv a k x) y = B x y + a * B k y.
Hypothesis Bsym : forall x y, length x = n -> length y = n -> B x y = B y x.
Hypothesis Bpos : forall x, length x = n -> 0 <= B x x.
Notation nrm := (nrm B).
Variable F : list R -> list R.
Hypothesis Flen : forall x, length x = n -> length (F x) = n.
Hypothesis Fadd : forall a k x, length k = n -> length x = n -> F (addv a k x) = addv a (F k) (F x).
Hypothesis Diss : forall x, length x = n -> B x (F x) <= 0.
Variable f : R -> list R -> list R.
Hypothesis fF : forall t x, length x = n -> f t x = F x.
Variable imp : R -> R -> list R -> list R.
Hypothesis impS : forall t h x, length x = n -> 0 <= h -> stage n F h x (imp t h x).
Variable K : R.
Hypothesis K0 : 0 <= K.
Hypothesis FB : forall y, length y = n -> nrm (F y) <= K * nrm y.
Variable h : R.
Hypothesis Hh : 0 <= h.
Hypothesis HhK : h * K <= 1.
Variable x : list R.
Hypothesis Lx : length x = n.
Let zero := repeat 0 n.
Lemma zl : length zero = n. Proof. apply repeat_length. Qed.
Definition G (y : list R) : list R := addv h (F y) (repeat 0 n).
Lemma Glen : forall y, length y = n -> length (G y) = n.
Proof. intros y Hy. apply addv_len; [apply Flen, Hy|apply zl]. Qed.
Lemma G_nth : forall y i, length y = n -> nth i (G y) 0 = h * nth i (F y) 0.
Proof. intros y i Hy. unfold G. rewrite (addv_nth n) by (auto; apply zl). rewrite nth_zero. ring. Qed.
Lemma Gadd : forall a k y, length k = n -> length y = n -> G (addv a k y) = addv a (G k) (G y).
Proof.
  intros a k y Hk Hy. apply (list_eq n); [apply Glen, addv_len; assumption|apply addv_len; apply Glen; assumption|]. intros i.
  rewrite (addv_nth n) by (apply Glen; assumption). rewrite !G_nth by (auto using addv_len). rewrite Fadd by assumption. rewrite (addv_nth n) by (apply Flen; assumption). ring.
Qed.
Lemma Gdiss : forall y, length y = n -> B y (G y) <= 0.
Proof.
  intros y Hy. unfold G. rewrite (Badd2 n B Badd Bsym) by (auto; apply zl). rewrite (Bsym y), (B_zero n B Badd) by (auto; apply zl).
  pose proof (Diss y Hy). nra.
Qed.
Lemma Gbound : forall y, length y = n -> nrm (G y) <= h * K * nrm y.
Proof.
  intros y Hy. unfold G. rewrite (nrm_scal n B Badd Bsym) by (apply Flen, Hy). rewrite Rabs_pos_eq by exact Hh. rewrite Rmult_assoc. apply Rmult_le_compat_l; [exact Hh|apply FB, Hy].
Qed.
Lemma kp0 : 0 <= h * K. Proof. apply Rmult_le_pos; assumption. Qed.
Definition hk (k : list R) : list R := addv h k (repeat 0 n).
Lemma hk_len : forall k, length k = n -> length (hk k) = n. Proof. intros. apply addv_len; [assumption|apply zl]. Qed.
Lemma hk_add : forall b c k z, c = b * h -> length k = n -> length z = n -> addv c k z = addv b (hk k) z.
Proof.
  intros b c k z -> Hk Hz. apply (list_eq n); [apply addv_len; assumption|apply addv_len; auto using hk_len|]. intros i.
  rewrite !(addv_nth n) by (auto using hk_len). unfold hk. rewrite (addv_nth n) by (auto; apply zl). rewrite nth_zero. ring.
Qed.
Lemma hk_stage : forall a t c y, c = a * h -> 0 <= a -> length y = n -> length (hk (imp t c y)) = n /\ hk (imp t c y) = G (addv a (hk (imp t c y)) y).
Proof.
  intros a t c y Ec Ha Hy. assert (Hc : 0 <= c) by (rewrite Ec; apply Rmult_le_pos; assumption).
  destruct (impS t c y Hy Hc) as (L & E). split; [apply hk_len, L|]. unfold G. rewrite <- (hk_add a c (imp t c y) y Ec L Hy). rewrite <- E. reflexivity.
Qed.
Notation nr q := (near n B G (h * K) x q).
Notation nx q := (near_x n B Badd G Glen (h * K) x Lx q).
Notation nadd q := (near_add n B Badd Bsym Bpos G Glen (h * K) x Lx q).
Lemma st : forall q a t c y cy e, c = a * h -> 0 <= a -> 0 <= e -> (q <= Datatypes.S (length cy))%nat -> nr q y cy e -> nr q (hk (imp t c y)) (stc a cy) (ste a cy e).
Proof.
  intros q a t c y cy e Ec Ha He Hq Hn. destruct (hk_stage a t c y Ec Ha (proj1 Hn)) as (L & E).
  exact (near_stage n B Badd Bsym Bpos G Glen Gadd Gdiss (h * K) kp0 HhK Gbound x Lx q a y _ cy e Ha He Hq Hn L E).
Qed.
Lemma ad : forall q b c k z cz ck e e', c = b * h -> length k = n -> nr q z cz e -> nr q (hk k) ck e' -> nr q (addv c k z) (cadd b ck cz) (e + Rabs b * e').
Proof. intros q b c k z cz ck e e' Ec Lk Hz Hk. rewrite (hk_add b c k z Ec Lk (proj1 Hz)). apply (nadd q); assumption. Qed.
Lemma il : forall t c y a, c = a * h -> 0 <= a -> length y = n -> length (imp t c y) = n.
Proof. intros t c y a -> Ha Hy. apply impS; [exact Hy|apply Rmult_le_pos; assumption]. Qed.
Lemma fin : forall q z c e, length (firstn q c) = q -> nr q z c e -> nr q z (firstn q c) (e + labs (skipn q c)).
Proof.
  intros q z c e L H. apply (near_cut n B Badd Bsym Bpos G Glen (h * K) kp0 HhK Gbound x Lx q); [exact L|]. rewrite firstn_skipn. exact H.
Qed.
Ltac cst := cbn [length]; first [lia | assumption | lra | (unfold trE0, s3YE, s3ZE, s2YE; repeat first [apply plus_pos | apply ste_pos]; try (pose proof (Rabs_pos (1 / 2))); lra)].

Lemma be_near : forall t, nr 2 (backwardEulerStep imp x t h) beC beE.
Proof.
  intros t. unfold backwardEulerStep. cbv zeta. apply ad; [ring|apply (il _ _ _ 1); [ring|lra|exact Lx]|exact (nx 2%nat 0%nat)|].
  apply st; [ring|lra|lra|cbn; lia|exact (nx 2%nat 0%nat)].
Qed.
Lemma mp_near : forall t, nr 3 (implicitMidpointStep imp x t h) mpC mpE.
Proof.
  intros t. unfold implicitMidpointStep. cbv zeta. apply ad; [ring|apply (il _ _ _ (1 / 2)); [field|lra|exact Lx]|exact (nx 3%nat 1%nat)|].
  apply st; [field|lra|lra|cbn; lia|exact (nx 3%nat 1%nat)].
Qed.
Lemma tr_near : forall t, nr 3 (trapezoidalStep f imp x t h) trC trE.
Proof.
  intros t. unfold trapezoidalStep. cbv zeta. rewrite fF by exact Lx.
  assert (Y : nr 3 (addv (h / 2) (F x) x) trY trE0).
  { apply (ad 3 (1 / 2)); [field|apply Flen, Lx|exact (nx 3%nat 0%nat)|].
    exact (near_G n B G Glen Gadd (h * K) HhK Gbound x Lx 3 x [1] 0 (Rle_refl 0) (nx 3%nat 0%nat)). }
  apply ad; [field|apply (il _ _ _ (1 / 2)); [field|lra|exact (proj1 Y)]|exact Y|].
  apply st; [field|lra|unfold trE0; lra|cbn; lia|exact Y].
Qed.
Lemma s23_near : forall t, nr 3 (sdirk23Step imp x t h) (s2C gamma23 (1 - 2 * gamma23) (1 / 2) (1 / 2)) (s2E gamma23 (1 - 2 * gamma23) (1 / 2) (1 / 2)).
Proof.
  intros t. pose proof gamma23_pos as Pg. unfold sdirk23Step. cbv zeta.
  set (k1 := imp (t + gamma23 * h) (gamma23 * h) x). assert (L1 : length k1 = n) by (apply (il _ _ _ gamma23); auto).
  assert (N1 : nr 3 (hk k1) (stc gamma23 [1; 0]) (ste gamma23 [1; 0] 0)) by (apply st; [ring|exact Pg|lra|cbn; lia|exact (nx 3%nat 1%nat)]).
  assert (NY : nr 3 (addv ((1 - 2 * gamma23) * h) k1 x) (s2Y gamma23 (1 - 2 * gamma23)) (s2YE gamma23 (1 - 2 * gamma23))) by (apply ad; [ring|exact L1|exact (nx 3%nat 1%nat)|exact N1]).
  apply ad; [field|apply (il _ _ _ gamma23); [ring|exact Pg|exact (proj1 NY)]|apply ad; [field|exact L1|exact (nx 3%nat 1%nat)|exact N1]|].
  apply st; [ring|exact Pg|unfold s2YE; apply plus_pos; [lra|apply ste_pos; lra]|cbn; lia|exact NY].
Qed.
Section Three.
Variables a c21 c31 c32 b1 b2 b3 : R.
Hypothesis Ha : 0 <= a.
Variable q m : nat.
Hypothesis Hq : (q <= Datatypes.S (Datatypes.S m))%nat.
Let c0 := 1 :: repeat 0 m.
Variables k1 k2 k3 : list R.
Variables t1 t2 t3 : R.
Let Y := addv (c21 * h) k1 x.
Let Z := addv (c32 * h) k2 (addv (c31 * h) k1 x).
Hypothesis E1 : k1 = imp t1 (a * h) x.
Hypothesis E2 : k2 = imp t2 (a * h) Y.
Hypothesis E3 : k3 = imp t3 (a * h) Z.
Lemma cadd_len : forall b c d, length (cadd b c d) = Nat.max (length c) (length d).
Proof. intros b c. induction c as [|u c IH]; intros [|v d]; cbn [cadd length]; rewrite ?IH; cbn [length]; lia. Qed.
Lemma go_len : forall b p c, length (go b p c) = length c.
Proof. intros b p c. revert p. induction c as [|u c IH]; intros p; cbn [go length]; [reflexivity|]. rewrite IH. reflexivity. Qed.
Lemma three_near : nr q (addv (b3 * h) k3 (addv (b2 * h) k2 (addv (b1 * h) k1 x))) (s3C a c21 c31 c32 b1 b2 b3 c0) (s3E a c21 c31 c32 b1 b2 b3 c0).
Proof.
  assert (Lc : length c0 = Datatypes.S m) by (unfold c0; cbn [length]; rewrite repeat_length; reflexivity).
  assert (L1 : length k1 = n) by (rewrite E1; apply (il _ _ _ a); auto).
  assert (N1 : nr q (hk k1) (stc a c0) (ste a c0 0)) by (rewrite E1; apply st; [ring|exact Ha|lra|lia|exact (nx q m)]).
  assert (NY : nr q Y (s3Y a c21 c0) (s3YE a c21 c0)) by (apply ad; [ring|exact L1|exact (nx q m)|exact N1]).
  assert (PY : 0 <= s3YE a c21 c0) by (apply plus_pos; [lra|apply ste_pos; lra]).
  assert (L2 : length k2 = n) by (rewrite E2; apply (il _ _ _ a); [ring|exact Ha|exact (proj1 NY)]).
  assert (LY : length (s3Y a c21 c0) = Datatypes.S (Datatypes.S m)) by (unfold s3Y, stc; rewrite cadd_len; cbn [length]; rewrite go_len; lia).
  assert (N2 : nr q (hk k2) (stc a (s3Y a c21 c0)) (ste a (s3Y a c21 c0) (s3YE a c21 c0))) by (rewrite E2; apply st; [ring|exact Ha|exact PY|lia|exact NY]).
  assert (NZ : nr q Z (s3Z a c21 c31 c32 c0) (s3ZE a c21 c31 c32 c0)) by (apply ad; [ring|exact L2|apply ad; [ring|exact L1|exact (nx q m)|exact N1]|exact N2]).
  assert (PZ : 0 <= s3ZE a c21 c31 c32 c0) by (unfold s3ZE; apply plus_pos; [apply plus_pos; [lra|apply ste_pos; lra]|apply ste_pos; exact PY]).
  assert (LZ : length (s3Z a c21 c31 c32 c0) = Datatypes.S (Datatypes.S (Datatypes.S m))).
  { unfold s3Z, stc. rewrite !cadd_len. cbn [length]. rewrite !go_len. lia. }
  assert (L3 : length k3 = n) by (rewrite E3; apply (il _ _ _ a); [ring|exact Ha|exact (proj1 NZ)]).
  apply ad; [ring|exact L3|apply ad; [ring|exact L2|apply ad; [ring|exact L1|exact (nx q m)|exact N1]|exact N2]|].
  rewrite E3. apply st; [ring|exact Ha|exact PZ|lia|exact NZ].
Qed.
End Three.

Theorem step_series : forall ty t, (0 <= ty <= 6)%Z ->
  length (odeStep f imp ty x t h) = n /\
  nrm (sub (odeStep f imp ty x t h) (comb n G x (ex (orderN ty)) 0)) <= (localC ty * (h * K) ^ Datatypes.S (orderN ty) + excess ty * (h * K) ^ 2) * nrm x.
Proof.
  intros ty t Hty.
  assert (W : forall q z c e p, firstn q c = ex p -> length (ex p) = q -> nr q z c e -> length z = n /\ nrm (sub z (comb n G x (ex p) 0)) <= ((e + labs (skipn q c)) * (h * K) ^ q + 0 * (h * K) ^ 2) * nrm x).
  { intros q z c e p E L H. apply fin in H; [|rewrite E; exact L]. rewrite E in H. destruct H as (Lz & H). split; [exact Lz|]. eapply Rle_trans; [exact H|]. apply Req_le. ring. }
  destruct (Z.eq_dec ty 0) as [->|N0]; [|destruct (Z.eq_dec ty 1) as [->|N1]; [|destruct (Z.eq_dec ty 2) as [->|N2]; [|destruct (Z.eq_dec ty 3) as [->|N3]; [|destruct (Z.eq_dec ty 4) as [->|N4]; [|destruct (Z.eq_dec ty 5) as [->|N5]; [|replace ty with 6%Z by lia]]]]]].
  - change (odeStep f imp 0 x t h) with (rk4Step f x t h). rewrite (rk4_F n F Flen f fF x t h Lx). rewrite (rk4_once n F Flen Fadd x Lx h t).
    assert (E : comb n F x (rk1 h) 0 = comb n G x (ex 4) 0).
    { apply (list_eq n); [apply (comb_len n F Flen x Lx)|apply (comb_len n G Glen x Lx)|]. intros i. rewrite (comb_nth n F Flen x Lx), (comb_nth n G Glen x Lx).
      assert (P : forall j, nth i (ev G x j) 0 = h ^ j * nth i (ev F x j) 0).
      { assert (Q : forall j, ev G x j = addv (h ^ j) (ev F x j) (repeat 0 n)).
        { induction j as [|j IH]; cbn [ev].
          - apply (list_eq n); [exact Lx|apply addv_len; [exact Lx|apply zl]|]. intros i'. rewrite (addv_nth n) by (auto; apply zl). rewrite nth_zero. cbn [pow]. ring.
          - rewrite IH. assert (Le : length (ev F x j) = n) by apply (ev_len n F Flen x Lx).
            apply (list_eq n); [apply Glen, addv_len; [exact Le|apply zl]|apply addv_len; [apply Flen, Le|apply zl]|]. intros i'. rewrite G_nth by (apply addv_len; [exact Le|apply zl]).
            rewrite Fadd by (auto; apply zl). rewrite !(addv_nth n) by (auto; apply zl || apply Flen, zl). unfold zero. rewrite (F_zero n F Flen Fadd x Lx), nth_zero. cbn [pow]. ring. }
        intros j. rewrite Q, (addv_nth n) by (try apply zl; apply (ev_len n F Flen x Lx)). rewrite nth_zero. ring. }
      unfold rk1, ex. cbn [firstn lsum]. rewrite !P. cbn [pow]. field. }
    rewrite E. change (orderN 0) with 4%nat. split; [apply (comb_len n G Glen x Lx)|].
    rewrite (nrm_ext n B _ (repeat 0 n)); [rewrite (nrm_zero n B Badd)|apply sub_len; apply (comb_len n G Glen x Lx)|apply zl|].
    + change (localC 0) with 0. change (excess 0) with 0. lra.
    + intros i. rewrite (sub_nth n), nth_zero by apply (comb_len n G Glen x Lx). ring.
  - exact (W 2%nat _ beC beE 1%nat be_series eq_refl (be_near t)).
  - exact (W 3%nat _ trC trE 2%nat tr_series eq_refl (tr_near t)).
  - exact (W 3%nat _ mpC mpE 2%nat mp_series eq_refl (mp_near t)).
  - change (odeStep f imp 4 x t h) with (sdirk33Step imp x t h). change (orderN 4) with 3%nat.
    pose proof (three_near a33 (c33 - a33) b33 (1 - a33 - b33) b33 (1 - a33 - b33) a33 a33_pos 4 2 ltac:(lia) _ _ _ (t + a33 * h) (t + c33 * h) (t + h) eq_refl eq_refl eq_refl) as Nn.
    match type of Nn with near _ _ _ _ _ _ ?z _ _ => change z with (sdirk33Step imp x t h) in Nn end.
    change (1 :: repeat 0 2) with [1; 0; 0] in Nn. fold s33 in Nn.
    destruct s33_series as (u & v & Es & Ds). apply fin in Nn; [|rewrite Es; reflexivity]. rewrite Es in Nn. destruct Nn as (Lz & H). split; [exact Lz|].
    eapply Rle_trans; [apply (nrm_tri n B Badd Bsym Bpos _ (comb n G x [1; 1; u; v] 0)); [exact Lz| |]; apply (comb_len n G Glen x Lx)|].
    assert (Q : nrm (sub (comb n G x [1; 1; u; v] 0) (comb n G x (ex 3) 0)) <= / 10 ^ 16 * (h * K) ^ 2 * nrm x).
    { assert (E : sub (comb n G x [1; 1; u; v] 0) (comb n G x (ex 3) 0) = comb n G x [u - 1 / 2; v - 1 / 6] 2).
      { apply (list_eq n); [apply sub_len; apply (comb_len n G Glen x Lx)|apply (comb_len n G Glen x Lx)|]. intros i. rewrite (sub_nth n) by apply (comb_len n G Glen x Lx).
        rewrite !(comb_nth n G Glen x Lx). unfold ex. cbn [firstn lsum]. ring. }
      rewrite E. eapply Rle_trans; [apply (comb_bound n B Badd Bsym Bpos G Glen (h * K) kp0 HhK Gbound x Lx 2); lia|].
      apply Rmult_le_compat_r; [apply nrm_pos|]. apply Rmult_le_compat_r; [apply pow_le, kp0|]. cbn [labs]. lra. }
    change (localC 4) with (s3E a33 (c33 - a33) b33 (1 - a33 - b33) b33 (1 - a33 - b33) a33 [1; 0; 0] + labs (skipn 4 s33)). change (excess 4) with (/ 10 ^ 16). lra.
  - exact (W 3%nat _ _ _ 2%nat s23_series eq_refl (s23_near t)).
  - pose proof (three_near a34 (/ 2 - a34) (2 * a34) (1 - 4 * a34) b34 (1 - 2 * b34) b34 a34_pos 5 3 ltac:(lia) _ _ _ (t + a34 * h) (t + h / 2) (t + (1 - a34) * h) eq_refl eq_refl eq_refl) as Nn.
    match type of Nn with near _ _ _ _ _ _ ?z _ _ => change z with (odeStep f imp 6 x t h) in Nn end.
    exact (W 5%nat _ _ _ 4%nat s34_series eq_refl Nn).
Qed.
End Local.

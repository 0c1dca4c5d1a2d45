(** Each integrator over an abstract energy form. *)
From Coq Require Import ZArith List Bool Reals Lia Lra.
From Verif Require Import Common Ode_Model Ode_Proofs OdeRk_Proofs OdeGram_Proofs.
Import ListNotations.
Local Open Scope R_scope.

(** The constants of SDIRK34. *)
Lemma cos_triple : forall u, cos (3 * u) = 4 * cos u * cos u * cos u - 3 * cos u.
Proof.
  intros u. replace (3 * u) with (2 * u + u) by ring. rewrite cos_plus, cos_2a_cos, sin_2a.
  pose proof (sin2_cos2 u) as E. unfold Rsqr in E. replace (2 * sin u * cos u * sin u) with (2 * cos u * (sin u * sin u)) by ring.
  replace (sin u * sin u) with (1 - cos u * cos u) by lra. ring.
Qed.
Lemma a34_facts : 1 <= a34 /\ 24 * (a34 - / 2) * (a34 - / 2) * (a34 - / 2) - 6 * (a34 - / 2) - 1 = 0.
Proof.
  set (u := a34 - / 2). assert (S3 : sqrt 3 * sqrt 3 = 3) by (apply sqrt_sqrt; lra). assert (P3 : 0 < sqrt 3) by (apply sqrt_lt_R0; lra).
  assert (C : cos (PI / 18) = sqrt 3 * u) by (unfold u, a34; field_simplify; [|lra]; lra).
  assert (T : cos (3 * (PI / 18)) = sqrt 3 / 2) by (replace (3 * (PI / 18)) with (PI / 6) by field; apply cos_PI6).
  rewrite cos_triple, C in T.
  assert (L : sqrt 3 / 2 <= cos (PI / 18)).
  { rewrite <- cos_PI6. pose proof PI_RGT_0. apply cos_decr_1; lra. }
  rewrite C in L. split.
  - assert (/ 2 <= u) by (apply Rmult_le_reg_l with (sqrt 3); lra). unfold u in *. lra.
  - apply Rmult_eq_reg_l with (sqrt 3 / 2); [|lra]. rewrite Rmult_0_r.
    replace (4 * (sqrt 3 * u) * (sqrt 3 * u) * (sqrt 3 * u)) with (4 * (sqrt 3 * sqrt 3) * sqrt 3 * u * u * u) in T by ring. rewrite S3 in T. nra.
Qed.
Lemma b34_facts : 0 <= b34 /\ 2 * b34 <= 1 /\ 6 * a34 * b34 - 2 * b34 - a34 + / 2 = 0.
Proof.
  destruct a34_facts as (A & E). set (u := a34 - / 2) in *. assert (U : / 2 <= u) by (unfold u; lra).
  assert (Eb : b34 = / (24 * u * u)) by (unfold b34; replace (2 * a34 - 1) with (2 * u) by (unfold u; lra); field; lra).
  assert (Q : 0 < 24 * u * u) by nra. rewrite Eb. split; [left; apply Rinv_0_lt_compat; exact Q|]. split.
  - apply Rmult_le_reg_r with (24 * u * u); [exact Q|]. rewrite Rmult_assoc, Rinv_l by lra. nra.
  - replace a34 with (u + / 2) by (unfold u; lra). apply Rmult_eq_reg_r with (24 * u * u); [|lra]. rewrite Rmult_0_l.
    replace ((6 * (u + / 2) * / (24 * u * u) - 2 * / (24 * u * u) - (u + / 2) + / 2) * (24 * u * u)) with (6 * u + 1 - 24 * u * u * u) by (field; lra). lra.
Qed.
Lemma gamma23_facts : / 4 <= gamma23 /\ gamma23 <= / 2.
Proof.
  assert (S2 : sqrt 2 * sqrt 2 = 2) by (apply sqrt_sqrt; lra). pose proof (sqrt_pos 2). unfold gamma23. split; nra.
Qed.

Section Steps.
Variable n : nat.
Variable B : list R -> list R -> R.
Hypothesis Badd : forall a k x y, length k = n -> length x = n -> length y = n -> B (addv a k x) y = B x y + a * B k y.
Hypothesis Bsym : forall x y, length x = n -> length y = n -> B x y = B y x.
Hypothesis Bpos : forall x, length x = n -> 0 <= B x x.
Variable F : list R -> list R.
Hypothesis Flen : forall x, length x = n -> length (F x) = n.
Hypothesis Fadd : forall a k x, length k = n -> length x = n -> F (addv a k x) = addv a (F k) (F x).
Hypothesis Diss : forall x, length x = n -> B x (F x) <= 0.
Variable f : R -> list R -> list R.
Hypothesis fF : forall t x, length x = n -> f t x = F x.
Variable imp : R -> R -> list R -> list R.
Hypothesis impS : forall t h x, length x = n -> 0 <= h -> stage n F h x (imp t h x).

Lemma imp_len : forall t h x, length x = n -> 0 <= h -> length (imp t h x) = n.
Proof. intros t h x Hx Hh. apply (impS t h x Hx Hh). Qed.
Lemma f_len : forall t x, length x = n -> length (f t x) = n.
Proof. intros t x Hx. rewrite fF by exact Hx. apply Flen, Hx. Qed.
Lemma a33_pos : 0 <= a33. Proof. unfold a33. lra. Qed.
Lemma gamma23_pos : 0 <= gamma23. Proof. pose proof gamma23_facts. lra. Qed.
Lemma a34_pos : 0 <= a34. Proof. pose proof a34_facts. lra. Qed.
Ltac nn := first [lra | apply Rmult_le_pos; [apply a33_pos|lra] | apply Rmult_le_pos; [apply gamma23_pos|lra] | apply Rmult_le_pos; [apply a34_pos|lra]].
Ltac lens := repeat first [assumption | apply addv_len | apply imp_len | apply f_len | apply Flen | nn].

Lemma step_len : forall ty x t dt, length x = n -> 0 <= dt -> length (odeStep f imp ty x t dt) = n.
Proof.
  intros ty x t dt Hx Hd. unfold odeStep.
  destruct (ty =? 0)%Z; [unfold rk4Step; lens|]. destruct (ty =? 1)%Z; [unfold backwardEulerStep; lens|].
  destruct (ty =? 2)%Z; [unfold trapezoidalStep; lens|]. destruct (ty =? 3)%Z; [unfold implicitMidpointStep; lens|].
  destruct (ty =? 4)%Z; [unfold sdirk33Step; lens|]. destruct (ty =? 5)%Z; [unfold sdirk23Step; lens|].
  destruct (ty =? 6)%Z; [unfold sdirk34Step; lens|]. exact Hx.
Qed.

Lemma addv_null : forall k x, length k = n -> length x = n -> addv 0 k x = x.
Proof. intros k x Hk Hx. symmetry. apply (addv_ext n); auto. intros i. ring. Qed.

Lemma sdirk23 : forall x t dt, length x = n -> 0 <= dt -> B (sdirk23Step imp x t dt) (sdirk23Step imp x t dt) <= B x x.
Proof.
  intros x t dt Hx Hd. unfold sdirk23Step. cbv zeta.
  set (k1 := imp (t + gamma23 * dt) (gamma23 * dt) x).
  pose proof (impS (t + gamma23 * dt) (gamma23 * dt) x Hx ltac:(nn)) as K1. fold k1 in K1. destruct K1 as (L1 & E1).
  set (y := addv ((1 - 2 * gamma23) * dt) k1 x). assert (Ly : length y = n) by (unfold y; lens).
  set (k2 := imp (t + (1 - gamma23) * dt) (gamma23 * dt) y).
  pose proof (impS (t + (1 - gamma23) * dt) (gamma23 * dt) y Ly ltac:(nn)) as K2. fold k2 in K2. destruct K2 as (L2 & E2).
  symmetry in E1, E2.
  assert (E3 : F (addv (0 * dt) k1 (addv (0 * dt) k2 (addv (gamma23 * dt) k1 x))) = k1) by (rewrite !Rmult_0_l, !addv_null by lens; exact E1).
  pose proof (stages_diss n B Badd Bsym F Flen Fadd Diss dt Hd x k1 k2 k1 gamma23 (1 - 2 * gamma23) gamma23 gamma23 0 0 Hx L1 L2 L1 E1 E2 E3) as D.
  pose proof (stages_pos n B Badd Bsym Bpos dt x k1 k2 k1 Hx L1 L2 L1) as P.
  pose proof (stages_new n B Badd Bsym dt x k1 k2 k1 Hx L1 L2 L1 (/ 2) (/ 2) 0) as W. cbv zeta in W.
  rewrite Rmult_0_l, addv_null in W by lens. replace (/ 2 * dt) with (dt / 2) in W by field. rewrite W. clear W.
  pose proof (D 1 0 0) as D1. pose proof (D 0 1 0) as D2. pose proof (P 1 (-1) 0) as P1. pose proof gamma23_facts as (G & _).
  set (p1 := dt * B x k1) in *. set (p2 := dt * B x k2) in *. set (q11 := dt * dt * B k1 k1) in *. set (q12 := dt * dt * B k1 k2) in *. set (q22 := dt * dt * B k2 k2) in *.
  assert (P1' : 0 <= (gamma23 - / 4) * (q11 - 2 * q12 + q22)) by (apply Rmult_le_pos; lra). lra.
Qed.

Lemma sdirk34 : forall x t dt, length x = n -> 0 <= dt -> B (sdirk34Step imp x t dt) (sdirk34Step imp x t dt) <= B x x.
Proof.
  intros x t dt Hx Hd. unfold sdirk34Step. cbv zeta.
  set (k1 := imp (t + a34 * dt) (a34 * dt) x).
  pose proof (impS (t + a34 * dt) (a34 * dt) x Hx ltac:(nn)) as K1. fold k1 in K1. destruct K1 as (L1 & E1).
  set (y := addv ((/ 2 - a34) * dt) k1 x). assert (Ly : length y = n) by (unfold y; lens).
  set (k2 := imp (t + dt / 2) (a34 * dt) y).
  pose proof (impS (t + dt / 2) (a34 * dt) y Ly ltac:(nn)) as K2. fold k2 in K2. destruct K2 as (L2 & E2).
  set (z := addv ((1 - 4 * a34) * dt) k2 (addv (2 * a34 * dt) k1 x)). assert (Lz : length z = n) by (unfold z; lens).
  set (k3 := imp (t + (1 - a34) * dt) (a34 * dt) z).
  pose proof (impS (t + (1 - a34) * dt) (a34 * dt) z Lz ltac:(nn)) as K3. fold k3 in K3. destruct K3 as (L3 & E3).
  symmetry in E1, E2, E3.
  pose proof (stages_diss n B Badd Bsym F Flen Fadd Diss dt Hd x k1 k2 k3 a34 (/ 2 - a34) a34 (2 * a34) (1 - 4 * a34) a34 Hx L1 L2 L3 E1 E2 E3) as D.
  pose proof (stages_pos n B Badd Bsym Bpos dt x k1 k2 k3 Hx L1 L2 L3) as P.
  pose proof (stages_new n B Badd Bsym dt x k1 k2 k3 Hx L1 L2 L3 b34 (1 - 2 * b34) b34) as W. cbv zeta in W. rewrite W. clear W.
  pose proof (D 1 0 0) as D1. pose proof (D 0 1 0) as D2. pose proof (D 0 0 1) as D3. pose proof (P 1 (-2) 1) as P1. clear D P.
  pose proof b34_facts as (B0 & B1 & BE). pose proof a34_facts as (A1 & _). clear E1 E2 E3.
  set (p1 := dt * B x k1) in *. set (p2 := dt * B x k2) in *. set (p3 := dt * B x k3) in *.
  set (q11 := dt * dt * B k1 k1) in *. set (q12 := dt * dt * B k1 k2) in *. set (q13 := dt * dt * B k1 k3) in *.
  set (q22 := dt * dt * B k2 k2) in *. set (q23 := dt * dt * B k2 k3) in *. set (q33 := dt * dt * B k3 k3) in *.
  set (a := a34) in *. set (b := b34) in *. clearbody a b p1 p2 p3 q11 q12 q13 q22 q23 q33.
  apply (Rmult_le_compat_l (2 * b)) in D1; [|lra]. apply (Rmult_le_compat_l (2 * (1 - 2 * b))) in D2; [|lra]. apply (Rmult_le_compat_l (2 * b)) in D3; [|lra].
  apply (Rmult_le_compat_l (b * (2 * a - b))) in P1; [|apply Rmult_le_pos; lra]. rewrite Rmult_0_r in *.
  assert (C1 : 2 * (1 - 2 * b) * (/ 2 - a) + 2 * b * (2 * a) * 0 - 2 * b * (1 - 2 * b) = -4 * (b * (2 * a - b))) by lra.
  assert (C2 : 2 * (1 - 2 * b) * a - (1 - 2 * b) * (1 - 2 * b) = 4 * (b * (2 * a - b))) by lra.
  assert (R1 : (2 * (1 - 2 * b) * (/ 2 - a) + 2 * b * (2 * a) * 0 - 2 * b * (1 - 2 * b)) * q12 = -4 * (b * (2 * a - b)) * q12) by (rewrite C1; reflexivity).
  assert (R2 : (2 * (1 - 2 * b) * a - (1 - 2 * b) * (1 - 2 * b)) * q22 = 4 * (b * (2 * a - b)) * q22) by (rewrite C2; reflexivity).
  lra.
Qed.

Lemma sdirk33 : forall x t dt, length x = n -> 0 <= dt -> B (sdirk33Step imp x t dt) (sdirk33Step imp x t dt) <= B x x.
Proof.
  intros x t dt Hx Hd. unfold sdirk33Step. cbv zeta.
  set (k1 := imp (t + a33 * dt) (a33 * dt) x).
  pose proof (impS (t + a33 * dt) (a33 * dt) x Hx ltac:(nn)) as K1. fold k1 in K1. destruct K1 as (L1 & E1).
  set (y := addv ((c33 - a33) * dt) k1 x). assert (Ly : length y = n) by (unfold y; lens).
  set (k2 := imp (t + c33 * dt) (a33 * dt) y).
  pose proof (impS (t + c33 * dt) (a33 * dt) y Ly ltac:(nn)) as K2. fold k2 in K2. destruct K2 as (L2 & E2).
  set (z := addv ((1 - a33 - b33) * dt) k2 (addv (b33 * dt) k1 x)). assert (Lz : length z = n) by (unfold z; lens).
  set (k3 := imp (t + dt) (a33 * dt) z).
  pose proof (impS (t + dt) (a33 * dt) z Lz ltac:(nn)) as K3. fold k3 in K3. destruct K3 as (L3 & E3).
  symmetry in E1, E2, E3.
  pose proof (stages_diss n B Badd Bsym F Flen Fadd Diss dt Hd x k1 k2 k3 a33 (c33 - a33) a33 b33 (1 - a33 - b33) a33 Hx L1 L2 L3 E1 E2 E3) as D.
  pose proof (stages_pos n B Badd Bsym Bpos dt x k1 k2 k3 Hx L1 L2 L3) as P.
  pose proof (stages_new n B Badd Bsym dt x k1 k2 k3 Hx L1 L2 L3 b33 (1 - a33 - b33) a33) as W. cbv zeta in W. unfold z. rewrite W. clear W.
  pose proof (sdirk33_certificate _ _ _ _ _ _ _ _ _ D P) as C. lra.
Qed.

(** The six implicit integrators contract. *)
Theorem implicit_contracts : forall ty x t dt, (1 <= ty <= 6)%Z -> length x = n -> 0 <= dt ->
  B (odeStep f imp ty x t dt) (odeStep f imp ty x t dt) <= B x x.
Proof.
  intros ty x t dt Hty Hx Hd. assert (C : (ty = 1 \/ ty = 2 \/ ty = 3 \/ ty = 4 \/ ty = 5 \/ ty = 6)%Z) by lia.
  destruct C as [-> | [-> | [-> | [-> | [-> | ->]]]]]; cbn [odeStep Z.eqb Pos.eqb].
  - apply (backwardEuler n B Badd Bsym Bpos F Diss dt x _ Hd Hx). apply impS; assumption.
  - unfold trapezoidalStep. cbv zeta. rewrite fF by exact Hx. apply (trapezoidal n B Badd Bsym F Flen Fadd Diss dt x _ Hd Hx). apply impS; lens.
  - apply (midpoint n B Badd Bsym F Diss dt x _ Hd Hx). apply impS; lens.
  - apply sdirk33; assumption.
  - apply sdirk23; assumption.
  - apply sdirk34; assumption.
Qed.

(** Midpoint and trapezoidal rule conserve what the operator conserves. *)
Theorem symmetric_conserve : (forall x, length x = n -> B x (F x) = 0) ->
  forall ty x t dt, (2 <= ty <= 3)%Z -> length x = n -> 0 <= dt -> B (odeStep f imp ty x t dt) (odeStep f imp ty x t dt) = B x x.
Proof.
  intros Z ty x t dt Hty Hx Hd. assert (C : (ty = 2 \/ ty = 3)%Z) by lia. destruct C as [-> | ->]; cbn [odeStep Z.eqb Pos.eqb].
  - unfold trapezoidalStep. cbv zeta. rewrite fF by exact Hx.
    rewrite (trapezoidal_exact n B Badd Bsym F Flen Fadd dt x _ Hx) by (apply impS; lens). rewrite Z by lens. ring.
  - unfold implicitMidpointStep. cbv zeta. rewrite (midpoint_exact n B Badd Bsym F dt x _ Hx) by (apply impS; lens). rewrite Z by lens. ring.
Qed.

(** The explicit one. *)
Lemma rk4_F : forall x t dt, length x = n -> rk4Step f x t dt = rk4Step (fun _ => F) x t dt.
Proof. intros x t dt Hx. unfold rk4Step. cbv zeta. repeat rewrite fF by lens. reflexivity. Qed.

Lemma rk4_len : forall x t dt, length x = n -> length (rk4Step f x t dt) = n.
Proof. intros. unfold rk4Step. lens. Qed.
Section Rk.
Variable h : R.
Hypothesis Hh : 0 <= h.
Section One.
Variable x : list R.
Hypothesis Hx : length x = n.
Notation e := (ev F x).
Definition g (i j : nat) : R := h ^ (i + j) * B (e i) (e j).
Lemma ge_len : forall i, length (e i) = n. Proof. exact (ev_len n F Flen x Hx). Qed.
Lemma g_sym : forall i j, g i j = g j i.
Proof. intros. unfold g. rewrite Nat.add_comm, Bsym by apply ge_len. reflexivity. Qed.
(** Coefficients with the powers of the step. *)
Fixpoint pw (l : list R) (k : nat) : list R := match l with [] => [] | a :: l => a * h ^ k :: pw l (Datatypes.S k) end.
Lemma lsum_pw : forall l k u, lsum (pw l k) k u = lsum l k (fun i => h ^ i * u i).
Proof. induction l as [|a l IH]; intros k u; cbn [pw lsum]; [reflexivity|]. rewrite IH. ring. Qed.
Lemma lsum_scal : forall l k c u, lsum l k (fun i => c * u i) = c * lsum l k u.
Proof. induction l as [|a l IH]; intros k c u; cbn [lsum]; [ring|]. rewrite IH. ring. Qed.
Lemma gram : forall c d, B (comb n F x (pw c 0) 0) (comb n F x (pw d 0) 0) = lsum c 0 (fun i => lsum d 0 (fun j => g i j)).
Proof.
  intros. rewrite (B_combs n F Flen x Hx B Badd Bsym), lsum_pw. apply lsum_ext. intros i. rewrite lsum_pw, <- lsum_scal. apply lsum_ext. intros j. unfold g. rewrite pow_add. ring.
Qed.
Lemma g_pos : forall l, 0 <= lsum l 0 (fun i => lsum l 0 (fun j => g i j)).
Proof. intros l. rewrite <- gram. apply Bpos. apply (comb_len n F Flen x Hx). Qed.
Lemma g_shift : forall l, h * B (comb n F x (pw l 0) 0) (F (comb n F x (pw l 0) 0)) = lsum l 0 (fun i => lsum l 0 (fun j => g i (Datatypes.S j))).
Proof.
  intros l. rewrite (F_comb n F Flen Fadd x Hx), (B_combs n F Flen x Hx B Badd Bsym), lsum_pw, <- lsum_scal. apply lsum_ext. intros i. cbn [lsum].
  assert (Sh : forall d k u, lsum (pw d k) (Datatypes.S k) u = lsum d k (fun j => h ^ j * u (Datatypes.S j))).
  { induction d as [|a d IH]; intros k u; cbn [pw lsum]; [reflexivity|]. rewrite IH. ring. }
  rewrite Sh. replace (h * (h ^ i * (0 * B (e i) (e 0) + lsum l 0 (fun j => h ^ j * B (e i) (e (Datatypes.S j)))))) with (h * h ^ i * lsum l 0 (fun j => h ^ j * B (e i) (e (Datatypes.S j)))) by ring.
  rewrite <- lsum_scal. apply lsum_ext. intros j. unfold g. rewrite pow_add. cbn [pow]. ring.
Qed.
Lemma g_diss : forall l, lsum l 0 (fun i => lsum l 0 (fun j => g i (Datatypes.S j))) <= 0.
Proof.
  intros l. rewrite <- g_shift. pose proof (Diss (comb n F x (pw l 0) 0) (comb_len n F Flen x Hx _ _)). nra.
Qed.
Lemma g_bound : forall K, (forall y, length y = n -> B (F y) (F y) <= K * K * B y y) -> forall i, g (Datatypes.S i) (Datatypes.S i) <= (h * K) * (h * K) * g i i.
Proof.
  intros K HK i. unfold g. cbn [ev]. specialize (HK (e i) (ge_len i)).
  replace (h ^ (Datatypes.S i + Datatypes.S i)) with (h * h * h ^ (i + i)) by (replace (Datatypes.S i + Datatypes.S i)%nat with (2 + (i + i))%nat by lia; cbn [Nat.add pow]; ring).
  assert (0 <= h * h * h ^ (i + i)) by (apply Rmult_le_pos; [nra|apply pow_le; exact Hh]). nra.
Qed.
Lemma rk1_pw : rk1 h = pw [1; 1; 1 / 2; 1 / 6; 1 / 24] 0.
Proof. unfold rk1. cbn [pw pow]. repeat (f_equal; [field|]). f_equal; field. Qed.
Lemma rk2_pw : rk2 h = pw [1; 2; 2; 4 / 3; 2 / 3; 1 / 4; 5 / 72; 1 / 72; 1 / 576] 0.
Proof. unfold rk2. cbn [pw pow]. repeat (f_equal; [field|]). f_equal; field. Qed.
Lemma g00 : g 0 0 = B x x. Proof. unfold g. cbn [ev Nat.add pow]. ring. Qed.
End One.

Variable K : R.
Hypothesis HK : forall y, length y = n -> B (F y) (F y) <= K * K * B y y.

(** One step adds at most one part in ten thousand; two steps add nothing. *)
Theorem rk4_one : 0 <= K -> h * K <= 1 / 4 -> forall x t, length x = n ->
  B (rk4Step f x t h) (rk4Step f x t h) <= 10001 / 10000 * B x x.
Proof.
  intros K0 HhK x t Hx. rewrite rk4_F, (rk4_once n F Flen Fadd x Hx), rk1_pw, (gram x Hx), <- g00 by exact Hx.
  assert (Q : h * K * (h * K) <= 1 / 16) by (assert (0 <= h * K) by (apply Rmult_le_pos; assumption); nra).
  apply one_step; [apply g_sym, Hx|apply g_diss, Hx|apply g_pos, Hx|].
  intros i. pose proof (g_bound x Hx K HK i). pose proof (diag _ (g_pos x Hx) i). nra.
Qed.
Theorem rk4_two : 0 <= K -> h * K <= 1 / 4 -> forall x t t', length x = n ->
  B (rk4Step f (rk4Step f x t h) t' h) (rk4Step f (rk4Step f x t h) t' h) <= B x x.
Proof.
  intros K0 HhK x t t' Hx.
  assert (L : length (rk4Step f x t h) = n) by exact (rk4_len x t h Hx).
  rewrite (rk4_F _ t' h L), (rk4_F x t h Hx), (rk4_twice n F Flen Fadd x Hx), rk2_pw, (gram x Hx), <- (g00 x).
  assert (Q : h * K * (h * K) <= 1 / 16) by (assert (0 <= h * K) by (apply Rmult_le_pos; assumption); nra).
  apply two_steps; [apply g_sym, Hx|apply g_diss, Hx|apply g_pos, Hx|].
  intros i. pose proof (g_bound x Hx K HK i). pose proof (diag _ (g_pos x Hx) i). nra.
Qed.
(** Without dissipation a single step never adds energy up to the limit of the imaginary axis. *)
Theorem rk4_skew : (forall x, length x = n -> B x (F x) = 0) -> h * K * (h * K) <= 8 -> forall x t, length x = n ->
  B (rk4Step f x t h) (rk4Step f x t h) <= B x x.
Proof.
  intros Z HhK x t Hx. rewrite rk4_F, (rk4_once n F Flen Fadd x Hx), rk1_pw, (gram x Hx), <- (g00 x) by exact Hx.
  assert (D : forall l, lsum l 0 (fun i => lsum l 0 (fun j => g x i (Datatypes.S j))) = 0).
  { intros l. rewrite <- (g_shift x Hx), Z by apply (comb_len n F Flen x Hx). ring. }
  pose proof (g_bound x Hx K HK 3%nat) as B3. pose proof (diag _ (g_pos x Hx) 3%nat) as P3.
  pose proof (D [1]) as D0. pose proof (D [0; 1]) as D1. pose proof (D [0; 0; 1]) as D2. pose proof (D [0; 0; 0; 1]) as D3.
  pose proof (D [1; 1]) as D01. pose proof (D [1; 0; 1]) as D02. pose proof (D [1; 0; 0; 1]) as D03.
  pose proof (D [0; 1; 1]) as D12. pose proof (D [0; 1; 0; 1]) as D13. pose proof (D [0; 0; 1; 1]) as D23. clear D.
  cbn [lsum] in *. rewrite ?(g_sym x Hx 1 0), ?(g_sym x Hx 2 0), ?(g_sym x Hx 3 0), ?(g_sym x Hx 4 0), ?(g_sym x Hx 2 1), ?(g_sym x Hx 3 1), ?(g_sym x Hx 4 1), ?(g_sym x Hx 3 2), ?(g_sym x Hx 4 2), ?(g_sym x Hx 4 3) in *.
  assert (B3' : g x 4 4 <= 8 * g x 3 3) by nra. lra.
Qed.
End Rk.
End Steps.

(** From the error of one step to the error of a run. *)
From Coq Require Import ZArith List Bool Reals Lia Lra.
From Verif Require Import Common Time_Model Ode_Model Ode_Proofs OdeRk_Proofs OdeLin_Proofs OdeStep_Proofs OdeNorm_Proofs OdeExact_Proofs OdeLocal_Proofs.
Import ListNotations.
Local Open Scope R_scope.

Section Conv.
Variable n : nat.
Variable B : list R -> list R -> R.
Hypothesis Badd : forall a k x y, length k = n -> length x = n -> length y = n -> B (addv a k x) y = B x y + a * B k y.
Hypothesis Bsym : forall x y, length x = n -> length y = n -> B x y = B y x.
Hypothesis Bpos : forall x, length x = n -> 0 <= B x x.
Notation nrm := (nrm B).
Variable F : list R -> list R.
Hypothesis Flen : forall x, length x = n -> length (F x) = n.
Hypothesis Fadd : forall a k x, length k = n -> length x = n -> F (addv a k x) = addv a (F k) (F x).
Hypothesis Diss : forall x, length x = n -> B x (F x) <= 0.
Variable c0 : R.
Hypothesis Hc0 : 0 < c0.
Hypothesis Coer : forall x i, length x = n -> c0 * (nth i x 0 * nth i x 0) <= B x x.
Variable f : R -> list R -> list R.
Hypothesis fF : forall t x, length x = n -> f t x = F x.
Variable imp : R -> R -> list R -> list R.
Hypothesis impS : forall t h x, length x = n -> 0 <= h -> stage n F h x (imp t h x).
Variable K : R.
Hypothesis K0 : 0 <= K.
Hypothesis HK : forall y, length y = n -> B (F y) (F y) <= K * K * B y y.
Lemma FB : forall y, length y = n -> nrm (F y) <= K * nrm y.
Proof.
  intros y Hy. apply (nrm_le n B Bpos); [apply Flen, Hy|apply Rmult_le_pos; [exact K0|apply nrm_pos]|].
  pose proof (HK y Hy) as H. rewrite <- (nrm_sqr n B Bpos _ (Flen y Hy)), <- (nrm_sqr n B Bpos y Hy) in H.
  rewrite <- (nrm_sqr n B Bpos _ (Flen y Hy)).
  pose proof (nrm_pos B (F y)) as P1. pose proof (nrm_pos B y) as P2. set (p := nrm (F y)) in *. set (r := nrm y) in *. clearbody p r.
  pose proof (Rmult_le_pos _ _ K0 P2) as P3. assert (p <= K * r) by (apply Rsqr_incr_0; [unfold Rsqr; lra|exact P1|exact P3]). apply Rmult_le_compat_r; assumption.
Qed.

(** ** A step is linear and does not depend on the time *)
Definition linmap (p : list R -> list R) : Prop :=
  (forall x, length x = n -> length (p x) = n) /\ forall a k x, length k = n -> length x = n -> p (addv a k x) = addv a (p k) (p x).
Lemma lin_id : linmap (fun x => x). Proof. split; auto. Qed.
Lemma lin_add : forall b p r, linmap p -> linmap r -> linmap (fun x => addv b (p x) (r x)).
Proof.
  intros b p r (Lp & Ap) (Lr & Ar). split; [intros x Hx; apply addv_len; auto|]. intros a k x Hk Hx. rewrite Ap, Ar by assumption.
  assert (L1 := Lp k Hk). assert (L2 := Lp x Hx). assert (L3 := Lr k Hk). assert (L4 := Lr x Hx).
  apply (list_eq n); [repeat apply addv_len; assumption|repeat apply addv_len; assumption|]. intros i. rewrite !(addv_nth n) by (repeat apply addv_len; assumption). ring.
Qed.
Lemma lin_F : forall t p, linmap p -> linmap (fun x => f t (p x)).
Proof.
  intros t p (Lp & Ap). split; [intros x Hx; rewrite fF by auto; auto|]. intros a k x Hk Hx. rewrite Ap by assumption. rewrite !fF by (auto using addv_len). apply Fadd; auto.
Qed.
Lemma imp_unique : forall t h x k, 0 <= h -> length x = n -> stage n F h x k -> imp t h x = k.
Proof. intros t h x k Hh Hx Hk. apply (stage_unique n F Flen Fadd B Badd Bsym c0 Hc0 Coer Diss h x); auto. Qed.
Lemma lin_imp : forall t h p, 0 <= h -> linmap p -> linmap (fun x => imp t h (p x)).
Proof.
  intros t h p Hh (Lp & Ap). split; [intros x Hx; apply impS; auto|]. intros a k x Hk Hx. rewrite Ap by assumption.
  apply imp_unique; [exact Hh|apply addv_len; auto|]. destruct (impS t h (p k) (Lp k Hk) Hh) as (L1 & E1). destruct (impS t h (p x) (Lp x Hx) Hh) as (L2 & E2).
  split; [apply addv_len; assumption|]. assert (L3 := Lp k Hk). assert (L4 := Lp x Hx).
  transitivity (F (addv a (addv h (imp t h (p k)) (p k)) (addv h (imp t h (p x)) (p x)))).
  - rewrite Fadd by (apply addv_len; assumption). rewrite <- E1, <- E2. reflexivity.
  - f_equal. apply (list_eq n); [repeat apply addv_len; assumption|repeat apply addv_len; assumption|]. intros i. rewrite !(addv_nth n) by (repeat apply addv_len; assumption). ring.
Qed.
Ltac linp := repeat first [apply lin_id | apply lin_add | apply lin_F | (apply lin_imp; [first [assumption | apply Rmult_le_pos; [first [apply a33_pos | apply a34_pos | apply gamma23_pos]|assumption] | lra]|])].
Lemma step_lin : forall ty t h, 0 <= h -> linmap (fun x => odeStep f imp ty x t h).
Proof.
  intros ty t h Hh. unfold odeStep. repeat (destruct (_ =? _)%Z); unfold rk4Step, backwardEulerStep, trapezoidalStep, implicitMidpointStep, sdirk33Step, sdirk23Step, sdirk34Step; cbv zeta; linp.
Qed.

(** ** The steps do not amplify *)
Notation ode ty := (odeStep f imp ty).
Fixpoint many (ty : Z) (h : R) (ts : list R) (v : list R) : list R := match ts with [] => v | t :: ts => many ty h ts (ode ty v t h) end.
Lemma ol : forall ty t h v, 0 <= h -> length v = n -> length (ode ty v t h) = n.
Proof. intros ty t h v Hh Hv. exact (proj1 (step_lin ty t h Hh) v Hv). Qed.
Lemma many_lin : forall ty h ts, 0 <= h -> linmap (many ty h ts).
Proof.
  intros ty h ts Hh. induction ts as [|t ts (IL & IA)]; [apply lin_id|]. destruct (step_lin ty t h Hh) as (SL & SA). split; cbn [many]; [auto|].
  intros a k x Hk Hx. rewrite SA, IA by auto. reflexivity.
Qed.
Definition grow : R := 10001 / 10000.
Lemma nrm_grow : forall a b, length a = n -> length b = n -> B a a <= grow * B b b -> nrm a <= grow * nrm b.
Proof.
  intros a b Ha Hb H. unfold OdeNorm_Proofs.nrm. rewrite <- (sqrt_Rsqr grow) by (unfold grow; lra). rewrite <- sqrt_mult_alt by apply Rle_0_sqr.
  apply sqrt_le_1_alt. pose proof (Bpos b Hb). eapply Rle_trans; [exact H|]. apply Rmult_le_compat_r; [assumption|]. unfold Rsqr, grow. lra.
Qed.
Lemma nrm_keep : forall a b, B a a <= B b b -> nrm a <= nrm b.
Proof. intros a b H. apply sqrt_le_1_alt, H. Qed.
Lemma one_grow : forall ty t h v, (0 <= ty <= 6)%Z -> 0 <= h -> h * K <= 1 / 4 -> length v = n -> nrm (ode ty v t h) <= grow * nrm v.
Proof.
  intros ty t h v Hty Hh HhK Hv. destruct (Z.eq_dec ty 0) as [->|N].
  - apply nrm_grow; [apply ol; assumption|exact Hv|]. exact (rk4_one n B Badd Bsym Bpos F Flen Fadd Diss f fF h Hh K HK K0 HhK v t Hv).
  - pose proof (nrm_keep _ _ (implicit_contracts n B Badd Bsym Bpos F Flen Fadd Diss f fF imp impS ty v t h ltac:(lia) Hv Hh)). pose proof (nrm_pos B v). unfold grow. lra.
Qed.
Lemma many_grow : forall ty h, (0 <= ty <= 6)%Z -> 0 <= h -> h * K <= 1 / 4 -> forall ts v, length v = n -> nrm (many ty h ts v) <= grow * nrm v.
Proof.
  intros ty h Hty Hh HhK. assert (Q : forall m ts v, (length ts <= m)%nat -> length v = n -> nrm (many ty h ts v) <= grow * nrm v).
  { induction m as [|m IH]; intros ts v Hm Hv.
    - destruct ts; [|cbn in Hm; lia]. cbn [many]. pose proof (nrm_pos B v). unfold grow. lra.
    - destruct ts as [|t [|t' ts]]; cbn [many].
      + pose proof (nrm_pos B v). unfold grow. lra.
      + apply one_grow; assumption.
      + cbn [length] in Hm. eapply Rle_trans; [apply IH; [lia|repeat apply ol; assumption]|]. apply Rmult_le_compat_l; [unfold grow; lra|]. apply nrm_keep.
        destruct (Z.eq_dec ty 0) as [->|N].
        * exact (rk4_two n B Badd Bsym Bpos F Flen Fadd Diss f fF h Hh K HK K0 HhK v t t' Hv).
        * eapply Rle_trans; apply (implicit_contracts n B Badd Bsym Bpos F Flen Fadd Diss f fF imp impS ty); try lia; try assumption. apply ol; assumption. }
  intros ts v. exact (Q (length ts) ts v (Nat.le_refl _)).
Qed.

(** ** The exact solution *)
Variable u : R -> list R.
Hypothesis Lu : forall t, length (u t) = n.
Hypothesis Du : forall t i, (i < n)%nat -> derivable_pt_lim (fun s => nth i (u s) 0) t (nth i (F (u t)) 0).
Hypothesis Decay : forall a b, a <= b -> nrm (u b) <= nrm (u a).

Lemma tv_series : forall t h p, (p <= 4)%nat -> tv n F u t h (Datatypes.S p) = comb n (G n F h) (u t) (ex p) 0.
Proof.
  intros t h p Hp. pose proof (Glen n F Flen h) as GL.
  apply (list_eq n); [apply (tv_len n F Flen u Lu)|apply (comb_len n _ GL (u t) (Lu t))|]. intros i. rewrite (comb_nth n _ GL (u t) (Lu t)).
  assert (P : forall j, nth i (ev (G n F h) (u t) j) 0 = h ^ j * nth i (ev F (u t) j) 0).
  { assert (Q : forall j, ev (G n F h) (u t) j = addv (h ^ j) (ev F (u t) j) (repeat 0 n)).
    { induction j as [|j IH]; cbn [ev].
      - apply (list_eq n); [apply Lu|apply addv_len; [apply Lu|apply repeat_length]|]. intros i'. rewrite (addv_nth n) by (auto; apply repeat_length). rewrite nth_zero. cbn [pow]. ring.
      - rewrite IH. assert (Le : length (ev F (u t) j) = n) by apply (ev_len n F Flen (u t) (Lu t)).
        apply (list_eq n); [apply GL, addv_len; [exact Le|apply repeat_length]|apply addv_len; [apply Flen, Le|apply repeat_length]|]. intros i'. rewrite (G_nth n F Flen h) by (apply addv_len; [exact Le|apply repeat_length]).
        rewrite Fadd by (auto; apply repeat_length). rewrite !(addv_nth n) by (auto; apply repeat_length || apply Flen, repeat_length). rewrite (F_zero n F Flen Fadd (u t) (Lu t)), nth_zero. cbn [pow]. ring. }
    intros j. rewrite Q, (addv_nth n) by (try apply repeat_length; apply (ev_len n F Flen (u t) (Lu t))). rewrite nth_zero. ring. }
  assert (T : forall m, nth i (tv n F u t h (Datatypes.S m)) 0 = nth i (tv n F u t h m) 0 + h ^ m / INR (fact m) * nth i (ev F (u t) m) 0).
  { intros m. cbn [tv]. rewrite (addv_nth n) by (try apply (tv_len n F Flen u Lu); apply (ev_len n F Flen (u t) (Lu t))). reflexivity. }
  assert (C : p = 0%nat \/ p = 1%nat \/ p = 2%nat \/ p = 3%nat \/ p = 4%nat) by lia.
  destruct C as [-> | [-> | [-> | [-> | ->]]]]; unfold ex; cbn [firstn lsum]; rewrite !T, !P; cbn [tv]; rewrite nth_zero; cbn [fact Nat.mul Nat.add]; cbn [pow INR]; field.
Qed.
Definition convC (ty : Z) : R := localC ty + 1.
Lemma local_error : forall ty t h, (0 <= ty <= 6)%Z -> 0 <= h -> h * K <= 1 ->
  nrm (sub (ode ty (u t) t h) (u (t + h))) <= (convC ty * (h * K) ^ Datatypes.S (orderN ty) + excess ty * (h * K) ^ 2) * nrm (u t).
Proof.
  intros ty t h Hty Hh HhK.
  destruct (step_series n B Badd Bsym Bpos F Flen Fadd Diss f fF imp impS K K0 FB h Hh HhK (u t) (Lu t) ty t Hty) as (L & S1).
  assert (Op : (orderN ty <= 4)%nat) by (unfold orderN; repeat (destruct (_ =? _)%Z); lia).
  rewrite <- (tv_series t h (orderN ty) Op) in S1.
  assert (LT := tv_len n F Flen u Lu t h (Datatypes.S (orderN ty))).
  eapply Rle_trans; [apply (nrm_tri n B Badd Bsym Bpos _ (tv n F u t h (Datatypes.S (orderN ty)))); auto|].
  rewrite (nrm_sym n B Badd Bsym (tv n F u t h (Datatypes.S (orderN ty)))) by auto.
  pose proof (taylor n B Badd Bsym Bpos F Flen Fadd K K0 FB u Lu Du t (fun s Hs => Decay t (t + s) ltac:(lra)) (Datatypes.S (orderN ty)) h Hh) as T.
  assert (Q : (K * h) ^ Datatypes.S (orderN ty) / INR (fact (Datatypes.S (orderN ty))) * nrm (u t) <= (h * K) ^ Datatypes.S (orderN ty) * nrm (u t)).
  { apply Rmult_le_compat_r; [apply nrm_pos|]. rewrite (Rmult_comm K h). rewrite <- (Rmult_1_r ((h * K) ^ Datatypes.S (orderN ty))) at 2. apply Rmult_le_compat_l; [apply pow_le, Rmult_le_pos; assumption|].
    rewrite <- Rinv_1. apply Rinv_le_contravar; [lra|]. change 1 with (INR 1). apply le_INR, lt_O_fact. }
  unfold convC. lra.
Qed.

(** ** Runs *)
Section Run.
Variable ty : Z.
Hypothesis Hty : (0 <= ty <= 6)%Z.
Variables T0 dt : R.
Hypothesis Hdt : 0 < dt.
Hypothesis HdtK : dt * K <= 1 / 4.
Definition lam : R := K * (convC ty * (dt * K) ^ orderN ty + excess ty * (dt * K)) * nrm (u T0).
Lemma localC_pos : 0 <= localC ty.
Proof.
  assert (L : forall e c, 0 <= e -> 0 <= e + labs c) by (intros e c He; pose proof (labs_pos c); lra).
  unfold localC, beE, trE, trE0, mpE, s3E, s2E, s3ZE, s3YE, s2YE. repeat (destruct (_ =? _)%Z); try (apply L); repeat first [apply plus_pos | apply ste_pos | lra].
Qed.
Lemma excess_pos : 0 <= excess ty. Proof. unfold excess. destruct (_ =? _)%Z; [|lra]. left. apply Rinv_0_lt_compat, pow_lt. lra. Qed.
Lemma lam_pos : 0 <= lam.
Proof.
  unfold lam. pose proof localC_pos. pose proof excess_pos. assert (P : 0 <= dt * K) by (apply Rmult_le_pos; lra).
  apply Rmult_le_pos; [apply Rmult_le_pos; [exact K0|]|apply nrm_pos]. apply Rplus_le_le_0_compat; apply Rmult_le_pos; auto; [unfold convC; lra|apply pow_le, P].
Qed.
Lemma local_lam : forall t h, T0 <= t -> 0 <= h <= dt -> nrm (sub (ode ty (u t) t h) (u (t + h))) <= h * lam.
Proof.
  intros t h Ht (Hh & Hle). assert (HhK : h * K <= dt * K) by (apply Rmult_le_compat_r; lra).
  eapply Rle_trans; [apply local_error; [exact Hty|exact Hh|lra]|].
  pose proof (Decay T0 t Ht) as D. pose proof localC_pos as P1. pose proof excess_pos as P2.
  assert (P3 : 0 <= h * K) by (apply Rmult_le_pos; lra).
  assert (P4 : (h * K) ^ orderN ty <= (dt * K) ^ orderN ty) by (apply pow_incr; split; assumption).
  assert (P5 : 0 <= (h * K) ^ orderN ty) by (apply pow_le, P3).
  unfold lam. replace (h * (K * (convC ty * (dt * K) ^ orderN ty + excess ty * (dt * K)) * nrm (u T0))) with ((convC ty * ((h * K) * (dt * K) ^ orderN ty) + excess ty * ((h * K) * (dt * K))) * nrm (u T0)) by ring.
  apply Rmult_le_compat; [|apply nrm_pos| |exact D].
  - apply Rplus_le_le_0_compat; apply Rmult_le_pos; try (apply pow_le; assumption); auto. unfold convC; lra.
  - apply Rplus_le_compat; apply Rmult_le_compat_l; auto; [unfold convC; lra| |].
    + cbn [pow]. apply Rmult_le_compat_l; assumption.
    + cbn [pow]. rewrite Rmult_1_r. apply Rmult_le_compat_l; assumption.
Qed.
Lemma split_err : forall t h x, 0 <= h -> length x = n ->
  sub (ode ty x t h) (u (t + h)) = addv 1 (sub (ode ty (u t) t h) (u (t + h))) (ode ty (sub x (u t)) t h).
Proof.
  intros t h x Hh Hx. destruct (step_lin ty t h Hh) as (SL & SA). unfold sub at 3. rewrite SA by auto.
  assert (L1 := SL x Hx). assert (L2 := SL (u t) (Lu t)). assert (L3 := Lu (t + h)). cbv beta in L1, L2.
  apply (list_eq n); [apply sub_len; assumption|apply addv_len; [apply sub_len; assumption|apply addv_len; assumption]|]. intros i.
  rewrite (sub_nth n) by assumption. rewrite !(addv_nth n) by (first [assumption | apply sub_len; assumption | apply addv_len; assumption]). rewrite (sub_nth n) by assumption. ring.
Qed.
Lemma guard_pos : forall (s : solver (list R)), 0 < s_dt s -> guardR s = true -> 0 < truedt s <= s_dt s.
Proof.
  intros s Hd Gd. unfold guardR in Gd. destruct (Rle_dec _ _) as [L|]; [|discriminate]. unfold truedt. split; [|apply Rmin_l].
  apply Rmin_glb_lt; [exact Hd|]. assert (0 < / 100000000 * s_dt s) by (apply Rmult_lt_0_compat; lra). lra.
Qed.
Theorem run_error : forall s tr s', s_dt s = dt -> T0 <= s_time s -> length (s_fields s) = n ->
  (forall ts, nrm (many ty dt ts (sub (s_fields s) (u (s_time s)))) <= grow * lam * (s_time s - T0)) ->
  runR (list R) (ode ty) s tr s' -> Forall (fun st => nrm (sub (s_fields st) (u (s_time st))) <= 2 * lam * (s_time st - T0)) tr.
Proof.
  intros s tr s' Ed Ht Hl Inv Rn. revert Ed Ht Hl Inv. induction Rn as [s Gd|s tr s' Gd Rn IH]; intros Ed Ht Hl Inv; [constructor|].
  assert (Hd : 0 < s_dt s) by lra. pose proof (guard_pos s Hd Gd) as (T1 & T2).
  set (s1 := stepR (list R) (ode ty) s) in *.
  assert (Ef : s_fields s1 = ode ty (s_fields s) (s_time s) (truedt s)) by reflexivity. assert (Et : s_time s1 = s_time s + truedt s) by reflexivity.
  set (l := sub (ode ty (u (s_time s)) (s_time s) (truedt s)) (u (s_time s + truedt s))).
  assert (Ll : length l = n) by (apply sub_len; [apply ol; [lra|apply Lu]|apply Lu]).
  assert (Bl : nrm l <= truedt s * lam) by (apply local_lam; lra).
  assert (Es : sub (s_fields s1) (u (s_time s1)) = addv 1 l (ode ty (sub (s_fields s) (u (s_time s))) (s_time s) (truedt s))) by (rewrite Ef, Et; apply split_err; [lra|exact Hl]).
  assert (Le : length (sub (s_fields s) (u (s_time s))) = n) by (apply sub_len; [exact Hl|apply Lu]).
  assert (Lo : length (ode ty (sub (s_fields s) (u (s_time s))) (s_time s) (truedt s)) = n) by (apply ol; [lra|exact Le]).
  pose proof lam_pos as LP.
  assert (Q0 := Inv []). cbn [many] in Q0.
  assert (HTK : truedt s * K <= 1 / 4) by (apply Rle_trans with (dt * K); [apply Rmult_le_compat_r; lra|exact HdtK]).
  constructor.
  - rewrite Es. eapply Rle_trans; [apply (nrm_add n B Badd Bsym Bpos); assumption|]. rewrite Rabs_R1.
    pose proof (one_grow ty (s_time s) (truedt s) _ Hty (Rlt_le _ _ T1) HTK Le) as Q1.
    assert (Q2 : grow * nrm (sub (s_fields s) (u (s_time s))) <= grow * (grow * lam * (s_time s - T0))) by (apply Rmult_le_compat_l; [unfold grow; lra|exact Q0]).
    rewrite Et. assert (P1 : 0 <= lam * (s_time s - T0)) by (apply Rmult_le_pos; lra). assert (P2 : 0 <= lam * truedt s) by (apply Rmult_le_pos; lra). unfold grow in Q1, Q2. unfold grow. lra.
  - destruct (Rle_lt_dec dt (s_final s - s_time s)) as [Fu|Last].
    + assert (ET : truedt s = dt) by (unfold truedt; rewrite Ed; apply Rmin_left, Fu).
      apply IH; [exact Ed|lra|rewrite Ef; apply ol; [lra|exact Hl]|]. intros ts. rewrite Es. destruct (many_lin ty dt ts (Rlt_le _ _ Hdt)) as (ML & MA). rewrite MA by assumption.
      eapply Rle_trans; [apply (nrm_add n B Badd Bsym Bpos); apply ML; assumption|]. rewrite Rabs_R1.
      pose proof (Inv (s_time s :: ts)) as Q1. cbn [many] in Q1. rewrite <- ET in Q1 at 2.
      pose proof (many_grow ty dt Hty (Rlt_le _ _ Hdt) HdtK ts l Ll) as Q2.
      assert (Q3 : grow * nrm l <= grow * (truedt s * lam)) by (apply Rmult_le_compat_l; [unfold grow; lra|exact Bl]).
      rewrite Et. lra.
    + inversion Rn as [|a tr2 b G2 R2]; subst; [constructor|]. exfalso.
      assert (time : s_time s1 = s_final s) by (rewrite Et; unfold truedt; rewrite Rmin_right by lra; ring).
      unfold guardR in G2. destruct (Rle_dec _ _) as [Q|]; [|discriminate]. rewrite time in Q. change (s_final s1) with (s_final s) in Q. change (s_dt s1) with (s_dt s) in Q.
      assert (0 < / 100000000 * s_dt s) by (apply Rmult_lt_0_compat; lra). lra.
Qed.
End Run.
End Conv.

(** Runs with a source: bounds and accuracy. *)
From Coq Require Import ZArith List Bool Reals Lia Lra.
From Verif Require Import Common Time_Model Ode_Model Ode_Proofs OdeRk_Proofs OdeLin_Proofs OdeStep_Proofs OdeNorm_Proofs OdeExact_Proofs OdeLocal_Proofs OdeConv_Proofs OdeDrive_Proofs.
Import ListNotations.
Local Open Scope R_scope.

Section Forced.
Variable n : nat.
Variable B : list R -> list R -> R.
Hypothesis Badd : forall a k x y, length k = n -> length x = n -> length y = n -> B (addv a k x) y = B x y + a * B k y.
Hypothesis Bsym : forall x y, length x = n -> length y = n -> B x y = B y x.
Hypothesis Bpos : forall x, length x = n -> 0 <= B x x.
Notation nrm := (nrm B).
Variable F : list R -> list R.
Hypothesis Flen : forall x, length x = n -> length (F x) = n.
Hypothesis Fadd : forall a k x, length k = n -> length x = n -> F (addv a k x) = addv a (F k) (F x).
Hypothesis Diss : forall x, length x = n -> B x (F x) <= 0.
Variable c0 : R.
Hypothesis Hc0 : 0 < c0.
Hypothesis Coer : forall x i, length x = n -> c0 * (nth i x 0 * nth i x 0) <= B x x.
Variable K : R.
Hypothesis K0 : 0 <= K.
Hypothesis HK : forall y, length y = n -> B (F y) (F y) <= K * K * B y y.
Variable f0 : R -> list R -> list R.
Hypothesis f0F : forall t x, length x = n -> f0 t x = F x.
Variable imp0 : R -> R -> list R -> list R.
Hypothesis imp0S : forall t h x, length x = n -> 0 <= h -> stage n F h x (imp0 t h x).
Variable g : R -> list R.
Hypothesis Lg : forall t, length (g t) = n.
Variable f : R -> list R -> list R.
Hypothesis fG : forall t x, length x = n -> f t x = addv 1 (g t) (F x).
Variable imp : R -> R -> list R -> list R.
Hypothesis impG : forall t h x, length x = n -> 0 <= h -> length (imp t h x) = n /\ imp t h x = addv 1 (g t) (F (addv h (imp t h x) x)).
Let FB := FB n B Bpos F Flen K K0 HK.

(** ** A step is affine, with the step without source as its linear part *)
Definition aff (p p0 : list R -> list R) : Prop :=
  (forall x, length x = n -> length (p x) = n) /\ (forall x, length x = n -> length (p0 x) = n) /\
  forall a k x, length k = n -> length x = n -> p (addv a k x) = addv a (p0 k) (p x).
Lemma aff_id : aff (fun x => x) (fun x => x). Proof. repeat split; auto. Qed.
Lemma aff_add : forall b p p0 r r0, aff p p0 -> aff r r0 -> aff (fun x => addv b (p x) (r x)) (fun x => addv b (p0 x) (r0 x)).
Proof.
  intros b p p0 r r0 (Lp & Lp0 & Ap) (Lr & Lr0 & Ar). split; [intros; apply addv_len; auto|]. split; [intros; apply addv_len; auto|]. intros a k x Hk Hx. rewrite Ap, Ar by assumption.
  assert (L1 := Lp0 k Hk). assert (L2 := Lp x Hx). assert (L3 := Lr0 k Hk). assert (L4 := Lr x Hx).
  apply (list_eq n); [repeat apply addv_len; assumption|repeat apply addv_len; assumption|]. intros i. rewrite !(addv_nth n) by (repeat apply addv_len; assumption). ring.
Qed.
Lemma aff_F : forall t p p0, aff p p0 -> aff (fun x => f t (p x)) (fun x => f0 t (p0 x)).
Proof.
  intros t p p0 (Lp & Lp0 & Ap). split; [intros x Hx; rewrite fG by auto; apply addv_len; auto|]. split; [intros x Hx; rewrite f0F by auto; auto|].
  intros a k x Hk Hx. assert (L1 := Lp0 k Hk). assert (L2 := Lp x Hx). rewrite Ap, !fG, f0F by (auto using addv_len). rewrite Fadd by assumption.
  assert (L3 := Flen _ L1). assert (L4 := Flen _ L2). pose proof (Lg t) as L5.
  apply (list_eq n); [repeat apply addv_len; assumption|repeat apply addv_len; assumption|]. intros i. rewrite !(addv_nth n) by (repeat first [assumption|apply addv_len]). ring.
Qed.
Lemma drive_unique : forall t h y k k', 0 <= h -> length y = n -> length k = n -> length k' = n ->
  k = addv 1 (g t) (F (addv h k y)) -> k' = addv 1 (g t) (F (addv h k' y)) -> k = k'.
Proof.
  intros t h y k k' Hh Ly Lk Lk' E E'. pose proof (Lg t) as LG.
  assert (W : forall q, length q = n -> q = addv 1 (g t) (F (addv h q y)) -> stage n F h (addv h (g t) y) (sub q (g t))).
  { intros q Lq Eq. assert (Lw : length (addv h q y) = n) by (apply addv_len; assumption). assert (LF := Flen _ Lw). split; [apply sub_len; assumption|].
    assert (E1 : addv h (sub q (g t)) (addv h (g t) y) = addv h q y).
    { assert (Lsub : length (sub q (g t)) = n) by (apply sub_len; assumption). assert (Lad : length (addv h (g t) y) = n) by (apply addv_len; assumption).
      apply (list_eq n); [apply addv_len; assumption|exact Lw|]. intros i. rewrite !(addv_nth n) by assumption. rewrite (sub_nth n) by assumption. ring. }
    rewrite E1. apply (list_eq n); [apply sub_len; assumption|exact LF|]. intros i. rewrite (sub_nth n) by assumption. rewrite Eq at 1. rewrite (addv_nth n) by assumption. ring. }
  assert (Ly' : length (addv h (g t) y) = n) by (apply addv_len; assumption).
  assert (U := stage_unique n F Flen Fadd B Badd Bsym c0 Hc0 Coer Diss h (addv h (g t) y) (sub k (g t)) (sub k' (g t)) Hh Ly' (W k Lk E) (W k' Lk' E')).
  apply (list_eq n); [assumption|assumption|]. intros i. assert (Q : nth i (sub k (g t)) 0 = nth i (sub k' (g t)) 0) by (rewrite U; reflexivity). rewrite !(sub_nth n) in Q by assumption. lra.
Qed.
Lemma aff_imp : forall t h p p0, 0 <= h -> aff p p0 -> aff (fun x => imp t h (p x)) (fun x => imp0 t h (p0 x)).
Proof.
  intros t h p p0 Hh (Lp & Lp0 & Ap). split; [intros x Hx; apply impG; auto|]. split; [intros x Hx; apply imp0S; auto|].
  intros a k x Hk Hx. assert (L1 := Lp0 k Hk). assert (L2 := Lp x Hx). rewrite Ap by assumption.
  destruct (imp0S t h (p0 k) L1 Hh) as (M1 & E1). destruct (impG t h (p x) L2 Hh) as (M2 & E2). pose proof (Lg t) as LG.
  set (k1 := imp0 t h (p0 k)) in *. set (k2 := imp t h (p x)) in *.
  assert (La : length (addv a (p0 k) (p x)) = n) by (apply addv_len; assumption). destruct (impG t h _ La Hh) as (M3 & E3).
  apply (drive_unique t h (addv a (p0 k) (p x))); [exact Hh|exact La|exact M3|apply addv_len; assumption|exact E3|].
  assert (N1 : length (addv h k1 (p0 k)) = n) by (apply addv_len; assumption). assert (N2 : length (addv h k2 (p x)) = n) by (apply addv_len; assumption).
  assert (E4 : addv h (addv a k1 k2) (addv a (p0 k) (p x)) = addv a (addv h k1 (p0 k)) (addv h k2 (p x))).
  { assert (N3 : length (addv a k1 k2) = n) by (apply addv_len; assumption). apply (list_eq n); [apply addv_len; assumption|apply addv_len; assumption|]. intros i. rewrite !(addv_nth n) by assumption. ring. }
  rewrite E4, Fadd by assumption. rewrite <- E1. assert (N4 := Flen _ N2).
  apply (list_eq n); [apply addv_len; assumption|apply addv_len; [assumption|apply addv_len; assumption]|]. intros i.
  rewrite (addv_nth n a k1 k2) by assumption. rewrite E2 at 1. rewrite !(addv_nth n) by (repeat first [assumption|apply addv_len]). ring.
Qed.
Ltac affp := repeat first [apply aff_id | apply aff_add | apply aff_F | (apply aff_imp; [first [assumption | apply Rmult_le_pos; [first [apply a33_pos | apply a34_pos | apply gamma23_pos]|assumption] | lra]|])].
Lemma step_aff : forall ty t h, 0 <= h -> aff (fun x => odeStep f imp ty x t h) (fun x => odeStep f0 imp0 ty x t h).
Proof.
  intros ty t h Hh. unfold odeStep. repeat (destruct (_ =? _)%Z); unfold rk4Step, backwardEulerStep, trapezoidalStep, implicitMidpointStep, sdirk33Step, sdirk23Step, sdirk34Step; cbv zeta; affp.
Qed.
Notation ode ty := (odeStep f imp ty).
Notation ode0 ty := (odeStep f0 imp0 ty).
Notation many0 := (many f0 imp0).
Let many_lin0 := many_lin n B Badd Bsym F Flen Fadd Diss c0 Hc0 Coer f0 f0F imp0 imp0S.
Let ol0 := ol n B Badd Bsym F Flen Fadd Diss c0 Hc0 Coer f0 f0F imp0 imp0S.
Definition small (ty : Z) (h : R) : Prop := (1 <= ty)%Z \/ h * K <= 1 / 4.
Lemma keep0 : forall ty t h v, (1 <= ty <= 6)%Z -> 0 <= h -> length v = n -> nrm (ode0 ty v t h) <= nrm v.
Proof. intros ty t h v Hty Hh Hv. apply nrm_keep. apply (implicit_contracts n B Badd Bsym Bpos F Flen Fadd Diss f0 f0F imp0 imp0S); assumption. Qed.
Lemma one_grow0 : forall ty t h v, (0 <= ty <= 6)%Z -> 0 <= h -> small ty h -> length v = n -> nrm (ode0 ty v t h) <= grow * nrm v.
Proof.
  intros ty t h v Hty Hh [H|H] Hv.
  - pose proof (keep0 ty t h v ltac:(lia) Hh Hv). pose proof (nrm_pos B v). unfold grow. lra.
  - exact (one_grow n B Badd Bsym Bpos F Flen Fadd Diss c0 Hc0 Coer f0 f0F imp0 imp0S K K0 HK ty t h v Hty Hh H Hv).
Qed.
Lemma many_grow0 : forall ty h, (0 <= ty <= 6)%Z -> 0 <= h -> small ty h -> forall ts v, length v = n -> nrm (many0 ty h ts v) <= grow * nrm v.
Proof.
  intros ty h Hty Hh [H|H] ts v Hv.
  - assert (Q : nrm (many0 ty h ts v) <= nrm v).
    { revert v Hv. induction ts as [|t ts IH]; intros v Hv; cbn [many]; [lra|]. eapply Rle_trans; [apply IH, ol0; assumption|apply keep0; try assumption; lia]. }
    pose proof (nrm_pos B v). unfold grow. lra.
  - exact (many_grow n B Badd Bsym Bpos F Flen Fadd Diss c0 Hc0 Coer f0 f0F imp0 imp0S K K0 HK ty h Hty Hh H ts v Hv).
Qed.

(** ** A run next to a curve that the steps follow up to [mu] per unit of time *)
Section Near.
Variable ty : Z.
Hypothesis Hty : (0 <= ty <= 6)%Z.
Variable v : R -> list R.
Hypothesis Lv : forall t, length (v t) = n.
Variables T0 T1 dt mu E0 : R.
Hypothesis Hdt : 0 < dt.
Hypothesis Sm : small ty dt.
Hypothesis Mu : 0 <= mu.
Hypothesis HE : 0 <= E0.
Hypothesis Local : forall t h, T0 <= t -> 0 <= h <= dt -> t + h <= T1 -> nrm (sub (ode ty (v t) t h) (v (t + h))) <= h * mu.
Lemma small_le : forall h, h <= dt -> small ty h.
Proof. intros h Hh. destruct Sm as [H|H]; [left; exact H|right]. apply Rle_trans with (dt * K); [apply Rmult_le_compat_r; assumption|exact H]. Qed.
Lemma split_near : forall t h x, 0 <= h -> length x = n ->
  sub (ode ty x t h) (v (t + h)) = addv 1 (sub (ode ty (v t) t h) (v (t + h))) (ode0 ty (sub x (v t)) t h).
Proof.
  intros t h x Hh Hx. destruct (step_aff ty t h Hh) as (SL & SL0 & SA).
  assert (Lm : length (sub x (v t)) = n) by (apply sub_len; auto). assert (E : addv 1 (sub x (v t)) (v t) = x).
  { apply (list_eq n); [apply addv_len; auto|exact Hx|]. intros i. rewrite (addv_nth n) by auto. rewrite (sub_nth n) by auto. ring. }
  rewrite <- E at 1. rewrite (SA 1 (sub x (v t)) (v t) Lm (Lv t)).
  assert (L1 := SL0 _ Lm). assert (L2 := SL (v t) (Lv t)). assert (L3 := Lv (t + h)). cbv beta in L1, L2.
  assert (L4 : length (sub (ode ty (v t) t h) (v (t + h))) = n) by (apply sub_len; assumption). assert (L5 : length (addv 1 (ode0 ty (sub x (v t)) t h) (ode ty (v t) t h)) = n) by (apply addv_len; assumption).
  apply (list_eq n); [apply sub_len; assumption|apply addv_len; assumption|]. intros i.
  rewrite (sub_nth n) by assumption. rewrite !(addv_nth n) by assumption. rewrite (sub_nth n) by assumption. ring.
Qed.
Theorem run_near : forall s tr s', s_dt s = dt -> s_final s <= T1 -> T0 <= s_time s -> length (s_fields s) = n ->
  (forall ts, nrm (many0 ty dt ts (sub (s_fields s) (v (s_time s)))) <= grow * (E0 + mu * (s_time s - T0))) ->
  runR (list R) (ode ty) s tr s' -> Forall (fun st => length (s_fields st) = n /\ s_time s <= s_time st /\ nrm (sub (s_fields st) (v (s_time st))) <= 2 * (E0 + mu * (s_time st - T0))) tr.
Proof.
  intros s tr s' Ed Hf Ht Hl Inv Rn. revert Ed Hf Ht Hl Inv. induction Rn as [s Gd|s tr s' Gd Rn IH]; intros Ed Hf Ht Hl Inv; [constructor|].
  assert (Hd : 0 < s_dt s) by lra. pose proof (guard_pos s Hd Gd) as (T2 & T3).
  set (s1 := stepR (list R) (ode ty) s) in *.
  assert (Ef : s_fields s1 = ode ty (s_fields s) (s_time s) (truedt s)) by reflexivity. assert (Et : s_time s1 = s_time s + truedt s) by reflexivity.
  set (l := sub (ode ty (v (s_time s)) (s_time s) (truedt s)) (v (s_time s + truedt s))).
  destruct (step_aff ty (s_time s) (truedt s) (Rlt_le _ _ T2)) as (SL & SL0 & SA). cbv beta in SL.
  assert (Ll : length l = n) by (apply sub_len; [apply SL, Lv|apply Lv]).
  assert (Tf : s_time s + truedt s <= T1) by (unfold truedt; pose proof (Rmin_r (s_dt s) (s_final s - s_time s)); lra).
  assert (Bl : nrm l <= truedt s * mu) by (apply Local; lra).
  assert (Es : sub (s_fields s1) (v (s_time s1)) = addv 1 l (ode0 ty (sub (s_fields s) (v (s_time s))) (s_time s) (truedt s))) by (rewrite Ef, Et; apply split_near; [lra|exact Hl]).
  assert (Le : length (sub (s_fields s) (v (s_time s))) = n) by (apply sub_len; [exact Hl|apply Lv]).
  assert (Lo : length (ode0 ty (sub (s_fields s) (v (s_time s))) (s_time s) (truedt s)) = n) by (apply ol0; [lra|exact Le]).
  assert (Q0 := Inv []). cbn [many] in Q0.
  assert (P1 : 0 <= mu * (s_time s - T0)) by (apply Rmult_le_pos; lra). assert (P2 : 0 <= mu * truedt s) by (apply Rmult_le_pos; lra).
  constructor.
  - split; [rewrite Ef; apply SL, Hl|]. split; [lra|]. rewrite Es. eapply Rle_trans; [apply (nrm_add n B Badd Bsym Bpos); assumption|]. rewrite Rabs_R1.
    pose proof (one_grow0 ty (s_time s) (truedt s) _ Hty (Rlt_le _ _ T2) (small_le (truedt s) ltac:(lra)) Le) as Q1.
    assert (Q2 : grow * nrm (sub (s_fields s) (v (s_time s))) <= grow * (grow * (E0 + mu * (s_time s - T0)))) by (apply Rmult_le_compat_l; [unfold grow; lra|exact Q0]).
    rewrite Et. unfold grow in Q1, Q2. lra.
  - destruct (Rle_lt_dec dt (s_final s - s_time s)) as [Fu|Last].
    + assert (ET : truedt s = dt) by (unfold truedt; rewrite Ed; apply Rmin_left, Fu).
      assert (G : Forall (fun st => length (s_fields st) = n /\ s_time s1 <= s_time st /\ nrm (sub (s_fields st) (v (s_time st))) <= 2 * (E0 + mu * (s_time st - T0))) tr).
      { apply IH; [exact Ed|exact Hf|lra|rewrite Ef; apply SL, Hl|]. intros ts. rewrite Es. destruct (many_lin0 ty dt ts (Rlt_le _ _ Hdt)) as (ML & MA). rewrite MA by assumption.
        eapply Rle_trans; [apply (nrm_add n B Badd Bsym Bpos); apply ML; assumption|]. rewrite Rabs_R1.
        pose proof (Inv (s_time s :: ts)) as Q1. cbn [many] in Q1. rewrite <- ET in Q1 at 2.
        pose proof (many_grow0 ty dt Hty (Rlt_le _ _ Hdt) Sm ts l Ll) as Q2.
        assert (Q3 : grow * nrm l <= grow * (truedt s * mu)) by (apply Rmult_le_compat_l; [unfold grow; lra|exact Bl]).
        rewrite Et. lra. }
      eapply Forall_impl; [|exact G]. intros st (A1 & A2 & A3). split; [exact A1|]. split; [lra|exact A3].
    + inversion Rn as [|a tr2 b G2 R2]; subst; [constructor|]. exfalso.
      assert (time : s_time s1 = s_final s) by (rewrite Et; unfold truedt; rewrite Rmin_right by lra; ring).
      unfold guardR in G2. destruct (Rle_dec _ _) as [Q|]; [|discriminate]. rewrite time in Q. change (s_final s1) with (s_final s) in Q. change (s_dt s1) with (s_dt s) in Q.
      assert (0 < / 100000000 * s_dt s) by (apply Rmult_lt_0_compat; lra). lra.
Qed.
End Near.

(** ** Bounds *)
Let zeros := fun _ : R => repeat 0 n.
Lemma zeros_len : forall t, length (zeros t) = n. Proof. intros. apply repeat_length. Qed.
Lemma zeros_add : forall t y, length y = n -> addv 1 (zeros t) y = y.
Proof. intros t y Ly. pose proof (zeros_len t). apply (list_eq n); [apply addv_len; assumption|exact Ly|]. intros i. rewrite (addv_nth n) by assumption. unfold zeros. rewrite nth_zero. ring. Qed.
Lemma f0Z : forall t x, length x = n -> f0 t x = addv 1 (zeros t) (F x). Proof. intros t x Lx. rewrite zeros_add by (apply Flen, Lx). apply f0F, Lx. Qed.
Lemma imp0Z : forall t h x, length x = n -> 0 <= h -> length (imp0 t h x) = n /\ imp0 t h x = addv 1 (zeros t) (F (addv h (imp0 t h x) x)).
Proof. intros t h x Lx Hh. destruct (imp0S t h x Lx Hh) as (Lk & E). split; [exact Lk|]. rewrite zeros_add by (apply Flen, addv_len; assumption). exact E. Qed.
Lemma gZ : forall t i, nth i (g t) 0 = nth i (g t) 0 - nth i (zeros t) 0. Proof. intros. unfold zeros. rewrite nth_zero. ring. Qed.
Notation answer := (step_response n B Badd Bsym Bpos F Flen Fadd Diss K K0 FB g zeros g Lg zeros_len Lg gZ f0 f0Z imp0 imp0Z f fG imp impG).
Variable gam : R.
Hypothesis gam0 : 0 <= gam.
Hypothesis Hg : forall s, nrm (g s) <= gam.
Lemma zero_step : forall ty t h, 0 <= h -> ode0 ty (repeat 0 n) t h = repeat 0 n.
Proof.
  intros ty t h Hh. destruct (step_lin n B Badd Bsym F Flen Fadd Diss c0 Hc0 Coer f0 f0F imp0 imp0S ty t h Hh) as (SL & SA). cbv beta in SL, SA.
  assert (Lz : length (repeat 0 n) = n) by apply repeat_length. assert (E : addv (-1) (repeat 0 n) (repeat 0 n) = repeat 0 n).
  { apply (list_eq n); [apply addv_len; exact Lz|exact Lz|]. intros i. rewrite (addv_nth n) by exact Lz. rewrite nth_zero. ring. }
  rewrite <- E at 1. rewrite SA by exact Lz. apply (list_eq n); [apply addv_len; auto|exact Lz|]. intros i. rewrite (addv_nth n) by auto. rewrite nth_zero. ring.
Qed.
Definition respC (ty : Z) : R := db (dOf ty).
Theorem run_bounded : forall ty s tr s', (0 <= ty <= 6)%Z -> 0 < s_dt s -> small ty (s_dt s) -> length (s_fields s) = n -> runR (list R) (ode ty) s tr s' ->
  Forall (fun st => length (s_fields st) = n /\ s_time s <= s_time st /\ nrm (s_fields st) <= 2 * (nrm (s_fields s) + respC ty * gam * (s_time st - s_time s))) tr.
Proof.
  intros ty s tr s' Hty Hd Sm Hl Rn. set (v := fun _ : R => repeat 0 n). assert (Lv : forall t, length (v t) = n) by (intros; apply repeat_length).
  assert (Zs : forall x, length x = n -> nrm (sub x (repeat 0 n)) = nrm x).
  { intros x Lx. apply (nrm_ext n B); [apply sub_len; [exact Lx|apply repeat_length]|exact Lx|]. intros i. rewrite (sub_nth n), nth_zero by (auto; apply repeat_length). ring. }
  assert (Dv : forall t h, 0 <= h -> small ty h -> 0 <= respC ty /\ nrm (sub (ode ty (v t) t h) (v (t + h))) <= h * (respC ty * gam)).
  { intros t h Hh Sh. pose proof (answer gam 0 0 gam0 (Rle_refl 0) (Rle_refl 0) h Hh t (fun s _ => Hg s) (repeat 0 n) (repeat_length _ _) ty (v t) Hty) as D.
    destruct D as (L1 & _ & P & D & _); [destruct Sh; [left; assumption|right; lra]|apply Lv|]. unfold v in D. rewrite zero_step in D by exact Hh. split; [exact P|]. unfold v, respC. lra. }
  assert (Cp : 0 <= respC ty) by (apply (Dv (s_time s) (s_dt s)); [lra|exact Sm]).
  assert (Mp : 0 <= respC ty * gam) by (apply Rmult_le_pos; assumption).
  pose proof (run_near ty Hty v Lv (s_time s) (s_final s) (s_dt s) (respC ty * gam) (nrm (s_fields s)) Hd Sm Mp (nrm_pos B _)) as RN.
  assert (Loc : forall t h, s_time s <= t -> 0 <= h <= s_dt s -> t + h <= s_final s -> nrm (sub (ode ty (v t) t h) (v (t + h))) <= h * (respC ty * gam)).
  { intros t h _ (H1 & H2) _. apply Dv; [exact H1|]. apply (small_le ty (s_dt s) Sm h H2). }
  specialize (RN Loc s tr s' eq_refl (Rle_refl _) (Rle_refl _) Hl).
  assert (Inv : forall ts, nrm (many0 ty (s_dt s) ts (sub (s_fields s) (v (s_time s)))) <= grow * (nrm (s_fields s) + respC ty * gam * (s_time s - s_time s))).
  { intros ts. replace (s_time s - s_time s) with 0 by ring. rewrite Rmult_0_r, Rplus_0_r. rewrite <- (Zs (s_fields s) Hl). apply many_grow0; [exact Hty|lra|exact Sm|apply sub_len; [exact Hl|exact (Lv (s_time s))]]. }
  specialize (RN Inv Rn). eapply Forall_impl; [|exact RN]. intros st (A1 & A2 & A3). split; [exact A1|]. split; [exact A2|]. unfold v in A3. rewrite Zs in A3 by exact A1. exact A3.
Qed.

(** ** The exact solution with the source *)
Variable u : R -> list R.
Hypothesis Lu : forall t, length (u t) = n.
Definition rate (t : R) : list R := addv 1 (g t) (F (u t)).
Lemma rate_len : forall t, length (rate t) = n. Proof. intros. apply addv_len; [apply Lg|apply Flen, Lu]. Qed.
Hypothesis Du : forall t i, (i < n)%nat -> derivable_pt_lim (fun s => nth i (u s) 0) t (nth i (rate t) 0).
Lemma dext : forall (p q : R -> R) s l, (forall s : R, p s = q s) -> derivable_pt_lim q s l -> derivable_pt_lim p s l.
Proof. intros p q s l E D e He. destruct (D e He) as (d & Hd). exists d. intros k Nk Hk. rewrite !E. apply Hd; assumption. Qed.
(** A curve from zero with a bounded derivative. *)
Lemma vec_mvt : forall (r r' : R -> list R) S M, (forall s, length (r s) = n) -> (forall s, length (r' s) = n) -> 0 <= S -> 0 <= M ->
  (forall s i, (i < n)%nat -> derivable_pt_lim (fun s => nth i (r s) 0) s (nth i (r' s) 0)) -> (forall i, nth i (r 0) 0 = 0) ->
  (forall s, 0 <= s <= S -> nrm (r' s) <= M) -> nrm (r S) <= M * S.
Proof.
  intros r r' S M Lr Lr' HS HM D Z Bd. destruct (Rle_lt_or_eq_dec 0 S HS) as [P|P].
  - set (w := r S). assert (Lw : length w = n) by apply Lr.
    assert (Dp : forall s, derivable_pt_lim (fun s => B w (r s)) s (B w (r' s))) by (intros s; apply (dB n B Badd Bsym w r (r' s) s Lw Lr (Lr' s)); intros i Hi; apply D, Hi).
    destruct (MVT_cor2 (fun s => B w (r s)) (fun s => B w (r' s)) 0 S P (fun c _ => Dp c)) as (c & E & Hc).
    assert (Z0 : B w (r 0) = 0).
    { rewrite Bsym by (auto). assert (Er : r 0 = repeat 0 n) by (apply (list_eq n); [apply Lr|apply repeat_length|]; intros i; rewrite nth_zero; apply Z). rewrite Er. apply (B_zero n B Badd). exact Lw. }
    rewrite Z0 in E. replace (S - 0) with S in E by ring. rewrite Rminus_0_r in E. change (B w (r S)) with (B w w) in E.
    pose proof (cs n B Badd Bsym Bpos w (r' c) Lw (Lr' c)) as C. pose proof (Bd c ltac:(lra)) as Bc. pose proof (nrm_pos B w) as Pw.
    apply (nrm_le n B Bpos); [exact Lw|apply Rmult_le_pos; lra|]. rewrite E. assert (nrm w * nrm (r' c) <= nrm w * M) by (apply Rmult_le_compat_l; assumption). assert (B w (r' c) <= nrm w * M) by lra.
    apply (Rmult_le_compat_r S) in H0; [|lra]. lra.
  - subst S. assert (Er : r 0 = repeat 0 n) by (apply (list_eq n); [apply Lr|apply repeat_length|]; intros i; rewrite nth_zero; apply Z). rewrite Er, (nrm_zero n B Badd). lra.
Qed.
(** The solution grows at most by the source. *)
Lemma dBuu : forall t, derivable_pt_lim (fun s => B (u s) (u s)) t (2 * B (u t) (rate t)).
Proof.
  intros t. assert (Lq : forall i, length (unit n i) = n) by (intros; apply unit_len).
  assert (E : forall s, B (u s) (u s) = sm n (fun i => nth i (u s) 0 * B (unit n i) (u s))) by (intros; apply (B_units n B Badd Bsym); apply Lu).
  apply (dext _ (fun s => sm n (fun i => nth i (u s) 0 * B (unit n i) (u s)))); [exact E|].
  replace (2 * B (u t) (rate t)) with (sm n (fun i => nth i (rate t) 0 * B (unit n i) (u t) + nth i (u t) 0 * B (unit n i) (rate t))).
  - apply (dsm n (fun i s => nth i (u s) 0 * B (unit n i) (u s))). intros i Hi.
    apply (derivable_pt_lim_mult (fun s => nth i (u s) 0) (fun s => B (unit n i) (u s))); [apply Du, Hi|].
    apply (dB n B Badd Bsym (unit n i) u (rate t) t (Lq i) Lu (rate_len t)). intros j Hj. apply Du, Hj.
  - assert (E1 : B (u t) (rate t) = sm n (fun i => nth i (rate t) 0 * B (unit n i) (u t))) by (apply (B_units n B Badd Bsym); [apply Lu|apply rate_len]).
    assert (E2 : B (rate t) (u t) = sm n (fun i => nth i (u t) 0 * B (unit n i) (rate t))) by (apply (B_units n B Badd Bsym); [apply rate_len|apply Lu]).
    rewrite Bsym in E2 by (apply rate_len || apply Lu).
    assert (Sp : forall m p q, sm m (fun i => p i + q i) = sm m p + sm m q) by (induction m as [|m IH]; intros p q; cbn [sm]; [ring|rewrite IH; ring]).
    rewrite Sp, <- E1, <- E2. ring.
Qed.
Lemma u_growth : forall a b, a <= b -> nrm (u b) <= nrm (u a) + gam * (b - a).
Proof.
  intros a b Hab. destruct (Rle_lt_or_eq_dec a b Hab) as [P|P]; [|subst; replace (b - b) with 0 by ring; lra].
  apply le_epsilon. intros e He.
  set (psi := fun s => sqrt (B (u s) (u s) + e * e)).
  assert (Pp : forall s, 0 < B (u s) (u s) + e * e) by (intros s; pose proof (Bpos (u s) (Lu s)); assert (0 < e * e) by (apply Rmult_lt_0_compat; exact He); lra).
  assert (Dp : forall s, derivable_pt_lim psi s (/ (2 * sqrt (B (u s) (u s) + e * e)) * (2 * B (u s) (rate s)))).
  { intros s. apply (derivable_pt_lim_comp (fun s => B (u s) (u s) + e * e) sqrt); [|apply derivable_pt_lim_sqrt, Pp].
    replace (2 * B (u s) (rate s)) with (2 * B (u s) (rate s) + 0) by ring. apply (derivable_pt_lim_plus (fun s => B (u s) (u s)) (fun _ => e * e)); [apply dBuu|apply derivable_pt_lim_const]. }
  destruct (MVT_cor2 psi _ a b P (fun c _ => Dp c)) as (c & E & Hc).
  assert (Sl : / (2 * sqrt (B (u c) (u c) + e * e)) * (2 * B (u c) (rate c)) <= gam).
  { set (q := sqrt (B (u c) (u c) + e * e)). assert (Pq : 0 < q) by (apply sqrt_lt_R0, Pp).
    assert (Nq : nrm (u c) <= q) by (apply sqrt_le_1_alt; assert (0 <= e * e) by apply Rle_0_sqr; lra).
    assert (Br : B (u c) (rate c) <= q * gam).
    { unfold rate. rewrite (Badd2 n B Badd Bsym) by (try apply Lg; try apply Lu; apply Flen, Lu). pose proof (Diss (u c) (Lu c)) as Dc. pose proof (cs n B Badd Bsym Bpos (u c) (g c) (Lu c) (Lg c)) as C.
      pose proof (nrm_pos B (u c)) as P1. pose proof (nrm_pos B (g c)) as P2. pose proof (Hg c) as Hc'. assert (nrm (u c) * nrm (g c) <= q * gam) by (apply Rmult_le_compat; assumption). lra. }
    replace (/ (2 * q) * (2 * B (u c) (rate c))) with (/ q * B (u c) (rate c)) by (field; lra).
    apply Rmult_le_reg_l with q; [exact Pq|]. rewrite <- Rmult_assoc, Rinv_r by lra. lra. }
  assert (Pb : nrm (u b) <= psi b) by (apply sqrt_le_1_alt; assert (0 <= e * e) by apply Rle_0_sqr; lra).
  assert (Pa : psi a <= nrm (u a) + e).
  { unfold psi. rewrite <- (sqrt_Rsqr (nrm (u a) + e)) by (pose proof (nrm_pos B (u a)); lra). apply sqrt_le_1_alt. unfold Rsqr. rewrite <- (nrm_sqr n B Bpos (u a) (Lu a)). pose proof (nrm_pos B (u a)) as P1. assert (0 <= nrm (u a) * e) by (apply Rmult_le_pos; lra). lra. }
  apply (Rmult_le_compat_r (b - a)) in Sl; [|lra]. lra.
Qed.

(** Its expansion. *)
Variables L L2 : R.
Hypothesis L0 : 0 <= L.
Hypothesis L20 : 0 <= L2.
Variable g1 : R -> list R.
Hypothesis Lg1 : forall t, length (g1 t) = n.
Hypothesis Hg1 : forall t, nrm (g1 t) <= L.
Hypothesis HL : forall s t, nrm (sub (g s) (g t)) <= L * Rabs (s - t).
Section Exp.
Variables t h U : R.
Hypothesis Hh : 0 <= h.
Hypothesis HU : forall s, t <= s <= t + h -> nrm (u s) <= U.
Definition M0 : R := K * U + gam.
Definition M1 : R := K * M0 + L.
Definition M2 : R := K * M1 + L2.
Lemma U0 : 0 <= U. Proof. pose proof (HU t ltac:(lra)). pose proof (nrm_pos B (u t)). lra. Qed.
Lemma M0p : 0 <= M0. Proof. unfold M0. pose proof U0. assert (0 <= K * U) by (apply Rmult_le_pos; assumption). lra. Qed.
Lemma M1p : 0 <= M1. Proof. unfold M1. pose proof M0p. assert (0 <= K * M0) by (apply Rmult_le_pos; assumption). lra. Qed.
Lemma M2p : 0 <= M2. Proof. unfold M2. pose proof M1p. assert (0 <= K * M1) by (apply Rmult_le_pos; assumption). lra. Qed.
Notation x := (u t).
Notation v0 := (rate t).
Definition r0 (s : R) : list R := sub (u (t + s)) x.
Definition r1 (s : R) : list R := addv (- s) v0 (r0 s).
Definition a0 : list R := addv 1 (g1 t) (F v0).
Definition r2 (s : R) : list R := addv (- (s * s / 2)) a0 (r1 s).
Lemma r0_len : forall s, length (r0 s) = n. Proof. intros. apply sub_len; apply Lu. Qed.
Lemma r1_len : forall s, length (r1 s) = n. Proof. intros. apply addv_len; [apply rate_len|apply r0_len]. Qed.
Lemma a0_len : length a0 = n. Proof. apply addv_len; [apply Lg1|apply Flen, rate_len]. Qed.
Lemma r2_len : forall s, length (r2 s) = n. Proof. intros. apply addv_len; [apply a0_len|apply r1_len]. Qed.
Lemma d_r0 : forall s i, (i < n)%nat -> derivable_pt_lim (fun s => nth i (r0 s) 0) s (nth i (rate (t + s)) 0).
Proof.
  intros s i Hi. apply (dext _ (fun s => nth i (u (t + s)) 0 - nth i x 0)); [intros; apply (sub_nth n); apply Lu|].
  replace (nth i (rate (t + s)) 0) with (nth i (rate (t + s)) 0 - 0) by ring. apply (derivable_pt_lim_minus (fun s => nth i (u (t + s)) 0) (fun _ => nth i x 0)); [|apply derivable_pt_lim_const].
  apply (d_shift t (fun s => nth i (u s) 0)), Du, Hi.
Qed.
Lemma zero_rate : forall i, nth i (r0 0) 0 = 0. Proof. intros i. unfold r0. rewrite (sub_nth n) by apply Lu. rewrite Rplus_0_r. ring. Qed.
Lemma rate_bound : forall s, t <= s <= t + h -> nrm (rate s) <= M0.
Proof.
  intros s Hs. unfold rate, M0. eapply Rle_trans; [apply (nrm_add n B Badd Bsym Bpos); [apply Lg|apply Flen, Lu]|]. rewrite Rabs_R1. pose proof (Hg s). pose proof (FB (u s) (Lu s)). pose proof (HU s Hs).
  assert (K * nrm (u s) <= K * U) by (apply Rmult_le_compat_l; assumption). lra.
Qed.
Lemma r0_bound : forall s, 0 <= s <= h -> nrm (r0 s) <= M0 * s.
Proof.
  intros s Hs. apply (vec_mvt r0 (fun s => rate (t + s)) s M0); [apply r0_len|intros; apply rate_len|lra|apply M0p|intros; apply d_r0; assumption|apply zero_rate|]. intros s' Hs'. apply rate_bound. lra.
Qed.
Definition v1 (s : R) : list R := addv 1 (sub (g (t + s)) (g t)) (F (r0 s)).
Lemma v1_len : forall s, length (v1 s) = n. Proof. intros. apply addv_len; [apply sub_len; apply Lg|apply Flen, r0_len]. Qed.
Lemma rate_diff : forall s i, nth i (rate (t + s)) 0 - nth i v0 0 = nth i (v1 s) 0.
Proof.
  intros s i. unfold rate, v1, r0, sub at 2. rewrite Fadd by apply Lu. pose proof (Lg t). pose proof (Lg (t + s)). pose proof (Flen _ (Lu t)). pose proof (Flen _ (Lu (t + s))).
  rewrite !(addv_nth n) by (repeat first [assumption|apply sub_len|apply addv_len]). rewrite (sub_nth n) by assumption. ring.
Qed.
Lemma d_r1 : forall s i, (i < n)%nat -> derivable_pt_lim (fun s => nth i (r1 s) 0) s (nth i (v1 s) 0).
Proof.
  intros s i Hi. rewrite <- rate_diff. apply (dext _ (fun s => nth i (r0 s) 0 - s * nth i v0 0)).
  { intros s'. unfold r1. rewrite (addv_nth n) by (apply rate_len || apply r0_len). ring. }
  apply (derivable_pt_lim_minus (fun s => nth i (r0 s) 0) (fun s => s * nth i v0 0)); [apply d_r0, Hi|].
  assert (Q : derivable_pt_lim (fun s => s * nth i v0 0) s (1 * nth i v0 0 + s * 0)) by (apply (derivable_pt_lim_mult (fun s => s) (fun _ => nth i v0 0)); [apply derivable_pt_lim_id|apply derivable_pt_lim_const]).
  replace (1 * nth i v0 0 + s * 0) with (nth i v0 0) in Q by ring. exact Q.
Qed.
Lemma zero1 : forall i, nth i (r1 0) 0 = 0. Proof. intros i. unfold r1. rewrite (addv_nth n) by (apply rate_len || apply r0_len). rewrite zero_rate. ring. Qed.
Lemma v1_bound : forall s, 0 <= s <= h -> nrm (v1 s) <= M1 * s.
Proof.
  intros s Hs. unfold v1, M1. eapply Rle_trans; [apply (nrm_add n B Badd Bsym Bpos); [apply sub_len; apply Lg|apply Flen, r0_len]|]. rewrite Rabs_R1. pose proof (HL (t + s) t) as Q. replace (t + s - t) with s in Q by ring. rewrite Rabs_pos_eq in Q by lra.
  pose proof (FB (r0 s) (r0_len s)) as Q1. pose proof (r0_bound s Hs) as Q2. apply (Rmult_le_compat_l K) in Q2; [|exact K0]. lra.
Qed.
Lemma r1_bound : forall s, 0 <= s <= h -> nrm (r1 s) <= M1 * (s * s).
Proof.
  intros s Hs. rewrite <- Rmult_assoc. apply (vec_mvt r1 v1 s (M1 * s)); [apply r1_len|apply v1_len|lra|apply Rmult_le_pos; [apply M1p|lra]|apply d_r1|apply zero1|].
  intros s' Hs'. eapply Rle_trans; [apply v1_bound; lra|]. apply Rmult_le_compat_l; [apply M1p|lra].
Qed.
Hypothesis HL2 : forall s t, nrm (sub (g s) (addv (s - t) (g1 t) (g t))) <= L2 * ((s - t) * (s - t)).
Definition v2 (s : R) : list R := addv 1 (sub (g (t + s)) (addv (t + s - t) (g1 t) (g t))) (F (r1 s)).
Lemma gl_len : forall s, length (addv (t + s - t) (g1 t) (g t)) = n. Proof. intros. apply addv_len; [apply Lg1|apply Lg]. Qed.
Lemma v2_len : forall s, length (v2 s) = n. Proof. intros. apply addv_len; [apply sub_len; [apply Lg|apply gl_len]|apply Flen, r1_len]. Qed.
Lemma v1_diff : forall s i, nth i (v1 s) 0 - s * nth i a0 0 = nth i (v2 s) 0.
Proof.
  intros s i. unfold v1, v2, a0, r1. rewrite Fadd by (apply rate_len || apply r0_len). pose proof (Lg t). pose proof (Lg1 t). pose proof (Lg (t + s)). pose proof (Flen _ (rate_len t)). pose proof (Flen _ (r0_len s)).
  rewrite !(addv_nth n) by (repeat first [assumption|apply sub_len|apply addv_len]). rewrite !(sub_nth n) by (repeat first [assumption|apply addv_len]). rewrite (addv_nth n) by assumption. ring.
Qed.
Lemma d_r2 : forall s i, (i < n)%nat -> derivable_pt_lim (fun s => nth i (r2 s) 0) s (nth i (v2 s) 0).
Proof.
  intros s i Hi. rewrite <- v1_diff. apply (dext _ (fun s => nth i (r1 s) 0 - s * s * (/ 2 * nth i a0 0))).
  { intros s'. unfold r2. rewrite (addv_nth n) by (apply a0_len || apply r1_len). field. }
  apply (derivable_pt_lim_minus (fun s => nth i (r1 s) 0) (fun s => s * s * (/ 2 * nth i a0 0))); [apply d_r1, Hi|].
  replace (s * nth i a0 0) with ((1 * s + s * 1) * (/ 2 * nth i a0 0) + s * s * 0) by field.
  apply (derivable_pt_lim_mult (fun s => s * s) (fun _ => / 2 * nth i a0 0)); [|apply derivable_pt_lim_const]. apply (derivable_pt_lim_mult (fun s => s) (fun s => s)); apply derivable_pt_lim_id.
Qed.
Lemma r2_bound : nrm (r2 h) <= M2 * (h * h * h).
Proof.
  rewrite <- Rmult_assoc. apply (vec_mvt r2 v2 h (M2 * (h * h))); [apply r2_len|apply v2_len|exact Hh|apply Rmult_le_pos; [apply M2p|apply Rle_0_sqr]|apply d_r2| |].
  - intros i. unfold r2. rewrite (addv_nth n) by (apply a0_len || apply r1_len). rewrite zero1. field.
  - intros s Hs. unfold v2. eapply Rle_trans; [apply (nrm_add n B Badd Bsym Bpos); [apply sub_len; [apply Lg|apply gl_len]|apply Flen, r1_len]|]. rewrite Rabs_R1.
    pose proof (HL2 (t + s) t) as Q. replace (L2 * ((t + s - t) * (t + s - t))) with (L2 * (s * s)) in Q by ring. pose proof (FB (r1 s) (r1_len s)) as Q1. pose proof (r1_bound s Hs) as Q2. apply (Rmult_le_compat_l K) in Q2; [|exact K0].
    assert (Q3 : s * s <= h * h) by (apply Rmult_le_compat; lra). assert (Q4 : M2 * (s * s) <= M2 * (h * h)) by (apply Rmult_le_compat_l; [apply M2p|exact Q3]). unfold M2 in Q4. unfold M2. lra.
Qed.
(** The error of one step. *)
Hypothesis HhK : h * K <= 1.
Notation G := (G n F h).
Lemma G_len : forall y, length y = n -> length (G y) = n. Proof. apply (Glen n F Flen h). Qed.
Lemma G_bd : forall y, length y = n -> nrm (G y) <= h * K * nrm y. Proof. apply (Gbound n B Badd Bsym F Flen K FB h Hh). Qed.
Lemma F0 : forall i, nth i (F (repeat 0 n)) 0 = 0. Proof. intros i. rewrite (F_zero n F Flen Fadd x (Lu t)). apply nth_zero. Qed.
Lemma GG_nth : forall y i, length y = n -> nth i (G (addv h y (repeat 0 n))) 0 = h * h * nth i (F y) 0.
Proof.
  intros y i Ly. rewrite (G_nth n F Flen h) by (apply addv_len; [exact Ly|apply repeat_length]). rewrite Fadd by (auto; apply repeat_length).
  rewrite (addv_nth n) by (apply Flen; auto; apply repeat_length). rewrite F0. ring.
Qed.
Lemma trunc : forall p, (2 <= p <= 4)%nat -> nrm (sub (comb n G x (ex p) 0) (comb n G x (ex 2) 0)) <= 1 * (h * K) ^ 3 * nrm x.
Proof.
  intros p Hp. assert (KP : 0 <= h * K) by (apply Rmult_le_pos; assumption).
  assert (E : ex 2 = firstn 3 (ex p)) by (assert (C : p = 2%nat \/ p = 3%nat \/ p = 4%nat) by lia; destruct C as [-> | [-> | ->]]; reflexivity).
  pose proof (near_eq n B Badd G G_len (h * K) x (Lu t) 3 (comb n G x (ex p) 0) (ex p) eq_refl) as Q.
  apply (fin n B Badd Bsym Bpos F Flen K K0 FB h Hh HhK x (Lu t)) in Q; [|rewrite <- E; reflexivity]. destruct Q as (_ & Q). rewrite <- E in Q. eapply Rle_trans; [exact Q|].
  apply Rmult_le_compat_r; [apply nrm_pos|]. apply Rmult_le_compat_r; [apply pow_le, KP|].
  assert (C : p = 2%nat \/ p = 3%nat \/ p = 4%nat) by lia. destruct C as [-> | [-> | ->]]; unfold ex; cbn [skipn firstn labs]; rewrite ?Rabs_pos_eq by lra; lra.
Qed.
Lemma ser2 : forall i, nth i (comb n G x (ex 2) 0) 0 = nth i x 0 + h * nth i (F x) 0 + h * h / 2 * nth i (F (F x)) 0.
Proof.
  intros i. rewrite (comb_nth n G G_len x (Lu t)). unfold ex. cbn [firstn lsum ev]. change (G x) with (addv h (F x) (repeat 0 n)) at 2. rewrite GG_nth by (apply Flen, Lu). rewrite (G_nth n F Flen h) by apply Lu. field.
Qed.
Lemma ser1 : forall i, nth i (comb n G x (ex 1) 0) 0 = nth i x 0 + h * nth i (F x) 0.
Proof. intros i. rewrite (comb_nth n G G_len x (Lu t)). unfold ex. cbn [firstn lsum ev]. rewrite (G_nth n F Flen h) by apply Lu. field. Qed.
Definition forcedC (ty : Z) : R := if (ty =? 1)%Z then Rabs (de (dOf ty)) + localC ty + 2 else Rabs (de2 (dOf ty)) + localC ty + 2.
Lemma response : forall ty, (0 <= ty <= 6)%Z -> dev n B F K g gam L L2 h t (g1 t) (ode ty x t h) (ode0 ty x t h) (dOf ty).
Proof.
  intros ty Hty. apply (answer gam L L2 gam0 L0 L20 h Hh t (fun s _ => Hg s) (g1 t) (Lg1 t) ty x Hty); [right; exact HhK|apply Lu].
Qed.
Lemma lipA : lip B g L h t. Proof. intros s _. apply HL. Qed.
Lemma lipB : lip2 B g L L2 h t (g1 t). Proof. split; [exact lipA|]. intros s _. apply HL2. Qed.
Notation hgt := (hg n g h t).
Notation h2t := (h2 n h (g1 t)).
Lemma hgt_len : length hgt = n. Proof. apply addv_len; [apply Lg|apply repeat_length]. Qed.
Lemma h2t_len : length h2t = n. Proof. apply addv_len; [apply Lg1|apply repeat_length]. Qed.
Lemma hgt_nth : forall i, nth i hgt 0 = h * nth i (g t) 0. Proof. intros. unfold hg. rewrite (addv_nth n) by (try apply Lg; apply repeat_length). rewrite nth_zero. ring. Qed.
Lemma h2t_nth : forall i, nth i h2t 0 = h * h * nth i (g1 t) 0. Proof. intros. unfold h2. rewrite (addv_nth n) by (try apply Lg1; apply repeat_length). rewrite nth_zero. ring. Qed.
Lemma Gh_nth : forall i, nth i (G hgt) 0 = h * h * nth i (F (g t)) 0. Proof. intros. apply GG_nth, Lg. Qed.
Lemma r1_nth : forall i, nth i (r1 h) 0 = nth i (u (t + h)) 0 - nth i x 0 - h * (nth i (F x) 0 + nth i (g t) 0).
Proof.
  intros i. unfold r1, r0, rate. rewrite (addv_nth n) by (first [apply sub_len; apply Lu|apply addv_len; [apply Lg|apply Flen, Lu]]). rewrite (sub_nth n) by apply Lu. rewrite (addv_nth n) by (try apply Lg; apply Flen, Lu). ring.
Qed.
Lemma r2_nth : forall i, nth i (r2 h) 0 = nth i (r1 h) 0 - h * h / 2 * (nth i (F (F x)) 0 + nth i (F (g t)) 0 + nth i (g1 t) 0).
Proof.
  intros i. unfold r2. rewrite (addv_nth n) by (apply a0_len || apply r1_len). unfold a0. rewrite (addv_nth n) by (try apply Lg1; apply Flen, rate_len). unfold rate. rewrite Fadd by (first [apply Lg|apply Flen, Lu]). rewrite (addv_nth n) by (apply Flen; first [apply Lg|apply Flen, Lu]). ring.
Qed.
Lemma nU : nrm x <= U. Proof. apply HU. lra. Qed.
Lemma cube : h * K * (h * K) * (h * K) * U + h * (h * K * (h * K * gam + h * L) + h * h * L2) = h * h * h * M2.
Proof. unfold M2, M1, M0. ring. Qed.
Lemma square : h * K * (h * K) * U + h * (h * K * gam + h * L) = h * h * M1.
Proof. unfold M1, M0. ring. Qed.
Lemma forced_second : forall ty, (ty = 0 \/ 2 <= ty <= 6)%Z ->
  nrm (sub (ode ty x t h) (u (t + h))) <= forcedC ty * (h * h * h * M2) + excess ty * (h * h * M1).
Proof.
  intros ty Hty. assert (Ht : (0 <= ty <= 6)%Z) by lia. pose proof (response ty Ht) as (LX & LX0 & _ & _ & _ & _ & D2). specialize (D2 lipB).
  destruct (d_second ty Hty) as (S2 & S3). rewrite (d_sums ty Ht) in D2. set (c2 := dc2 (dOf ty)) in *. set (c3 := dc3 (dOf ty)) in *.
  set (X := ode ty x t h) in *. set (X0 := ode0 ty x t h) in *. set (T := comb n G x (ex 2) 0). assert (LT : length T = n) by (apply (comb_len n G G_len x (Lu t))).
  assert (LD : length (sub X X0) = n) by (apply sub_len; assumption).
  set (w := first n F g h t (g1 t) 1 c2 c3 (sub X X0)) in *. assert (Lw : length w = n) by (apply (first_len n F Flen g Lg h t (g1 t) (Lg1 t)); exact LD).
  assert (LS : length (sub X0 T) = n) by (apply sub_len; assumption). pose proof hgt_len as Lh. pose proof h2t_len as Lh2. assert (LG := G_len _ Lh). assert (LR := r2_len h).
  assert (E : sub X (u (t + h)) = addv (-1) (r2 h) (addv (c3 - 1 / 2) (G hgt) (addv (c2 - 1 / 2) h2t (addv 1 (sub X0 T) w)))).
  { apply (list_eq n); [apply sub_len; [exact LX|apply Lu]|repeat first [assumption|apply addv_len]|]. intros i. rewrite (sub_nth n) by (auto; apply Lu). rewrite !(addv_nth n) by (repeat first [assumption|apply addv_len]).
    rewrite r2_nth, r1_nth, (sub_nth n) by assumption. unfold T. rewrite ser2. unfold w. rewrite (first_nth n F Flen g Lg h t (g1 t) (Lg1 t)) by exact LD. rewrite (sub_nth n) by assumption. rewrite Gh_nth, h2t_nth, hgt_nth. field. }
  rewrite E.
  eapply Rle_trans; [apply (nrm_add n B Badd Bsym Bpos); [exact LR|repeat first [assumption|apply addv_len]]|]. replace (Rabs (-1)) with 1 by (rewrite Rabs_left; lra).
  pose proof (nrm_add n B Badd Bsym Bpos (c3 - 1 / 2) (G hgt) (addv (c2 - 1 / 2) h2t (addv 1 (sub X0 T) w)) LG ltac:(repeat first [assumption|apply addv_len])) as N1.
  pose proof (nrm_add n B Badd Bsym Bpos (c2 - 1 / 2) h2t (addv 1 (sub X0 T) w) Lh2 ltac:(repeat first [assumption|apply addv_len])) as N2.
  pose proof (nrm_add n B Badd Bsym Bpos 1 (sub X0 T) w LS Lw) as N3. rewrite Rabs_R1 in N3.
  pose proof r2_bound as N4.
  assert (KP : 0 <= h * K) by (apply Rmult_le_pos; assumption). pose proof U0 as UP. pose proof nU as XU. pose proof M2p as P2. pose proof M1p as P1. pose proof (excess_pos ty) as PE. pose proof (localC_pos ty) as PC. pose proof (nrm_pos B x) as PX.
  assert (G1 : nrm (G hgt) <= h * K * (h * gam)).
  { eapply Rle_trans; [apply G_bd, Lh|]. apply Rmult_le_compat_l; [exact KP|]. unfold hg. rewrite (nrm_scal n B Badd Bsym) by apply Lg. rewrite Rabs_pos_eq by exact Hh. apply Rmult_le_compat_l; [exact Hh|apply Hg]. }
  assert (G2 : nrm h2t <= h * h * L).
  { unfold h2. rewrite (nrm_scal n B Badd Bsym) by apply Lg1. rewrite Rabs_pos_eq by (apply Rmult_le_pos; exact Hh). apply Rmult_le_compat_l; [apply Rmult_le_pos; exact Hh|apply Hg1]. }
  assert (O1 : Rabs (c3 - 1 / 2) * nrm (G hgt) <= excess ty * (h * K * (h * gam))) by (apply Rmult_le_compat; auto; [apply Rabs_pos|apply nrm_pos]).
  assert (O2 : Rabs (c2 - 1 / 2) * nrm h2t <= excess ty * (h * h * L)) by (apply Rmult_le_compat; auto; [apply Rabs_pos|apply nrm_pos]).
  assert (O3 : nrm (sub X0 T) <= (localC ty + 1) * (h * K * (h * K) * (h * K) * U) + excess ty * (h * K * (h * K) * U)).
  { destruct (step_series n B Badd Bsym Bpos F Flen Fadd Diss f0 f0F imp0 imp0S K K0 FB h Hh HhK x (Lu t) ty t Ht) as (_ & Q). fold X0 in Q.
    assert (Op : (2 <= orderN ty <= 4)%nat) by (assert (C : (ty = 0 \/ ty = 2 \/ ty = 3 \/ ty = 4 \/ ty = 5 \/ ty = 6)%Z) by lia; destruct C as [-> | [-> | [-> | [-> | [-> | ->]]]]]; cbv [orderN Z.eqb Pos.eqb]; lia).
    pose proof (trunc (orderN ty) Op) as Q2. fold T in Q2.
    eapply Rle_trans; [apply (nrm_tri n B Badd Bsym Bpos _ (comb n G x (ex (orderN ty)) 0)); auto; apply (comb_len n G G_len x (Lu t))|].
    assert (Q3 : (h * K) ^ Datatypes.S (orderN ty) <= (h * K) ^ 3).
    { replace (Datatypes.S (orderN ty)) with (3 + (orderN ty - 2))%nat by lia. rewrite pow_add. rewrite <- (Rmult_1_r ((h * K) ^ 3)) at 2. apply Rmult_le_compat_l; [apply pow_le, KP|]. rewrite <- (pow1 (orderN ty - 2)). apply pow_incr. lra. }
    assert (P3 : 0 <= (h * K) ^ 3) by (apply pow_le, KP). assert (P22 : 0 <= (h * K) ^ 2) by (apply pow_le, KP).
    assert (Q4 : (localC ty * (h * K) ^ Datatypes.S (orderN ty) + excess ty * (h * K) ^ 2) * nrm x <= (localC ty * (h * K) ^ 3 + excess ty * (h * K) ^ 2) * U).
    { apply Rmult_le_compat; auto; [apply Rplus_le_le_0_compat; apply Rmult_le_pos; auto; apply pow_le, KP|]. apply Rplus_le_compat_r, Rmult_le_compat_l; assumption. }
    assert (Q5 : 1 * (h * K) ^ 3 * nrm x <= (h * K) ^ 3 * U) by (rewrite Rmult_1_l; apply Rmult_le_compat_l; assumption).
    replace ((localC ty + 1) * (h * K * (h * K) * (h * K) * U) + excess ty * (h * K * (h * K) * U)) with ((localC ty * (h * K) ^ 3 + excess ty * (h * K) ^ 2) * U + (h * K) ^ 3 * U) by ring. lra. }
  assert (W1 : 0 <= h * K * (h * K) * (h * K) * U) by (repeat apply Rmult_le_pos; assumption).
  assert (W2 : 0 <= h * (h * K * (h * K * gam + h * L) + h * h * L2)).
  { apply Rmult_le_pos; [exact Hh|]. apply Rplus_le_le_0_compat; [|repeat apply Rmult_le_pos; assumption]. apply Rmult_le_pos; [exact KP|]. apply Rplus_le_le_0_compat; apply Rmult_le_pos; assumption. }
  pose proof cube as CU. pose proof square as SQ. unfold unit2 in D2.
  assert (FC : forcedC ty = Rabs (de2 (dOf ty)) + localC ty + 2) by (unfold forcedC; replace (ty =? 1)%Z with false by (symmetry; apply Z.eqb_neq; lia); reflexivity). rewrite FC.
  set (w1 := h * K * (h * K) * (h * K) * U) in *. set (w2 := h * (h * K * (h * K * gam + h * L) + h * h * L2)) in *.
  assert (De : de2 (dOf ty) * w2 <= Rabs (de2 (dOf ty)) * w2) by (apply Rmult_le_compat_r; [exact W2|apply Rle_abs]).
  assert (V1 : 0 <= Rabs (de2 (dOf ty)) * w1) by (apply Rmult_le_pos; [apply Rabs_pos|exact W1]). assert (V2 : 0 <= localC ty * w2) by (apply Rmult_le_pos; assumption).
  rewrite (Rmult_comm M2) in N4. rewrite <- CU in N4. rewrite <- CU, <- SQ. lra.
Qed.
Lemma forced_first : nrm (sub (ode 1 x t h) (u (t + h))) <= forcedC 1 * (h * h * M1).
Proof.
  set (ty := 1%Z). assert (Ht : (0 <= ty <= 6)%Z) by (unfold ty; lia). pose proof (response ty Ht) as (LX & LX0 & _ & _ & D1 & _). specialize (D1 lipA). rewrite (d_sums ty Ht) in D1.
  set (X := ode ty x t h) in *. set (X0 := ode0 ty x t h) in *. set (T := comb n G x (ex 1) 0). assert (LT : length T = n) by (apply (comb_len n G G_len x (Lu t))).
  assert (LD : length (sub X X0) = n) by (apply sub_len; assumption). pose proof hgt_len as Lh. assert (LR := r1_len h).
  set (w := addv (- (1)) hgt (sub X X0)) in *. assert (Lw : length w = n) by (apply addv_len; assumption). assert (LS : length (sub X0 T) = n) by (apply sub_len; assumption).
  assert (E : sub X (u (t + h)) = addv (-1) (r1 h) (addv 1 (sub X0 T) w)).
  { apply (list_eq n); [apply sub_len; [exact LX|apply Lu]|repeat first [assumption|apply addv_len]|]. intros i. rewrite (sub_nth n) by (auto; apply Lu). rewrite (addv_nth n _ (r1 h)) by (repeat first [assumption|apply addv_len]).
    rewrite (addv_nth n _ (sub X0 T)) by assumption. unfold w. rewrite (addv_nth n) by assumption. rewrite r1_nth, !(sub_nth n) by assumption. unfold T. rewrite ser1, hgt_nth. ring. }
  rewrite E. eapply Rle_trans; [apply (nrm_add n B Badd Bsym Bpos); [exact LR|apply addv_len; assumption]|]. replace (Rabs (-1)) with 1 by (rewrite Rabs_left; lra).
  pose proof (nrm_add n B Badd Bsym Bpos 1 (sub X0 T) w LS Lw) as N3. rewrite Rabs_R1 in N3. pose proof (r1_bound h ltac:(lra)) as N4.
  assert (KP : 0 <= h * K) by (apply Rmult_le_pos; assumption). pose proof U0 as UP. pose proof nU as XU. pose proof M1p as P1. pose proof (localC_pos ty) as PC. pose proof (nrm_pos B x) as PX.
  assert (O3 : nrm (sub X0 T) <= localC ty * (h * K * (h * K) * U)).
  { destruct (step_series n B Badd Bsym Bpos F Flen Fadd Diss f0 f0F imp0 imp0S K K0 FB h Hh HhK x (Lu t) ty t Ht) as (_ & Q). fold X0 in Q. change (excess ty) with 0 in Q. change (orderN ty) with 1%nat in Q. fold T in Q. eapply Rle_trans; [exact Q|].
    replace (localC ty * (h * K * (h * K) * U)) with ((localC ty * (h * K) ^ 2 + 0 * (h * K) ^ 2) * U) by ring. apply Rmult_le_compat_l; [|exact XU]. rewrite Rmult_0_l, Rplus_0_r. apply Rmult_le_pos; [exact PC|apply pow_le, KP]. }
  assert (W1 : 0 <= h * K * (h * K) * U) by (repeat apply Rmult_le_pos; assumption).
  assert (W2 : 0 <= h * (h * K * gam + h * L)) by (apply Rmult_le_pos; [exact Hh|]; apply Rplus_le_le_0_compat; apply Rmult_le_pos; assumption).
  pose proof square as SQ. unfold unit1 in D1. change (forcedC ty) with (Rabs (de (dOf ty)) + localC ty + 2).
  set (w1 := h * K * (h * K) * U) in *. set (w2 := h * (h * K * gam + h * L)) in *.
  assert (De : de (dOf ty) * w2 <= Rabs (de (dOf ty)) * w2) by (apply Rmult_le_compat_r; [exact W2|apply Rle_abs]).
  assert (V1 : 0 <= Rabs (de (dOf ty)) * w1) by (apply Rmult_le_pos; [apply Rabs_pos|exact W1]). assert (V2 : 0 <= localC ty * w2) by (apply Rmult_le_pos; assumption).
  rewrite (Rmult_comm M1) in N4. rewrite <- SQ in N4. rewrite <- SQ. lra.
Qed.
End Exp.
Hypothesis HL2 : forall s t, nrm (sub (g s) (addv (s - t) (g1 t) (g t))) <= L2 * ((s - t) * (s - t)).
Definition driveErr (ty : Z) (dt U : R) : R :=
  if (ty =? 1)%Z then forcedC ty * (dt * M1 U) else forcedC ty * (dt * dt * M2 U) + excess ty * (dt * M1 U).
Lemma local_forced : forall ty dt U t h, (0 <= ty <= 6)%Z -> dt * K <= 1 / 4 -> 0 <= h <= dt -> (forall s, t <= s <= t + h -> nrm (u s) <= U) ->
  0 <= driveErr ty dt U /\ nrm (sub (ode ty (u t) t h) (u (t + h))) <= h * driveErr ty dt U.
Proof.
  intros ty dt U t h Hty HdK (H1 & H2) HU'.
  assert (UP : 0 <= U) by (pose proof (HU' t ltac:(lra)); pose proof (nrm_pos B (u t)); lra).
  assert (P0 : 0 <= M0 U) by (unfold M0; assert (0 <= K * U) by (apply Rmult_le_pos; assumption); lra).
  assert (P1 : 0 <= M1 U) by (unfold M1; assert (0 <= K * M0 U) by (apply Rmult_le_pos; assumption); lra).
  assert (P2 : 0 <= M2 U) by (unfold M2; assert (0 <= K * M1 U) by (apply Rmult_le_pos; assumption); lra).
  assert (FC : 0 <= forcedC ty) by (unfold forcedC; pose proof (localC_pos ty); pose proof (Rabs_pos (de (dOf ty))); pose proof (Rabs_pos (de2 (dOf ty))); destruct (ty =? 1)%Z; lra).
  pose proof (excess_pos ty) as PE.
  split; [unfold driveErr; destruct (ty =? 1)%Z; [|apply Rplus_le_le_0_compat]; repeat apply Rmult_le_pos; lra|].
  assert (HhK : h * K <= 1) by (assert (h * K <= dt * K) by (apply Rmult_le_compat_r; lra); lra).
  unfold driveErr. destruct (Z.eqb_spec ty 1) as [->|Ne].
  - eapply Rle_trans; [apply (forced_first t h U H1 HU' HhK)|]. replace (h * (forcedC 1 * (dt * M1 U))) with (forcedC 1 * (h * dt * M1 U)) by ring.
    apply Rmult_le_compat_l; [exact FC|]. apply Rmult_le_compat_r; [exact P1|]. apply Rmult_le_compat_l; lra.
  - eapply Rle_trans; [apply (forced_second t h U H1 HU' HL2 HhK ty); lia|]. replace (h * (forcedC ty * (dt * dt * M2 U) + excess ty * (dt * M1 U))) with (forcedC ty * (h * (dt * dt) * M2 U) + excess ty * (h * dt * M1 U)) by ring.
    assert (Sq : h * h <= dt * dt) by (apply Rmult_le_compat; lra).
    apply Rplus_le_compat; [apply Rmult_le_compat_l; [exact FC|]; apply Rmult_le_compat_r; [exact P2|]; rewrite Rmult_assoc; apply Rmult_le_compat_l; lra|].
    apply Rmult_le_compat_l; [exact PE|]. apply Rmult_le_compat_r; [exact P1|]. apply Rmult_le_compat_l; lra.
Qed.
End Forced.

(** ** Accuracy of a run whose source is [g] up to [eta] *)
Section Accuracy.
Variable n : nat.
Variable B : list R -> list R -> R.
Hypothesis Badd : forall a k x y, length k = n -> length x = n -> length y = n -> B (addv a k x) y = B x y + a * B k y.
Hypothesis Bsym : forall x y, length x = n -> length y = n -> B x y = B y x.
Hypothesis Bpos : forall x, length x = n -> 0 <= B x x.
Notation nrm := (nrm B).
Variable F : list R -> list R.
Hypothesis Flen : forall x, length x = n -> length (F x) = n.
Hypothesis Fadd : forall a k x, length k = n -> length x = n -> F (addv a k x) = addv a (F k) (F x).
Hypothesis Diss : forall x, length x = n -> B x (F x) <= 0.
Variable c0 : R.
Hypothesis Hc0 : 0 < c0.
Hypothesis Coer : forall x i, length x = n -> c0 * (nth i x 0 * nth i x 0) <= B x x.
Variable K : R.
Hypothesis K0 : 0 <= K.
Hypothesis HK : forall y, length y = n -> B (F y) (F y) <= K * K * B y y.
Variable imp0 : R -> R -> list R -> list R.
Hypothesis imp0S : forall t h x, length x = n -> 0 <= h -> stage n F h x (imp0 t h x).
(** The smooth source. *)
Variable g : R -> list R.
Hypothesis Lg : forall t, length (g t) = n.
Variables gam L L2 eta : R.
Hypothesis gam0 : 0 <= gam.
Hypothesis L0 : 0 <= L.
Hypothesis L20 : 0 <= L2.
Hypothesis eta0 : 0 <= eta.
Hypothesis Hg : forall s, nrm (g s) <= gam.
Variable g1 : R -> list R.
Hypothesis Lg1 : forall t, length (g1 t) = n.
Hypothesis Hg1 : forall t, nrm (g1 t) <= L.
Hypothesis HL : forall s t, nrm (sub (g s) (g t)) <= L * Rabs (s - t).
Hypothesis HL2 : forall s t, nrm (sub (g s) (addv (s - t) (g1 t) (g t))) <= L2 * ((s - t) * (s - t)).
Variable u : R -> list R.
Hypothesis Lu : forall t, length (u t) = n.
Hypothesis Du : forall t i, (i < n)%nat -> derivable_pt_lim (fun s => nth i (u s) 0) t (nth i (addv 1 (g t) (F (u t))) 0).
(** The source that the run uses. *)
Variable gr : R -> list R.
Hypothesis Lgr : forall t, length (gr t) = n.
Hypothesis Hgr : forall t, nrm (sub (gr t) (g t)) <= eta.
Variable f : R -> list R -> list R.
Hypothesis fG : forall t x, length x = n -> f t x = addv 1 (gr t) (F x).
Variable imp : R -> R -> list R -> list R.
Hypothesis impG : forall t h x, length x = n -> 0 <= h -> length (imp t h x) = n /\ imp t h x = addv 1 (gr t) (F (addv h (imp t h x) x)).
Let FB := FB n B Bpos F Flen K K0 HK.
Let f0 := fun (_ : R) x => F x.
Let fs := fun t x => addv 1 (g t) (F x).
Let is := fun t h x => addv 1 (g t) (imp0 t h (addv h (g t) x)).
Lemma isG : forall t h x, length x = n -> 0 <= h -> length (is t h x) = n /\ is t h x = addv 1 (g t) (F (addv h (is t h x) x)).
Proof.
  intros t h x Lx Hh. pose proof (Lg t) as LG. assert (La : length (addv h (g t) x) = n) by (apply addv_len; assumption). destruct (imp0S t h _ La Hh) as (Lk & E).
  set (k := imp0 t h (addv h (g t) x)) in *. change (is t h x) with (addv 1 (g t) k). assert (Lk' : length (addv 1 (g t) k) = n) by (apply addv_len; assumption). split; [exact Lk'|].
  assert (E1 : addv h (addv 1 (g t) k) x = addv h k (addv h (g t) x)) by (apply (list_eq n); [apply addv_len; assumption|apply addv_len; assumption|]; intros i; rewrite !(addv_nth n) by assumption; ring).
  rewrite E1, <- E. reflexivity.
Qed.
Theorem run_forced : forall ty s tr s' U, (0 <= ty <= 6)%Z -> 0 < s_dt s -> s_dt s * K <= 1 / 4 -> s_fields s = u (s_time s) ->
  (forall t, s_time s <= t <= s_final s -> nrm (u t) <= U) -> s_time s <= s_final s -> runR (list R) (odeStep f imp ty) s tr s' ->
  Forall (fun st => length (s_fields st) = n /\ s_time s <= s_time st /\
    nrm (sub (s_fields st) (u (s_time st))) <= 2 * ((driveErr K gam L L2 ty (s_dt s) U + respC ty * eta) * (s_time st - s_time s))) tr.
Proof.
  intros ty s tr s' U Hty Hd HdK Hf HU Hfin Rn. set (dt := s_dt s) in *. set (mu := driveErr K gam L L2 ty dt U + respC ty * eta).
  set (dg := fun t => sub (gr t) (g t)). assert (Ldg : forall t, length (dg t) = n) by (intros; apply sub_len; [apply Lgr|apply Lg]).
  assert (Dg : forall t i, nth i (dg t) 0 = nth i (gr t) 0 - nth i (g t) 0) by (intros; apply (sub_nth n); [apply Lgr|apply Lg]).
  assert (fsG : forall t x, length x = n -> fs t x = addv 1 (g t) (F x)) by (intros; reflexivity).
  assert (Cmp : forall t h x, 0 <= h -> h * K <= 1 -> length x = n -> 0 <= respC ty /\ nrm (sub (odeStep f imp ty x t h) (odeStep fs is ty x t h)) <= h * (respC ty * eta)).
  { intros t h x Hh HhK Lx.
    destruct (step_response n B Badd Bsym Bpos F Flen Fadd Diss K K0 FB gr g dg Lgr Lg Ldg Dg fs fsG is isG f fG imp impG eta 0 0 eta0 (Rle_refl 0) (Rle_refl 0) h Hh t (fun s _ => Hgr s) (repeat 0 n) (repeat_length _ _) ty x Hty (or_intror HhK) Lx) as (_ & _ & P & D & _).
    split; [exact P|]. unfold respC. lra. }
  assert (KP : 0 <= dt * K) by (apply Rmult_le_pos; lra).
  assert (Lf0 : forall t h, s_time s <= t -> 0 <= h <= dt -> t + h <= s_final s -> 0 <= driveErr K gam L L2 ty dt U /\ nrm (sub (odeStep fs is ty (u t) t h) (u (t + h))) <= h * driveErr K gam L L2 ty dt U).
  { intros t h Ht Hh H3.
    apply (local_forced n B Badd Bsym Bpos F Flen Fadd Diss K K0 HK f0 (fun t x _ => eq_refl) imp0 imp0S g Lg fs fsG is isG gam gam0 Hg u Lu Du L L2 L0 L20 g1 Lg1 Hg1 HL HL2 ty dt U t h Hty HdK Hh).
    intros q Hq. apply HU. lra. }
  assert (Mp : 0 <= mu).
  { unfold mu. destruct (Lf0 (s_time s) 0) as (P1 & _); [lra|lra|lra|]. destruct (Cmp (s_time s) 0 (u (s_time s))) as (P2 & _); [lra|lra|apply Lu|]. assert (0 <= respC ty * eta) by (apply Rmult_le_pos; assumption). lra. }
  assert (Loc : forall t h, s_time s <= t -> 0 <= h <= dt -> t + h <= s_final s -> nrm (sub (odeStep f imp ty (u t) t h) (u (t + h))) <= h * mu).
  { intros t h Ht Hh H3. destruct (Lf0 t h Ht Hh H3) as (_ & Q1). assert (HhK : h * K <= 1) by (assert (h * K <= dt * K) by (apply Rmult_le_compat_r; lra); lra).
    destruct (Cmp t h (u t) (proj1 Hh) HhK (Lu t)) as (_ & Q2).
    destruct (step_aff n B Badd Bsym F Flen Fadd Diss c0 Hc0 Coer f0 (fun t x _ => eq_refl) imp0 imp0S gr Lgr f fG imp impG ty t h (proj1 Hh)) as (A1 & _).
    destruct (step_aff n B Badd Bsym F Flen Fadd Diss c0 Hc0 Coer f0 (fun t x _ => eq_refl) imp0 imp0S g Lg fs fsG is isG ty t h (proj1 Hh)) as (A2 & _).
    eapply Rle_trans; [apply (nrm_tri n B Badd Bsym Bpos _ (odeStep fs is ty (u t) t h)); [apply A1, Lu|apply A2, Lu|apply Lu]|]. unfold mu. lra. }
  assert (Lf : length (s_fields s) = n) by (rewrite Hf; apply Lu).
  pose proof (run_near n B Badd Bsym Bpos F Flen Fadd Diss c0 Hc0 Coer K K0 HK f0 (fun t x _ => eq_refl) imp0 imp0S gr Lgr f fG imp impG ty Hty u Lu (s_time s) (s_final s) dt mu 0 Hd (or_intror HdK) Mp (Rle_refl 0) Loc s tr s' eq_refl (Rle_refl _) (Rle_refl _) Lf) as RN.
  assert (Inv : forall ts, nrm (many f0 imp0 ty dt ts (sub (s_fields s) (u (s_time s)))) <= grow * (0 + mu * (s_time s - s_time s))).
  { intros ts. replace (s_time s - s_time s) with 0 by ring. rewrite Rmult_0_r, Rplus_0_r, Rmult_0_r. rewrite Hf.
    assert (Z0 : nrm (sub (u (s_time s)) (u (s_time s))) = 0).
    { rewrite (nrm_ext n B _ (repeat 0 n)); [apply (nrm_zero n B Badd)|apply sub_len; apply Lu|apply repeat_length|]. intros i. rewrite (sub_nth n), nth_zero by apply Lu. ring. }
    eapply Rle_trans; [apply (many_grow0 n B Badd Bsym Bpos F Flen Fadd Diss c0 Hc0 Coer K K0 HK f0 (fun t x _ => eq_refl) imp0 imp0S); [exact Hty|lra|right; exact HdK|apply sub_len; apply Lu]|]. rewrite Z0. lra. }
  specialize (RN Inv Rn). eapply Forall_impl; [|exact RN]. intros st (A1 & A2 & A3). split; [exact A1|]. split; [exact A2|]. rewrite Rplus_0_l in A3. exact A3.
Qed.
End Accuracy.

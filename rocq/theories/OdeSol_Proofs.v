(** Every state starts exactly one curve that follows the operator. *)
From Coq Require Import ZArith List Bool Reals Lia Lra.
From Coquelicot Require Import Coquelicot.
From Verif Require Import Common Ode_Model Ode_Proofs OdeRk_Proofs OdeLin_Proofs.
Import ListNotations.
Local Open Scope R_scope.

Section Sol.
Variable n : nat.
Variable B : list R -> list R -> R.
Variable F : list R -> list R.
Hypothesis Flen : forall x, length x = n -> length (F x) = n.
Hypothesis Fadd : forall a k x, length k = n -> length x = n -> F (addv a k x) = addv a (F k) (F x).
Variable c0 : R.
Hypothesis Hc0 : 0 < c0.
Hypothesis Coer : forall x i, length x = n -> c0 * (nth i x 0 * nth i x 0) <= B x x.
Variable K : R.
Hypothesis K0 : 0 <= K.
Hypothesis HK : forall y, length y = n -> B (F y) (F y) <= K * K * B y y.
Variable x : list R.
Hypothesis Lx : length x = n.
Notation ev := (OdeRk_Proofs.ev F x).
Definition cf (i k : nat) : R := nth i (ev k) 0 / INR (fact k).
Definition sol (t : R) : list R := map (fun i => PSeries (cf i) t) (seq 0 n).
Lemma sol_len : forall t, length (sol t) = n. Proof. intros. unfold sol. rewrite map_length, seq_length. reflexivity. Qed.
Lemma sol_nth : forall t i, (i < n)%nat -> nth i (sol t) 0 = PSeries (cf i) t.
Proof.
  intros t i Hi. unfold sol. rewrite (nth_indep _ 0 ((fun i => PSeries (cf i) t) 0%nat)) by (rewrite map_length, seq_length; exact Hi).
  rewrite (map_nth (fun i => PSeries (cf i) t)), seq_nth by exact Hi. reflexivity.
Qed.
Lemma evB : forall k, B (ev k) (ev k) <= (K ^ k * K ^ k) * B x x.
Proof.
  induction k as [|k IH]; cbn [OdeRk_Proofs.ev pow]; [lra|]. eapply Rle_trans; [apply HK, (ev_len n F Flen x Lx)|].
  apply Rle_trans with (K * K * (K ^ k * K ^ k * B x x)); [apply Rmult_le_compat_l; [nra|exact IH]|]. apply Req_le. ring.
Qed.
Lemma B0 : 0 <= B x x.
Proof. pose proof (Coer x 0 Lx). pose proof (Rle_0_sqr (nth 0 x 0)) as Q. unfold Rsqr in Q. nra. Qed.
Lemma ev_small : forall i k, Rabs (nth i (ev k) 0) <= sqrt (B x x / c0) * K ^ k.
Proof.
  intros i k. pose proof B0 as P0. assert (P1 : 0 <= B x x / c0) by (apply Rmult_le_pos; [exact P0|left; apply Rinv_0_lt_compat, Hc0]).
  apply Rsqr_incr_0; [|apply Rabs_pos|apply Rmult_le_pos; [apply sqrt_pos|apply pow_le, K0]].
  rewrite <- Rsqr_abs, Rsqr_mult, Rsqr_sqrt by exact P1. unfold Rsqr.
  pose proof (Coer (ev k) i (ev_len n F Flen x Lx k)) as C. pose proof (evB k) as E.
  apply Rmult_le_reg_l with c0; [exact Hc0|]. replace (c0 * (B x x / c0 * (K ^ k * K ^ k))) with (K ^ k * K ^ k * B x x) by (field; lra). lra.
Qed.
Lemma radius : forall i, CV_radius (cf i) = p_infty.
Proof.
  intros i. destruct (CV_radius_bounded (cf i)) as (Ub & _).
  assert (Q : forall r, Rbar_le (Finite r) (CV_radius (cf i))).
  { intros r. apply Ub. destruct (maj_by_pos (fun k => (K * Rabs r) ^ k / INR (fact k))) as (M & M0 & HM); [exists 0; apply cv_speed_pow_fact|].
    exists (sqrt (B x x / c0) * M). intros k. unfold cf.
    assert (Pf : 0 < INR (fact k)) by (apply lt_0_INR, lt_O_fact). assert (Pi : 0 < / INR (fact k)) by (apply Rinv_0_lt_compat, Pf).
    replace (nth i (ev k) 0 / INR (fact k) * r ^ k) with (nth i (ev k) 0 * (r ^ k / INR (fact k))) by (unfold Rdiv; ring).
    rewrite Rabs_mult. apply Rle_trans with (sqrt (B x x / c0) * K ^ k * Rabs (r ^ k / INR (fact k))); [apply Rmult_le_compat_r; [apply Rabs_pos|apply ev_small]|].
    rewrite Rmult_assoc. apply Rmult_le_compat_l; [apply sqrt_pos|]. eapply Rle_trans; [|apply (HM k)]. rewrite Rpow_mult_distr. unfold Rdiv. rewrite !Rabs_mult.
    rewrite (Rabs_pos_eq (K ^ k)) by (apply pow_le, K0). rewrite RPow_abs, Rabs_Rabsolu. apply Req_le. ring. }
  destruct (CV_radius (cf i)) as [r| |]; [|reflexivity|].
  - exfalso. specialize (Q (r + 1)). cbn in Q. lra.
  - exfalso. specialize (Q 0). exact Q.
Qed.
Lemma expand : forall y i, length y = n -> nth i (F y) 0 = sm n (fun j => nth j y 0 * nth i (F (unit n j)) 0).
Proof.
  intros y i Hy. rewrite (as_units n y Hy) at 1. rewrite (F_lcg n F Flen Fadd) by apply unit_len. rewrite lcg_nth by (intros; apply Flen, unit_len). reflexivity.
Qed.
Lemma ps_sm : forall m (a : nat -> nat -> R) t, (forall j, CV_radius (a j) = p_infty) ->
  is_pseries (fun k => sm m (fun j => a j k)) t (sm m (fun j => PSeries (a j) t)).
Proof.
  intros m a t H. induction m as [|m IH]; cbn [sm].
  - apply is_pseries_ext with (fun _ => 0); [reflexivity|]. apply is_pseries_R. apply (is_series_ext (fun _ => 0)); [intros; cbn; ring|].
    apply (filterlim_ext (fun _ => 0)); [|apply filterlim_const]. intros k. rewrite sum_n_const. ring.
  - apply (is_pseries_plus (fun k => sm m (fun j => a j k)) (a m)); [exact IH|]. apply PSeries_correct, CV_radius_inside. rewrite H. exact I.
Qed.
Lemma F_sol : forall t i, (i < n)%nat -> nth i (F (sol t)) 0 = PSeries (PS_derive (cf i)) t.
Proof.
  intros t i Hi. rewrite expand by apply sol_len. symmetry. apply is_pseries_unique.
  apply is_pseries_ext with (fun k => sm n (fun j => (fun j k => nth i (F (unit n j)) 0 * cf j k) j k)).
  - intros k. unfold PS_derive, cf. assert (Pf : INR (fact k) <> 0) by apply INR_fact_neq_0. assert (Ps : INR (S k) <> 0) by (apply not_0_INR; lia).
    replace (INR (fact (S k))) with (INR (S k) * INR (fact k)) by (rewrite <- mult_INR; reflexivity).
    replace (INR (S k) * (nth i (ev (S k)) 0 / (INR (S k) * INR (fact k)))) with (/ INR (fact k) * nth i (ev (S k)) 0) by (field; split; assumption).
    change (ev (S k)) with (F (ev k)). rewrite (expand (ev k) i (ev_len n F Flen x Lx k)). rewrite <- sm_scal. apply sm_ext. intros j _. unfold Rdiv. ring.
  - rewrite (sm_ext n (fun j => nth j (sol t) 0 * nth i (F (unit n j)) 0) (fun j => PSeries (fun k => nth i (F (unit n j)) 0 * cf j k) t)).
    + apply (ps_sm n (fun j k => nth i (F (unit n j)) 0 * cf j k)). intros j.
      destruct (Req_dec (nth i (F (unit n j)) 0) 0) as [Z|Nz].
      * rewrite (CV_radius_ext _ (fun _ => 0)) by (intros; rewrite Z; ring). apply CV_radius_const_0.
      * rewrite (CV_radius_ext _ (PS_scal (nth i (F (unit n j)) 0) (cf j))) by reflexivity. rewrite CV_radius_scal by exact Nz. apply radius.
    + intros j Hj. rewrite sol_nth by exact Hj. rewrite (PSeries_ext (fun k => nth i (F (unit n j)) 0 * cf j k) (PS_scal (nth i (F (unit n j)) 0) (cf j))) by reflexivity. rewrite PSeries_scal. ring.
Qed.
Theorem sol_follows : forall t i, (i < n)%nat -> derivable_pt_lim (fun s => nth i (sol s) 0) t (nth i (F (sol t)) 0).
Proof.
  intros t i Hi. rewrite F_sol by exact Hi. apply is_derive_Reals.
  apply (is_derive_ext (PSeries (cf i))); [intros; rewrite sol_nth by exact Hi; reflexivity|]. apply is_derive_PSeries. rewrite radius. exact I.
Qed.
Theorem sol_start : sol 0 = x.
Proof.
  apply (list_eq n); [apply sol_len|exact Lx|]. intros i. destruct (lt_dec i n) as [Hi|Hi].
  - rewrite sol_nth by exact Hi. rewrite PSeries_0. unfold cf. cbn [OdeRk_Proofs.ev fact INR]. field.
  - rewrite !nth_overflow by (rewrite ?sol_len; lia). reflexivity.
Qed.
End Sol.

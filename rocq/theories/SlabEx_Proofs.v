From Coq Require Import ZArith List Bool Reals Lra Psatz.
From Coquelicot Require Import Coquelicot.
From Verif Require Import Common Fit_Model Slab_Model Slab_Spec Slab_Proofs.
Import ListNotations.
Local Open Scope R_scope.

Lemma width_fold : forall ls a, fold_left (fun w l => w + sl_width l) ls a = a + total (map sl_width ls).
Proof. induction ls as [|l ls IH]; intros a; cbn [fold_left map total]; [lra|]. rewrite IH. lra. Qed.
Lemma width_total : forall ls, totalWidth ls = total (map sl_width ls).
Proof. intros ls. unfold totalWidth. rewrite width_fold. lra. Qed.
Lemma eps0_value : eps0 = vacuumEps. Proof. unfold eps0, vacuumEps. lra. Qed.
Lemma mu0_value : mu0 = vacuumMu. Proof. unfold mu0, vacuumMu. lra. Qed.
Lemma eps0_pos : 0 < eps0. Proof. unfold eps0. lra. Qed.
Lemma mu0_pos : 0 < mu0. Proof. unfold mu0. pose proof PI_RGT_0. lra. Qed.

Lemma target_outcome : forall layers freqs,
  (layers = [] /\ generateTarget layers freqs = UB) \/ (exists zs, generateTarget layers freqs = Ok zs /\ length zs = length freqs).
Proof. intros [|l ls] freqs; [left; auto|right]. eexists. split; [reflexivity|]. apply map_length. Qed.
Lemma target_at : forall l ls freqs zs k, generateTarget (l :: ls) freqs = Ok zs -> (k < length freqs)%nat ->
  nth k zs None = impedance (eps0 * sl_eps l) (mu0 * sl_mu l) (sl_sigma l) (total (map sl_width (l :: ls))) (nth k freqs 0).
Proof.
  intros l ls freqs zs k E Hk. unfold generateTarget in E. injection E as <-. rewrite <- width_total.
  set (g := impedance _ _ _ _). rewrite (nth_indep _ None (g 0)) by (rewrite map_length; exact Hk). apply map_nth.
Qed.
Lemma target_slab : forall l ls freqs zs k z E H, usable l -> 0 < total (map sl_width (l :: ls)) ->
  generateTarget (l :: ls) freqs = Ok zs -> (k < length freqs)%nat -> 0 < nth k freqs 0 -> nth k zs None = Some z ->
  slabFields (vacuumEps * sl_eps l) (vacuumMu * sl_mu l) (sl_sigma l) (2 * PI * nth k freqs 0) (total (map sl_width (l :: ls))) E H ->
  E 0 = Cmult z (H 0) /\ 0 <= fst z.
Proof.
  intros l ls freqs zs k z E H (U1 & U2 & U3) W G Hk Hf Hz HS. rewrite <- eps0_value, <- mu0_value in HS. rewrite (target_at l ls freqs zs k G Hk) in Hz.
  pose proof eps0_pos. pose proof mu0_pos. assert (0 < eps0 * sl_eps l) by nra. assert (0 < mu0 * sl_mu l) by nra. split.
  - refine (slab_impedance _ _ _ _ _ _ _ _ _ _ _ _ _ Hz HS); assumption.
  - refine (passive _ _ _ _ _ _ _ _ _ _ _ Hz); assumption.
Qed.
Lemma target_lossy : forall l ls freqs zs k, usable l -> 0 < sl_sigma l -> 0 < total (map sl_width (l :: ls)) ->
  generateTarget (l :: ls) freqs = Ok zs -> (k < length freqs)%nat -> 0 < nth k freqs 0 ->
  exists z, nth k zs None = Some z /\ 0 < fst z.
Proof.
  intros l ls freqs zs k (U1 & U2 & _) S W G Hk Hf. rewrite (target_at l ls freqs zs k G Hk).
  pose proof eps0_pos. pose proof mu0_pos. apply lossy; auto; nra.
Qed.

(** The fields of a conducting slab. *)
Lemma fields_exist : forall eps mu sigma w d, 0 < eps -> 0 < mu -> 0 < sigma -> 0 < w -> 0 < d ->
  exists E H, slabFields eps mu sigma w d E H /\ H 0 <> RtoC 0.
Proof.
  intros eps mu sigma w d He Hm Hs Hw Hd. destruct (wave eps mu sigma w He Hm (Rlt_le _ _ Hs) Hw) as (p & q & _ & Pp & Qq & D & T & _).
  assert (N : 0 < p * p + q * q) by nra.
  set (eta := (mu * p / (p * p + q * q), mu * q / (p * p + q * q)) : C). set (ga := (w * q, w * p) : C).
  assert (Sg : mu * sigma = 2 * p * q * w) by (rewrite T; field; lra).
  assert (G1 : Cmult eta ga = (0, w * mu)) by (unfold eta, ga, Cmult; cbn [fst snd]; f_equal; field; lra).
  assert (G2 : Cmult eta (sigma, w * eps) = ga).
  { unfold eta, ga, Cmult. cbn [fst snd]. f_equal.
    - transitivity ((p * (mu * sigma) - q * w * (mu * eps)) / (p * p + q * q)); [field; lra|]. rewrite Sg, <- D. field; lra.
    - transitivity ((p * w * (mu * eps) + q * (mu * sigma)) / (p * p + q * q)); [field; lra|]. rewrite Sg, <- D. field; lra. }
  exists (fun t => Cmult eta (ccosh (w * q * (d - t), w * p * (d - t)))), (fun t => csinh (w * q * (d - t), w * p * (d - t))).
  split; [split; [|split]|].
  - intros x. eapply cderiv_eq; [apply (cderiv_mult (fun _ => eta) (fun t => ccosh (w * q * (d - t), w * p * (d - t)))); [apply cderiv_const|apply cderiv_cosh]|].
    cbv beta. fold ga. rewrite <- G1. ring.
  - intros x. eapply cderiv_eq; [apply cderiv_sinh|]. fold ga. set (K := ccosh _).
    transitivity (Copp (Cmult (Cmult eta (sigma, w * eps)) K)); [rewrite G2; reflexivity|ring].
  - unfold csinh, RtoC. cbn [fst snd]. replace (d - d) with 0 by ring. rewrite !Rmult_0_r, sinh_0, sin_0. f_equal; ring.
  - rewrite !Rminus_0_r. assert (Q0 : 0 < q). { assert (0 < mu * sigma / w) by (apply Rdiv_lt_0_compat; nra). nra. }
    assert (Hx : 0 < w * q * d) by (apply Rmult_lt_0_compat; [apply Rmult_lt_0_compat|]; lra).
    pose proof (sinh_gt _ Hx). pose proof (cosh_gt (w * q * d) ltac:(lra)). pose proof (sin2_cos2 (w * p * d)) as Y. unfold Rsqr in Y.
    unfold csinh, RtoC. cbn [fst snd]. intros Q. injection Q as Q1 Q2. apply Rmult_integral in Q1. apply Rmult_integral in Q2. nra.
Qed.

(** Layers behind the first one. *)
Lemma layers_ignored : forall l a b freqs, sl_width a = sl_width b -> generateTarget [l; a] freqs = generateTarget [l; b] freqs.
Proof. intros l a b freqs E. unfold generateTarget, totalWidth. cbn [fold_left]. rewrite E. reflexivity. Qed.
Definition copper : slayer := mkSL 1 1 (58 * 10 ^ 6) (/ 10 ^ 5).
Definition carbon (s : R) : slayer := mkSL 1 1 s (/ 10 ^ 5).
Lemma layers_refuted : exists freqs, freqs = [10 ^ 9] /\ generateTarget [carbon 1; copper] freqs = generateTarget [carbon 1; carbon 1] freqs /\ copper <> carbon 1.
Proof.
  exists [10 ^ 9]. split; [reflexivity|]. split; [apply layers_ignored; reflexivity|]. intros E. apply (f_equal sl_sigma) in E. cbn [copper carbon sl_sigma] in E. lra.
Qed.
Lemma zero_frequency : forall eps mu sigma d, impedance eps mu sigma d 0 = None.
Proof. intros eps mu sigma d. unfold impedance. destruct (Req_EM_T (2 * PI * 0) 0) as [_|N]; [reflexivity|]. exfalso. apply N. ring. Qed.
Lemma resonance : impedance 1 1 0 (/ 2) 1 = None.
Proof.
  destruct (impedance_value 1 1 0 (/ 2) 1 ltac:(lra) ltac:(lra) ltac:(lra) ltac:(lra)) as (p & q & Pp & Qq & D & T & V).
  pose proof PI_RGT_0. assert (Tq : 2 * p * q = 0) by (rewrite T; unfold Rdiv; ring). assert (q = 0) as -> by nra. assert (p = 1) as -> by nra.
  cbv zeta in V. rewrite V. replace (2 * PI * 1 * 0 * / 2) with 0 by field. replace (2 * PI * 1 * 1 * / 2) with PI by field.
  unfold csinh, ccosh. cbn [fst snd]. rewrite sinh_0, cosh_0, sin_PI, cos_PI. cbn [cdiv].
  assert (Z1 : isZero (1 * -1, 0 * 0) = false) by (apply isZero_false; unfold RtoC; intros Q; injection Q; intros; lra). rewrite Z1. cbn [cdiv].
  replace (Cdiv (0 * -1, 1 * 0) (1 * -1, 0 * 0)) with (RtoC 0).
  - assert (Z2 : isZero (RtoC 0) = true) by (unfold isZero, RtoC; cbn [fst snd]; destruct (Req_EM_T 0 0); [reflexivity|contradiction]). rewrite Z2. reflexivity.
  - unfold Cdiv, Cinv, Cmult, RtoC. cbn [fst snd]. f_equal; field.
Qed.
Lemma values_refuted : ~ forall l freqs zs k, usable l -> 0 < sl_width l -> generateTarget [l] freqs = Ok zs -> (k < length freqs)%nat -> 0 < nth k freqs 0 -> nth k zs None <> None.
Proof.
  intros H. pose proof eps0_pos. pose proof mu0_pos.
  eapply (fun zs => H (mkSL (/ eps0) (/ mu0) 0 (/ 2)) [1] zs 0%nat).
  - repeat split; cbn [sl_eps sl_mu sl_sigma]; try lra; apply Rinv_0_lt_compat; assumption.
  - cbn; lra.
  - reflexivity.
  - cbn; lia.
  - cbn; lra.
  - cbn [map nth sl_eps sl_mu sl_sigma]. unfold totalWidth. cbn [fold_left sl_width].
    rewrite !Rinv_r by lra. rewrite Rplus_0_l. exact resonance.
Qed.
Lemma ex_copper : usable copper /\ 0 < sl_sigma copper /\ 0 < total (map sl_width [copper]).
Proof. unfold usable, copper. cbn [sl_eps sl_mu sl_sigma sl_width map total]. repeat split; lra. Qed.

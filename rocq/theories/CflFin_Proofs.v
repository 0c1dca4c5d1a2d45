(** Runs with the automatic time step. *)
From Coq Require Import ZArith List Bool Reals Lia Lra Psatz.
From Verif Require Import Common Csr_Model Geo_Spec Face_Model Face_Spec Face_Proofs Nodal_Spec Nodal_Proofs NodalMult_Proofs NodalEnergy_Spec NodalEnergy_Proofs Setup_Model Setup_Spec Assembly_Model Form_Model Form_Spec Global_Spec Global_Proofs GlobalEnergy_Proofs GlobalBalance_Proofs Twin_Spec TwinWeak_Proofs Step_Model Step_Spec StepLine_Proofs Time_Model Ode_Model Ode_Spec Ode_Proofs OdeRk_Proofs OdeStep_Proofs OdeRun_Proofs OdeFin_Proofs OdeEx_Proofs Cfl_Spec CflBound_Proofs CflLine_Proofs.
Import ListNotations.
Local Open Scope R_scope.

Lemma gap_two : forall e x y d, e_nodes e = [x; y] -> nodeGap e d -> d = Rabs (x - y).
Proof.
  intros e x y d E G. unfold nodeGap in G. rewrite E in G. destruct G as (i & j & a & b & N & Hi & Hj & ->).
  destruct i as [|[|i]], j as [|[|j]]; cbn in Hi, Hj; try congruence; try (destruct i; discriminate); try (destruct j; discriminate);
    injection Hi as <-; injection Hj as <-; (reflexivity || apply Rabs_minus_sym).
Qed.
Lemma two_gap : forall e x y, e_nodes e = [x; y] -> nodeGap e (Rabs (x - y)).
Proof. intros e x y E. unfold nodeGap. rewrite E. exists 0%nat, 1%nat, x, y. repeat split; lia. Qed.
(** The automatic step on a line of linear elements: the Courant factor times the shortest element. *)
Lemma line_dt : forall n h ms dmax gl st o, (0 < n)%nat -> sameLine n h ms -> (forall k, (k < n)%nat -> h k <= dmax) -> so_order o = 1%Z ->
  exists d, estimateTimeStep dmax gl st ms o = Ok (so_cfl o * d) /\ (exists k, (k < n)%nat /\ d = h k) /\ forall k, (k < n)%nat -> d <= h k.
Proof.
  intros n h ms dmax gl st o n0 (D & L & E) Hm O1.
  destruct (m_elements ms) as [|e0 es] eqn:Es; [cbn in L; lia|]. destruct (E 0%nat e0 eq_refl) as (x & y & En & Hxy).
  destruct (step_line dmax gl st ms o e0 (h 0%nat) D ltac:(lia) ltac:(rewrite Es; now left) ltac:(rewrite <- Hxy; apply two_gap, En) (Hm 0%nat n0)) as (d & T & (e & Ie & Ge) & Mn).
  exists d. split; [|split].
  - rewrite T, O1. cbn [Z.eqb]. rewrite sqrt_1. f_equal. f_equal. field.
  - rewrite Es in Ie. apply In_nth_error in Ie. destruct Ie as (k & Ek). exists k. split; [rewrite <- L; apply nth_error_Some; congruence|].
    destruct (E k e Ek) as (x' & y' & En' & Hxy'). rewrite <- Hxy'. apply (gap_two e); assumption.
  - intros k Hk. destruct (nth_error (e0 :: es) k) as [e'|] eqn:Ek; [|apply nth_error_None in Ek; lia].
    destruct (E k e' Ek) as (x' & y' & En' & Hxy'). apply (Mn e'); [rewrite Es; eapply nth_error_In; exact Ek|]. rewrite <- Hxy'. apply two_gap, En'.
Qed.

Section Pos.
Variable n : nat.
Variable bdr : list (Z * nat).
Variable battrs : list Z.
Variable h : nat -> R.
Variable w : Z -> nat -> R.
Variable dmax alpha : R.
Variable gl : Z -> list R.
Variable st : list (list R).
Variable ms : mesh.
Variable o : stepOptions.
Variable gb gi : list (Z * cond).
Variable ob ib : list (cond * marker).
Variable MSigma : mat.
Variable sm : marker.
Hypothesis n0 : (0 < n)%nat.
Hypothesis HT : lineTags n bdr battrs.
Hypothesis Hh : forall k, (k < n)%nat -> 0 < h k <= dmax.
Hypothesis Hw : forall g k, 1 <= w g k.
Hypothesis SL : sameLine n h ms.
Hypothesis O1 : so_order o = 1%Z.
Hypothesis C0 : 0 < so_cfl o.
Hypothesis TB : tables (lineMesh n bdr battrs) gb gi ob ib.
Lemma line_step : exists d, 0 < d /\ (forall k, (k < n)%nat -> d <= h k) /\ estimateTimeStep dmax gl st ms o = Ok (so_cfl o * d) /\ 0 < so_cfl o * d.
Proof.
  destruct (line_dt n h ms dmax gl st o n0 SL (fun k Hk => proj2 (Hh k Hk)) O1) as (d & E & (k & Hk & ->) & Mn). exists (h k). destruct (Hh k Hk). repeat split; auto. apply Rmult_lt_0_compat; assumption.
Qed.
Theorem line_bounded : forall Sg, 0 <= alpha -> passive (lineMesh n bdr battrs) gb gi -> (forall v, 0 <= mform (2 * n) MSigma v v) -> lossBound (2 * n) (lineMass h w) MSigma Sg ->
  exists A dt, buildGlobalOperator R Rplus Rmult 1 (-1) (factoryRows (2 * n) (lineMesh n bdr battrs) 1 alpha ob ib (lineInv h w) lineD MSigma sm) 1 (Z.of_nat (2 * n)) 0
              (match ib with [] => false | _ => true end) = Ok A /\
  estimateTimeStep dmax gl st ms o = Ok dt /\ 0 < dt /\
  (so_cfl o * (sqrt 12 + 6 * (1 + alpha)) + dt * Sg <= 1 / 4 ->
   forall f imp, evaluates A (2 * n) f -> forall s tr s', s_dt s = dt -> length (s_fields s) = (6 * (2 * n))%nat -> runR (list R) (odeStep f imp 0) s tr s' ->
   Forall (fun st => fieldEnergy (2 * n) (lineMass h w) (s_fields st) <= 10001 / 10000 * (10001 / 10000) * fieldEnergy (2 * n) (lineMass h w) (s_fields s)) tr).
Proof.
  intros Sg A0 Ps Psd LB. destruct line_step as (d & D0 & Dm & E & P).
  pose proof (line_space n bdr battrs h w d n0 HT D0 Dm Hw) as S. pose proof (line_mass n h w d D0 Dm Hw) as MF. pose proof (line_weights n bdr battrs n0) as Wt.
  destruct (op_bounded (2 * n) (lineMesh n bdr battrs) 1 alpha gb gi ob ib (lineMass h w) (lineInv h w) lineD MSigma sm S TB MF Wt A0 (sqrt 12 / d) (6 / d) Sg
    (line_deriv n h w d D0 Dm Hw) (line_trace n bdr battrs h w d n0 D0 Dm Hw) LB) as (A & EA & B).
  destruct (fin_rk4 (2 * n) (lineMesh n bdr battrs) 1 alpha gb gi ob ib (lineMass h w) (lineInv h w) lineD MSigma sm S TB MF A0 Ps Wt Psd) as (A' & EA' & V).
  assert (A' = A) by (unfold theOperator in EA; congruence). subst A'.
  exists A, (so_cfl o * d). split; [exact EA'|]. split; [exact E|]. split; [exact P|]. intros Small f imp Ev s tr s' Dt Ln Rn.
  apply (V f imp (opBound 1 alpha (sqrt 12 / d) (6 / d) Sg) Ev) with (s' := s'); auto.
  - unfold opBound. destruct LB as (S0 & _). pose proof (sqrt_pos 12). assert (0 < / d) by (apply Rinv_0_lt_compat; exact D0). unfold Rdiv. assert (0 <= sqrt 12 * / d) by (apply Rmult_le_pos; lra). assert (0 <= (1 + alpha) * (6 * / d)) by (apply Rmult_le_pos; lra). lra.
  - rewrite Dt. exact P.
  - rewrite Dt. unfold opBound. replace (so_cfl o * d * (1 * (sqrt 12 / d) + (1 + alpha) * (6 / d) + Sg)) with (so_cfl o * (sqrt 12 + 6 * (1 + alpha)) + so_cfl o * d * Sg) by (field; lra). exact Small.
Qed.
Theorem line_lossless : alpha = 0 -> reflecting (lineMesh n bdr battrs) gb gi -> (forall v u, mform (2 * n) MSigma v u = 0) ->
  exists A dt, buildGlobalOperator R Rplus Rmult 1 (-1) (factoryRows (2 * n) (lineMesh n bdr battrs) 1 alpha ob ib (lineInv h w) lineD MSigma sm) 1 (Z.of_nat (2 * n)) 0
              (match ib with [] => false | _ => true end) = Ok A /\
  estimateTimeStep dmax gl st ms o = Ok dt /\ 0 < dt /\
  (so_cfl o * (sqrt 12 + 6) <= sqrt 8 ->
   forall f imp, evaluates A (2 * n) f -> forall s tr s', s_dt s = dt -> length (s_fields s) = (6 * (2 * n))%nat -> runR (list R) (odeStep f imp 0) s tr s' ->
   neverRises (energies (2 * n) (lineMass h w) s tr)).
Proof.
  intros A0 Rf Zs. destruct line_step as (d & D0 & Dm & E & P).
  pose proof (line_space n bdr battrs h w d n0 HT D0 Dm Hw) as S. pose proof (line_mass n h w d D0 Dm Hw) as MF. pose proof (line_weights n bdr battrs n0) as Wt.
  assert (LB : lossBound (2 * n) (lineMass h w) MSigma 0) by (split; [lra|]; intros v u; rewrite Zs; lra).
  destruct (op_bounded (2 * n) (lineMesh n bdr battrs) 1 alpha gb gi ob ib (lineMass h w) (lineInv h w) lineD MSigma sm S TB MF Wt ltac:(lra) (sqrt 12 / d) (6 / d) 0
    (line_deriv n h w d D0 Dm Hw) (line_trace n bdr battrs h w d n0 D0 Dm Hw) LB) as (A & EA & B).
  destruct (fin_skew (2 * n) (lineMesh n bdr battrs) 1 alpha gb gi ob ib (lineMass h w) (lineInv h w) lineD MSigma sm S TB MF A0 Rf (fun v => Zs v v)) as (A' & EA' & V).
  assert (A' = A) by (unfold theOperator in EA; congruence). subst A'.
  exists A, (so_cfl o * d). split; [exact EA'|]. split; [exact E|]. split; [exact P|]. intros Small f imp Ev s tr s' Dt Ln Rn.
  pose proof (sqrt_pos 12) as S12. assert (0 < / d) by (apply Rinv_0_lt_compat; exact D0).
  apply (V f imp (opBound 1 alpha (sqrt 12 / d) (6 / d) 0) Ev) with (s' := s'); auto.
  - unfold opBound. rewrite A0. unfold Rdiv. assert (0 <= sqrt 12 * / d) by (apply Rmult_le_pos; lra). lra.
  - rewrite Dt. exact P.
  - rewrite Dt. unfold opBound. rewrite A0. replace (so_cfl o * d * (1 * (sqrt 12 / d) + (1 + 0) * (6 / d) + 0)) with (so_cfl o * (sqrt 12 + 6)) by (field; lra).
    rewrite <- (sqrt_sqrt 8) by lra. assert (0 <= so_cfl o * (sqrt 12 + 6)) by (apply Rmult_le_pos; lra). apply Rmult_le_compat; assumption.
Qed.
End Pos.

(** Runs with the automatic time step on meshes of the plane and of space, any order. *)
From Coq Require Import ZArith List Bool Reals Lia Lra Psatz.
From Verif Require Import Common Csr_Model Geo_Spec Face_Model Face_Spec Face_Proofs Nodal_Spec Nodal_Proofs NodalMult_Proofs NodalEnergy_Spec NodalEnergy_Proofs Setup_Model Setup_Spec Assembly_Model Form_Model Form_Spec Global_Spec Global_Proofs GlobalEnergy_Proofs GlobalBalance_Proofs Twin_Spec TwinWeak_Proofs Step_Model Step_Spec StepLine_Proofs StepMain_Proofs Time_Model Ode_Model Ode_Spec Ode_Proofs OdeRk_Proofs OdeStep_Proofs OdeRun_Proofs OdeFin_Proofs OdeEx_Proofs Cfl_Spec CflBound_Proofs CflLine_Proofs Elem_Spec Elem_Proofs.
Import ListNotations.
Local Open Scope R_scope.

Section Elements.
Variable n : nat.
Variable r : reference.
Variable V S : nat -> R.
Variable w : Z -> nat -> R.
Variable m : fmesh.
Variable dim : Z.
Variable C : nat -> Z -> nat -> R.
Variable T alpha : R.
Variable gb gi : list (Z * cond).
Variable ob ib : list (cond * marker).
Variable MSigma : mat.
Variable sm : marker.
Notation N := (n * r_dofs r)%nat.
Notation Mass := (affineMass r V w).
Notation MInv := (affineInv r V w).
Notation D := (affineD r (Z.to_nat dim) C).
Hypothesis RO : referenceOk r.
Hypothesis Hw : forall g k, 1 <= w g k.
Hypothesis HC : forall k d e, (k < n)%nat -> (0 <= d < dim)%Z -> (e < Z.to_nat dim)%nat -> Rabs (C k d e) <= S k.
Hypothesis TS : traceSize m (r_dofs r) n S T.
Hypothesis Wt : nonnegWeights m.
Hypothesis DG : dgSpace N m dim Mass MInv D.
Hypothesis TB : tables m gb gi ob ib.
Lemma size_pos : 0 <= alpha -> 0 <= refSize r dim alpha T.
Proof.
  intros A0. destruct DG as (Dm & _). destruct TS as (T0 & _). assert (0 <= IZR dim) by (apply IZR_le; lia). unfold refSize, diffSize, edgeSize. pose proof (frob_pos (r_dofs r) (r_inv r)).
  assert (0 <= sumN (Z.to_nat dim) (fun e => frob (r_dofs r) (r_diff r e))) by (apply sumN_nn; intros e _; pose proof (frob_pos (r_dofs r) (r_diff r e)); lra).
  apply Rplus_le_le_0_compat; apply Rmult_le_pos; try assumption; try (apply Rmult_le_pos; lra). lra.
Qed.
Lemma elem_size : forall rho Sg, 0 < rho -> (forall k, (k < n)%nat -> 0 < S k /\ rho * S k <= V k) -> 0 <= alpha -> lossBound N Mass MSigma Sg ->
  exists A, theOperator N m dim alpha ob ib MInv D MSigma sm = Ok A /\ boundedBy A N Mass (refSize r dim alpha T / rho + Sg).
Proof.
  intros rho Sg R0 HS A0 LB. pose proof (affine_mass n r V S w rho RO R0 HS Hw) as MF.
  destruct (op_bounded N m dim alpha gb gi ob ib Mass MInv D MSigma sm DG TB MF Wt A0 _ _ Sg (affine_deriv n r V S w rho RO R0 HS Hw dim C HC) (affine_trace n r V S w rho RO R0 HS Hw m T TS) LB) as (A & EA & B).
  exists A. split; [exact EA|]. replace (refSize r dim alpha T / rho + Sg) with (opBound dim alpha (diffSize r (Z.to_nat dim) / rho) (edgeSize r T / rho) Sg); [exact B|]. unfold opBound, refSize. field. lra.
Qed.
Lemma size_over : forall rho Sg, 0 < rho -> 0 <= alpha -> 0 <= Sg -> 0 <= refSize r dim alpha T / rho + Sg.
Proof. intros rho Sg R0 A0 S0. pose proof (size_pos A0). assert (0 < / rho) by (apply Rinv_0_lt_compat; exact R0). unfold Rdiv. assert (0 <= refSize r dim alpha T * / rho) by (apply Rmult_le_pos; lra). lra. Qed.
(** Any step that is small against the ratio of volume and boundary. *)
Lemma elem_run : forall rho Sg, 0 < rho -> (forall k, (k < n)%nat -> 0 < S k /\ rho * S k <= V k) -> 0 <= alpha -> passive m gb gi -> (forall v, 0 <= mform N MSigma v v) -> lossBound N Mass MSigma Sg ->
  exists A, buildGlobalOperator R Rplus Rmult 1 (-1) (factoryRows N m dim alpha ob ib MInv D MSigma sm) dim (Z.of_nat N) 0 (match ib with [] => false | _ => true end) = Ok A /\
  forall dt, 0 < dt -> dt * (refSize r dim alpha T / rho + Sg) <= 1 / 4 ->
   forall f imp, evaluates A N f -> forall s tr s', s_dt s = dt -> length (s_fields s) = (6 * N)%nat -> runR (list R) (odeStep f imp 0) s tr s' ->
   Forall (fun st => fieldEnergy N Mass (s_fields st) <= 10001 / 10000 * (10001 / 10000) * fieldEnergy N Mass (s_fields s)) tr.
Proof.
  intros rho Sg R0 HS A0 Ps Psd LB. pose proof (affine_mass n r V S w rho RO R0 HS Hw) as MF. destruct (elem_size rho Sg R0 HS A0 LB) as (A & EA & B).
  destruct (fin_rk4 N m dim alpha gb gi ob ib Mass MInv D MSigma sm DG TB MF A0 Ps Wt Psd) as (A' & EA' & G). assert (A' = A) by (unfold theOperator in EA; congruence). subst A'.
  exists A. split; [exact EA'|]. intros dt D0 Sml f imp Ev s tr s' Dt Ln Rn. apply (G f imp _ Ev (size_over rho Sg R0 A0 (proj1 LB)) B s tr s'); try rewrite Dt; assumption.
Qed.
Lemma elem_lossless : forall rho, 0 < rho -> (forall k, (k < n)%nat -> 0 < S k /\ rho * S k <= V k) -> alpha = 0 -> reflecting m gb gi -> (forall v u, mform N MSigma v u = 0) ->
  exists A, buildGlobalOperator R Rplus Rmult 1 (-1) (factoryRows N m dim alpha ob ib MInv D MSigma sm) dim (Z.of_nat N) 0 (match ib with [] => false | _ => true end) = Ok A /\
  forall dt, 0 < dt -> dt * (refSize r dim alpha T / rho) <= sqrt 8 ->
   forall f imp, evaluates A N f -> forall s tr s', s_dt s = dt -> length (s_fields s) = (6 * N)%nat -> runR (list R) (odeStep f imp 0) s tr s' ->
   neverRises (energies N Mass s tr).
Proof.
  intros rho R0 HS A0 Rf Zs. pose proof (affine_mass n r V S w rho RO R0 HS Hw) as MF. assert (A1 : 0 <= alpha) by lra.
  assert (LB : lossBound N Mass MSigma 0) by (split; [lra|]; intros v u; rewrite Zs; lra). destruct (elem_size rho 0 R0 HS A1 LB) as (A & EA & B).
  destruct (fin_skew N m dim alpha gb gi ob ib Mass MInv D MSigma sm DG TB MF A0 Rf (fun v => Zs v v)) as (A' & EA' & G). assert (A' = A) by (unfold theOperator in EA; congruence). subst A'.
  exists A. split; [exact EA'|]. intros dt D0 Sml f imp Ev s tr s' Dt Ln Rn. pose proof (size_over rho 0 R0 A1 (Rle_refl 0)) as K0.
  apply (G f imp _ Ev K0 B s tr s'); try rewrite Dt; try assumption. rewrite Rplus_0_r in *. rewrite <- (sqrt_sqrt 8) by lra. assert (0 <= dt * (refSize r dim alpha T / rho)) by (apply Rmult_le_pos; lra). apply Rmult_le_compat; assumption.
Qed.

(** ** The automatic step *)
Variable dmax : R.
Variable gl : Z -> list R.
Variable st : list (list R).
Variable ms : mesh.
Variable o : stepOptions.
Variable n0 n1 dv : R.
Variable ns : list R.
Hypothesis Dm : dim = 2%Z \/ dim = 3%Z.
Hypothesis Ms : m_dim ms = dim.
Hypothesis Sd : (m_sdim ms <= 3)%Z.
Hypothesis Hop : so_op o = Hesthaven -> dim = 2%Z.
Hypothesis SE : sameElements n V S ms.
Hypothesis N0 : (0 < n)%nat.
Hypothesis GL : gl (so_order o) = n0 :: n1 :: ns.
Hypothesis NE : n0 <> n1.
Hypothesis C0 : 0 < so_cfl o.
Hypothesis EX : extraDivisor ms dv.
Definition courant : R := so_cfl o * Rabs (n0 - n1) / dv / globalFactor ms (so_op o).
Lemma courant_pos : 0 < courant.
Proof.
  unfold courant. pose proof (extra_pos _ _ EX). pose proof (Rabs_pos_lt (n0 - n1) ltac:(lra)).
  assert (0 < globalFactor ms (so_op o)) by (unfold globalFactor; destruct (so_op o), (m_dim ms =? 3)%Z; lra).
  unfold Rdiv. repeat (apply Rmult_lt_0_compat || apply Rinv_0_lt_compat); auto; lra.
Qed.
Lemma elem_dt : exists rho, 0 < rho /\ (forall k, (k < n)%nat -> 0 < S k /\ rho * S k <= V k) /\ estimateTimeStep dmax gl st ms o = Ok (courant * rho).
Proof.
  destruct SE as (L & E).
  assert (Us : Forall (usable ms) (m_elements ms)).
  { apply Forall_forall. intros e Ie. apply In_nth_error in Ie. destruct Ie as (k & Ek). destruct (E k e Ek) as (Ev & B & P & Q). split; [rewrite Ev; exact P|]. exists (S k). auto. }
  destruct (step_value dmax gl st ms o n0 n1 ns dv) as (x & Ex & P & _ & M); auto.
  - rewrite Ms. exact Dm.
  - rewrite Ms. exact Hop.
  - intros Z. rewrite Z in L. cbn in L. lia.
  - exists (x / 2). split; [lra|]. split.
    + intros k Hk. destruct (nth_error (m_elements ms) k) as [e|] eqn:Ek; [|apply nth_error_None in Ek; lia]. destruct (E k e Ek) as (Ev & B & Pv & Q). split; [exact Q|].
      pose proof (M e (S k) (nth_error_In _ _ Ek) B) as Mx. rewrite Ev in Mx. assert (x * S k <= 2 * V k / S k * S k) by (apply Rmult_le_compat_r; lra).
      replace (2 * V k / S k * S k) with (2 * V k) in H by (field; lra). lra.
    + rewrite Ex. apply f_equal. unfold courant. pose proof (extra_pos _ _ EX). assert (0 < globalFactor ms (so_op o)) by (unfold globalFactor; destruct (so_op o), (m_dim ms =? 3)%Z; lra). field. split; lra.
Qed.
Theorem any_bounded : forall Sg, 0 <= alpha -> passive m gb gi -> (forall v, 0 <= mform N MSigma v v) -> lossBound N Mass MSigma Sg ->
  exists A dt, buildGlobalOperator R Rplus Rmult 1 (-1) (factoryRows N m dim alpha ob ib MInv D MSigma sm) dim (Z.of_nat N) 0 (match ib with [] => false | _ => true end) = Ok A /\
  estimateTimeStep dmax gl st ms o = Ok dt /\ 0 < dt /\
  (courant * refSize r dim alpha T + dt * Sg <= 1 / 4 ->
   forall f imp, evaluates A N f -> forall s tr s', s_dt s = dt -> length (s_fields s) = (6 * N)%nat -> runR (list R) (odeStep f imp 0) s tr s' ->
   Forall (fun st => fieldEnergy N Mass (s_fields st) <= 10001 / 10000 * (10001 / 10000) * fieldEnergy N Mass (s_fields s)) tr).
Proof.
  intros Sg A0 Ps Psd LB. destruct elem_dt as (rho & R0 & HS & E). destruct (elem_run rho Sg R0 HS A0 Ps Psd LB) as (A & EA & G). pose proof courant_pos as P.
  assert (Q : 0 < courant * rho) by (apply Rmult_lt_0_compat; assumption). exists A, (courant * rho). split; [exact EA|]. split; [exact E|]. split; [exact Q|]. intros Sml. apply G; [exact Q|].
  replace (courant * rho * (refSize r dim alpha T / rho + Sg)) with (courant * refSize r dim alpha T + courant * rho * Sg) by (field; lra). exact Sml.
Qed.
Theorem any_lossless : alpha = 0 -> reflecting m gb gi -> (forall v u, mform N MSigma v u = 0) ->
  exists A dt, buildGlobalOperator R Rplus Rmult 1 (-1) (factoryRows N m dim alpha ob ib MInv D MSigma sm) dim (Z.of_nat N) 0 (match ib with [] => false | _ => true end) = Ok A /\
  estimateTimeStep dmax gl st ms o = Ok dt /\ 0 < dt /\
  (courant * refSize r dim alpha T <= sqrt 8 ->
   forall f imp, evaluates A N f -> forall s tr s', s_dt s = dt -> length (s_fields s) = (6 * N)%nat -> runR (list R) (odeStep f imp 0) s tr s' ->
   neverRises (energies N Mass s tr)).
Proof.
  intros A0 Rf Zs. destruct elem_dt as (rho & R0 & HS & E). destruct (elem_lossless rho R0 HS A0 Rf Zs) as (A & EA & G). pose proof courant_pos as P.
  assert (Q : 0 < courant * rho) by (apply Rmult_lt_0_compat; assumption). exists A, (courant * rho). split; [exact EA|]. split; [exact E|]. split; [exact Q|]. intros Sml. apply G; [exact Q|].
  replace (courant * rho * (refSize r dim alpha T / rho)) with (courant * refSize r dim alpha T) by (field; lra). exact Sml.
Qed.
End Elements.

(** C101, C102: energy through the time integrators. *)
From Coq Require Import ZArith List Bool Reals.
From Verif Require Import Common Csr_Model Face_Model Face_Spec Setup_Model Setup_Spec Assembly_Model Form_Model Form_Spec Nodal_Spec NodalEnergy_Spec Global_Spec GlobalEx_Proofs Time_Model Ode_Model Ode_Spec OdeFin_Proofs OdeEx_Proofs.
Import ListNotations.
Local Open Scope R_scope.

(** Whatever the time step, none of the six implicit integrators ever adds energy: after every
    step of a run the energy is at most what it was before it. *)
Theorem C101_implicit : forall N m dim alpha gb gi ob ib Mass MInv D MSigma sm,
  dgSpace N m dim Mass MInv D -> tables m gb gi ob ib -> massForm N Mass ->
  0 <= alpha -> passive m gb gi -> nonnegWeights m -> (forall v, 0 <= mform N MSigma v v) ->
  exists A, buildGlobalOperator R Rplus Rmult 1 (-1) (factoryRows N m dim alpha ob ib MInv D MSigma sm) dim (Z.of_nat N) 0
              (match ib with [] => false | _ => true end) = Ok A /\
  forall f imp, evaluates A N f -> solvesStages A N imp ->
  forall ty s tr s', (1 <= ty <= 6)%Z -> 0 < s_dt s -> length (s_fields s) = (6 * N)%nat ->
  runR (list R) (odeStep f imp ty) s tr s' -> neverRises (energies N Mass s tr).
Proof. exact fin_implicit. Qed.
Print Assumptions C101_implicit.
Example C101_implicit_ex : dgSpace 4 gMesh 1 gMass gMInv gD /\ tables gMesh gGb gGi gOb [] /\ massForm 4 gMass /\ coercive 4 gMass (/ 2) /\
  (passive gMesh gGb gGi /\ nonnegWeights gMesh) /\ (forall v, 0 <= mform 4 (sMass 1) v v) /\
  forall f imp ty, exists tr s', runR (list R) (odeStep f imp ty) (mkSolver 0 2 5 gX []) tr s' /\ length tr = 3%nat.
Proof. exact (conj g_space (conj g_tables (conj g_mass (conj g_coercive (conj g_passive (conj (g_psd 1 Rle_0_1) short_run)))))). Qed.

(** The trapezoidal rule and the implicit midpoint rule keep it exactly in a lossless problem. *)
Theorem C101_conserved : forall N m dim alpha gb gi ob ib Mass MInv D MSigma sm,
  dgSpace N m dim Mass MInv D -> tables m gb gi ob ib -> massForm N Mass ->
  alpha = 0 -> reflecting m gb gi -> (forall v, mform N MSigma v v = 0) ->
  exists A, buildGlobalOperator R Rplus Rmult 1 (-1) (factoryRows N m dim alpha ob ib MInv D MSigma sm) dim (Z.of_nat N) 0
              (match ib with [] => false | _ => true end) = Ok A /\
  forall f imp, evaluates A N f -> solvesStages A N imp ->
  forall ty s tr s', (2 <= ty <= 3)%Z -> 0 < s_dt s -> length (s_fields s) = (6 * N)%nat ->
  runR (list R) (odeStep f imp ty) s tr s' -> Forall (fun st => fieldEnergy N Mass (s_fields st) = fieldEnergy N Mass (s_fields s)) tr.
Proof. exact fin_conserve. Qed.
Print Assumptions C101_conserved.
Example C101_conserved_ex : dgSpace 4 gMesh 1 gMass gMInv gD /\ tables gMesh gGbR gGi gObR [] /\ massForm 4 gMass /\ reflecting gMesh gGbR gGi /\
  (forall v, mform 4 (sMass 0) v v = 0) /\ length gX = 24%nat /\
  forall f imp ty, exists tr s', runR (list R) (odeStep f imp ty) (mkSolver 0 2 5 gX []) tr s' /\ length tr = 3%nat.
Proof. exact (conj g_space (conj g_tablesR (conj g_mass (conj g_reflecting (conj g_zero (conj eq_refl short_run)))))). Qed.

(** The stages of those integrators have exactly one solution for every step, so such
    evaluations and solves exist; and the operator has a bound. *)
Theorem C101_stages : forall N m dim alpha gb gi ob ib Mass MInv D MSigma sm,
  dgSpace N m dim Mass MInv D -> tables m gb gi ob ib -> massForm N Mass ->
  0 <= alpha -> passive m gb gi -> nonnegWeights m -> (forall v, 0 <= mform N MSigma v v) ->
  forall c, coercive N Mass c ->
  exists A, buildGlobalOperator R Rplus Rmult 1 (-1) (factoryRows N m dim alpha ob ib MInv D MSigma sm) dim (Z.of_nat N) 0
              (match ib with [] => false | _ => true end) = Ok A /\ (exists f, evaluates A N f) /\ (exists imp, solvesStages A N imp) /\
  (exists K, 0 <= K /\ boundedBy A N Mass K) /\
  forall h x k k', 0 <= h -> length x = (6 * N)%nat -> length k = (6 * N)%nat -> length k' = (6 * N)%nat ->
    applies A N (addv h k x) k -> applies A N (addv h k' x) k' -> k = k'.
Proof. exact fin_solvable. Qed.
Print Assumptions C101_stages.
Example C101_stages_ex : dgSpace 4 gMesh 1 gMass gMInv gD /\ tables gMesh gGb gGi gOb [] /\ massForm 4 gMass /\ coercive 4 gMass (/ 2) /\
  (passive gMesh gGb gGi /\ nonnegWeights gMesh) /\ (forall v, 0 <= mform 4 (sMass 1) v v) /\
  forall f imp ty, exists tr s', runR (list R) (odeStep f imp ty) (mkSolver 0 2 5 gX []) tr s' /\ length tr = 3%nat.
Proof. exact (conj g_space (conj g_tables (conj g_mass (conj g_coercive (conj g_passive (conj (g_psd 1 Rle_0_1) short_run)))))). Qed.

(** The explicit integrator: with a step of at most a quarter of the inverse of the bound of the
    operator, the energy stays within two parts in ten thousand of its first value for ever. *)
Theorem C102_rk4_partial : forall N m dim alpha gb gi ob ib Mass MInv D MSigma sm,
  dgSpace N m dim Mass MInv D -> tables m gb gi ob ib -> massForm N Mass ->
  0 <= alpha -> passive m gb gi -> nonnegWeights m -> (forall v, 0 <= mform N MSigma v v) ->
  exists A, buildGlobalOperator R Rplus Rmult 1 (-1) (factoryRows N m dim alpha ob ib MInv D MSigma sm) dim (Z.of_nat N) 0
              (match ib with [] => false | _ => true end) = Ok A /\
  forall f imp K, evaluates A N f -> 0 <= K -> boundedBy A N Mass K ->
  forall s tr s', 0 < s_dt s -> s_dt s * K <= 1 / 4 -> length (s_fields s) = (6 * N)%nat -> runR (list R) (odeStep f imp 0) s tr s' ->
  Forall (fun st => fieldEnergy N Mass (s_fields st) <= 10001 / 10000 * (10001 / 10000) * fieldEnergy N Mass (s_fields s)) tr.
Proof. exact fin_rk4. Qed.
Print Assumptions C102_rk4_partial.
Example C102_rk4_ex : dgSpace 4 gMesh 1 gMass gMInv gD /\ tables gMesh gGb gGi gOb [] /\ massForm 4 gMass /\ coercive 4 gMass (/ 2) /\
  (passive gMesh gGb gGi /\ nonnegWeights gMesh) /\ (forall v, 0 <= mform 4 (sMass 1) v v) /\
  forall f imp ty, exists tr s', runR (list R) (odeStep f imp ty) (mkSolver 0 2 5 gX []) tr s' /\ length tr = 3%nat.
Proof. exact (conj g_space (conj g_tables (conj g_mass (conj g_coercive (conj g_passive (conj (g_psd 1 Rle_0_1) short_run)))))). Qed.

(** Two steps of the same length never add energy. *)
Theorem C102_pairs : forall N m dim alpha gb gi ob ib Mass MInv D MSigma sm,
  dgSpace N m dim Mass MInv D -> tables m gb gi ob ib -> massForm N Mass ->
  0 <= alpha -> passive m gb gi -> nonnegWeights m -> (forall v, 0 <= mform N MSigma v v) ->
  exists A, buildGlobalOperator R Rplus Rmult 1 (-1) (factoryRows N m dim alpha ob ib MInv D MSigma sm) dim (Z.of_nat N) 0
              (match ib with [] => false | _ => true end) = Ok A /\
  forall f imp K, evaluates A N f -> 0 <= K -> boundedBy A N Mass K ->
  forall x t t' dt, length x = (6 * N)%nat -> 0 <= dt -> dt * K <= 1 / 4 ->
  fieldEnergy N Mass (odeStep f imp 0 (odeStep f imp 0 x t dt) t' dt) <= fieldEnergy N Mass x.
Proof. exact fin_pairs. Qed.
Print Assumptions C102_pairs.

(** In a lossless problem no step adds energy up to the classical limit, dt K at most the square
    root of eight. *)
Theorem C102_lossless : forall N m dim alpha gb gi ob ib Mass MInv D MSigma sm,
  dgSpace N m dim Mass MInv D -> tables m gb gi ob ib -> massForm N Mass ->
  alpha = 0 -> reflecting m gb gi -> (forall v, mform N MSigma v v = 0) ->
  exists A, buildGlobalOperator R Rplus Rmult 1 (-1) (factoryRows N m dim alpha ob ib MInv D MSigma sm) dim (Z.of_nat N) 0
              (match ib with [] => false | _ => true end) = Ok A /\
  forall f imp K, evaluates A N f -> 0 <= K -> boundedBy A N Mass K ->
  forall s tr s', 0 < s_dt s -> s_dt s * K * (s_dt s * K) <= 8 -> length (s_fields s) = (6 * N)%nat -> runR (list R) (odeStep f imp 0) s tr s' ->
  neverRises (energies N Mass s tr).
Proof. exact fin_skew. Qed.
Print Assumptions C102_lossless.
Example C102_lossless_ex : dgSpace 4 gMesh 1 gMass gMInv gD /\ tables gMesh gGbR gGi gObR [] /\ massForm 4 gMass /\ reflecting gMesh gGbR gGi /\
  (forall v, mform 4 (sMass 0) v v = 0) /\ length gX = 24%nat /\
  forall f imp ty, exists tr s', runR (list R) (odeStep f imp ty) (mkSolver 0 2 5 gX []) tr s' /\ length tr = 3%nat.
Proof. exact (conj g_space (conj g_tablesR (conj g_mass (conj g_reflecting (conj g_zero (conj eq_refl short_run)))))). Qed.

(** Finding: whatever the time step, there is a passive problem, a conductor, in which every step of
    the explicit integrator multiplies the energy by twenty-five. *)
Theorem C102_any_step_refuted : forall dt, 0 < dt -> exists N m dim alpha gb gi ob ib Mass MInv D MSigma sm c A,
  dgSpace N m dim Mass MInv D /\ tables m gb gi ob ib /\ massForm N Mass /\ coercive N Mass c /\
  0 <= alpha /\ passive m gb gi /\ nonnegWeights m /\ (forall v, 0 <= mform N MSigma v v) /\
  buildGlobalOperator R Rplus Rmult 1 (-1) (factoryRows N m dim alpha ob ib MInv D MSigma sm) dim (Z.of_nat N) 0
              (match ib with [] => false | _ => true end) = Ok A /\
  exists x, length x = (6 * N)%nat /\ 0 < fieldEnergy N Mass x /\
  forall f imp, evaluates A N f -> forall k, exists tr s', runR (list R) (odeStep f imp 0) (mkSolver 0 dt (INR k * dt) x []) tr s' /\
    length tr = k /\ fieldEnergy N Mass (s_fields s') = 25 ^ k * fieldEnergy N Mass x.
Proof. exact explicit_blows_up. Qed.
Print Assumptions C102_any_step_refuted.

(** C105: runs with the automatic time step. *)
From Coq Require Import ZArith List Bool Reals.
From Verif Require Import Common Csr_Model Face_Model Face_Spec Setup_Model Setup_Spec Assembly_Model Form_Model Form_Spec Nodal_Spec NodalEnergy_Spec Global_Spec Step_Model Step_Spec Time_Model Ode_Model Ode_Spec Cfl_Spec CflFin_Proofs CflEx_Proofs.
Import ListNotations.
Local Open Scope R_scope.

(** In any space, the operator is bounded by its derivatives, its traces and its losses: nothing
    else in the mesh, the materials or the conditions of the faces can make it larger. *)
Theorem C105_bound : forall N m dim alpha gb gi ob ib Mass MInv D MSigma sm,
  dgSpace N m dim Mass MInv D -> tables m gb gi ob ib -> massForm N Mass -> nonnegWeights m -> 0 <= alpha ->
  forall Cd Tr Sg, derivBound N dim Mass D Cd -> traceBound N m Mass Tr -> lossBound N Mass MSigma Sg ->
  exists A, buildGlobalOperator R Rplus Rmult 1 (-1) (factoryRows N m dim alpha ob ib MInv D MSigma sm) dim (Z.of_nat N) 0
              (match ib with [] => false | _ => true end) = Ok A /\ boundedBy A N Mass (IZR dim * Cd + (1 + alpha) * Tr + Sg).
Proof. exact bound_of. Qed.
Print Assumptions C105_bound.
(** Those constants, for linear elements of any lengths and materials on a line. *)
Theorem C105_constants : forall n bdr battrs h w hm, (0 < n)%nat -> lineTags n bdr battrs -> 0 < hm -> (forall k, (k < n)%nat -> hm <= h k) -> (forall g k, 1 <= w g k) ->
  dgSpace (2 * n) (lineMesh n bdr battrs) 1 (lineMass h w) (lineInv h w) lineD /\ massForm (2 * n) (lineMass h w) /\ nonnegWeights (lineMesh n bdr battrs) /\ coercive (2 * n) (lineMass h w) (hm / 6) /\
  derivBound (2 * n) 1 (lineMass h w) lineD (sqrt 12 / hm) /\ traceBound (2 * n) (lineMesh n bdr battrs) (lineMass h w) (6 / hm).
Proof. exact line_constants. Qed.
Print Assumptions C105_constants.

(** On a line, with linear elements, the automatic time step keeps the energy of the explicit
    integrator bounded for ever if the Courant factor is small. *)
Theorem C105_line_partial : forall n bdr battrs h w dmax alpha gl st ms o gb gi ob ib MSigma sm,
  (0 < n)%nat -> lineTags n bdr battrs -> (forall k, (k < n)%nat -> 0 < h k <= dmax) -> (forall g k, 1 <= w g k) ->
  sameLine n h ms -> so_order o = 1%Z -> 0 < so_cfl o -> tables (lineMesh n bdr battrs) gb gi ob ib ->
  forall Sg, 0 <= alpha -> passive (lineMesh n bdr battrs) gb gi -> (forall v, 0 <= mform (2 * n) MSigma v v) -> lossBound (2 * n) (lineMass h w) MSigma Sg ->
  exists A dt, buildGlobalOperator R Rplus Rmult 1 (-1) (factoryRows (2 * n) (lineMesh n bdr battrs) 1 alpha ob ib (lineInv h w) lineD MSigma sm) 1 (Z.of_nat (2 * n)) 0
              (match ib with [] => false | _ => true end) = Ok A /\
  estimateTimeStep dmax gl st ms o = Ok dt /\ 0 < dt /\
  (so_cfl o * (sqrt 12 + 6 * (1 + alpha)) + dt * Sg <= 1 / 4 ->
   forall f imp, evaluates A (2 * n) f -> forall s tr s', s_dt s = dt -> length (s_fields s) = (6 * (2 * n))%nat -> runR (list R) (odeStep f imp 0) s tr s' ->
   Forall (fun st => fieldEnergy (2 * n) (lineMass h w) (s_fields st) <= 10001 / 10000 * (10001 / 10000) * fieldEnergy (2 * n) (lineMass h w) (s_fields s)) tr).
Proof. exact line_bounded. Qed.
Print Assumptions C105_line_partial.
Example C105_line_ex : lineTags 3 (endWalls 3) [1%Z] /\ (forall k, (k < 3)%nat -> 0 < exH k <= 10) /\ (forall g k, 1 <= exW g k) /\ sameLine 3 exH (stepMesh 3 exH) /\
  tables (lineMesh 3 (endWalls 3) [1%Z]) [(1%Z, PEC)] [] [(PEC, [1%Z])] [] /\ passive (lineMesh 3 (endWalls 3) [1%Z]) [(1%Z, PEC)] [] /\ reflecting (lineMesh 3 (endWalls 3) [1%Z]) [(1%Z, PEC)] [] /\
  (forall v u, mform (2 * 3) noLoss v u = 0) /\ lossBound (2 * 3) (lineMass exH exW) noLoss 0 /\
  / 100 * (sqrt 12 + 6 * (1 + 1)) + / 100 * / 2 * 0 <= 1 / 4 /\ / 4 * (sqrt 12 + 6) <= sqrt 8.
Proof. exact ex_line. Qed.

(** Without losses and with the centred flux no step adds energy, up to a Courant factor of 0.298. *)
Theorem C105_lossless : forall n bdr battrs h w dmax alpha gl st ms o gb gi ob ib MSigma sm,
  (0 < n)%nat -> lineTags n bdr battrs -> (forall k, (k < n)%nat -> 0 < h k <= dmax) -> (forall g k, 1 <= w g k) ->
  sameLine n h ms -> so_order o = 1%Z -> 0 < so_cfl o -> tables (lineMesh n bdr battrs) gb gi ob ib ->
  alpha = 0 -> reflecting (lineMesh n bdr battrs) gb gi -> (forall v u, mform (2 * n) MSigma v u = 0) ->
  exists A dt, buildGlobalOperator R Rplus Rmult 1 (-1) (factoryRows (2 * n) (lineMesh n bdr battrs) 1 alpha ob ib (lineInv h w) lineD MSigma sm) 1 (Z.of_nat (2 * n)) 0
              (match ib with [] => false | _ => true end) = Ok A /\
  estimateTimeStep dmax gl st ms o = Ok dt /\ 0 < dt /\
  (so_cfl o * (sqrt 12 + 6) <= sqrt 8 ->
   forall f imp, evaluates A (2 * n) f -> forall s tr s', s_dt s = dt -> length (s_fields s) = (6 * (2 * n))%nat -> runR (list R) (odeStep f imp 0) s tr s' ->
   neverRises (energies (2 * n) (lineMass h w) s tr)).
Proof. exact line_lossless. Qed.
Print Assumptions C105_lossless.

(** What one step of the automatic length does to two waves between conducting walls, on any
    number of equal elements: the exact growth of the energy as a function of the Courant factor. *)
Theorem C105_central_growth : forall n h dmax gl st ms o, (0 < n)%nat -> 0 < h <= dmax -> sameLine n (fun _ => h) ms -> so_order o = 1%Z -> 0 < so_cfl o ->
  exists A, buildGlobalOperator R Rplus Rmult 1 (-1) (factoryRows (2 * n) (lineMesh n (endWalls n) [1%Z]) 1 0 [(PEC, [1%Z])] [] (lineInv (fun _ => h) vacuum) lineD noLoss []) 1 (Z.of_nat (2 * n)) 0 false = Ok A /\
  estimateTimeStep dmax gl st ms o = Ok (so_cfl o * h) /\ 0 < fieldEnergy (2 * n) (lineMass (fun _ => h) vacuum) (alternatingWave n) /\
  forall f imp, evaluates A (2 * n) f -> forall k, exists tr s', runR (list R) (odeStep f imp 0) (mkSolver 0 (so_cfl o * h) (INR k * (so_cfl o * h)) (alternatingWave n) []) tr s' /\ length tr = k /\
    fieldEnergy (2 * n) (lineMass (fun _ => h) vacuum) (s_fields s') = (1 - 24 * so_cfl o ^ 6 + 36 * so_cfl o ^ 8) ^ k * fieldEnergy (2 * n) (lineMass (fun _ => h) vacuum) (alternatingWave n).
Proof. exact central_runs. Qed.
Print Assumptions C105_central_growth.
Theorem C105_upwind_growth : forall n h dmax gl st ms o, (0 < n)%nat -> 0 < h <= dmax -> sameLine n (fun _ => h) ms -> so_order o = 1%Z -> 0 < so_cfl o ->
  exists A, buildGlobalOperator R Rplus Rmult 1 (-1) (factoryRows (2 * n) (lineMesh n (endWalls n) [1%Z]) 1 1 [(PEC, [1%Z])] [] (lineInv (fun _ => h) vacuum) lineD noLoss []) 1 (Z.of_nat (2 * n)) 0 false = Ok A /\
  estimateTimeStep dmax gl st ms o = Ok (so_cfl o * h) /\ 0 < fieldEnergy (2 * n) (lineMass (fun _ => h) vacuum) (sawWave n) /\
  forall f imp, evaluates A (2 * n) f -> forall k, exists tr s', runR (list R) (odeStep f imp 0) (mkSolver 0 (so_cfl o * h) (INR k * (so_cfl o * h)) (sawWave n) []) tr s' /\ length tr = k /\
    fieldEnergy (2 * n) (lineMass (fun _ => h) vacuum) (s_fields s') = ((1 - 6 * so_cfl o + 18 * so_cfl o ^ 2 - 36 * so_cfl o ^ 3 + 54 * so_cfl o ^ 4) ^ 2) ^ k * fieldEnergy (2 * n) (lineMass (fun _ => h) vacuum) (sawWave n).
Proof. exact upwind_runs. Qed.
Print Assumptions C105_upwind_growth.
Example C105_growth_ex : sameLine 5 (fun _ => 2) (stepMesh 5 (fun _ => 2)) /\ dgSpace (2 * 5) (lineMesh 5 (endWalls 5) [1%Z]) 1 (lineMass (fun _ => 2) vacuum) (lineInv (fun _ => 2) vacuum) lineD /\
  tables (lineMesh 5 (endWalls 5) [1%Z]) [(1%Z, PEC)] [] [(PEC, [1%Z])] [] /\ reflecting (lineMesh 5 (endWalls 5) [1%Z]) [(1%Z, PEC)] [].
Proof. exact ex_walls. Qed.

(** Finding: with the upwind flux and a Courant factor of a half or more, the automatic step makes
    the energy grow without limit, on every mesh of equal linear elements between two walls. *)
Theorem C105_half_refuted : forall n h dmax gl st ms o, (0 < n)%nat -> 0 < h <= dmax -> sameLine n (fun _ => h) ms -> so_order o = 1%Z -> 1 / 2 <= so_cfl o ->
  exists A dt, buildGlobalOperator R Rplus Rmult 1 (-1) (factoryRows (2 * n) (lineMesh n (endWalls n) [1%Z]) 1 1 [(PEC, [1%Z])] [] (lineInv (fun _ => h) vacuum) lineD noLoss []) 1 (Z.of_nat (2 * n)) 0 false = Ok A /\
  estimateTimeStep dmax gl st ms o = Ok dt /\ 0 < fieldEnergy (2 * n) (lineMass (fun _ => h) vacuum) (sawWave n) /\
  forall f imp, evaluates A (2 * n) f -> forall k, exists tr s', runR (list R) (odeStep f imp 0) (mkSolver 0 dt (INR k * dt) (sawWave n) []) tr s' /\ length tr = k /\
    (121 / 64) ^ k * fieldEnergy (2 * n) (lineMass (fun _ => h) vacuum) (sawWave n) <= fieldEnergy (2 * n) (lineMass (fun _ => h) vacuum) (s_fields s').
Proof. exact upwind_half. Qed.
Print Assumptions C105_half_refuted.
(** Finding: with the default Courant factor every step multiplies the energy of such a wave by
    961 with the upwind flux, and by 13 with the centred flux. *)
Theorem C105_default_refuted : forall n h dmax gl st ms o, (0 < n)%nat -> 0 < h <= dmax -> sameLine n (fun _ => h) ms -> so_order o = 1%Z -> so_cfl o = 1 ->
  (exists A dt, buildGlobalOperator R Rplus Rmult 1 (-1) (factoryRows (2 * n) (lineMesh n (endWalls n) [1%Z]) 1 1 [(PEC, [1%Z])] [] (lineInv (fun _ => h) vacuum) lineD noLoss []) 1 (Z.of_nat (2 * n)) 0 false = Ok A /\
   estimateTimeStep dmax gl st ms o = Ok dt /\ 0 < fieldEnergy (2 * n) (lineMass (fun _ => h) vacuum) (sawWave n) /\
   forall f imp, evaluates A (2 * n) f -> forall k, exists tr s', runR (list R) (odeStep f imp 0) (mkSolver 0 dt (INR k * dt) (sawWave n) []) tr s' /\ length tr = k /\
     fieldEnergy (2 * n) (lineMass (fun _ => h) vacuum) (s_fields s') = 961 ^ k * fieldEnergy (2 * n) (lineMass (fun _ => h) vacuum) (sawWave n)) /\
  (exists A dt, buildGlobalOperator R Rplus Rmult 1 (-1) (factoryRows (2 * n) (lineMesh n (endWalls n) [1%Z]) 1 0 [(PEC, [1%Z])] [] (lineInv (fun _ => h) vacuum) lineD noLoss []) 1 (Z.of_nat (2 * n)) 0 false = Ok A /\
   estimateTimeStep dmax gl st ms o = Ok dt /\ 0 < fieldEnergy (2 * n) (lineMass (fun _ => h) vacuum) (alternatingWave n) /\
   forall f imp, evaluates A (2 * n) f -> forall k, exists tr s', runR (list R) (odeStep f imp 0) (mkSolver 0 dt (INR k * dt) (alternatingWave n) []) tr s' /\ length tr = k /\
     fieldEnergy (2 * n) (lineMass (fun _ => h) vacuum) (s_fields s') = 13 ^ k * fieldEnergy (2 * n) (lineMass (fun _ => h) vacuum) (alternatingWave n)).
Proof. exact default_blows. Qed.
Print Assumptions C105_default_refuted.

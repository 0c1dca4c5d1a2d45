(** C104: runs with a source. *)
From Coq Require Import ZArith List Bool Reals.
From Verif Require Import Common Csr_Model Face_Model Face_Spec Setup_Model Setup_Spec Assembly_Model Form_Model Form_Spec Nodal_Spec NodalEnergy_Spec Global_Spec GlobalEx_Proofs Time_Model Ode_Model Ode_Spec OdeEx_Proofs Conv_Spec Drive_Spec DriveRun_Proofs DriveEx_Proofs.
Import ListNotations.
Local Open Scope R_scope.

(** The fields grow at most linearly, with the size of the source: the exact fields with slope one,
    those of a run up to a factor for the integrator, for every step when it is implicit. *)
Theorem C104_bounded : exists C : Z -> R, forall N m dim alpha gb gi ob ib Mass MInv D MSigma sm,
  dgSpace N m dim Mass MInv D -> tables m gb gi ob ib -> massForm N Mass ->
  0 <= alpha -> passive m gb gi -> nonnegWeights m -> (forall v, 0 <= mform N MSigma v v) ->
  forall c, coercive N Mass c ->
  exists A, buildGlobalOperator R Rplus Rmult 1 (-1) (factoryRows N m dim alpha ob ib MInv D MSigma sm) dim (Z.of_nat N) 0
              (match ib with [] => false | _ => true end) = Ok A /\
  forall g c0, boundedSource N Mass g c0 ->
  (forall u, drivenBy A N g u -> forall a b, a <= b -> size N Mass (u b) <= size N Mass (u a) + c0 * (b - a)) /\
  forall f imp K, drivenRates A N g f -> drivenStages A N g imp -> 0 <= K -> boundedBy A N Mass K ->
  forall ty s tr s', (0 <= ty <= 6)%Z -> 0 < s_dt s -> (1 <= ty)%Z \/ s_dt s * K <= 1 / 4 -> length (s_fields s) = (6 * N)%nat -> runR (list R) (odeStep f imp ty) s tr s' ->
  Forall (fun st => size N Mass (s_fields st) <= 2 * (size N Mass (s_fields s) + C ty * c0 * (s_time st - s_time s))) tr.
Proof. exact drive_bounded. Qed.
Print Assumptions C104_bounded.

(** The fields of a run with a smooth source differ
    from the exact fields by a term of second order in the step (first for backward Euler), also when
    the run leaves out a source of size up to [eta]. *)
Theorem C104_error : exists C : Z -> R, forall N m dim alpha gb gi ob ib Mass MInv D MSigma sm,
  dgSpace N m dim Mass MInv D -> tables m gb gi ob ib -> massForm N Mass ->
  0 <= alpha -> passive m gb gi -> nonnegWeights m -> (forall v, 0 <= mform N MSigma v v) ->
  forall c, coercive N Mass c ->
  exists A, buildGlobalOperator R Rplus Rmult 1 (-1) (factoryRows N m dim alpha ob ib MInv D MSigma sm) dim (Z.of_nat N) 0
              (match ib with [] => false | _ => true end) = Ok A /\
  forall g used c0 c1 c2 eta u f imp K, smoothSource N Mass g c0 c1 c2 -> upTo N Mass eta used g ->
  drivenBy A N g u -> drivenRates A N used f -> drivenStages A N used imp -> 0 <= K -> boundedBy A N Mass K ->
  forall ty s tr s', (0 <= ty <= 6)%Z -> 0 < s_dt s -> s_dt s * K <= 1 / 4 -> s_fields s = u (s_time s) -> runR (list R) (odeStep f imp ty) s tr s' ->
  Forall (fun st => size N Mass (difference (s_fields st) (u (s_time st))) <=
    C ty * (s_time st - s_time s) * (driveError ty K c0 c1 c2 (size N Mass (u (s_time s)) + c0 * (s_final s - s_time s)) (s_dt s) + eta)) tr.
Proof. exact drive_error. Qed.
Print Assumptions C104_error.
Example C104_error_ex : dgSpace 4 gMesh 1 gMass gMInv gD /\ tables gMesh gGb gGi gOb [] /\ massForm 4 gMass /\ coercive 4 gMass (/ 2) /\
  (passive gMesh gGb gGi /\ nonnegWeights gMesh) /\ (forall v, 0 <= mform 4 (sMass 1) v v) /\
  exists A, buildGlobalOperator R Rplus Rmult 1 (-1) (factoryRows 4 gMesh 1 1 gOb [] gMInv gD (sMass 1) []) 1 4 0 false = Ok A /\
  exists g c0 u f imp K, smoothSource 4 gMass g c0 c0 c0 /\ upTo 4 gMass 0 g g /\ drivenBy A 4 g u /\ u (PI / 2) = gX /\ drivenRates A 4 g f /\ drivenStages A 4 g imp /\
    0 <= K /\ boundedBy A 4 gMass K.
Proof. exact (conj g_space (conj g_tables (conj g_mass (conj g_coercive (conj g_passive (conj (g_psd 1 Rle_0_1) driven_case)))))). Qed.

(** As the step goes to zero, the fields of the whole run go to the exact fields. *)
Theorem C104_converges : forall N m dim alpha gb gi ob ib Mass MInv D MSigma sm,
  dgSpace N m dim Mass MInv D -> tables m gb gi ob ib -> massForm N Mass ->
  0 <= alpha -> passive m gb gi -> nonnegWeights m -> (forall v, 0 <= mform N MSigma v v) ->
  forall c, coercive N Mass c ->
  exists A, buildGlobalOperator R Rplus Rmult 1 (-1) (factoryRows N m dim alpha ob ib MInv D MSigma sm) dim (Z.of_nat N) 0
              (match ib with [] => false | _ => true end) = Ok A /\
  forall g c0 c1 c2 u f imp, smoothSource N Mass g c0 c1 c2 -> drivenBy A N g u -> drivenRates A N g f -> drivenStages A N g imp ->
  forall ty start final eps, (0 <= ty <= 6)%Z -> 0 < eps -> exists delta, 0 < delta /\
  forall dt calls tr s', 0 < dt < delta -> runR (list R) (odeStep f imp ty) (mkSolver start dt final (u start) calls) tr s' ->
  Forall (fun st => size N Mass (difference (s_fields st) (u (s_time st))) <= eps) tr.
Proof. exact drive_converges. Qed.
Print Assumptions C104_converges.

(** Rates and implicit stages exist for every source, and every continuous source and every state at
    the start determine exactly one solution. *)
Theorem C104_solution : forall N m dim alpha gb gi ob ib Mass MInv D MSigma sm,
  dgSpace N m dim Mass MInv D -> tables m gb gi ob ib -> massForm N Mass ->
  0 <= alpha -> passive m gb gi -> nonnegWeights m -> (forall v, 0 <= mform N MSigma v v) ->
  forall c, coercive N Mass c ->
  exists A, buildGlobalOperator R Rplus Rmult 1 (-1) (factoryRows N m dim alpha ob ib MInv D MSigma sm) dim (Z.of_nat N) 0
              (match ib with [] => false | _ => true end) = Ok A /\
  (forall g, (forall t, length (g t) = (6 * N)%nat) -> (exists f, drivenRates A N g f) /\ exists imp, drivenStages A N g imp) /\
  forall g, (forall t, length (g t) = (6 * N)%nat) -> (forall i t, continuity_pt (fun s => nth i (g s) 0) t) ->
  forall start x, length x = (6 * N)%nat -> exists u, drivenBy A N g u /\ u start = x /\ forall v, drivenBy A N g v -> v start = x -> forall t, v t = u t.
Proof. exact drive_solution. Qed.
Print Assumptions C104_solution.

(** C103: accuracy of the time integrators. *)
From Coq Require Import ZArith List Bool Reals.
From Verif Require Import Common Csr_Model Face_Model Face_Spec Setup_Model Setup_Spec Assembly_Model Form_Model Form_Spec Nodal_Spec NodalEnergy_Spec Global_Spec GlobalEx_Proofs Time_Model Ode_Model Ode_Spec OdeEx_Proofs Conv_Spec ConvFin_Proofs.
Import ListNotations.
Local Open Scope R_scope.

(** One constant for each integrator, the same for every mesh, operator, step and run: the fields of
    a run differ from the exact solution by at most the constant times the order-th power of the step
    times the elapsed time. *)
Theorem C103_error : exists C : Z -> R, forall N m dim alpha gb gi ob ib Mass MInv D MSigma sm,
  dgSpace N m dim Mass MInv D -> tables m gb gi ob ib -> massForm N Mass ->
  0 <= alpha -> passive m gb gi -> nonnegWeights m -> (forall v, 0 <= mform N MSigma v v) ->
  forall c, coercive N Mass c ->
  exists A, buildGlobalOperator R Rplus Rmult 1 (-1) (factoryRows N m dim alpha ob ib MInv D MSigma sm) dim (Z.of_nat N) 0
              (match ib with [] => false | _ => true end) = Ok A /\
  forall f imp K u, evaluates A N f -> solvesStages A N imp -> 0 <= K -> boundedBy A N Mass K -> evolves A N u ->
  forall ty s tr s', (0 <= ty <= 6)%Z -> 0 < s_dt s -> s_dt s * K <= 1 / 4 -> s_fields s = u (s_time s) -> runR (list R) (odeStep f imp ty) s tr s' ->
  Forall (fun st => size N Mass (difference (s_fields st) (u (s_time st))) <=
    C ty * ((s_dt s * K) ^ order ty + constantError ty (s_dt s * K)) * (K * (s_time st - s_time s)) * size N Mass (u (s_time s))) tr.
Proof. exact fin_error. Qed.
Print Assumptions C103_error.
Example C103_error_ex : dgSpace 4 gMesh 1 gMass gMInv gD /\ tables gMesh gGb gGi gOb [] /\ massForm 4 gMass /\ coercive 4 gMass (/ 2) /\
  (passive gMesh gGb gGi /\ nonnegWeights gMesh) /\ (forall v, 0 <= mform 4 (sMass 1) v v) /\
  exists A, buildGlobalOperator R Rplus Rmult 1 (-1) (factoryRows 4 gMesh 1 1 gOb [] gMInv gD (sMass 1) []) 1 4 0 false = Ok A /\ evolves A 4 (gZ 1).
Proof. exact (conj g_space (conj g_tables (conj g_mass (conj g_coercive (conj g_passive (conj (g_psd 1 Rle_0_1) (long_evolves 1 gGb gGi gOb 1 [] g_tables))))))). Qed.

(** As the step goes to zero, the fields of the whole run go to the exact solution. *)
Theorem C103_converges : forall N m dim alpha gb gi ob ib Mass MInv D MSigma sm,
  dgSpace N m dim Mass MInv D -> tables m gb gi ob ib -> massForm N Mass ->
  0 <= alpha -> passive m gb gi -> nonnegWeights m -> (forall v, 0 <= mform N MSigma v v) ->
  forall c, coercive N Mass c ->
  exists A, buildGlobalOperator R Rplus Rmult 1 (-1) (factoryRows N m dim alpha ob ib MInv D MSigma sm) dim (Z.of_nat N) 0
              (match ib with [] => false | _ => true end) = Ok A /\
  forall u f imp, evolves A N u -> evaluates A N f -> solvesStages A N imp ->
  forall ty start final eps, (0 <= ty <= 6)%Z -> 0 < eps -> exists delta, 0 < delta /\
  forall dt calls tr s', 0 < dt < delta -> runR (list R) (odeStep f imp ty) (mkSolver start dt final (u start) calls) tr s' ->
  Forall (fun st => size N Mass (difference (s_fields st) (u (s_time st))) <= eps) tr.
Proof. exact fin_converges. Qed.
Print Assumptions C103_converges.

(** Every state starts exactly one solution. *)
Theorem C103_solution : forall N m dim alpha gb gi ob ib Mass MInv D MSigma sm,
  dgSpace N m dim Mass MInv D -> tables m gb gi ob ib -> massForm N Mass ->
  0 <= alpha -> passive m gb gi -> nonnegWeights m -> (forall v, 0 <= mform N MSigma v v) ->
  forall c, coercive N Mass c ->
  exists A, buildGlobalOperator R Rplus Rmult 1 (-1) (factoryRows N m dim alpha ob ib MInv D MSigma sm) dim (Z.of_nat N) 0
              (match ib with [] => false | _ => true end) = Ok A /\ forall start x, length x = (6 * N)%nat -> exists u, evolves A N u /\ u start = x /\
  forall v, evolves A N v -> v start = x -> forall t, start <= t -> v t = u t.
Proof. exact fin_solution. Qed.
Print Assumptions C103_solution.

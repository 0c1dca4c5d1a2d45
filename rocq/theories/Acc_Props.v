(** C110: runs against fields that satisfy Maxwell's equations, exactly or nearly. *)
From Coq Require Import ZArith List Bool Reals.
From Verif Require Import Common Csr_Model Face_Model Face_Spec Setup_Model Setup_Spec Assembly_Model Form_Model Form_Spec Nodal_Spec NodalEnergy_Spec Global_Spec GlobalEx_Proofs Time_Model Ode_Model Ode_Spec Conv_Spec Drive_Spec TwinEx_Proofs ConsistEx_Proofs Acc_Spec Acc_Proofs AccEx_Proofs.
Import ListNotations.
Local Open Scope R_scope.

(** A curve of fields in the space of the run that satisfies Maxwell's equations with the source and the
    conditions of the faces is the curve that the operator prescribes. *)
Theorem C110_solution : forall N m dim alpha gb gi ob ib Mass MInv D MSigma sm,
  dgSpace N m dim Mass MInv D -> tables m gb gi ob ib -> massForm N Mass ->
  0 <= alpha -> passive m gb gi -> nonnegWeights m -> (forall v, 0 <= mform N MSigma v v) ->
  forall c, coercive N Mass c ->
  exists A, buildGlobalOperator R Rplus Rmult 1 (-1) (factoryRows N m dim alpha ob ib MInv D MSigma sm) dim (Z.of_nat N) 0
              (match ib with [] => false | _ => true end) = Ok A /\
  forall g w, (forall t, length (g t) = (6 * N)%nat) -> nearMaxwell N m dim gb gi Mass D MSigma g w 0 -> drivenBy A N g w.
Proof. exact acc_solution. Qed.
Print Assumptions C110_solution.
Example C110_solution_ex : (dgSpace 6 twM 2 twMass twInv twD /\ tables twM cvGb [] cvOb [] /\ massForm 6 twMass /\ passive twM cvGb [] /\ nonnegWeights twM /\ (forall v, 0 <= mform 6 noSigma v v) /\ coercive 6 twMass (/ 24)) /\
  nearMaxwell 6 twM 2 cvGb [] twMass twD noSigma (fun t => cvS (- sin t)) (fun t => cvS (cos t)) 0.
Proof. exact (conj swing_case (proj1 swing_driven)). Qed.

(** The exact fields of the operator drift away from a curve that satisfies the equations up to a
    defect no faster than the defect. *)
Theorem C110_fields : forall N m dim alpha gb gi ob ib Mass MInv D MSigma sm,
  dgSpace N m dim Mass MInv D -> tables m gb gi ob ib -> massForm N Mass ->
  0 <= alpha -> passive m gb gi -> nonnegWeights m -> (forall v, 0 <= mform N MSigma v v) ->
  forall c, coercive N Mass c ->
  exists A, buildGlobalOperator R Rplus Rmult 1 (-1) (factoryRows N m dim alpha ob ib MInv D MSigma sm) dim (Z.of_nat N) 0
              (match ib with [] => false | _ => true end) = Ok A /\
  forall g u w eps, (forall t, length (g t) = (6 * N)%nat) -> drivenBy A N g u -> nearMaxwell N m dim gb gi Mass D MSigma g w eps ->
  forall a b, a <= b -> size N Mass (difference (u b) (w b)) <= size N Mass (difference (u a) (w a)) + eps * (b - a).
Proof. exact acc_fields. Qed.
Print Assumptions C110_fields.

(** The fields of a run without source: the distance at the start, the defect times the time, and the
    error of the integrator. *)
Theorem C110_run : exists C : Z -> R, forall N m dim alpha gb gi ob ib Mass MInv D MSigma sm,
  dgSpace N m dim Mass MInv D -> tables m gb gi ob ib -> massForm N Mass ->
  0 <= alpha -> passive m gb gi -> nonnegWeights m -> (forall v, 0 <= mform N MSigma v v) ->
  forall c, coercive N Mass c ->
  exists A, buildGlobalOperator R Rplus Rmult 1 (-1) (factoryRows N m dim alpha ob ib MInv D MSigma sm) dim (Z.of_nat N) 0
              (match ib with [] => false | _ => true end) = Ok A /\
  forall f imp K w eps, evaluates A N f -> solvesStages A N imp -> 0 <= K -> boundedBy A N Mass K -> nearMaxwell N m dim gb gi Mass D MSigma (noSource N) w eps ->
  forall ty s tr s', (0 <= ty <= 6)%Z -> 0 < s_dt s -> s_dt s * K <= 1 / 4 -> length (s_fields s) = (6 * N)%nat -> runR (list R) (odeStep f imp ty) s tr s' ->
  Forall (fun st => size N Mass (difference (s_fields st) (w (s_time st))) <=
    size N Mass (difference (s_fields s) (w (s_time s))) + eps * (s_time st - s_time s) +
    C ty * ((s_dt s * K) ^ order ty + constantError ty (s_dt s * K)) * (K * (s_time st - s_time s)) * size N Mass (s_fields s)) tr.
Proof. exact acc_run. Qed.
Print Assumptions C110_run.
Example C110_run_ex : (dgSpace 6 twM 2 twMass twInv twD /\ tables twM cvGb [] cvOb [] /\ massForm 6 twMass /\ passive twM cvGb [] /\ nonnegWeights twM /\ (forall v, 0 <= mform 6 noSigma v v) /\ coercive 6 twMass (/ 24)) /\
  nearMaxwell 6 twM 2 cvGb [] twMass twD noSigma (noSource 6) (fun t => cvS (cos t)) 1.
Proof. exact (conj swing_case swing_free). Qed.

(** The same with a source, of which the run may leave out a part of size [eta]. *)
Theorem C110_driven_run : exists C : Z -> R, forall N m dim alpha gb gi ob ib Mass MInv D MSigma sm,
  dgSpace N m dim Mass MInv D -> tables m gb gi ob ib -> massForm N Mass ->
  0 <= alpha -> passive m gb gi -> nonnegWeights m -> (forall v, 0 <= mform N MSigma v v) ->
  forall c, coercive N Mass c ->
  exists A, buildGlobalOperator R Rplus Rmult 1 (-1) (factoryRows N m dim alpha ob ib MInv D MSigma sm) dim (Z.of_nat N) 0
              (match ib with [] => false | _ => true end) = Ok A /\
  forall g used c0 c1 c2 eta f imp K w eps, smoothSource N Mass g c0 c1 c2 -> upTo N Mass eta used g ->
  drivenRates A N used f -> drivenStages A N used imp -> 0 <= K -> boundedBy A N Mass K -> nearMaxwell N m dim gb gi Mass D MSigma g w eps ->
  forall ty s tr s', (0 <= ty <= 6)%Z -> 0 < s_dt s -> s_dt s * K <= 1 / 4 -> length (s_fields s) = (6 * N)%nat -> runR (list R) (odeStep f imp ty) s tr s' ->
  Forall (fun st => size N Mass (difference (s_fields st) (w (s_time st))) <=
    size N Mass (difference (s_fields s) (w (s_time s))) + eps * (s_time st - s_time s) +
    C ty * (s_time st - s_time s) * (driveError ty K c0 c1 c2 (size N Mass (s_fields s) + c0 * (s_final s - s_time s)) (s_dt s) + eta)) tr.
Proof. exact acc_driven. Qed.
Print Assumptions C110_driven_run.
Example C110_driven_run_ex : nearMaxwell 6 twM 2 cvGb [] twMass twD noSigma (fun t => cvS (- sin t)) (fun t => cvS (cos t)) 0 /\ smoothSource 6 twMass (fun t => cvS (- sin t)) 1 1 1.
Proof. exact swing_driven. Qed.

(** C85: the matrix operator against the global operator. *)
From Coq Require Import ZArith List Bool Reals.
From Verif Require Import Common Csr_Model Csr_Spec Face_Model Face_Spec Setup_Model Setup_Spec Assembly_Model Assembly_Spec Form_Model Form_Spec Nodal_Spec NodalEnergy_Spec Global_Spec GlobalBalance_Proofs GlobalEx_Proofs Matrix_Model Matrix_Spec MatrixForm_Proofs.
Import ListNotations.
Local Open Scope R_scope.

(** On any mesh, the matrix operator returns what the global operator returns, whatever the
    output held before, except that it has no conduction: the current is missing from the
    electric components. *)
Theorem C85_same_operator_partial : forall N m dim alpha gb gi ob ib Mass MInv D MSigma sm,
  dgSpace N m dim Mass MInv D -> tables m gb gi ob ib ->
  exists A, buildGlobalOperator R Rplus Rmult 1 (-1) (factoryRows N m dim alpha ob ib MInv D MSigma sm) dim (Z.of_nat N) 0
              (match ib with [] => false | _ => true end) = Ok A /\
  forall inp out, length inp = (6 * N)%nat -> length out = (6 * N)%nat ->
  exists y g, matrixMult (factoryRows N m dim alpha ob ib MInv D MSigma sm) (Z.of_nat N) (fun _ _ => []) (match ib with [] => false | _ => true end) inp out = Ok y /\
    applies A N inp g /\ length y = (6 * N)%nat /\
    forall f d i, (0 <= f <= 1)%Z -> (0 <= d <= 2)%Z -> (i < N)%nat ->
      fld N y f d i = fld N g f d i + if (f =? 0)%Z then sumN N (fun k => mmul N (MInv 0%Z) MSigma i k * fld N inp 0 d k) else 0.
Proof. exact same_operator. Qed.
Print Assumptions C85_same_operator_partial.
Example C85_same_operator_ex : dgSpace 4 gMesh 1 gMass gMInv gD /\ tables gMesh gGb gGi gOb [] /\ length gX = (6 * 4)%nat.
Proof. exact m_hyps. Qed.

(** Without conducting materials they are the same operator. *)
Theorem C85_lossless : forall N m dim alpha gb gi ob ib Mass MInv D MSigma sm,
  dgSpace N m dim Mass MInv D -> tables m gb gi ob ib -> (forall i j, MSigma i j = 0) ->
  exists A, buildGlobalOperator R Rplus Rmult 1 (-1) (factoryRows N m dim alpha ob ib MInv D MSigma sm) dim (Z.of_nat N) 0
              (match ib with [] => false | _ => true end) = Ok A /\
  forall inp out, length inp = (6 * N)%nat -> length out = (6 * N)%nat ->
  exists y, matrixMult (factoryRows N m dim alpha ob ib MInv D MSigma sm) (Z.of_nat N) (fun _ _ => []) (match ib with [] => false | _ => true end) inp out = Ok y /\
    applies A N inp y.
Proof. exact lossless. Qed.
Print Assumptions C85_lossless.
Example C85_lossless_ex : dgSpace 4 gMesh 1 gMass gMInv gD /\ tables gMesh gGbR gGi gObR [] /\ (forall i j, noSigma i j = 0).
Proof. exact (conj g_space (conj g_tablesR (fun _ _ => eq_refl))). Qed.

(** With them they are not. *)
Theorem C85_conductivity_refuted : exists N m dim gb gi ob Mass MInv D MSigma A, dgSpace N m dim Mass MInv D /\ tables m gb gi ob [] /\ (forall v, 0 <= mform N MSigma v v) /\
  buildGlobalOperator R Rplus Rmult 1 (-1) (factoryRows N m dim 1 ob [] MInv D MSigma []) dim (Z.of_nat N) 0 false = Ok A /\
  exists x y, length x = (6 * N)%nat /\ matrixMult (factoryRows N m dim 1 ob [] MInv D MSigma []) (Z.of_nat N) (fun _ _ => []) false x x = Ok y /\ ~ applies A N x y.
Proof. exact conductivity_refuted. Qed.
Print Assumptions C85_conductivity_refuted.

(** Energy: the matrix operator exchanges power through the faces only; a conducting
    material takes none. *)
Theorem C85_energy : forall N m dim alpha gb gi ob ib Mass MInv D MSigma sm,
  dgSpace N m dim Mass MInv D -> tables m gb gi ob ib ->
  forall inp out, length inp = (6 * N)%nat -> length out = (6 * N)%nat ->
  exists y, matrixMult (factoryRows N m dim alpha ob ib MInv D MSigma sm) (Z.of_nat N) (fun _ _ => []) (match ib with [] => false | _ => true end) inp out = Ok y /\
    length y = (6 * N)%nat /\ fieldRate N Mass inp y = facesum m (pointRate N alpha m gb gi inp).
Proof. exact matrix_energy. Qed.
Print Assumptions C85_energy.

(** Several processes: the values received from the neighbours enter both operators alike. *)
Theorem C85_ranks : forall op n nb dim, (0 <= n)%Z -> (0 <= nb)%Z -> (1 <= dim <= 3)%Z -> ops_ok op n nb ->
  localDerivatives op n -> flatBeyond op dim -> swapsNormals op ->
  forall x inp out nbr ib f d i, length x = Z.to_nat (6 * (n + nb)) -> together n nb x inp nbr -> length out = Z.to_nat (6 * n) ->
  (0 <= f <= 1)%Z -> (0 <= d <= 2)%Z -> (i < Z.to_nat n)%nat ->
  exists A y v, buildGlobalOperator R Rplus Rmult 1 (-1) op dim n nb ib = Ok A /\ matrixMult op n nbr ib inp out = Ok y /\
    csr_mult_row A x ((3 * f + d) * n + Z.of_nat i) = Ok v /\
    nth (Z.to_nat ((3 * f + d) * n + Z.of_nat i)) y 0 = v + if (f =? 0)%Z then act op OpConductive i (comp n nb x 0 d) else 0.
Proof. exact matrix_ranks. Qed.
Print Assumptions C85_ranks.
Example C85_ranks_ex : ops_ok rOp 1 1 /\ localDerivatives rOp 1 /\ flatBeyond rOp 1 /\ swapsNormals rOp /\
  length rX = Z.to_nat (6 * (1 + 1)) /\ together 1 1 rX rInp rNbr.
Proof. exact m_ranks. Qed.

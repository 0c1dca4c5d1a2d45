(** Property theorems C108. *)
From Coq Require Import ZArith List Reals Permutation.
From Verif Require Import Common Csr_Model Face_Model Setup_Model Assembly_Model Form_Model Global_Spec GlobalEx_Proofs Partition_Model Partition_Spec Par_Model Par_Spec ParMult_Proofs ParEx_Proofs.
Import ListNotations.
Local Open Scope R_scope.

(** C108.  For every mesh, boundary conditions, penalty and number of processes among which the mesh
    is cut along untagged faces: every process assembles its operator, and one evaluation on all of
    them, whatever its scratch vectors hold, gives each process its part of what the operator of a
    run on one process gives. *)
Theorem C108_parallel_evaluation_partial :
  forall N m dim alpha gb gi ob ib MInv D MSigma sm owns rks,
  goodMesh N m dim -> tables m gb gi ob ib -> distributed N m dim MInv D MSigma owns rks ->
  forall junk : nat -> list R, (forall n, length (junk n) = n) ->
  exists A Ps,
    buildGlobalOperator R Rplus Rmult 1 (-1) (factoryRows N m dim alpha ob ib MInv D MSigma sm) dim (Z.of_nat N) 0
      (match ib with [] => false | _ => true end) = Ok A /\
    mapM (rankOperator dim alpha ob ib sm) rks = Ok Ps /\
    forall x, length x = (6 * N)%nat -> exists y, applies A N x y /\
      forall works, length works = length rks -> allMult junk rks Ps works (spread N owns x) = Ok (spread N owns y).
Proof. exact all_ok. Qed.
Print Assumptions C108_parallel_evaluation_partial.

(** C108.  The same for runs: any number of Runge-Kutta steps of any sizes. *)
Theorem C108_parallel_run_partial :
  forall N m dim alpha gb gi ob ib MInv D MSigma sm owns rks,
  goodMesh N m dim -> tables m gb gi ob ib -> distributed N m dim MInv D MSigma owns rks ->
  forall junk : nat -> list R, (forall n, length (junk n) = n) ->
  exists A Ps,
    buildGlobalOperator R Rplus Rmult 1 (-1) (factoryRows N m dim alpha ob ib MInv D MSigma sm) dim (Z.of_nat N) 0
      (match ib with [] => false | _ => true end) = Ok A /\
    mapM (rankOperator dim alpha ob ib sm) rks = Ok Ps /\
    (exists F, forall x, length x = (6 * N)%nat -> applies A N x (F x)) /\
    forall F works x t dts, (forall x, length x = (6 * N)%nat -> applies A N x (F x)) -> length x = (6 * N)%nat ->
      (forall s k, length (works s k) = length rks) ->
      allSteps junk rks Ps works (spread N owns x) dts = Ok (spread N owns (rkRun F x t dts)).
Proof. exact run_ok. Qed.
Print Assumptions C108_parallel_run_partial.

(** C108.  The parts held by the processes determine the whole state. *)
Theorem C108_parts_determine :
  forall N owns x y, Permutation (concat owns) (seq 0 N) -> length x = (6 * N)%nat -> length y = (6 * N)%nat ->
  spread N owns x = spread N owns y -> x = y.
Proof. exact spread_inj. Qed.
Print Assumptions C108_parts_determine.

Example C108_ex : goodMesh 4 hMesh 1 /\ tables hMesh gGb gGi gOb [] /\ distributed 4 hMesh 1 gMInv gD (gMass 0%Z) hOwns hRanks.
Proof. exact (conj h_good (conj h_tables h_distributed)). Qed.

(** C108, finding: the adjustment of the partition keeps only the faces of sources and thin layers
    on one process, so a face tagged with another condition can be cut. *)
Theorem C108_tagged_face_cut_refuted :
  ~ (forall NE P mesh part tf sg part', (0 <= NE)%Z -> length part = Z.to_nat NE ->
     (forall t a b, In (mkBdr t (Some (a, b))) mesh -> (0 <= a < NE)%Z /\ (0 <= b < NE)%Z) ->
     applyPairwiseConstraintsPartitioning (fun m => m) (fun l => l) NE P true mesh part tf sg = Ok part' ->
     forall t a b, In (mkBdr t (Some (a, b))) mesh -> rank_of part' a = rank_of part' b).
Proof. exact tag_cut. Qed.
Print Assumptions C108_tagged_face_cut_refuted.

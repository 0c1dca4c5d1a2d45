(** Model of a run on several processes with total-field sources: the source operator each process
    assembles (src/components/DGOperatorFactory.h 1404-1425) and the source term each process
    subtracts (src/evolution/GlobalEvolution.cpp 551-626).

    What MFEM does with the mesh is as in Par_Model.  The value of the incident field at the dofs of
    the surface is an input here (it is modelled in Source_Model). *)
From Coq Require Import ZArith List Bool Reals.
From Verif Require Import Common Csr_Model Face_Model Setup_Model Assembly_Model Form_Model Evol_Model Ode_Model Par_Model.
Import ListNotations.
Local Open Scope R_scope.

(** res->Finalize(): the rows of a matrix filled entry by entry, columns in order.
    DGOperatorFactory.h 1423. *)
Definition finalized (rows cols : nat) (T : lil R) : matrix :=
  map (fun r => flat_map (fun c => match T (Z.of_nat r) (Z.of_nat c) with Some v => [(Z.of_nat c, v)] | None => [] end) (seq 0 cols)) (seq 0 rows).
(** buildSourceFaceOperator on one process, DGOperatorFactory.h 1404-1425. *)
Definition rankSource (dim : Z) (alpha : R) (ob ib : list (cond * marker)) (sm : marker) (rk : prank) : matrix :=
  finalized (6 * pr_n rk) (6 * pwidth rk)
    (buildSourceFaceOperator R Rplus Rmult 1 (-1) (pfactoryRows dim alpha ob ib sm rk) dim (Z.of_nat (pr_n rk)) (Z.of_nat (length (pr_nbr rk)))).

(** What one process knows about the sources: whether it has a space for them
    (srcmngr_.getGlobalTFSFSpace()), the dofs of that space (tfsf_sub_to_parent_ids_) and the incident
    field there at a time.  Used in [addSource], GlobalEvolution.cpp 551-626. *)
Record psource := mkPS { ps_on : bool; ps_sub : list Z; ps_src : R -> list (list R) }.
(** applyTFSFSourceToVector on one process, GlobalEvolution.cpp 551-626.  The scratch vector is zero:
    Mult clears it before the call (GlobalEvolution.cpp 812-830) and each call clears it at its end. *)
Definition addSource (t : R) (rk : prank) (T : matrix) (s : psource) (y : list R) : res (list R) :=
  p <- applyTFSF (pr_n rk) (length (pr_nbr rk)) (Some T) (ps_on s) (ps_sub s) (ps_src s) t (zeros (6 * (pr_n rk + length (pr_nbr rk)))) y ;; Ok (snd p).
(** Mult on all the processes, GlobalEvolution.cpp 628-830: the source term uses no data of other
    processes, so it can follow the products of all. *)
Definition allMultS (junk : nat -> list R) (rks : list prank) (Ps : list (csr R)) (Ts : list matrix) (ss : list psource) (t : R) (works X : list (list R)) : res (list (list R)) :=
  Y <- allMult junk rks Ps works X ;;
  mapM (fun q => addSource t (fst (fst (fst q))) (snd (fst (fst q))) (snd (fst q)) (snd q)) (combine (combine (combine rks Ts) ss) Y).
(** mfem::RK4Solver::Step on all the processes; chosen at Solver.cpp 45-47. *)
Definition allStepS (junk : nat -> list R) (rks : list prank) (Ps : list (csr R)) (Ts : list matrix) (ss : list psource) (works : nat -> list (list R)) (X : list (list R)) (t dt : R) : res (list (list R)) :=
  K <- allMultS junk rks Ps Ts ss t (works 0%nat) X ;;
  let Y := addAll (dt / 2) K X in let Z := addAll (dt / 6) K X in
  K <- allMultS junk rks Ps Ts ss (t + dt / 2) (works 1%nat) Y ;;
  let Y := addAll (dt / 2) K X in let Z := addAll (dt / 3) K Z in
  K <- allMultS junk rks Ps Ts ss (t + dt / 2) (works 2%nat) Y ;;
  let Y := addAll dt K X in let Z := addAll (dt / 3) K Z in
  K <- allMultS junk rks Ps Ts ss (t + dt) (works 3%nat) Y ;; Ok (addAll (dt / 6) K Z).
(** A run of steps, Solver.cpp 483-551. *)
Fixpoint allStepsS (junk : nat -> list R) (rks : list prank) (Ps : list (csr R)) (Ts : list matrix) (ss : list psource) (works : nat -> nat -> list (list R)) (X : list (list R)) (t : R) (dts : list R) : res (list (list R)) :=
  match dts with
  | [] => Ok X
  | dt :: l => Y <- allStepS junk rks Ps Ts ss (works (length l)) X t dt ;; allStepsS junk rks Ps Ts ss works Y (t + dt) l
  end.
(** Mult of a run on one process, GlobalEvolution.cpp 628-830: the product, then the source term. *)
Definition oneSource (N : nat) (T : matrix) (sub : list Z) (src : R -> list (list R)) (t : R) (y : list R) : res (list R) :=
  p <- applyTFSF N 0 (Some T) true sub src t (zeros (6 * N)) y ;; Ok (snd p).

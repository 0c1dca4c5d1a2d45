(** Model of a run on several processes with thin layers: the layer operator each process assembles
    (src/components/DGOperatorFactory.h 1363-1425), the layer term each process adds
    (src/evolution/GlobalEvolution.cpp 645-751 and 831-995) and the steps of the run with their commits
    and finalisations (src/solver/Solver.cpp 535-551).

    What MFEM does with the mesh is as in Par_Model, the sources are those of ParSrc_Model and a thin
    layer is as in Evol_Model. *)
From Coq Require Import ZArith List Bool Reals.
From Verif Require Import Common Csr_Model Face_Model Setup_Model Assembly_Model Form_Model Evol_Model Ode_Model Par_Model ParSrc_Model.
Import ListNotations.
Local Open Scope R_scope.

(** What one process holds for its layers: number of dofs and of neighbour dofs, SGBCOperator_,
    sgbc_elem1_dofs_ and sgbc_elem2_dofs_.  Used in [addLayers], GlobalEvolution.cpp 831-995. *)
Record lrank := mkLR { lr_n : nat; lr_g : nat; lr_M : matrix; lr_e1 : list Z; lr_e2 : list Z }.
(** buildSGBCGlobalOperator on one process: the source operator for the faces of the layers,
    DGOperatorFactory.h 1363-1367. *)
Definition rankLayers (dim : Z) (alpha : R) (ob ib : list (cond * marker)) (lm : marker) (rk : prank) (els : list Z * list Z) : lrank :=
  mkLR (pr_n rk) (length (pr_nbr rk)) (rankSource dim alpha ob ib lm rk) (fst els) (snd els).

(** Steps 1 and 6 of Mult on one process: the layers at the time [t] and the term they add to [y],
    GlobalEvolution.cpp 645-751 and 831-995.  The scratch vector is zero: the steps before clear it
    (GlobalEvolution.cpp 812-830).  No data of other processes is used. *)
Definition addLayers (inv : list (list R) -> list R -> list R) (L : lrank) (e : evol) (t : R) (x y : list R) : res (list R * evol) :=
  p <- multSub inv (lr_n L) (Some (lr_M L)) e t x ;;
  let e' := mkEvol (e_work e) (fst p) (e_cp e) (e_base e) (e_dt e) (e_cache e) in
  match fst p with
  | [] => Ok (y, e')
  | _ => if (snd p : bool) then Ok (y, e')
         else q <- sgbcFlux (lr_n L) (lr_g L) (lr_e1 L) (lr_e2 L) (lr_M L) (fst p) x (zeros (6 * (lr_n L + lr_g L))) y ;; Ok (snd q, e')
  end.
(** Mult on all the processes, GlobalEvolution.cpp 628-1001. *)
Definition allLayers (inv : list (list R) -> list R -> list R) (Ls : list lrank) (Es : list evol) (t : R) (X Y : list (list R)) : res (list (list R) * list evol) :=
  l <- mapM (fun q => addLayers inv (fst (fst q)) (snd (fst q)) t (fst (snd q)) (snd (snd q))) (combine (combine Ls Es) (combine X Y)) ;;
  Ok (map fst l, map snd l).
(** commitSGBCCheckpoint on all the processes, GlobalEvolution.cpp 399-433. *)
Definition allCommit (Ls : list lrank) (Es : list evol) (t dt : R) (X : list (list R)) : res (list evol) :=
  mapM (fun q => commit (lr_n (fst (fst q))) (snd (fst q)) t dt (snd q)) (combine (combine Ls Es) X).
(** finalizeSGBCStep on all the processes, GlobalEvolution.cpp 435-549. *)
Definition allFinalize (inv : list (list R) -> list R -> list R) (Ls : list lrank) (Es : list evol) (X : list (list R)) : res (list evol) :=
  mapM (fun q => finalize inv (lr_n (fst (fst q))) (snd (fst q)) (snd q)) (combine (combine Ls Es) X).

Section Steps.
Variables V S : Type.
(** Evaluation number [k] of the step with [l] steps to come, the vector update, commit and finalize.
    Used in [layerStep], Solver.cpp 535-551. *)
Variable mul : nat -> nat -> S -> R -> V -> res (V * S).
Variable add : R -> V -> V -> V.
Variable com : S -> R -> R -> V -> res S.
Variable fin : S -> V -> res S.
(** mfem::RK4Solver::Step with an operator that has a state; chosen at Solver.cpp 45-47. *)
Definition rk4Layers (l : nat) (s : S) (x : V) (t dt : R) : res (V * S) :=
  p <- mul l 0%nat s t x ;;
  let y := add (dt / 2) (fst p) x in let z := add (dt / 6) (fst p) x in
  p <- mul l 1%nat (snd p) (t + dt / 2) y ;;
  let y := add (dt / 2) (fst p) x in let z := add (dt / 3) (fst p) z in
  p <- mul l 2%nat (snd p) (t + dt / 2) y ;;
  let y := add dt (fst p) x in let z := add (dt / 3) (fst p) z in
  p <- mul l 3%nat (snd p) (t + dt) y ;; Ok (add (dt / 6) (fst p) z, snd p).
(** Solver::step with layers, Solver.cpp 535-551: commit, the step, finalize. *)
Definition layerStep (l : nat) (s : S) (x : V) (t dt : R) : res (V * S) :=
  s <- com s t dt x ;; p <- rk4Layers l s x t dt ;; s <- fin (snd p) (fst p) ;; Ok (fst p, s).
(** A run of steps, Solver.cpp 483-551. *)
Fixpoint layerSteps (s : S) (x : V) (t : R) (dts : list R) : res (V * S) :=
  match dts with
  | [] => Ok (x, s)
  | dt :: l => p <- layerStep (length l) s x t dt ;; layerSteps (snd p) (fst p) (t + dt) l
  end.
End Steps.

(** The run on several processes, Solver.cpp 483-551 and GlobalEvolution.cpp 399-1001. *)
Definition allRun (inv : list (list R) -> list R -> list R) (junk : nat -> list R) (rks : list prank) (Ps : list (csr R)) (Ts : list matrix) (ss : list psource)
    (Ls : list lrank) (works : nat -> nat -> list (list R)) (Es : list evol) (X : list (list R)) (t : R) (dts : list R) : res (list (list R) * list evol) :=
  layerSteps (list (list R)) (list evol)
    (fun l k Es t X => Y <- allMultS junk rks Ps Ts ss t (works l k) X ;; allLayers inv Ls Es t X Y)
    addAll (allCommit Ls) (allFinalize inv Ls) Es X t dts.
(** The run on one process; [F] is its right-hand side before the layers are added (the product and the
    source term).  Solver.cpp 483-551 and GlobalEvolution.cpp 399-1001. *)
Definition oneRun (inv : list (list R) -> list R -> list R) (F : R -> list R -> list R) (L : lrank) (e : evol) (x : list R) (t : R) (dts : list R) : res (list R * evol) :=
  layerSteps (list R) evol (fun _ _ e t x => addLayers inv L e t x (F t x)) addv (commit (lr_n L)) (finalize inv (lr_n L)) e x t dts.

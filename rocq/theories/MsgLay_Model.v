(** Model of the exchanges of a run on several processes with thin layers: commit and finalize around
    each step (src/solver/Solver.cpp 535-551) and the layer term at the end of each evaluation
    (src/evolution/GlobalEvolution.cpp 645-751, 831-995) need no exchange. *)
From Coq Require Import ZArith List Reals.
From Verif Require Import Common Csr_Model Evol_Model Ode_Model Par_Model ParSrc_Model ParLay_Model Msg_Model MsgSrc_Model.
Import ListNotations.
Local Open Scope R_scope.

(** Mult on one process with sources and layers, GlobalEvolution.cpp 628-1001.  Simplified: the layers
    are advanced after the exchange; the code does it before (645-751), and the exchange uses nothing of
    theirs. *)
Definition rateL (inv : list (list R) -> list R -> list R) (junk : nat -> list R) (rk : prank) (P : csr R) (T : matrix) (s : psource) (L : lrank) (t : R) (work : list R) (e : evol) (x : list R) (k : list R -> evol -> act) : act :=
  rateS junk rk P T s t work x (fun y => match addLayers inv L e t x y with Ok (z, e) => k z e | _ => Fail end).
(** Solver::step on one process with layers, Solver.cpp 535-551: commitSGBCCheckpoint, the stages of
    mfem::RK4Solver, finalizeSGBCStep. *)
Definition rkStepL (inv : list (list R) -> list R -> list R) (junk : nat -> list R) (rk : prank) (P : csr R) (T : matrix) (s : psource) (L : lrank) (work : nat -> list R) (e : evol) (x : list R) (t dt : R) (k : list R -> evol -> act) : act :=
  match commit (lr_n L) e t dt x with
  | Ok e =>
    rateL inv junk rk P T s L t (work 0%nat) e x (fun k1 e =>
      let y := addv (dt / 2) k1 x in let z := addv (dt / 6) k1 x in
    rateL inv junk rk P T s L (t + dt / 2) (work 1%nat) e y (fun k2 e =>
      let y := addv (dt / 2) k2 x in let z := addv (dt / 3) k2 z in
    rateL inv junk rk P T s L (t + dt / 2) (work 2%nat) e y (fun k3 e =>
      let y := addv dt k3 x in let z := addv (dt / 3) k3 z in
    rateL inv junk rk P T s L (t + dt) (work 3%nat) e y (fun k4 e =>
      let z := addv (dt / 6) k4 z in
      match finalize inv (lr_n L) e z with Ok e => k z e | _ => Fail end))))
  | _ => Fail
  end.
(** The fields inside the layers of a process, SolverExtension.cpp 200-331. *)
Definition inside (e : evol) : list R := flat_map s_fs (flat_map g_states (e_groups e)).
(** The run of one process; it ends with its fields, followed by those inside its layers.
    Solver.cpp 483-551. *)
Fixpoint rkProgramL (inv : list (list R) -> list R -> list R) (junk : nat -> list R) (rk : prank) (P : csr R) (T : matrix) (s : psource) (L : lrank) (work : nat -> nat -> list R) (e : evol) (x : list R) (t : R) (dts : list R) : act :=
  match dts with
  | [] => Done (x ++ inside e)
  | dt :: l => rkStepL inv junk rk P T s L (work (length l)) e x t dt (fun y e => rkProgramL inv junk rk P T s L work e y (t + dt) l)
  end.

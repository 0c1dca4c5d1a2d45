(** Model of the exchanges of a run on several processes with total-field sources: each evaluation ends
    with the source term (src/evolution/GlobalEvolution.cpp 628-830, 551-626), which needs no exchange. *)
From Coq Require Import ZArith List Reals.
From Verif Require Import Common Csr_Model Evol_Model Ode_Model Par_Model ParSrc_Model Msg_Model.
Import ListNotations.
Local Open Scope R_scope.

(** Mult on one process with sources, GlobalEvolution.cpp 759-830. *)
Definition rateS (junk : nat -> list R) (rk : prank) (P : csr R) (T : matrix) (s : psource) (t : R) (work x : list R) (k : list R -> act) : act :=
  rate junk rk P work x (fun y => match addSource t rk T s y with Ok z => k z | _ => Fail end).
(** mfem::RK4Solver::Step on one process; chosen at Solver.cpp 45-47. *)
Definition rkStepS (junk : nat -> list R) (rk : prank) (P : csr R) (T : matrix) (s : psource) (work : nat -> list R) (x : list R) (t dt : R) (k : list R -> act) : act :=
  rateS junk rk P T s t (work 0%nat) x (fun k1 =>
    let y := addv (dt / 2) k1 x in let z := addv (dt / 6) k1 x in
  rateS junk rk P T s (t + dt / 2) (work 1%nat) y (fun k2 =>
    let y := addv (dt / 2) k2 x in let z := addv (dt / 3) k2 z in
  rateS junk rk P T s (t + dt / 2) (work 2%nat) y (fun k3 =>
    let y := addv dt k3 x in let z := addv (dt / 3) k3 z in
  rateS junk rk P T s (t + dt) (work 3%nat) y (fun k4 => k (addv (dt / 6) k4 z))))).
(** The run of one process, Solver.cpp 483-551. *)
Fixpoint rkProgramS (junk : nat -> list R) (rk : prank) (P : csr R) (T : matrix) (s : psource) (work : nat -> nat -> list R) (x : list R) (t : R) (dts : list R) : act :=
  match dts with
  | [] => Done x
  | dt :: l => rkStepS junk rk P T s (work (length l)) x t dt (fun y => rkProgramS junk rk P T s work y (t + dt) l)
  end.

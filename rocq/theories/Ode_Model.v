(** The time integrators of a run.  Solver::assignODESolver (src/solver/Solver.cpp 41-77) picks one
    of seven integrators of mfem by the option ode_type (SolverOptions.h 8-18), and Solver::step
    (Solver.cpp 535-551) calls its Step.  The bodies are those of mfem's linalg/ode.cpp, an external
    library; they are transcribed here and are part of the trusted base.  Numbers are reals. *)
From Coq Require Import ZArith List Bool Reals.
From Verif Require Import Common.
Import ListNotations.
Local Open Scope R_scope.

(** mfem::add(x, a, k, y) and x.Add(a, k): x + a k.  Used by every integrator of Solver.cpp 41-77. *)
Definition addv (a : R) (k x : list R) : list R := map (fun p => fst p + a * snd p) (combine x k).

Section Integrators.
(** Mult of the evolution operator at a time (MaxwellEvolution.cpp 270-371, GlobalEvolution.cpp
    628-1001).  Used by odeSolver_->Step, Solver.cpp 535-551. *)
Variable f : R -> list R -> list R.
(** ImplicitSolve at a time, with a step (GlobalEvolution.cpp 1090-1233).  Used by
    odeSolver_->Step, Solver.cpp 535-551. *)
Variable imp : R -> R -> list R -> list R.

(** mfem::RK4Solver::Step; chosen at Solver.cpp 45-47. *)
Definition rk4Step (x : list R) (t dt : R) : list R :=
  let k := f t x in let y := addv (dt / 2) k x in let z := addv (dt / 6) k x in
  let k := f (t + dt / 2) y in let y := addv (dt / 2) k x in let z := addv (dt / 3) k z in
  let k := f (t + dt / 2) y in let y := addv dt k x in let z := addv (dt / 3) k z in
  let k := f (t + dt) y in addv (dt / 6) k z.
(** mfem::BackwardEulerSolver::Step; chosen at Solver.cpp 49-51. *)
Definition backwardEulerStep (x : list R) (t dt : R) : list R :=
  let k := imp (t + dt) dt x in addv dt k x.
(** mfem::TrapezoidalRuleSolver::Step; chosen at Solver.cpp 53-55. *)
Definition trapezoidalStep (x : list R) (t dt : R) : list R :=
  let k := f t x in let y := addv (dt / 2) k x in let x := addv (dt / 2) k x in
  let k := imp (t + dt) (dt / 2) y in addv (dt / 2) k x.
(** mfem::ImplicitMidpointSolver::Step; chosen at Solver.cpp 57-59. *)
Definition implicitMidpointStep (x : list R) (t dt : R) : list R :=
  let k := imp (t + dt / 2) (dt / 2) x in addv dt k x.
(** The constants of mfem::SDIRK33Solver::Step: the binary64 numbers the decimal literals
    0.435866521508458999416019, 1.20849664917601007033648 and 0.717933260754229499708010 stand for.
    Chosen at Solver.cpp 61-63. *)
Definition a33 : R := 7851873215395081 / 18014398509481984.
(** Solver.cpp 61-63. *)
Definition b33 : R := 1360646264726893 / 1125899906842624.
(** Solver.cpp 61-63. *)
Definition c33 : R := 3233283965609633 / 4503599627370496.
(** mfem::SDIRK33Solver::Step; chosen at Solver.cpp 61-63. *)
Definition sdirk33Step (x : list R) (t dt : R) : list R :=
  let k := imp (t + a33 * dt) (a33 * dt) x in
  let y := addv ((c33 - a33) * dt) k x in let x := addv (b33 * dt) k x in
  let k := imp (t + c33 * dt) (a33 * dt) y in let x := addv ((1 - a33 - b33) * dt) k x in
  let k := imp (t + dt) (a33 * dt) x in addv (a33 * dt) k x.
(** The constant of mfem::SDIRK23Solver for gamma_opt = 2, the value passed at Solver.cpp 66. *)
Definition gamma23 : R := (2 - sqrt 2) / 2.
(** mfem::SDIRK23Solver::Step; chosen at Solver.cpp 65-67. *)
Definition sdirk23Step (x : list R) (t dt : R) : list R :=
  let k := imp (t + gamma23 * dt) (gamma23 * dt) x in
  let y := addv ((1 - 2 * gamma23) * dt) k x in let x := addv (dt / 2) k x in
  let k := imp (t + (1 - gamma23) * dt) (gamma23 * dt) y in addv (dt / 2) k x.
(** The constants of mfem::SDIRK34Solver::Step; chosen at Solver.cpp 69-71. *)
Definition a34 : R := 1 / sqrt 3 * cos (PI / 18) + / 2.
(** Solver.cpp 69-71. *)
Definition b34 : R := 1 / (6 * (2 * a34 - 1) * (2 * a34 - 1)).
(** mfem::SDIRK34Solver::Step; chosen at Solver.cpp 69-71. *)
Definition sdirk34Step (x : list R) (t dt : R) : list R :=
  let k := imp (t + a34 * dt) (a34 * dt) x in
  let y := addv ((/ 2 - a34) * dt) k x in let z := addv (2 * a34 * dt) k x in let x := addv (b34 * dt) k x in
  let k := imp (t + dt / 2) (a34 * dt) y in
  let z := addv ((1 - 4 * a34) * dt) k z in let x := addv ((1 - 2 * b34) * dt) k x in
  let k := imp (t + (1 - a34) * dt) (a34 * dt) z in addv (b34 * dt) k x.

(** odeSolver_->Step(fields, time, dt) for the integrator picked by Solver::assignODESolver,
    Solver.cpp 41-77; for other numbers assignODESolver throws and there is no step. *)
Definition odeStep (type : Z) (x : list R) (t dt : R) : list R :=
  if (type =? 0)%Z then rk4Step x t dt
  else if (type =? 1)%Z then backwardEulerStep x t dt
  else if (type =? 2)%Z then trapezoidalStep x t dt
  else if (type =? 3)%Z then implicitMidpointStep x t dt
  else if (type =? 4)%Z then sdirk33Step x t dt
  else if (type =? 5)%Z then sdirk23Step x t dt
  else if (type =? 6)%Z then sdirk34Step x t dt
  else x.
End Integrators.

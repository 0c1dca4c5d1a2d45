(** Model of the time loop, src/solver/Solver.cpp: option check 151-163,
    constructor time-step choice 102-115, run 483-533, step 535-551. *)
From Coq Require Import ZArith List Bool Reals.
From Flocq Require Import Core.Core IEEE754.BinarySingleNaN.
From Verif Require Import Common.
Import ListNotations.

(** The [while] loop of Solver::run (500-501) over any state: [runs s tr s'] when
    the loop started in [s] stops in [s'] after passing through the states [tr]
    (the state after each iteration).  A loop that does not stop has no
    derivation.  The stability check and the progress print (503-530) do not
    change the state and are not modelled. *)
Section Loop.
Variable T : Type.
Variable guard : T -> bool.
Variable body : T -> T.
(** Solver.cpp 500-501. *)
Inductive runs : T -> list T -> T -> Prop :=
| runs_stop : forall s, guard s = false -> runs s [] s
| runs_step : forall s tr s', guard s = true -> runs (body s) tr s' -> runs s (body s :: tr) s'.
(** Solver.cpp 500-501. *)
Definition terminates (s : T) : Prop := exists tr s', runs s tr s'.
End Loop.

(** ** Exact arithmetic *)
Section Exact.
Local Open Scope R_scope.
Variable X : Type.                    (* all degrees of freedom *)
(** odeSolver_->Step(x, t, dt), mfem: advances the fields and sets t += dt.
    The new fields are an arbitrary function. *)
Variable ode : X -> R -> R -> X.

(** Data members time_, dt_, opts_.final_time, fields_ (Solver.h 73-83) and the
    calls made so far to ProbesManager::updateProbes, with the fields they see. *)
Record solver := mkSolver {
  s_time : R;
  s_dt : R;
  s_final : R;
  s_fields : X;
  s_calls : list (R * X)
}.

(** The loop guard, Solver.cpp 500. *)
Definition guardR (s : solver) : bool :=
  if Rle_dec (s_time s) (s_final s - / 100000000 * s_dt s) then true else false.

(** Solver::step, Solver.cpp 535-551.  The thin-layer checkpoint and finalise calls are part
    of [ode] here; they are modelled on their own elsewhere. *)
Definition truedt (s : solver) : R := Rmin (s_dt s) (s_final s - s_time s).
(** Solver.cpp 535-551. *)
Definition stepR (s : solver) : solver :=
  let x' := ode (s_fields s) (s_time s) (truedt s) in
  let t' := s_time s + truedt s in
  mkSolver t' (s_dt s) (s_final s) x' (s_calls s ++ [(t', x')]).

(** Options read by checkOptionsAreValid, SolverOptions.h 21-29. *)
Record options := mkOptions {
  o_order : Z;
  o_time_step : R;
  o_final_time : R;
  o_cfl : R
}.

(** checkOptionsAreValid, Solver.cpp 151-163; [Throw] is the exception. *)
Definition checkOptionsAreValid (o : options) : res unit :=
  if (o_order o <? 0)%Z then Throw
  else if Rlt_dec (o_final_time o) 0 then Throw
  else if Rle_dec (o_cfl o) 0 then Throw
  else Ok tt.

(** Constructor, Solver.cpp 79-127: only rank 0 checks the options (98-100); the time step
    is the option unless it is zero, then the estimate (109-114), an arbitrary
    function of the options; then one probe call at time 0 (127). *)
Variable estimate : options -> R.
(** Solver.cpp 79-127. *)
Definition construct (comm_rank : Z) (o : options) (x0 : X) : res solver :=
  _ <- (if (comm_rank =? 0)%Z then checkOptionsAreValid o else Ok tt) ;;
  let dt := if Req_EM_T (o_time_step o) 0 then estimate o else o_time_step o in
  Ok (mkSolver 0 dt (o_final_time o) x0 [(0, x0)]).

(** Setters, Solver.h 46, 62-64, 66-69. *)
Definition setTime (t : R) (s : solver) : solver :=
  mkSolver t (s_dt s) (s_final s) (s_fields s) (s_calls s).
(** Solver.h 62-64. *)
Definition setFinalTime (t : R) (s : solver) : solver :=
  mkSolver (s_time s) (s_dt s) t (s_fields s) (s_calls s).
(** Solver.h 66-69. *)
Definition setTimeStep (d : R) (s : solver) : solver :=
  mkSolver (s_time s) d (s_final s) (s_fields s) (s_calls s).

(** Solver.cpp 483-533. *)
Definition runR := runs solver guardR stepR.
End Exact.
Arguments s_time {X}.
Arguments s_dt {X}.
Arguments s_final {X}.
Arguments s_fields {X}.
Arguments s_calls {X}.
Arguments guardR {X}.
Arguments truedt {X}.
Arguments mkSolver {X}.

(** ** IEEE binary64, round to nearest even *)
Section Ieee.
Let Hprec : FLX.Prec_gt_0 53 := eq_refl _.
Let Hmax : Prec_lt_emax 53 1024 := eq_refl _.
(** Solver.cpp 500 and 537-538. *)
Definition double := binary_float 53 1024.

(** Solver.cpp 500 and 537-538. *)
Definition dadd (x y : double) : double := @Bplus 53 1024 Hprec Hmax mode_NE x y.
(** Solver.cpp 500 and 537-538. *)
Definition dsub (x y : double) : double := @Bminus 53 1024 Hprec Hmax mode_NE x y.
(** Solver.cpp 500 and 537-538. *)
Definition dmul (x y : double) : double := @Bmult 53 1024 Hprec Hmax mode_NE x y.

(** C++ comparisons: false on NaN. Solver.cpp 500 and 537-538. *)
Definition dlt (x y : double) : bool :=
  match Bcompare x y with Some Lt => true | _ => false end.
(** Solver.cpp 500 and 537-538. *)
Definition dle (x y : double) : bool :=
  match Bcompare x y with Some Lt => true | Some Eq => true | _ => false end.

(** The literal 1e-8: 6044629098073146 * 2^-79. Solver.cpp 500 and 537-538. *)
Definition d1em8 : double := @B754_finite 53 1024 false 6044629098073146 (-79) (eq_refl _).
(** Solver.cpp 500 and 537-538. *)
Definition dzero : double := @B754_zero 53 1024 false.

(** State: time_, with dt_ and opts_.final_time fixed during the run.
    Guard 500; step 537 with std::min(a, b) = (b < a) ? b : a; the ODE solver's
    [t += dt] (mfem). Solver.cpp 500. *)
Definition guardF (final dt t : double) : bool := dle t (dsub final (dmul d1em8 dt)).
(** Solver.cpp 537. *)
Definition remF (final t : double) : double := dsub final t.
(** Solver.cpp 537. *)
Definition shortened (final dt t : double) : bool := dlt (remF final t) dt.
(** Solver.cpp 537. *)
Definition truedtF (final dt t : double) : double :=
  if shortened final dt t then remF final t else dt.
(** Solver.cpp 535-551. *)
Definition stepF (final dt t : double) : double := dadd t (truedtF final dt t).

(** Solver.cpp 483-533. *)
Definition runF (final dt : double) := runs double (guardF final dt) (stepF final dt).
(** Solver.cpp 483-533. *)
Definition terminatesF (final dt : double) := terminates double (guardF final dt) (stepF final dt).
End Ieee.

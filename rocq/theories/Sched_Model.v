(** Model of the OpenMP loops over thin-layer states (GlobalEvolution.cpp 491-523
    and 690-726) as a small-step system: threads with their own solver copies take
    tasks in any order and interleave at sub-step granularity. *)
From Coq Require Import ZArith List Bool Reals.
From Verif Require Import Common Evol_Model.
Import ListNotations.
Local Open Scope Z_scope.

(** A task of sgbc_tasks_ (constructor GlobalEvolution.cpp 249-254): its tag, whether the sub-solve is
    skipped (699-703: negligible fields; never in finalize) and how its ghosts are
    filled. *)
Record job := mkJob { j_tag : nat; j_skip : bool; j_gh : R -> Z -> list R -> res (list R) }.

Section Sched.
Variable inv : list (list R) -> list R -> list R.
(** One wrapper per tag; the clones share its immutable part (constructor 266-272,
    SolverExtension.cpp 155-158; true of wrappers made by buildSGBCWrapper). *)
Variable W : nat -> wrapper.
Variable jobs : list job.
Variables base dt : R.

(** A thread between tasks, or in task [ti] after [k] sub-steps.
    GlobalEvolution.cpp 491-523 and 690-726. *)
Inductive pc := Idle | Run (ti : nat) (k : Z).
(** Its own mutable solver per tag (sgbc_wrapper_map_ for thread 0,
    sgbc_thread_pool_ for the others). GlobalEvolution.cpp 491-523 and 690-726. *)
Record thread := mkT { t_pc : pc; t_dyn : nat -> wdyn }.
(** GlobalEvolution.cpp 491-523 and 690-726. *)
Definition setDyn (f : nat -> wdyn) (tag : nat) (d : wdyn) : nat -> wdyn := fun x => if Nat.eqb x tag then d else f x.

(** Tasks not yet taken, threads, and the shared array of states.
    GlobalEvolution.cpp 491-523 and 690-726. *)
Record config := mkC { c_left : list nat; c_thr : list thread; c_mem : list sstate }.

(** GlobalEvolution.cpp 491-523 and 690-726. *)
Inductive step : config -> config -> Prop :=
(* take a task that is skipped *)
| step_skip : forall l1 ti l2 thr mem tid th j,
    nth_error thr tid = Some th -> t_pc th = Idle -> nth_error jobs ti = Some j -> j_skip j = true ->
    step (mkC (l1 ++ ti :: l2) thr mem) (mkC (l1 ++ l2) thr mem)
(* take a task and load its state *)
| step_take : forall l1 ti l2 thr mem tid th j s,
    nth_error thr tid = Some th -> t_pc th = Idle -> nth_error jobs ti = Some j -> j_skip j = false -> nth_error mem ti = Some s ->
    step (mkC (l1 ++ ti :: l2) thr mem)
         (mkC (l1 ++ l2) (upd thr tid (mkT (Run ti 0) (setDyn (t_dyn th) (j_tag j) (set_all (t_dyn th (j_tag j)) (s_fs s))))) mem)
(* one sub-step *)
| step_sub : forall left thr mem tid th j ti k m all d,
    nth_error thr tid = Some th -> t_pc th = Run ti k -> nth_error jobs ti = Some j ->
    nsteps (w_rec (W (j_tag j))) dt = Ok m -> k < m ->
    j_gh j ((IZR k + 1) / IZR m)%R k (d_all (t_dyn th (j_tag j))) = Ok all ->
    solve inv (W (j_tag j)) (base + IZR k * (dt / IZR m))%R (dt / IZR m)%R (set_all (t_dyn th (j_tag j)) all) = Ok d ->
    step (mkC left thr mem) (mkC left (upd thr tid (mkT (Run ti (k + 1)) (setDyn (t_dyn th) (j_tag j) d))) mem)
(* save the state *)
| step_save : forall left thr mem tid th j ti m s,
    nth_error thr tid = Some th -> t_pc th = Run ti m -> nth_error jobs ti = Some j ->
    nsteps (w_rec (W (j_tag j))) dt = Ok m -> nth_error mem ti = Some s ->
    step (mkC left thr mem)
         (mkC left (upd thr tid (mkT Idle (t_dyn th))) (upd mem ti (with_fs s (d_all (t_dyn th (j_tag j)))))).

(** GlobalEvolution.cpp 491-523 and 690-726. *)
Inductive steps : config -> config -> Prop :=
| steps_refl : forall c, steps c c
| steps_more : forall a b c, step a b -> steps b c -> steps a c.

(** All tasks taken and all threads done: the end of the parallel region.
    GlobalEvolution.cpp 491-523 and 690-726. *)
Definition finished (c : config) : Prop := c_left c = [] /\ Forall (fun th => t_pc th = Idle) (c_thr c).
(** The start: all tasks waiting, all threads idle. GlobalEvolution.cpp 491-523 and 690-726. *)
Definition initial (thr : list thread) (mem : list sstate) : config := mkC (seq 0 (length jobs)) thr mem.
End Sched.

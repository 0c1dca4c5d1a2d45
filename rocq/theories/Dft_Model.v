(** Model of the parallel region around the Fourier transform
    (RCSSurfacePostProcessor.cpp 284-298): every thread runs the loop over the
    snapshots and, for each, its own share of the frequencies; `nowait` lets threads
    be at different snapshots at the same time. Each `+=` is a load and a store that
    other threads may come between. The scalars and their addition are arbitrary, so
    the result covers rounded arithmetic. *)
From Coq Require Import List Arith Bool.
Import ListNotations.

Section Dft.
Variable A : Type.
Variable add : A -> A -> A.
(** contribution of snapshot t to entry (c, fi, v), the component value times the weight, RCSSurfacePostProcessor.cpp 292-296 *)
Variable term : nat -> nat -> nat -> nat -> A.

(** An entry ff[c][fi][v]. RCSSurfacePostProcessor.cpp 284-298. *)
Definition cell : Type := (nat * nat * nat)%type.
(** RCSSurfacePostProcessor.cpp 284-298. *)
Definition cell_eqb (a b : cell) : bool :=
  Nat.eqb (fst (fst a)) (fst (fst b)) && Nat.eqb (snd (fst a)) (snd (fst b)) && Nat.eqb (snd a) (snd b).

(** One half of `ff[c][fi][v] += x`. RCSSurfacePostProcessor.cpp 284-298. *)
Inductive op := Load (k : cell) | Store (k : cell) (x : A).
(** RCSSurfacePostProcessor.cpp 284-298. *)
Definition plusEq (k : cell) (x : A) : list op := [Load k; Store k x].

(** Body of the loop over fi for one frequency, RCSSurfacePostProcessor.cpp 291-297. *)
Definition body (nDofs t fi : nat) : list op :=
  flat_map (fun c => flat_map (fun v => plusEq (c, fi, v) (term t c fi v)) (seq 0 nDofs)) (seq 0 6).
(** The program of one thread, RCSSurfacePostProcessor.cpp 285-298: [share t] lists the frequencies it gets in
    the worksharing loop of snapshot t. *)
Definition program (nSnap nDofs : nat) (share : nat -> list nat) : list op :=
  flat_map (fun t => flat_map (body nDofs t) (share t)) (seq 0 nSnap).

(** schedule(static): the frequencies are divided in the same way for every
    snapshot (same iteration count, same parallel region). [owner fi] is the thread
    that gets fi. RCSSurfacePostProcessor.cpp 284-298. *)
Definition staticShare (nFreq : nat) (owner : nat -> nat) (tid : nat) (t : nat) : list nat :=
  filter (fun fi => Nat.eqb (owner fi) tid) (seq 0 nFreq).

(** Threads (remaining program and the register of a pending load) and memory.
    RCSSurfacePostProcessor.cpp 284-298. *)
Record thread := mkThread { th_prog : list op; th_reg : A }.
(** RCSSurfacePostProcessor.cpp 284-298. *)
Record config := mkConf { cf_thr : list thread; cf_mem : cell -> A }.
(** RCSSurfacePostProcessor.cpp 284-298. *)
Definition mset (m : cell -> A) (k : cell) (x : A) : cell -> A := fun j => if cell_eqb j k then x else m j.

(** RCSSurfacePostProcessor.cpp 284-298. *)
Inductive step : config -> config -> Prop :=
| step_load : forall l1 k p r l2 m,
    step (mkConf (l1 ++ mkThread (Load k :: p) r :: l2) m) (mkConf (l1 ++ mkThread p (m k) :: l2) m)
| step_store : forall l1 k x p r l2 m,
    step (mkConf (l1 ++ mkThread (Store k x :: p) r :: l2) m) (mkConf (l1 ++ mkThread p r :: l2) (mset m k (add r x))).
(** RCSSurfacePostProcessor.cpp 284-298. *)
Inductive steps : config -> config -> Prop :=
| steps_refl : forall c, steps c c
| steps_more : forall a b c, step a b -> steps b c -> steps a c.

(** Start of the region with all entries at [zero] (278-279) and its end.
    RCSSurfacePostProcessor.cpp 278-298. *)
Definition initial (nThr nFreq nSnap nDofs : nat) (owner : nat -> nat) (zero : A) : config :=
  mkConf (map (fun tid => mkThread (program nSnap nDofs (staticShare nFreq owner tid)) zero) (seq 0 nThr)) (fun _ => zero).
(** RCSSurfacePostProcessor.cpp 284-298. *)
Definition finished (c : config) : Prop := Forall (fun th => th_prog th = []) (cf_thr c).
End Dft.
Arguments Load {A}. Arguments Store {A}. Arguments mkThread {A}. Arguments mkConf {A}.
Arguments th_prog {A}. Arguments th_reg {A}. Arguments cf_thr {A}. Arguments cf_mem {A}.
Arguments mset {A}. Arguments program {A}. Arguments body {A}. Arguments step {A}. Arguments steps {A}. Arguments initial {A}. Arguments finished {A}.

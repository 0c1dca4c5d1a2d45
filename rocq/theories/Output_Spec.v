(** What the result files of a run should hold, stated without the model's helpers: which exports
    are due, what a table looks like, and where files lie. *)
From Coq Require Import String ZArith List Bool Reals.
From Verif Require Import Output_Model.
Import ListNotations.
Local Open Scope string_scope.
Local Open Scope list_scope.

(** An export is due at the final time, to 1e-8, and at every multiple of [steps]. *)
Definition dueAt (final : R) (steps : Z) (cycle : nat) (t : R) : Prop :=
  (Rabs (t - final) < / 100000000)%R \/ exists k, Z.of_nat cycle = (k * steps)%Z.

(** [rowsOf final steps cycle calls rows]: the rows of the due calls, in order, and nothing else;
    [mk] is what one call adds. *)
Inductive rowsOf {X : Type} (final : R) (steps : Z) (mk : R -> X -> list line) : nat -> list (R * X) -> list line -> Prop :=
| rows_none : forall c, rowsOf final steps mk c [] []
| rows_due : forall c t x calls rows, dueAt final steps c t -> rowsOf final steps mk (S c) calls rows ->
    rowsOf final steps mk c ((t, x) :: calls) (mk t x ++ rows)
| rows_skip : forall c t x calls rows, ~ dueAt final steps c t -> rowsOf final steps mk (S c) calls rows ->
    rowsOf final steps mk c ((t, x) :: calls) rows.

(** The heading of a table: kind and number of the probe, its position with missing coordinates
    zero, and the names of the columns. *)
Definition heading (kind : string) (id : nat) (pt : list R) (cols : list string) : list line :=
  [LProbe kind id; LTitle; LPos (nth 0 pt 0%R) (nth 1 pt 0%R) (nth 2 pt 0%R); LColumns cols].

(** Exactly one rank holds the point: it found an element, all others were told that another rank did. *)
Definition heldBy (n : nat) (element : nat -> Z) (r : nat) : Prop :=
  r < n /\ (0 <= element r)%Z /\ forall q, q < n -> q <> r -> element q = (-2)%Z.

(** [q] lies in directory [d], at any depth. *)
Definition under (d q : path) : Prop := exists a rest, q = d ++ a :: rest.

(** All ranks of a node agree on who is first; rank 0 is first on its node. *)
Definition someRoot (e : env) : Prop := exists r, r < e_ranks e /\ e_root e r = true.

(** The files of one snapshot: one per component, and the time. *)
Definition snapshotFile (v : comp -> list R) (t : R) (name : string) (l : list line) : Prop :=
  (exists k base, In (k, base) [(Ex, "Ex"); (Ey, "Ey"); (Ez, "Ez"); (Hx, "Hx"); (Hy, "Hy"); (Hz, "Hz")] /\
     name = (base ++ ".gf")%string /\ l = [LValues (v k)]) \/
  (name = "time.txt" /\ l = [LTime t]).

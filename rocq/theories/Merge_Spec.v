(** What merging should give, and which plane wave should be reported. *)
From Coq Require Import ZArith List Bool Reals String.
From Verif Require Import Common Rcs_Model Merge_Model.
Import ListNotations.
Local Open Scope R_scope.

(** A directory that holds a well-formed file with the given rows under a name: a
    header and one line of at least five numbers per row. *)
Definition rowLine (l : line) (d : rowData) : Prop :=
  exists rest, l = Some (d_theta d) :: Some (d_phi d) :: Some (d_freq d) :: Some (d_pot d) :: Some (d_norm d) :: rest.
Definition holds (r : rankDir) (name : string) (rows : list rowData) : Prop :=
  exists header lines, rd_file r name = Some (header :: lines) /\ Forall2 rowLine lines rows.

(** Sum of a column at a row index over ranks. *)
Fixpoint rsum (l : list R) : R := match l with [] => 0 | x :: m => x + rsum m end.
(** Same angles and frequencies, row by row. *)
Definition sameGrid (a b : list rowData) : Prop :=
  Forall2 (fun x y => d_theta x = d_theta y /\ d_phi x = d_phi y /\ d_freq x = d_freq y) a b.
(** Row [i] of the merge: where it is taken, and the two sums. *)
Definition mergedRow (i : nat) (perRank : list (list rowData)) (d : rowData) : Prop :=
  exists each, Forall2 (fun rows x => nth_error rows i = Some x) perRank each /\
    (exists x0 tl, each = x0 :: tl /\ d_theta d = d_theta x0 /\ d_phi d = d_phi x0 /\ d_freq d = d_freq x0) /\
    d_pot d = rsum (map d_pot each) /\ d_norm d = rsum (map d_norm each).

(** The plane wave a source describes. *)
Definition waveMean (meshDir : bool) (s : srcJson) (m : R) : Prop :=
  match j_mean s with
  | Some (x, y, z) => let '(u, v, w) := j_prop s in m = (x * u + y * v + z * w) / sqrt (u ^ 2 + v ^ 2 + w ^ 2)
  | None =>
    exists p0, m = p0 - 5 * sqrt 2 * j_spread s /\
      (if (meshDir && j_tagged s)%bool
       then (j_phases s = [] /\ p0 = 0) \/ (In p0 (j_phases s) /\ forall p, In p (j_phases s) -> p0 <= p)
       else p0 = 0)
  end.

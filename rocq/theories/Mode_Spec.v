(** What a reference solution of a cavity has to satisfy, stated with derivatives only. *)
From Coq Require Import List Reals.
Import ListNotations.
Local Open Scope R_scope.

(** [l] is the second derivative of [f] at [x]. *)
Definition second (f : R -> R) (x l : R) : Prop :=
  exists f', (forall y, derivable_pt_lim f y (f' y)) /\ derivable_pt_lim f' x l.

(** A position with the coordinate number [d] moved to [s]. *)
Definition moved (pos : list R) (d : nat) (s : R) : list R := firstn d pos ++ s :: skipn (S d) pos.

(** A field of position and time obeys the wave equation with speed one at a place and time: its second
    derivative in time is the sum of those along each of the [n] directions. *)
Definition waveAt (n : nat) (E : list R -> R -> R) (pos : list R) (t : R) : Prop :=
  exists ltt lxx, second (E pos) t ltt /\
    (forall d, (d < n)%nat -> second (fun s => E (moved pos d s) t) (nth d pos 0) (lxx d)) /\
    ltt = fold_right Rplus 0 (map lxx (seq 0 n)).

(** A position on a wall of the box. *)
Definition onWall (box pos : list R) : Prop :=
  exists d, (d < length box)%nat /\ (nth d pos 0 = 0 \/ nth d pos 0 = nth d box 0).

(** The three fields of a transverse magnetic wave in two dimensions obey Maxwell's equations in vacuum
    at a place and time. *)
Definition maxwellAt (Ez Hx Hy : list R -> R -> R) (pos : list R) (t : R) : Prop :=
  exists ez hx hy ezx ezy hxy hyx,
    derivable_pt_lim (Ez pos) t ez /\ derivable_pt_lim (Hx pos) t hx /\ derivable_pt_lim (Hy pos) t hy /\
    derivable_pt_lim (fun s => Ez (moved pos 0 s) t) (nth 0 pos 0) ezx /\
    derivable_pt_lim (fun s => Ez (moved pos 1 s) t) (nth 1 pos 0) ezy /\
    derivable_pt_lim (fun s => Hx (moved pos 1 s) t) (nth 1 pos 0) hxy /\
    derivable_pt_lim (fun s => Hy (moved pos 0 s) t) (nth 0 pos 0) hyx /\
    hx = - ezy /\ hy = ezx /\ ez = hyx - hxy.

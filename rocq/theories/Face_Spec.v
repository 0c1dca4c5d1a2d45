(** What the matrix of a face should be: the quadrature of an expression in the traces of
    the test function [v] and the trial function [u] on the two sides of the face. *)
From Coq Require Import ZArith List Bool Reals.
From Verif Require Import Common Face_Model Nodal_Spec.
Import ListNotations.
Local Open Scope R_scope.

(** Value of the function with coefficients [v off], [v (off+1)], ... *)
Definition tr (v : nat -> R) (off : nat) (s : list R) : R := sumN (length s) (fun i => nth i s 0 * v (i + off)%nat).
(** The traces from the two sides; zero outside the domain. *)
Definition side1 (F : face) (v : nat -> R) (q : qpoint) : R := tr v 0 (q_s1 q).
Definition side2 (F : face) (v : nat -> R) (q : qpoint) : R :=
  match f_el2 F with Some _ => tr v (f_el1 F) (q_s2 q) | None => 0 end.
Definition jump (F : face) (v : nat -> R) (q : qpoint) : R := side1 F v q - side2 F v q.
Definition avg (F : face) (v : nat -> R) (q : qpoint) : R := (side1 F v q + side2 F v q) / 2.

(** Normal of the first element, with the length of the surface element. *)
Definition normalOf (g : geo) (d : nat) : R :=
  match g, d with
  | G1 x, 0%nat => 2 * x - 1
  | G2 a b, 0%nat => b | G2 a b, 1%nat => - a
  | G3 a0 a1 a2 b0 b1 b2, 0%nat => a1 * b2 - a2 * b1
  | G3 a0 a1 a2 b0 b1 b2, 1%nat => a2 * b0 - a0 * b2
  | G3 a0 a1 a2 b0 b1 b2, 2%nat => a0 * b1 - a1 * b0
  | _, _ => 0
  end.
(** Surface element times quadrature weight, and unit normal. *)
Definition ds (q : qpoint) : R := q_w q * weightOf (q_geo q).
Definition unitN (q : qpoint) (d : nat) : R := normalOf (q_geo q) d / weightOf (q_geo q).

(** Non-degenerate geometry: in 1D the point is an end of the segment. *)
Definition geoOk (g : geo) : Prop := match g with G1 x => x = 0 \/ x = 1 | _ => 0 < weightOf g end.
Definition wfPoint (F : face) (q : qpoint) : Prop :=
  geoOk (q_geo q) /\ length (q_s1 q) = f_el1 F /\
  match f_el2 F with Some n => length (q_s2 q) = n | None => True end.
Definition wfFace (F : face) : Prop := Forall (wfPoint F) (f_pts F).

Definition faceSize (F : face) : nat := f_el1 F + match f_el2 F with Some n => n | None => 0 end.
(** v^T M u *)
Definition mform (n : nat) (M : nat -> nat -> R) (v u : nat -> R) : R :=
  sumN n (fun i => sumN n (fun j => v i * M i j * u j)).

(** The face matrix [r] is the quadrature of [g]. *)
Definition integrates (F : face) (r : res mat) (g : (nat -> R) -> (nat -> R) -> qpoint -> R) : Prop :=
  exists M, r = Ok M /\
    forall v u, mform (faceSize F) M v u = suml (fun q => ds q * g v u q) (f_pts F).

(** Product of the unit normal components listed in [dir]. *)
Definition normals (dir : list nat) (q : qpoint) : R := fold_right (fun d r => unitN q d * r) 1 dir.

(** What a list of one direction changes: the second side enters with opposite sign. *)
Definition flip (dir : list nat) : R := match dir with [_] => -1 | _ => 1 end.

(** The face vector [r] of [n] entries is the quadrature of [g] over the reference face. *)
Definition loads (n : nat) (F : face) (r : res vec) (g : (nat -> R) -> qpoint -> R) : Prop :=
  exists e, r = Ok e /\ forall v, sumN n (fun i => v i * e i) = suml (fun q => q_w q * g v q) (f_pts F).
(** The normal of the second element: its own in one dimension, that of the first
    otherwise. *)
Definition secondNormal (x2 : qpoint -> R) (q : qpoint) (d : nat) : R :=
  match q_geo q with G1 _ => match d with 0%nat => 2 * x2 q - 1 | _ => 0 end | _ => unitN q d end.

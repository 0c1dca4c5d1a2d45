(** What the geometry section of a far-field surface file says about a surface. *)
From Coq Require Import ZArith List Bool Reals.
From Verif Require Import Common Face_Model SurfGeo_Model.
Import ListNotations.
Local Open Scope R_scope.

(** The quadrature points of the faces with attribute 201 that have a rule, in the order of the mesh. *)
Fixpoint surfacePoints (els : list belem) : list bpoint :=
  match els with
  | [] => []
  | mkBE a r :: t => (if Z.eq_dec a 201 then match r with Some ps => ps | None => [] end else []) ++ surfacePoints t
  end.

(** Vectors of space. *)
Definition vec := (R * R * R)%type.
Definition dot (u v : vec) : R := fst (fst u) * fst (fst v) + snd (fst u) * snd (fst v) + snd u * snd v.
Definition scale (c : R) (u : vec) : vec := (c * fst (fst u), c * snd (fst u), c * snd u).
(** The tangents of a face and the vector across it: the tangent turned clockwise in the plane, the cross product of
    the tangents in space. *)
Definition tangents (g : geo) : list vec :=
  match g with
  | G1 _ => []
  | G2 a b => [(a, b, 0)]
  | G3 a0 a1 a2 b0 b1 b2 => [(a0, a1, a2); (b0, b1, b2)]
  end.
Definition across (g : geo) : vec :=
  match g with
  | G1 _ => (0, 0, 0)
  | G2 a b => (b, - a, 0)
  | G3 a0 a1 a2 b0 b1 b2 => (a1 * b2 - a2 * b1, a2 * b0 - a0 * b2, a0 * b1 - a1 * b0)
  end.
(** A point the exporter can write: a face of a plane or of space that is not flat, and enough coordinates. *)
Definition regular (dim : nat) (p : bpoint) : Prop := across (bp_geo p) <> (0, 0, 0) /\ (dim <= length (bp_pos p))%nat.

(** The [k]-th normal of a file. *)
Definition normalAt (nor : list R) (k : nat) : vec := (nth (3 * k) nor 0, nth (3 * k + 1) nor 0, nth (3 * k + 2) nor 0).
(** The arrays of a file describe the points. *)
Definition describes (dim : nat) (pts : list bpoint) (pos nor wei : list R) : Prop :=
  length pos = (dim * length pts)%nat /\ length nor = (3 * length pts)%nat /\ length wei = length pts /\
  forall k p, nth_error pts k = Some p ->
    (forall d, (d < dim)%nat -> nth (dim * k + d) pos 0 = nth d (bp_pos p) 0) /\
    let n := normalAt nor k in
    dot n n = 1 /\ Forall (fun t => dot n t = 0) (tangents (bp_geo p)) /\ 0 < dot n (across (bp_geo p)) /\
    scale (nth k wei 0) n = scale (bp_ip p) (across (bp_geo p)).

(** Attributes count from one, and some attribute is at least that of the surface. *)
Definition hasSurface (els : list belem) : Prop :=
  (forall e, In e els -> (1 <= be_attr e)%Z) /\ exists e, In e els /\ (201 <= be_attr e)%Z.

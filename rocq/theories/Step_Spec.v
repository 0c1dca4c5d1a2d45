(** Specification of the automatic time step: plane and solid geometry, written
    without the functions of the model.  A point is a triple of reals. *)
From Coq Require Import ZArith List Reals Permutation.
From Verif Require Import Common Step_Model.
Import ListNotations.
Local Open Scope R_scope.

Definition sq (x : R) : R := x * x.
(** Distance in the first [n] coordinates (n = 1, 2 or 3). *)
Definition dist2 (n : Z) (p q : vertex) : R :=
  let '(x, y, z) := p in let '(x', y', z') := q in
  (if (0 <? n)%Z then sq (x - x') else 0) + (if (1 <? n)%Z then sq (y - y') else 0)
  + (if (2 <? n)%Z then sq (z - z') else 0).
Definition dist (n : Z) (p q : vertex) : R := sqrt (dist2 n p q).

(** A combination of points with weights. *)
Definition comb3 (a b c : vertex) (u v w : R) : vertex :=
  let '(a1, a2, a3) := a in let '(b1, b2, b3) := b in let '(c1, c2, c3) := c in
  (u * a1 + v * b1 + w * c1, u * a2 + v * b2 + w * c2, u * a3 + v * b3 + w * c3).
Definition comb4 (a b c d : vertex) (u v w t : R) : vertex :=
  let '(x, y, z) := comb3 a b c u v w in let '(d1, d2, d3) := d in
  (x + t * d1, y + t * d2, z + t * d3).

(** ** The plane: points with third coordinate ignored *)
(** Twice the signed area of a triangle. *)
Definition area2 (a b c : vertex) : R :=
  let '(a1, a2, _) := a in let '(b1, b2, _) := b in let '(c1, c2, _) := c in
  (b1 - a1) * (c2 - a2) - (b2 - a2) * (c1 - a1).
(** Distance of a point to the line through two points. *)
Definition lineDist (a b p : vertex) : R := Rabs (area2 a b p) / dist 2 a b.
Definition inTriangle (a b c p : vertex) : Prop :=
  exists u v w, 0 <= u /\ 0 <= v /\ 0 <= w /\ u + v + w = 1 /\ p = comb3 a b c u v w.
(** The radius of the largest disc inside a triangle: some point of the triangle is
    at that distance of the three sides, and every point of it is at most at that
    distance of one of them. *)
Definition inradius (a b c : vertex) (r : R) : Prop :=
  (exists p, inTriangle a b c p /\ lineDist a b p = r /\ lineDist b c p = r /\ lineDist c a p = r)
  /\ (forall p, inTriangle a b c p -> lineDist a b p <= r \/ lineDist b c p <= r \/ lineDist c a p <= r).

(** ** Space *)
(** Six times the signed volume of a tetrahedron. *)
Definition volume6 (a b c d : vertex) : R :=
  let '(a1, a2, a3) := a in let '(b1, b2, b3) := b in let '(c1, c2, c3) := c in
  let '(d1, d2, d3) := d in
  (d1 - a1) * ((b2 - a2) * (c3 - a3) - (b3 - a3) * (c2 - a2))
  + (d2 - a2) * ((b3 - a3) * (c1 - a1) - (b1 - a1) * (c3 - a3))
  + (d3 - a3) * ((b1 - a1) * (c2 - a2) - (b2 - a2) * (c1 - a1)).
(** Squared length of a side times squared height: four times the squared area of a
    triangle, from the lengths of its sides (Heron). *)
Definition heron16 (x y z : R) : R := 2 * (x * y + y * z + z * x) - (x * x + y * y + z * z).
Definition triArea (a b c : vertex) : R := sqrt (heron16 (dist2 3 a b) (dist2 3 b c) (dist2 3 c a)) / 4.
(** Distance of a point to the plane through three points: three times the volume
    over the area. *)
Definition planeDist (a b c p : vertex) : R := Rabs (volume6 a b c p) / 2 / triArea a b c.
Definition inTetra (a b c d p : vertex) : Prop :=
  exists u v w t, 0 <= u /\ 0 <= v /\ 0 <= w /\ 0 <= t /\ u + v + w + t = 1 /\ p = comb4 a b c d u v w t.
Definition inradius3 (a b c d : vertex) (r : R) : Prop :=
  (exists p, inTetra a b c d p /\ planeDist b c d p = r /\ planeDist a c d p = r
             /\ planeDist a b d p = r /\ planeDist a b c p = r)
  /\ (forall p, inTetra a b c d p -> planeDist b c d p <= r \/ planeDist a c d p <= r
             \/ planeDist a b d p <= r \/ planeDist a b c p <= r).

(** ** Meshes *)
(** The measure of an edge or a (triangular) face. *)
Definition measure (m : mesh) (f : list vertex) (x : R) : Prop :=
  if (m_dim m =? 2)%Z then exists a b, f = [a; b] /\ x = dist (m_sdim m) a b
  else exists a b c rest, f = a :: b :: c :: rest /\ x = triArea a b c.
(** The boundary measure of an element. *)
Definition boundary (m : mesh) (e : element) (s : R) : Prop :=
  exists xs, Forall2 (measure m) (e_faces e) xs /\ s = fold_right Rplus 0 xs.
(** A usable element: positive volume and a positive boundary measure. *)
Definition usable (m : mesh) (e : element) : Prop :=
  0 < e_volume e /\ exists s, boundary m e s /\ 0 < s.

(** One mesh is an enlarged and moved copy of another: same types, distances
    between the vertices of a face multiplied by [k], volumes by k^dim. *)
Definition similarFace (n : Z) (k : R) (f g : list vertex) : Prop :=
  length f = length g /\
  forall i j a b a' b', nth_error f i = Some a -> nth_error f j = Some b ->
    nth_error g i = Some a' -> nth_error g j = Some b' -> dist n a' b' = k * dist n a b.
Definition similarElement (dim n : Z) (k : R) (e e' : element) : Prop :=
  e_type e' = e_type e /\ e_volume e' = k ^ Z.to_nat dim * e_volume e /\
  Forall2 (similarFace n k) (e_faces e) (e_faces e').
Definition similarMesh (k : R) (m m' : mesh) : Prop :=
  m_dim m' = m_dim m /\ m_sdim m' = m_sdim m /\
  Forall2 (similarElement (m_dim m) (if (m_dim m =? 2)%Z then m_sdim m else 3%Z) k) (m_elements m) (m_elements m').

(** The distances that bound a one-dimensional step: between two nodes of an element
    at different places in its list, or its length when it has one node. *)
Definition nodeGap (e : element) (d : R) : Prop :=
  match e_nodes e with
  | [_] => d = e_size e
  | ns => exists i j x y, i <> j /\ nth_error ns i = Some x /\ nth_error ns j = Some y /\ d = Rabs (x - y)
  end.

(** A straight triangle of the plane: its edges, each in either direction, and its
    area; a straight tetrahedron. *)
Definition triangleElement (e : element) (a b c : vertex) : Prop :=
  Forall2 (@Permutation vertex) (e_faces e) [[a; b]; [b; c]; [c; a]] /\
  e_volume e = Rabs (area2 a b c) / 2 /\ area2 a b c <> 0.
Definition tetraElement (e : element) (a b c d : vertex) : Prop :=
  Forall2 (@Permutation vertex) (e_faces e) [[b; c; d]; [a; c; d]; [a; b; d]; [a; b; c]] /\
  e_volume e = Rabs (volume6 a b c d) / 6 /\ volume6 a b c d <> 0.


(** The extra division of the step: the whole mesh has it when one element is a
    quadrilateral (2D) or a hexahedron (3D). *)
Definition extraDivisor (m : mesh) (x : R) : Prop :=
  let special := if (m_dim m =? 2)%Z then Quadrilateral else Hexahedron in
  ((exists e, In e (m_elements m) /\ e_type e = special) /\ x = if (m_dim m =? 2)%Z then 2 else 6)
  \/ ((forall e, In e (m_elements m) -> e_type e <> special) /\ x = 1).
(** The factor of the global operator in space. *)
Definition globalFactor (m : mesh) (o : opType) : R :=
  match o with Global => if (m_dim m =? 3)%Z then 8 / 10 else 1 | _ => 1 end.

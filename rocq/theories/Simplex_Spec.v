(** Polynomial basis functions on straight segments, triangles and tetrahedra, in barycentric
    coordinates, and exact quadrature. *)
From Coq Require Import ZArith List Bool Reals.
From Verif Require Import Common Face_Model Face_Spec Nodal_Spec Setup_Model Form_Model Form_Spec Global_Spec Step_Model Step_Spec Elem_Spec.
Import ListNotations.
Local Open Scope R_scope.

(** A polynomial in the barycentric coordinates of a simplex: coefficients and exponents. *)
Definition mono := list nat.
Definition poly := list (R * mono).
Definition degree (a : mono) : nat := fold_right Nat.add 0%nat a.
Fixpoint monoAt (a : mono) (l : list R) : R := match a, l with x :: t, y :: s => y ^ x * monoAt t s | _, _ => 1 end.
Definition polyAt (f : poly) (l : list R) : R := suml (fun t => fst t * monoAt (snd t) l) f.
Definition facts (a : mono) : R := fold_right Rmult 1 (map (fun k => INR (fact k)) a).

(** The mean of a monomial over a simplex of dimension [D], and over its face opposite vertex [i]
    (where coordinate [i] vanishes); the classical formulas. *)
Definition meanT (D : nat) (a : mono) : R := INR (fact D) * facts a / INR (fact (D + degree a)).
Definition meanF (D i : nat) (a : mono) : R :=
  if (nth i a 0 =? 0)%nat then INR (fact (D - 1)) * facts a / INR (fact (D - 1 + degree a)) else 0.

(** Product of two monomials, and the derivative of one with respect to coordinate [i]. *)
Definition times (a b : mono) : mono := map (fun p => (fst p + snd p)%nat) (combine a b).
Fixpoint dec (i : nat) (a : mono) : mono :=
  match a, i with [], _ => [] | x :: t, O => Nat.pred x :: t | x :: t, S j => x :: dec j t end.
Definition meanD (D i : nat) (a b : mono) : R := INR (nth i b 0%nat) * meanT D (times a (dec i b)).

(** The derivative matrices of a reference element of dimension [D] with basis functions [phi]: the
    mean of one function times the derivative of another along reference direction [e], which changes
    barycentric coordinates [e + 1] and 0 against each other. *)
Definition meanDiff (D e : nat) (f g : poly) : R :=
  suml (fun s => suml (fun t => fst s * fst t * (meanD D (S e) (snd s) (snd t) - meanD D 0 (snd s) (snd t))) g) f.
Definition polynomialElement (D p : nat) (phi : list poly) (r : reference) : Prop :=
  r_dofs r = length phi /\
  (forall f c a, In f phi -> In (c, a) f -> length a = S D /\ (degree a <= p)%nat) /\
  forall e a b, (e < D)%nat -> (a < length phi)%nat -> (b < length phi)%nat -> r_diff r e a b = meanDiff D e (nth a phi []) (nth b phi []).

(** Volume times the gradients of the barycentric coordinates, from those of the reference ones. *)
Definition gradient (D : nat) (C : Z -> nat -> R) (d : Z) (i : nat) : R :=
  match i with O => - sumN D (C d) | S e => C d e end.
(** The sides of element [k]: the faces it is the first or the second element of. *)
Definition sides (m : fmesh) (el : nat -> nat * option nat) (k : nat) : list (nat * bool) :=
  flat_map (fun fi => (if (fst (el fi) =? k)%nat then [(fi, true)] else []) ++
                      (match snd (el fi) with Some j => if (j =? k)%nat then [(fi, false)] else [] | None => [] end)) (seq 0 (length (fm_faces m))).
Definition shapeOf (b : bool) (p : qpoint) : list R := if b then q_s1 p else q_s2 p.
(** Points and weights on face [i] of the simplex, exact for degree [deg]: barycentric coordinates
    [lam p] of every point. *)
Definition exactOn (D i deg : nat) (lam : qpoint -> list R) (pts : list qpoint) : Prop :=
  forall a, length a = S D -> (degree a <= deg)%nat ->
    suml (fun p => q_w p * monoAt a (lam p)) pts = / INR (fact (D - 1)) * meanF D i a.
(** Every element has its [D + 1] faces as sides; [loc] numbers them.  On each, the basis functions are
    [phi] at the points, the quadrature is exact for products of two of them, and the Jacobian of the
    face gives the outward normal: as long as [D!] times volume times gradient of coordinate [i],
    against it. *)
Definition straightMesh (D p : nat) (phi : list poly) (n : nat) (m : fmesh) (el : nat -> nat * option nat) (C : nat -> Z -> nat -> R) : Prop :=
  forall k, (k < n)%nat -> exists loc, Permutation.Permutation (map loc (sides m el k)) (seq 0 (S D)) /\
    forall fi b f, In (fi, b) (sides m el k) -> nth_error (fm_faces m) fi = Some f ->
      exists lam, exactOn D (loc (fi, b)) (2 * p) lam (f_pts (mf_face f)) /\
      forall q, In q (f_pts (mf_face f)) -> shapeOf b q = map (fun g => polyAt g (lam q)) phi /\
        forall d, (0 <= d < Z.of_nat D)%Z -> (if b then 1 else -1) * normalOf (q_geo q) (Z.to_nat d) = - (INR (fact D) * gradient D (C k) d (loc (fi, b))).

(** ** Where the normals come from *)
Definition vminus (p q : vertex) (d : Z) : R := coord d p - coord d q.
Definition cross (u v : Z -> R) (d : nat) : R :=
  match d with 0%nat => u 1%Z * v 2%Z - u 2%Z * v 1%Z | 1%nat => u 2%Z * v 0%Z - u 0%Z * v 2%Z | _ => u 0%Z * v 1%Z - u 1%Z * v 0%Z end.
(** Twice the area of a triangle, six times the volume of a tetrahedron, with the sign of the orientation. *)
Definition det2 (a b c : vertex) : R := vminus b a 0 * vminus c a 1 - vminus b a 1 * vminus c a 0.
Definition det3 (a b c e : vertex) : R := vminus b a 0 * cross (vminus c a) (vminus e a) 0 + vminus b a 1 * cross (vminus c a) (vminus e a) 1 + vminus b a 2 * cross (vminus c a) (vminus e a) 2.
(** The edges of a triangle along its orientation, opposite vertex [i]; the normal is the tangent
    turned by a right angle. *)
Definition edgeOf (a b c : vertex) (i : nat) : geo :=
  match i with 0%nat => G2 (vminus c b 0) (vminus c b 1) | 1%nat => G2 (vminus a c 0) (vminus a c 1) | _ => G2 (vminus b a 0) (vminus b a 1) end.
Definition G3of (u v : Z -> R) : geo := G3 (u 0%Z) (u 1%Z) (u 2%Z) (v 0%Z) (v 1%Z) (v 2%Z).
Definition sideOf (a b c e : vertex) (i : nat) : geo :=
  match i with 0%nat => G3of (vminus c b) (vminus e b) | 1%nat => G3of (vminus e a) (vminus c a) | 2%nat => G3of (vminus b a) (vminus e a) | _ => G3of (vminus c a) (vminus b a) end.

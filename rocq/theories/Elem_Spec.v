(** Spaces made of images of one reference element of any order: what the mass matrix, its
    inverse and the derivatives are, and how large the operator is. *)
From Coq Require Import ZArith List Bool Reals.
From Verif Require Import Common Face_Model Face_Spec Nodal_Spec Setup_Model Form_Model Form_Spec Global_Spec Step_Model Step_Spec Cfl_Spec.
Import ListNotations.
Local Open Scope R_scope.

(** A reference element: the number of its basis functions, their mass matrix for a unit volume, its
    inverse and one derivative matrix per reference direction. *)
Record reference := mkRef { r_dofs : nat; r_mass : mat; r_inv : mat; r_diff : nat -> mat }.
Definition referenceOk (r : reference) : Prop :=
  (0 < r_dofs r)%nat /\ (forall a b, r_mass r a b = r_mass r b a) /\ (forall v, 0 <= mform (r_dofs r) (r_mass r) v v) /\
  forall a b, (a < r_dofs r)%nat -> (b < r_dofs r)%nat -> sumN (r_dofs r) (fun k => r_mass r a k * r_inv r k b) = if (a =? b)%nat then 1 else 0.

(** A matrix with one block of size [q] per element. *)
Definition perElement (q : nat) (B : nat -> nat -> nat -> R) : mat :=
  fun i j => if (i / q =? j / q)%nat then B (i / q)%nat (i mod q)%nat (j mod q)%nat else 0.
(** Elements of volumes [V] with relative permittivity and permeability [w 0], [w 1]; [C k d e] is the
    volume of element [k] times the derivative of the reference coordinate [e] along [d]. *)
Definition affineMass (r : reference) (V : nat -> R) (w : Z -> nat -> R) : Z -> mat :=
  fun g => perElement (r_dofs r) (fun k a b => w g k * V k * r_mass r a b).
Definition affineInv (r : reference) (V : nat -> R) (w : Z -> nat -> R) : Z -> mat :=
  fun g => perElement (r_dofs r) (fun k a b => / (w g k * V k) * r_inv r a b).
Definition affineD (r : reference) (rd : nat) (C : nat -> Z -> nat -> R) : Z -> mat :=
  fun d => perElement (r_dofs r) (fun k a b => sumN rd (fun e => C k d e * r_diff r e a b)).

(** The squares of the coefficients of element [k]. *)
Definition elemSq (q : nat) (v : nat -> R) (k : nat) : R := sumN q (fun a => v (k * q + a)%nat * v (k * q + a)%nat).
(** The values on the faces are those of the elements: the sum of their squares is at most
    [T] times the boundary measure [S] of the element times its coefficients. *)
Definition traceSize (m : fmesh) (q n : nat) (S : nat -> R) (T : R) : Prop :=
  0 <= T /\ forall v,
    facesum m (fun _ f p => side1 (mf_face f) (local f v) p * side1 (mf_face f) (local f v) p +
                            side2 (mf_face f) (local f v) p * side2 (mf_face f) (local f v) p) <= T * sumN n (fun k => S k * elemSq q v k).

(** Constants of the reference element alone. *)
Definition frob (q : nat) (M : mat) : R := 1 + sumN q (fun a => sumN q (fun b => M a b * M a b)).
Definition diffSize (r : reference) (rd : nat) : R := frob (r_dofs r) (r_inv r) * sumN rd (fun e => frob (r_dofs r) (r_diff r e)).
Definition edgeSize (r : reference) (T : R) : R := frob (r_dofs r) (r_inv r) * T.
(** The size of the operator of a reference element of [dim] directions. *)
Definition refSize (r : reference) (dim : Z) (alpha T : R) : R := IZR dim * diffSize r (Z.to_nat dim) + (1 + alpha) * edgeSize r T.

(** The elements the time step is computed from are those of the space. *)
Definition sameElements (n : nat) (V S : nat -> R) (ms : mesh) : Prop :=
  length (m_elements ms) = n /\
  forall k e, nth_error (m_elements ms) k = Some e -> e_volume e = V k /\ boundary ms e (S k) /\ 0 < V k /\ 0 < S k.

(** ** Lines of elements of any order *)
(** Values of the basis functions at the two ends. *)
Record ends := mkEnds { at_left : list R; at_right : list R }.
Definition dofsOf (q k : nat) : list nat := seq (k * q) q.
Definition leftPt (e : ends) : qpoint := mkQ 1 (G1 0) (at_left e) [].
Definition midPt (e : ends) : qpoint := mkQ 1 (G1 1) (at_right e) (at_left e).
Definition rightPt (e : ends) : qpoint := mkQ 1 (G1 1) (at_right e) [].
Definition leftSide (q : nat) (e : ends) : mface := mkMF (dofsOf q 0) [] (mkFace q None [leftPt e]).
Definition midSide (q : nat) (e : ends) (k : nat) : mface := mkMF (dofsOf q (k - 1)) (dofsOf q k) (mkFace q (Some q) [midPt e]).
Definition rightSide (q : nat) (e : ends) (n : nat) : mface := mkMF (dofsOf q (n - 1)) [] (mkFace q None [rightPt e]).
Definition lineOf (q : nat) (e : ends) (n : nat) (bdr : list (Z * nat)) (battrs : list Z) : fmesh :=
  mkFM (leftSide q e :: map (midSide q e) (seq 1 (n - 1)) ++ [rightSide q e n]) bdr battrs.
(** Integration by parts on the reference segment. *)
Definition segmentOk (r : reference) (e : ends) : Prop :=
  referenceOk r /\ length (at_left e) = r_dofs r /\ length (at_right e) = r_dofs r /\
  forall a b, (a < r_dofs r)%nat -> (b < r_dofs r)%nat ->
    r_diff r 0%nat a b + r_diff r 0%nat b a = nth a (at_right e) 0 * nth b (at_right e) 0 - nth a (at_left e) 0 * nth b (at_left e) 0.
(** The coefficient of the only derivative is one for every element. *)
Definition unitC : nat -> Z -> nat -> R := fun _ _ _ => 1.
Definition endSize (q : nat) (e : ends) : R :=
  sumN q (fun a => nth a (at_left e) 0 * nth a (at_left e) 0) + sumN q (fun a => nth a (at_right e) 0 * nth a (at_right e) 0).
(** The elements of the line as the time step sees them: each has nodes at the reference places [xi],
    stretched to its length. *)
Definition sameLineOf (n : nat) (h : nat -> R) (xi : list R) (ms : mesh) : Prop :=
  m_dim ms = 1%Z /\ length (m_elements ms) = n /\
  forall k e, nth_error (m_elements ms) k = Some e -> exists x0, e_nodes e = map (fun t => x0 + h k * t) xi.
(** The smallest distance of two different places of a list. *)
Definition smallestGap (xi : list R) (d : R) : Prop :=
  (exists i j x y, i <> j /\ nth_error xi i = Some x /\ nth_error xi j = Some y /\ d = Rabs (x - y)) /\
  forall i j x y, i <> j -> nth_error xi i = Some x -> nth_error xi j = Some y -> d <= Rabs (x - y).

(** ** Which elements a face belongs to *)
Definition touches (q n : nat) (m : fmesh) (el : nat -> nat * option nat) : Prop :=
  forall fi f, nth_error (fm_faces m) fi = Some f ->
    (fst (el fi) < n)%nat /\ mf_dofs1 f = dofsOf q (fst (el fi)) /\
    match snd (el fi), f_el2 (mf_face f) with
    | Some k, Some q' => (k < n)%nat /\ q' = q /\ mf_dofs2 f = dofsOf q k
    | None, None => mf_dofs2 f = []
    | _, _ => False
    end.
(** Length or area of a face. *)
Definition faceMeasure (f : mface) : R := fold_right Rplus 0 (map ds (f_pts (mf_face f))).
(** The faces of an element have together at most its boundary measure. *)
Definition faceMeasures (m : fmesh) (el : nat -> nat * option nat) (n : nat) (S : nat -> R) : Prop :=
  forall k, (k < n)%nat -> sumN (length (fm_faces m)) (fun fi => match nth_error (fm_faces m) fi with
    | Some f => (if (fst (el fi) =? k)%nat then faceMeasure f else 0) + (match snd (el fi) with Some j => if (j =? k)%nat then faceMeasure f else 0 | None => 0 end)
    | None => 0 end) <= S k.
(** The squares of the basis functions at a point of a face add up to at most [T]. *)
Definition sumSq (l : list R) : R := fold_right (fun x s => x * x + s) 0 l.
Definition shapeSize (m : fmesh) (T : R) : Prop :=
  0 <= T /\ forall f p, In f (fm_faces m) -> In p (f_pts (mf_face f)) -> sumSq (q_s1 p) <= T /\ sumSq (q_s2 p) <= T.

(** ** Straight elements *)
Definition coord (d : Z) (p : vertex) : R := let '(x, y, z) := p in if (d =? 0)%Z then x else if (d =? 1)%Z then y else z.
(** [g d e] is the derivative along [d] of the coordinate [e] that goes from 0 at the first vertex
    to 1 at vertex [e] of the others and vanishes at the rest. *)
Definition derivativesOf (dim : Z) (vs : list vertex) (a : vertex) (g : Z -> nat -> R) : Prop :=
  forall e i p, (e < Z.to_nat dim)%nat -> nth_error vs i = Some p ->
    sumN (Z.to_nat dim) (fun d => g (Z.of_nat d) e * (coord (Z.of_nat d) p - coord (Z.of_nat d) a)) = if (e =? i)%nat then 1 else 0.
(** Every element of the mesh is a straight triangle (tetrahedron) and [C] its derivatives times
    its volume. *)
Definition triangles (n : nat) (ms : mesh) (C : nat -> Z -> nat -> R) : Prop :=
  forall k, (k < n)%nat -> exists el a b c g, nth_error (m_elements ms) k = Some el /\ triangleElement el a b c /\ derivativesOf 2 [b; c] a g /\ forall d e, C k d e = e_volume el * g d e.
Definition tetrahedra (n : nat) (ms : mesh) (C : nat -> Z -> nat -> R) : Prop :=
  forall k, (k < n)%nat -> exists el a b c d' g, nth_error (m_elements ms) k = Some el /\ tetraElement el a b c d' /\ derivativesOf 3 [b; c; d'] a g /\ forall d e, C k d e = e_volume el * g d e.
Definition simplices (dim : Z) (n : nat) (ms : mesh) (C : nat -> Z -> nat -> R) : Prop :=
  (dim = 2%Z /\ m_sdim ms = 2%Z /\ triangles n ms C) \/ (dim = 3%Z /\ (m_sdim ms <= 3)%Z /\ tetrahedra n ms C).
(** Value at a point of a face of the function with coefficients [x] in one element. *)
Definition value (s : list R) (x : nat -> R) : R := sumN (length s) (fun a => nth a s 0 * x a).
(** Integration by parts on every element: the derivative of element [k] along [d] against the normals
    of its faces, which point out of the first element of a face and into the second. *)
Definition elementParts (r : reference) (n : nat) (m : fmesh) (el : nat -> nat * option nat) (dim : Z) (C : nat -> Z -> nat -> R) : Prop :=
  forall k d x y, (k < n)%nat -> (0 <= d < dim)%Z ->
    sumN (Z.to_nat dim) (fun e => C k d e * (mform (r_dofs r) (r_diff r e) x y + mform (r_dofs r) (r_diff r e) y x)) =
    sumN (length (fm_faces m)) (fun fi => match nth_error (fm_faces m) fi with
      | Some f =>
          (if (fst (el fi) =? k)%nat then fold_right Rplus 0 (map (fun p => ds p * (unitN p (Z.to_nat d) * (value (q_s1 p) x * value (q_s1 p) y))) (f_pts (mf_face f))) else 0) +
          (match snd (el fi) with
           | Some j => if (j =? k)%nat then fold_right Rplus 0 (map (fun p => ds p * (unitN p (Z.to_nat d) * - (value (q_s2 p) x * value (q_s2 p) y))) (f_pts (mf_face f))) else 0
           | None => 0 end)
      | None => 0 end).
(** The faces and their tags are consistent with the dofs. *)
Definition meshOk (N : nat) (dim : Z) (m : fmesh) : Prop :=
  (1 <= dim <= 3)%Z /\ wfMesh N m /\ NoDup (map snd (fm_bdr m)) /\
  Forall (fun f => wfFace (mf_face f) /\ forall q d, In q (f_pts (mf_face f)) -> (dim <= Z.of_nat d)%Z -> unitN q d = 0) (fm_faces m).

(** Matrix-vector products, what the spectral matrix should be, and when the check of the
    eigenvalues should accept a case. *)
From Coq Require Import ZArith List Bool Reals.
From Verif Require Import Common Csr_Spec Assembly_Model Assembly_Spec.
Import ListNotations.
Local Open Scope Z_scope.

(** Row [r] of the product of a matrix with 6 n columns by [x]. *)
Definition matVecRow (n : Z) (M : Z -> Z -> R) (x : list R) (r : Z) : R :=
  rsum (map (fun c => M r (Z.of_nat c) * nth c x 0)%R (seq 0 (Z.to_nat (6 * n)))).

(** Forms of a mesh of dimension [dim] in vacuum: nothing is differentiated beyond the
    dimension, the normals have no component there, and there is no conductivity. *)
Definition vacuumOps (op : opname -> list (list (Z * R))) (dim : Z) : Prop :=
  (forall f d i, dim <= d -> nth i (op (OpDerivative f d)) [] = []) /\
  (forall f f' d i, dim <= d -> nth i (op (OpOneNormal f f' d)) [] = []) /\
  (forall f d d' i, dim <= d \/ dim <= d' -> nth i (op (OpTwoNormal f d d')) [] = []) /\
  (forall i, nth i (op OpConductive) [] = []).

Definition cmod2 (z : R * R) : R := (fst z * fst z + snd z * snd z)%R.

(** A linear system y' = A y of size two, given by its rows; its eigenpairs; one step of the
    classical fourth order Runge-Kutta method. *)
Definition app2 (A : (R * R) * (R * R)) (y : list R) : list R :=
  match y with
  | [a; b] => [fst (fst A) * a + snd (fst A) * b; fst (snd A) * a + snd (snd A) * b]%R
  | _ => []
  end.
Definition eigenpair2 (A : (R * R) * (R * R)) (l : R) (v : list R) : Prop :=
  exists a b, v = [a; b] /\ (a <> 0 \/ b <> 0)%R /\ app2 A v = [l * a; l * b]%R.
Definition axpy (h : R) (k y : list R) : list R := map (fun p => snd p + h * fst p)%R (combine k y).
Definition rk4 (f : list R -> list R) (h : R) (y : list R) : list R :=
  let k1 := f y in
  let k2 := f (axpy (h / 2) k1 y) in
  let k3 := f (axpy (h / 2) k2 y) in
  let k4 := f (axpy h k3 y) in
  axpy (h / 6) k4 (axpy (h / 3) k3 (axpy (h / 3) k2 (axpy (h / 6) k1 y))).

(** No non-zero component of the vector of eigenvalues grows in one step. *)
Definition stayed (step : list R -> list R) (ev : list (R * R)) : Prop :=
  forall k z, nth_error ev k = Some z -> z <> (0%R, 0%R) ->
    (cmod2 (nth k (step (map fst ev)) 0, nth k (step (map snd ev)) 0) <= cmod2 z)%R.

(** Dimension, element type and number of boundary elements of the sub-mesh of one element:
    segment, triangle, quadrilateral, tetrahedron and hexahedron. *)
Definition regular (dim elemType : Z) (nbe : nat) : Prop :=
  (dim, elemType, nbe) = (1, 1, 2%nat) \/ (dim, elemType, nbe) = (2, 2, 3%nat) \/ (dim, elemType, nbe) = (2, 3, 4%nat) \/
  (dim, elemType, nbe) = (3, 4, 4%nat) \/ (dim, elemType, nbe) = (3, 5, 6%nat).

(** Two-normal product of field [f] with the boundary coefficients of the other field, directions
    {d, d'}, applied to component (f,d). *)
Definition altApp (n : Z) (twoAlt : Z -> Z -> Z -> Z -> list (list (Z * R))) (f d d' : Z) (x : list R) (i : nat) : R :=
  rsum (map (fun e => snd e * comp n 0 x f d (fst e))%R (nth i (twoAlt f (1 - f) d d') [])).

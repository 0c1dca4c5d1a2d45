(** How large the operator of a finite element space is: what a space with inverse and trace
    inequalities satisfies, and the space of piecewise linear functions on a line. *)
From Coq Require Import ZArith List Bool Reals.
From Verif Require Import Common Face_Model Face_Spec Nodal_Spec Setup_Model Form_Model Form_Spec Global_Spec Step_Model.
Import ListNotations.
Local Open Scope R_scope.

(** Inverse inequality: a derivative costs at most the factor [Cd]. *)
Definition derivBound (N : nat) (dim : Z) (Mass D : Z -> mat) (Cd : R) : Prop :=
  0 <= Cd /\ forall d g v u, (0 <= d < dim)%Z -> (g = 0 \/ g = 1)%Z ->
    mform N (D d) v u * mform N (D d) v u <= Cd * Cd * mform N (Mass g) v v * mform N (Mass (1 - g)%Z) u u.
(** Trace inequality: the squares of the values on the two sides of all the faces. *)
Definition traceBound (N : nat) (m : fmesh) (Mass : Z -> mat) (Tr : R) : Prop :=
  0 <= Tr /\ forall g v, (g = 0 \/ g = 1)%Z ->
    facesum m (fun _ f q => side1 (mf_face f) (local f v) q * side1 (mf_face f) (local f v) q +
                            side2 (mf_face f) (local f v) q * side2 (mf_face f) (local f v) q) <= Tr * mform N (Mass g) v v.
(** Losses: the largest ratio of conductivity and permittivity. *)
Definition lossBound (N : nat) (Mass : Z -> mat) (MSigma : mat) (Sg : R) : Prop :=
  0 <= Sg /\ forall v u, mform N MSigma v u * mform N MSigma v u <= Sg * Sg * mform N (Mass 0%Z) v v * mform N (Mass 0%Z) u u.

(** ** Piecewise linear functions on a line *)
(** [n] elements from left to right, two dofs each (its left end and its right end). *)
Definition leftFace : mface := mkMF [0; 1]%nat [] (mkFace 2 None [mkQ 1 (G1 0) [1; 0] []]).
Definition midFace (k : nat) : mface :=
  mkMF [2 * (k - 1); 2 * (k - 1) + 1]%nat [2 * k; 2 * k + 1]%nat (mkFace 2 (Some 2%nat) [mkQ 1 (G1 1) [0; 1] [1; 0]]).
Definition rightFace (n : nat) : mface := mkMF [2 * (n - 1); 2 * (n - 1) + 1]%nat [] (mkFace 2 None [mkQ 1 (G1 1) [0; 1] []]).
(** Its faces are the n + 1 points; tags of points are arbitrary. *)
Definition lineMesh (n : nat) (bdr : list (Z * nat)) (battrs : list Z) : fmesh :=
  mkFM (leftFace :: map midFace (seq 1 (n - 1)) ++ [rightFace n]) bdr battrs.
Definition lineTags (n : nat) (bdr : list (Z * nat)) (battrs : list Z) : Prop :=
  NoDup (map snd bdr) /\ Forall (fun a => (1 <= a)%Z) battrs /\ Forall (fun b => In (fst b) battrs /\ (snd b <= n)%nat) bdr.
(** Mass matrix of lengths [h] and relative permittivity and permeability [w 0], [w 1]; its
    inverse; the derivative. *)
Definition inElement (i j : nat) (B : nat -> R) : R := if (i / 2 =? j / 2)%nat then B (i / 2)%nat else 0.
Definition lineMass (h : nat -> R) (w : Z -> nat -> R) : Z -> mat := fun g i j => inElement i j (fun k => w g k * h k * (if (i =? j)%nat then / 3 else / 6)).
Definition lineInv (h : nat -> R) (w : Z -> nat -> R) : Z -> mat := fun g i j => inElement i j (fun k => / (w g k * h k) * (if (i =? j)%nat then 4 else -2)).
Definition lineD : Z -> mat := fun _ i j => inElement i j (fun _ => if Nat.even j then - / 2 else / 2).

(** The mesh the time step is estimated from: the same elements, each with the coordinates of its
    two nodes. *)
Definition sameLine (n : nat) (h : nat -> R) (ms : mesh) : Prop :=
  m_dim ms = 1%Z /\ length (m_elements ms) = n /\
  forall k e, nth_error (m_elements ms) k = Some e -> exists x y, e_nodes e = [x; y] /\ Rabs (x - y) = h k.
(** A conducting wall at each end. *)
Definition endWalls (n : nat) : list (Z * nat) := [(1%Z, 0%nat); (1%Z, n)].
Definition noLoss : mat := fun _ _ => 0.
Definition vacuum : Z -> nat -> R := fun _ _ => 1.
(** The state of a wave on the line: the coefficients of E_y and of H_z. *)
Definition lineState (n : nat) (a b : nat -> R) : list R :=
  map (fun r => if (r / (2 * n) =? 1)%nat then a (r mod (2 * n))%nat else if (r / (2 * n) =? 5)%nat then b (r mod (2 * n))%nat else 0) (seq 0 (6 * (2 * n))).
(** Two waves: one that goes from -1 to 1 in every element, and one that is constant in every
    element with alternating sign. *)
Definition saw (i : nat) : R := if Nat.even i then -1 else 1.
Definition alternating (i : nat) : R := (-1) ^ (i / 2).
Definition sawWave (n : nat) : list R := lineState n saw (fun _ => 0).
Definition alternatingWave (n : nat) : list R := lineState n alternating (fun _ => 0).
(** Elements of lengths [h], side by side. *)
Fixpoint nodeAt (h : nat -> R) (k : nat) : R := match k with O => 0 | S k => nodeAt h k + h k end.
Definition stepMesh (n : nat) (h : nat -> R) : mesh :=
  mkMesh 1 1 (map (fun k => mkElement Segment (h k) (h k) [] [nodeAt h k; nodeAt h (S k)]) (seq 0 n)).

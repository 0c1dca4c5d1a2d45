(** Specification vocabulary for the time integrators. *)
From Coq Require Import ZArith List Bool Reals.
From Verif Require Import Common Csr_Model Face_Model Face_Spec Form_Model Nodal_Spec Global_Spec Time_Model.
Import ListNotations.
Local Open Scope R_scope.

(** [f] evaluates the operator, [imp] solves k = A (x + h k). *)
Definition evaluates (A : csr R) (N : nat) (f : R -> list R -> list R) : Prop :=
  forall t x, length x = (6 * N)%nat -> applies A N x (f t x).
Definition solvesStages (A : csr R) (N : nat) (imp : R -> R -> list R -> list R) : Prop :=
  forall t h x, length x = (6 * N)%nat -> 0 <= h ->
    length (imp t h x) = (6 * N)%nat /\
    forall y, length y = (6 * N)%nat -> (forall i, nth i y 0 = nth i x 0 + h * nth i (imp t h x) 0) -> applies A N y (imp t h x).

(** A symmetric mass matrix of non-negative energy. *)
Definition massForm (N : nat) (Mass : Z -> mat) : Prop :=
  (forall g i j, Mass g i j = Mass g j i) /\ forall g v, 0 <= mform N (Mass g) v v.
(** The operator is bounded by [K] in the energy norm. *)
Definition boundedBy (A : csr R) (N : nat) (Mass : Z -> mat) (K : R) : Prop :=
  forall x y, length x = (6 * N)%nat -> applies A N x y -> fieldEnergy N Mass y <= K * K * fieldEnergy N Mass x.

(** No entry is above the one before. *)
Fixpoint neverRises (l : list R) : Prop :=
  match l with
  | a :: ((b :: _) as r) => b <= a /\ neverRises r
  | _ => True
  end.
(** Energies along a run: at its start and after each step. *)
Definition energies (N : nat) (Mass : Z -> mat) (s : solver (list R)) (tr : list (solver (list R))) : list R :=
  map (fun st => fieldEnergy N Mass (s_fields st)) (s :: tr).
(** The energy controls every coefficient. *)
Definition coercive (N : nat) (Mass : Z -> mat) (c : R) : Prop :=
  0 < c /\ forall g v, c * sumN N (fun i => v i * v i) <= mform N (Mass g) v v.

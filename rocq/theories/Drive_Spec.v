(** Specification vocabulary for runs with a source. *)
From Coq Require Import ZArith List Bool Reals.
From Verif Require Import Common Csr_Model Face_Model Face_Spec Form_Model Nodal_Spec Global_Spec Time_Model Conv_Spec.
Import ListNotations.
Local Open Scope R_scope.

(** [f] evaluates the operator and adds the source [g]; [imp] solves k = A (x + h k) + g. *)
Definition drivenRates (A : csr R) (N : nat) (g : R -> list R) (f : R -> list R -> list R) : Prop :=
  forall t x, length x = (6 * N)%nat -> length (f t x) = (6 * N)%nat /\
    exists y, applies A N x y /\ forall i, nth i (f t x) 0 = nth i y 0 + nth i (g t) 0.
Definition drivenStages (A : csr R) (N : nat) (g : R -> list R) (imp : R -> R -> list R -> list R) : Prop :=
  forall t h x, length x = (6 * N)%nat -> 0 <= h -> length (imp t h x) = (6 * N)%nat /\
    forall y, length y = (6 * N)%nat -> (forall i, nth i y 0 = nth i x 0 + h * nth i (imp t h x) 0) ->
    exists z, applies A N y z /\ forall i, nth i (imp t h x) 0 = nth i z 0 + nth i (g t) 0.
(** [u] solves u' = A u + g. *)
Definition drivenBy (A : csr R) (N : nat) (g u : R -> list R) : Prop :=
  forall t, length (u t) = (6 * N)%nat /\ exists y, applies A N (u t) y /\
    forall i, (i < 6 * N)%nat -> derivable_pt_lim (fun s => nth i (u s) 0) t (nth i y 0 + nth i (g t) 0).

(** A source of the right length and of bounded size. *)
Definition boundedSource (N : nat) (Mass : Z -> mat) (g : R -> list R) (c0 : R) : Prop :=
  forall t, length (g t) = (6 * N)%nat /\ size N Mass (g t) <= c0.
(** [g'] is the derivative of [g]. *)
Definition changes (N : nat) (g g' : R -> list R) : Prop :=
  forall t i, (i < 6 * N)%nat -> derivable_pt_lim (fun s => nth i (g s) 0) t (nth i (g' t) 0).
(** A source that is twice differentiable, with bounds for it and its two derivatives. *)
Definition smoothSource (N : nat) (Mass : Z -> mat) (g : R -> list R) (c0 c1 c2 : R) : Prop :=
  exists g1 g2, changes N g g1 /\ changes N g1 g2 /\ boundedSource N Mass g c0 /\ boundedSource N Mass g1 c1 /\ boundedSource N Mass g2 c2.
(** [used] is [g] up to [eta], for instance when a negligible source is left out. *)
Definition upTo (N : nat) (Mass : Z -> mat) (eta : R) (used g : R -> list R) : Prop :=
  forall t, length (used t) = (6 * N)%nat /\ size N Mass (difference (used t) (g t)) <= eta.
(** Error per unit of time: of first order for backward Euler, of second order for the others.
    [U] bounds the exact solution, so m1 and m2 bound its second and third derivative. *)
Definition driveError (ty : Z) (K c0 c1 c2 U dt : R) : R :=
  let m1 := K * (K * U + c0) + c1 in let m2 := K * m1 + c2 in
  if (ty =? 1)%Z then dt * m1 else dt * dt * m2 + constantError ty (dt * m1).

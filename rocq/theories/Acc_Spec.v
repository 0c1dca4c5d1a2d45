(** Specification for C110: curves of fields that satisfy Maxwell's equations up to a defect. *)
From Coq Require Import ZArith List Bool Reals.
From Verif Require Import Face_Model Face_Spec Setup_Model Form_Model Form_Spec Nodal_Spec NodalEnergy_Spec Global_Spec Twin_Spec Consist_Spec Conv_Spec.
Import ListNotations.
Local Open Scope R_scope.

(** [dx] = curl [x] - sigma E + [g] + [r], tested with every function of the space. *)
Definition maxwell (N : nat) (dim : Z) (Mass D : Z -> mat) (MSigma : mat) (x dx g r : list R) : Prop :=
  forall v f d, (f = 0 \/ f = 1)%Z -> (0 <= d < 3)%Z ->
    mform N (Mass f) v (fld N dx f d) = weakCurl N dim D x v f d - (if (f =? 0)%Z then mform N MSigma v (fld N x 0 d) else 0)
      + mform N (Mass f) v (fld N g f d) + mform N (Mass f) v (fld N r f d).
(** The curve [w] has continuous tangential fields, meets the conditions of the faces at every time, and
    satisfies the equations with the source [g] up to a defect of size [eps]. *)
Definition nearMaxwell (N : nat) (m : fmesh) (dim : Z) (gb gi : list (Z * cond)) (Mass D : Z -> mat) (MSigma : mat) (g w : R -> list R) (eps : R) : Prop :=
  exists dw r : R -> list R, forall t,
    length (w t) = (6 * N)%nat /\ length (dw t) = (6 * N)%nat /\ length (r t) = (6 * N)%nat /\
    fits N m gb gi (w t) /\ (forall i, (i < 6 * N)%nat -> derivable_pt_lim (fun s => nth i (w s) 0) t (nth i (dw t) 0)) /\
    maxwell N dim Mass D MSigma (w t) (dw t) (g t) (r t) /\ size N Mass (r t) <= eps.
Definition noSource (N : nat) : R -> list R := fun _ => repeat 0 (6 * N).

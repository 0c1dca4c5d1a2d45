(** Fields that the faces leave alone: continuous between the elements and meeting the
    conditions of the walls. *)
From Coq Require Import ZArith List Bool Reals.
From Verif Require Import Common Geo_Spec Nodal_Spec Face_Model Face_Spec Step_Model Setup_Model Setup_Spec Form_Model Form_Spec Global_Spec Twin_Spec.
Import ListNotations.
Local Open Scope R_scope.

(** What each condition asks of the fields on its side, [n] pointing out: no tangential E, no
    tangential H, or a wave that leaves. *)
Definition meets (c : cond) (n E H : v3) : Prop :=
  match c with
  | PEC => tang n E = zero3
  | PMC => tang n H = zero3
  | SMA => tang n E = scalep (-1) (crossp n H) /\ tang n H = crossp n E
  | _ => False
  end.
(** Faces without condition: the tangential fields of both sides agree. *)
Definition fitsFace (k : option cond) (inner : bool) (n E1 H1 E2 H2 : v3) : Prop :=
  match k with
  | None => inner = true -> tang n E1 = tang n E2 /\ tang n H1 = tang n H2
  | Some c => meets c n E1 H1 /\ (inner = true -> meets c (scalep (-1) n) E2 H2)
  end.
Definition fits (N : nat) (m : fmesh) (gb gi : list (Z * cond)) (x : list R) : Prop :=
  forall fi F q, nth_error (fm_faces m) fi = Some F -> In q (f_pts (mf_face F)) ->
    fitsFace (faceKind m gb gi fi F) (match f_el2 (mf_face F) with Some _ => true | None => false end) (normalAt q)
      (fieldAt side1 N x 0 F q) (fieldAt side1 N x 1 F q) (fieldAt side2 N x 0 F q) (fieldAt side2 N x 1 F q).

(** Every component has one value, and the derivatives of a constant are zero. *)
Definition uniformField (N : nat) (x : list R) : Prop := forall g d, (g = 0 \/ g = 1)%Z -> (0 <= d < 3)%Z -> exists c, forall i, (i < N)%nat -> fld N x g d i = c.
Definition flatSpace (N : nat) (dim : Z) (Mass D : Z -> mat) : Prop :=
  (forall d v, (0 <= d < dim)%Z -> mform N (D d) v (fun _ => 1) = 0) /\
  (forall f i j, (f = 0 \/ f = 1)%Z -> (i < N)%nat -> (j < N)%nat -> Mass f i j = Mass f j i).

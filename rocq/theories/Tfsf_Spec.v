(** Total-field/scattered-field excitation: what it should do to a run. *)
From Coq Require Import ZArith List Bool Reals.
From Verif Require Import Common Csr_Model Geo_Spec Nodal_Spec NodalEnergy_Spec Face_Model Face_Spec Setup_Model Setup_Spec Form_Model Form_Spec Global_Spec.
Import ListNotations.
Local Open Scope R_scope.

(** A face of the total field surface. *)
Definition isSurface (m : fmesh) (gi : list (Z * cond)) (fi : nat) : Prop :=
  exists a, tagOf (fm_bdr m) fi = Some a /\ In (a, TotalFieldIn) gi.
(** [s] tells the dofs of the total field zone.  The elements of a face lie in different
    zones exactly when the face belongs to the surface. *)
Definition splits (m : fmesh) (gi : list (Z * cond)) (s : nat -> bool) : Prop :=
  forall fi F, nth_error (fm_faces m) fi = Some F -> exists s1 s2,
    (forall i, In i (mf_dofs1 F) -> s i = s1) /\ (forall i, In i (mf_dofs2 F) -> s i = s2) /\
    (f_el2 (mf_face F) <> None -> (s1 <> s2 <-> isSurface m gi fi)).
(** A matrix that couples no dofs of different zones, as one made of element blocks. *)
Definition zonal (N : nat) (s : nat -> bool) (M : mat) : Prop :=
  forall i j, (i < N)%nat -> (j < N)%nat -> s i <> s j -> M i j = 0.
(** The incident field is continuous across the surface. *)
Definition continuous (m : fmesh) (gi : list (Z * cond)) (N : nat) (inc : list R) : Prop :=
  forall fi F q f d, nth_error (fm_faces m) fi = Some F -> f_el2 (mf_face F) <> None -> isSurface m gi fi -> In q (f_pts (mf_face F)) ->
    (0 <= f <= 1)%Z -> (0 <= d <= 2)%Z ->
    side1 (mf_face F) (local F (fld N inc f d)) q = side2 (mf_face F) (local F (fld N inc f d)) q.
(** The field handed to the source operator: plus or minus half the incident field. *)
Definition halved (m : fmesh) (gi : list (Z * cond)) (N : nat) (s : nat -> bool) (inc g : list R) : Prop :=
  forall fi F f d i, nth_error (fm_faces m) fi = Some F -> f_el2 (mf_face F) <> None -> isSurface m gi fi -> In i (mf_dofs1 F ++ mf_dofs2 F) ->
    (0 <= f <= 1)%Z -> (0 <= d <= 2)%Z ->
    fld N g f d i = (if s i then / 2 else - / 2) * fld N inc f d i.
(** The unknown of a run: the total field in the total field zone, the scattered field
    (total minus incident) outside. *)
Definition unknown (N : nat) (s : nat -> bool) (u inc x : list R) : Prop :=
  length x = (6 * N)%nat /\ forall f d i, (0 <= f <= 1)%Z -> (0 <= d <= 2)%Z -> (i < N)%nat ->
    fld N x f d i = if s i then fld N u f d i else fld N u f d i - fld N inc f d i.

(** Product with a matrix of row lists. *)
Definition entry (T : lil R) (r c : nat) : R := match T (Z.of_nat r) (Z.of_nat c) with Some v => v | None => 0 end.
Definition lilApplies (T : lil R) (N : nat) (x y : list R) : Prop :=
  length y = (6 * N)%nat /\ forall r, (r < 6 * N)%nat -> nth r y 0 = sumN (6 * N) (fun c => entry T r c * nth c x 0).

(** The matrices of the space are made of element blocks, and the inverse mass matrix is
    an inverse from the left too. *)
Definition zoned (N : nat) (dim : Z) (s : nat -> bool) (Mass MInv D : Z -> mat) (MSigma : mat) : Prop :=
  (forall d, (0 <= d < dim)%Z -> zonal N s (D d)) /\ zonal N s MSigma /\
  (forall f, (f = 0 \/ f = 1)%Z -> zonal N s (MInv f)) /\
  (forall f i j, (f = 0 \/ f = 1)%Z -> (i < N)%nat -> (j < N)%nat -> sumN N (fun k => MInv f i k * Mass f k j) = if (i =? j)%nat then 1 else 0).

(** Energy of the assembled operator: what a discontinuous Galerkin space satisfies, and
    the power each face should exchange, by the condition its tag is given in the input. *)
From Coq Require Import ZArith List Bool Reals.
From Verif Require Import Common Csr_Model Geo_Spec Nodal_Spec NodalEnergy_Spec Face_Model Face_Spec Setup_Model Setup_Spec Form_Model Form_Spec.
Import ListNotations.
Local Open Scope R_scope.

(** The condition of a tag; conditions without an operator (such as the total field
    surface) leave a face as if untagged. *)
Definition kindOf (gt : list (Z * cond)) (a : Z) : option cond :=
  match find (fun p => Z.eqb (fst p) a) gt with
  | Some (_, PEC) => Some PEC | Some (_, PMC) => Some PMC | Some (_, SMA) => Some SMA | Some (_, SGBC) => Some SGBC
  | _ => None
  end.
(** The tag of a face. *)
Definition tagOf (bdr : list (Z * nat)) (fi : nat) : option Z :=
  match find (fun b => Nat.eqb (snd b) fi) bdr with Some b => Some (fst b) | None => None end.
(** The condition of a face, from the table of outer ([gb]) or interior ([gi]) tags. *)
Definition faceKind (m : fmesh) (gb gi : list (Z * cond)) (fi : nat) (f : mface) : option cond :=
  match tagOf (fm_bdr m) fi with
  | Some a => kindOf (match f_el2 (mf_face f) with Some _ => gi | None => gb end) a
  | None => None
  end.

(** The marker table represents the tag table. *)
Definition represents (n : Z) (gt : list (Z * cond)) (mt : list (cond * marker)) : Prop :=
  NoDup (map fst mt) /\
  (forall c mk, In (c, mk) mt -> mapped c /\ marks n gt c mk) /\
  (forall a c, mapped c -> In (a, c) gt -> exists mk, In (c, mk) mt).

(** Component [d] of field [f] (0: E, 1: H) of a state vector with [N] dofs per component. *)
Definition fld (N : nat) (x : list R) (f d : Z) : nat -> R := fun k => nth (Z.to_nat ((3 * f + d) * Z.of_nat N + Z.of_nat k)) x 0.
(** Traces of a field at a point, from the first and the second side. *)
Definition fieldAt (s : face -> (nat -> R) -> qpoint -> R) (N : nat) (x : list R) (f : Z) (F : mface) (q : qpoint) : v3 :=
  (s (mf_face F) (local F (fld N x f 0)) q, s (mf_face F) (local F (fld N x f 1)) q, s (mf_face F) (local F (fld N x f 2)) q).
Definition normalAt (q : qpoint) : v3 := (unitN q 0, unitN q 1, unitN q 2).

(** Power per unit area gained at an interior face, and at an outer face. *)
Definition innerRate (alpha : R) (k : option cond) (n E1 H1 E2 H2 : v3) : R :=
  match k with
  | Some PEC => - alpha * (sq (tang n E1) + sq (tang n E2))
  | Some PMC => - alpha * (sq (tang n H1) + sq (tang n H2))
  | Some SMA => - / 2 * (sq (tang n E1) + sq (tang n E2) + sq (tang n H1) + sq (tang n H2))
  | Some SGBC => outflow n E2 H2 - outflow n E1 H1
  | _ => - (alpha / 2) * (sq (tang n (subp E1 E2)) + sq (tang n (subp H1 H2)))
  end.
Definition outerRate (alpha : R) (k : option cond) (n E H : v3) : R :=
  match k with
  | Some PEC => - alpha * sq (tang n E)
  | Some PMC => - alpha * sq (tang n H)
  | Some SMA => - / 2 * (sq (tang n E) + sq (tang n H))
  | Some SGBC => - (alpha / 2) * (sq (tang n E) + sq (tang n H))
  | _ => - outflow n E H
  end.
Definition pointRate (N : nat) (alpha : R) (m : fmesh) (gb gi : list (Z * cond)) (x : list R) (fi : nat) (F : mface) (q : qpoint) : R :=
  let n := normalAt q in let k := faceKind m gb gi fi F in
  match f_el2 (mf_face F) with
  | Some _ => innerRate alpha k n (fieldAt side1 N x 0 F q) (fieldAt side1 N x 1 F q) (fieldAt side2 N x 0 F q) (fieldAt side2 N x 1 F q)
  | None => outerRate alpha k n (fieldAt side1 N x 0 F q) (fieldAt side1 N x 1 F q)
  end.
(** Quadrature over all the faces. *)
Definition facesum (m : fmesh) (h : nat -> mface -> qpoint -> R) : R :=
  suml (fun fi => match nth_error (fm_faces m) fi with
                  | Some f => suml (fun q => ds q * h fi f q) (f_pts (mf_face f))
                  | None => 0 end) (seq 0 (length (fm_faces m))).

(** A discontinuous Galerkin space: the inverse mass matrices, and derivatives that
    satisfy integration by parts with the quadrature of the faces. *)
Definition dgSpace (N : nat) (m : fmesh) (dim : Z) (Mass MInv D : Z -> mat) : Prop :=
  (1 <= dim <= 3)%Z /\ wfMesh N m /\ NoDup (map snd (fm_bdr m)) /\
  Forall (fun f => wfFace (mf_face f) /\
    forall q d, In q (f_pts (mf_face f)) -> (dim <= Z.of_nat d)%Z -> unitN q d = 0) (fm_faces m) /\
  (forall f i j, (f = 0 \/ f = 1)%Z -> (i < N)%nat -> (j < N)%nat ->
     sumN N (fun k => Mass f i k * MInv f k j) = if (i =? j)%nat then 1 else 0) /\
  (forall d v u, (0 <= d < dim)%Z ->
     mform N (D d) v u + mform N (D d) u v =
     facesum m (fun _ f q => unitN q (Z.to_nat d) *
       (side1 (mf_face f) (local f v) q * side1 (mf_face f) (local f u) q -
        side2 (mf_face f) (local f v) q * side2 (mf_face f) (local f u) q))).
(** The tables of conditions. *)
Definition tables (m : fmesh) (gb gi : list (Z * cond)) (ob ib : list (cond * marker)) : Prop :=
  ascending gb /\ ascending gi /\
  represents (markerSize (fm_battrs m)) gb ob /\ represents (markerSize (fm_battrs m)) gi ib.

(** Rate of the energy (half the mass norm squared) of state [x] with time derivative [y]. *)
Definition fieldRate (N : nat) (Mass : Z -> mat) (x y : list R) : R :=
  suml (fun f => suml (fun d => mform N (Mass f) (fld N x f d) (fld N y f d)) [0; 1; 2]%Z) [0; 1]%Z.
Definition fieldEnergy (N : nat) (Mass : Z -> mat) (x : list R) : R := / 2 * fieldRate N Mass x x.
(** Power lost to conduction. *)
Definition ohmic (N : nat) (MSigma : mat) (x : list R) : R :=
  suml (fun d => mform N MSigma (fld N x 0 d) (fld N x 0 d)) [0; 1; 2]%Z.

(** Faces that cannot feed energy into the system. *)
Definition passive (m : fmesh) (gb gi : list (Z * cond)) : Prop :=
  forall fi f, nth_error (fm_faces m) fi = Some f ->
    match f_el2 (mf_face f) with
    | Some _ => faceKind m gb gi fi f <> Some SGBC
    | None => faceKind m gb gi fi f <> None
    end.
Definition reflecting (m : fmesh) (gb gi : list (Z * cond)) : Prop :=
  forall fi f, nth_error (fm_faces m) fi = Some f ->
    match f_el2 (mf_face f) with
    | Some _ => faceKind m gb gi fi f = None \/ faceKind m gb gi fi f = Some PEC \/ faceKind m gb gi fi f = Some PMC
    | None => faceKind m gb gi fi f = Some PEC \/ faceKind m gb gi fi f = Some PMC
    end.

(** [y] is the product of the matrix with [x]. *)
Definition applies (A : csr R) (N : nat) (x y : list R) : Prop :=
  length y = (6 * N)%nat /\ forall r, (0 <= r < 6 * Z.of_nat N)%Z -> csr_mult_row A x r = Ok (nth (Z.to_nat r) y 0).
(** A curve of states that follows the operator. *)
Definition evolves (A : csr R) (N : nat) (x : R -> list R) : Prop :=
  forall t, length (x t) = (6 * N)%nat /\ exists y, applies A N (x t) y /\
    forall i, (i < 6 * N)%nat -> derivable_pt_lim (fun s => nth i (x s) 0) t (nth i y 0).
Definition nonnegWeights (m : fmesh) : Prop := Forall (fun f => Forall (fun q => 0 <= q_w q) (f_pts (mf_face f))) (fm_faces m).

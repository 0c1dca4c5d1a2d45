(** What assembled face forms should be: sums over faces of the face matrices acting on the
    dofs of the face. *)
From Coq Require Import ZArith List Bool Reals.
From Verif Require Import Common Face_Model Face_Spec Setup_Model Setup_Spec Form_Model Nodal_Spec.
Import ListNotations.
Local Open Scope Z_scope.

(** A well-formed mesh of [N] dofs. *)
Definition wfMF (N : nat) (f : mface) : Prop :=
  length (mf_dofs1 f) = f_el1 (mf_face f) /\
  length (mf_dofs2 f) = match f_el2 (mf_face f) with Some n => n | None => 0%nat end /\
  Forall (fun d => (d < N)%nat) (mf_dofs1 f ++ mf_dofs2 f).
Definition wfMesh (N : nat) (m : fmesh) : Prop :=
  Forall (wfMF N) (fm_faces m) /\ Forall (fun a => 1 <= a) (fm_battrs m) /\
  Forall (fun b => In (fst b) (fm_battrs m) /\ (snd b < length (fm_faces m))%nat) (fm_bdr m).

(** Coefficients seen by a face. *)
Definition local (f : mface) (v : nat -> R) : nat -> R := fun i => v (nth i (mf_dofs1 f ++ mf_dofs2 f) 0%nat).
(** Value of an integrator on a face. *)
Definition bil (k : integ) (f : mface) (v u : nat -> R) : R :=
  match k (mf_face f) with Ok K => mform (faceSize (mf_face f)) K (local f v) (local f u) | _ => 0%R end.
Definition lin (k : face -> res vec) (f : mface) (v : nat -> R) : R :=
  match k (mf_face f) with Ok e => sumN (faceSize (mf_face f)) (fun i => (local f v i * e i)%R) | _ => 0%R end.

(** The marker selects the attribute; no marker selects all. *)
Definition selects (mk : option marker) (attr : Z) : bool :=
  match mk with None => true | Some l => negb (nth (Z.to_nat (attr - 1)) l 0 =? 0) end.
Definition markerOk (m : fmesh) (mk : option marker) : Prop :=
  match mk with
  | None => True
  | Some l => (forall a, In a (fm_battrs m) -> (a <= Z.of_nat (length l))%Z) /\
      ((fm_battrs m = [] /\ l = []) \/ In (Z.of_nat (length l)) (fm_battrs m))
  end.

(** Boundary elements that lie on an interior face. *)
Definition interiorBdr (m : fmesh) : list (Z * mface) :=
  flat_map (fun b => match nth_error (fm_faces m) (snd b) with
                     | Some f => match f_el2 (mf_face f) with Some _ => [(fst b, f)] | None => [] end
                     | None => [] end) (fm_bdr m).

(** What it means that a mesh is cut among processes, and how the fields of a run on one process
    are spread over them. *)
From Coq Require Import ZArith List Bool Reals Permutation.
From Verif Require Import Common Csr_Model Face_Model Face_Spec Setup_Model Form_Model Form_Spec Ode_Model Par_Model.
Import ListNotations.
Local Open Scope R_scope.

(** The part of a state vector of [N] dofs per component that belongs to the dofs [own]. *)
Definition part (N : nat) (own : list nat) (x : list R) : list R :=
  flat_map (fun c => map (fun d => nth (c * N + d) x 0) own) (seq 0 6).
Definition spread (N : nat) (owns : list (list nat)) (x : list R) : list (list R) := map (fun own => part N own x) owns.

(** The same integration point seen from the other side. *)
Definition flippedPoint (q q' : qpoint) : Prop :=
  ds q' = ds q /\ (forall d, unitN q' d = - unitN q d) /\ q_s1 q' = q_s2 q /\ q_s2 q' = q_s1 q.
(** The same face seen from its second element; the points may come in another order. *)
Definition flippedFace (F F' : face) : Prop :=
  f_el2 F = Some (f_el1 F') /\ f_el2 F' = Some (f_el1 F) /\ wfFace F' /\
  exists l, Permutation l (f_pts F') /\ Forall2 flippedPoint (f_pts F) l.

(** [F'] is the face [F] in the numbering whose dofs [cols] lists. *)
Definition sameFace (cols : list nat) (F F' : mface) : Prop :=
  mf_face F' = mf_face F /\ Forall (fun k => (k < length cols)%nat) (vdofs F') /\
  mf_dofs1 F = map (fun k => nth k cols 0%nat) (mf_dofs1 F') /\ mf_dofs2 F = map (fun k => nth k cols 0%nat) (mf_dofs2 F').
Definition otherFace (cols : list nat) (F F' : mface) : Prop :=
  flippedFace (mf_face F) (mf_face F') /\ Forall (fun k => (k < length cols)%nat) (vdofs F') /\
  mf_dofs1 F = map (fun k => nth k cols 0%nat) (mf_dofs2 F') /\ mf_dofs2 F = map (fun k => nth k cols 0%nat) (mf_dofs1 F').

(** Serial dofs of the neighbour dofs of a process. *)
Definition ghosts (owns : list (list nat)) (rk : prank) : list nat :=
  map (fun p => nth (snd p) (nth (fst p) owns []) 0%nat) (pr_nbr rk).
(** The process holds the dofs [own] of the mesh: the faces inside it ([fs] are their serial numbers)
    with their boundary elements, and the faces it shares ([gs]), seen from its own element.  No
    shared face carries a boundary element. *)
Definition process (m : fmesh) (owns : list (list nat)) (own : list nat) (rk : prank) : Prop :=
  let cols := own ++ ghosts owns rk in
  pr_n rk = length own /\
  Forall (fun p => (fst p < length owns)%nat /\ (snd p < length (nth (fst p) owns []))%nat) (pr_nbr rk) /\
  fm_battrs (pr_mesh rk) = fm_battrs m /\
  exists fs gs, NoDup fs /\ NoDup gs /\
    (forall fi F, nth_error (fm_faces m) fi = Some F -> (In fi fs <-> incl (vdofs F) own)) /\
    (forall fi F, nth_error (fm_faces m) fi = Some F -> (In fi gs <-> ~ incl (vdofs F) own /\ exists d, In d (vdofs F) /\ In d own)) /\
    Forall2 (fun fi F' => exists F, nth_error (fm_faces m) fi = Some F /\ sameFace own F F') fs (fm_faces (pr_mesh rk)) /\
    Forall2 (fun fi F' => exists F, nth_error (fm_faces m) fi = Some F /\ Forall (fun k => (k < length own)%nat) (mf_dofs1 F') /\
               (sameFace cols F F' \/ otherFace cols F F')) gs (pr_shared rk) /\
    NoDup (map snd (fm_bdr (pr_mesh rk))) /\
    (forall a k, In (a, k) (fm_bdr (pr_mesh rk)) <-> exists fi, nth_error fs k = Some fi /\ In (a, fi) (fm_bdr m)) /\
    (forall a fi, In fi gs -> ~ In (a, fi) (fm_bdr m)).

(** A matrix that couples no dof of [own] with another one, and its part. *)
Definition within (N : nat) (own : list nat) (M M' : mat) : Prop :=
  (forall i j, In i own -> (j < N)%nat -> ~ In j own -> M i j = 0) /\
  (forall i j, (i < length own)%nat -> (j < length own)%nat -> M' i j = M (nth i own 0%nat) (nth j own 0%nat)).

(** Every dof is on one process, so are the dofs of each element of a face, and the domain forms
    (whose matrices couple dofs of one element) are those of the elements of the process. *)
Definition distributed (N : nat) (m : fmesh) (dim : Z) (MInv D : Z -> mat) (MSigma : mat) (owns : list (list nat)) (rks : list prank) : Prop :=
  Permutation (concat owns) (seq 0 N) /\
  (forall F own, In F (fm_faces m) -> In own owns ->
     (incl (mf_dofs1 F) own \/ forall d, In d (mf_dofs1 F) -> ~ In d own) /\
     (incl (mf_dofs2 F) own \/ forall d, In d (mf_dofs2 F) -> ~ In d own)) /\
  Forall2 (fun own rk => process m owns own rk /\
    (forall f, (f = 0 \/ f = 1)%Z -> within N own (MInv f) (pr_MInv rk f)) /\
    (forall d, (0 <= d < dim)%Z -> within N own (D d) (pr_D rk d)) /\ within N own MSigma (pr_Sigma rk)) owns rks.

(** The serial mesh. *)
Definition goodMesh (N : nat) (m : fmesh) (dim : Z) : Prop :=
  (1 <= dim <= 3)%Z /\ wfMesh N m /\ NoDup (map snd (fm_bdr m)) /\ Forall (fun f => wfFace (mf_face f)) (fm_faces m).

(** A run on one process: classical Runge-Kutta steps of the given sizes from time [t]. *)
Fixpoint rkRun (F : list R -> list R) (x : list R) (t : R) (dts : list R) : list R :=
  match dts with [] => x | dt :: l => rkRun F (rk4Step (fun _ => F) x t dt) (t + dt) l end.

(** C56: assembly of integrators on interior boundaries. *)
From Coq Require Import ZArith List Bool Reals.
From Verif Require Import Common Face_Model Face_Spec FaceEx_Proofs Setup_Model Form_Model Form_Spec Form_Proofs FormEx_Proofs Nodal_Spec.
Import ListNotations.
Local Open Scope R_scope.

(** The assembled matrix adds, over the interior faces carrying a boundary element, the
    matrices of exactly the integrators whose marker selects the tag. *)
Theorem C56_bilinear : forall N m (ks : list (integ * option marker)) M0, wfMesh N m -> Forall (fun k => markerOk m (snd k)) ks ->
  (forall k f, In k ks -> In f (fm_faces m) -> isInteriorFace f = true -> exists K, fst k (mf_face f) = Ok K) ->
  exists M, assembleIBFI N m ks M0 = Ok M /\ forall v u, mform N M v u = mform N M0 v u +
    suml (fun p => suml (fun k => if selects (snd k) (fst p) then bil (fst k) (snd p) v u else 0) ks) (interiorBdr m).
Proof. exact (fun N m ks M0 W Hm Hk => ibfi_adds N m ks W Hm Hk M0). Qed.
Print Assumptions C56_bilinear.
Example C56_bilinear_ex : wfMesh 6 exMesh /\ Forall (fun k => markerOk exMesh (snd k)) exKs /\
  (forall k f, In k exKs -> In f (fm_faces exMesh) -> isInteriorFace f = true -> exists K, fst k (mf_face f) = Ok K) /\
  map fst (interiorBdr exMesh) = [2; 3]%Z /\
  bil (zeroNormalJump 2) (mkMF [0; 1] [2; 3] exF)%nat one0 one0 = 1.
Proof. exact ex_ibfi. Qed.

(** Entries between dofs that share no selected interior face are left alone. *)
Theorem C56_untouched : forall N m (ks : list (integ * option marker)) M0 i j, wfMesh N m -> Forall (fun k => markerOk m (snd k)) ks ->
  (forall k f, In k ks -> In f (fm_faces m) -> isInteriorFace f = true -> exists K, fst k (mf_face f) = Ok K) ->
  (i < N)%nat -> (j < N)%nat ->
  (forall a f k, In (a, f) (interiorBdr m) -> In k ks -> selects (snd k) a = true -> ~ (In i (mf_dofs1 f ++ mf_dofs2 f) /\ In j (mf_dofs1 f ++ mf_dofs2 f))) ->
  exists M, assembleIBFI N m ks M0 = Ok M /\ M i j = M0 i j.
Proof. exact ibfi_untouched. Qed.
Print Assumptions C56_untouched.

(** The same for linear forms. *)
Theorem C56_linear : forall N m (ks : list ((face -> res vec) * option marker)) b0, wfMesh N m -> Forall (fun k => markerOk m (snd k)) ks ->
  (forall k f, In k ks -> In f (fm_faces m) -> isInteriorFace f = true -> exists e, fst k (mf_face f) = Ok e) ->
  exists b, assembleLinearIBFI N m ks b0 = Ok b /\ forall v, sumN N (fun i => v i * b i) = sumN N (fun i => v i * b0 i) +
    suml (fun p => suml (fun k => if selects (snd k) (fst p) then lin (fst k) (snd p) v else 0) ks) (interiorBdr m).
Proof. exact (fun N m ks b0 W Hm Hk => lin_ibfi_adds N m ks W Hm Hk b0). Qed.
Print Assumptions C56_linear.
Example C56_linear_ex : wfMesh 6 exMesh /\ Forall (fun k => markerOk exMesh (snd k)) exLs /\
  (forall k f, In k exLs -> In f (fm_faces exMesh) -> isInteriorFace f = true -> exists e, fst k (mf_face f) = Ok e) /\
  suml (fun p => suml (fun k => if selects (snd k) (fst p) then lin (fst k) (snd p) (unitV 4) else 0) exLs) (interiorBdr exMesh) = 4.
Proof. exact ex_lin. Qed.

(** A concrete mesh for C56, and entries left alone. *)
From Coq Require Import ZArith List Bool Reals Lia Lra.
From Verif Require Import Common Face_Model Face_Spec Face_Proofs FaceEx_Proofs Setup_Model Assembly_Model Form_Model Form_Spec Form_Proofs Nodal_Spec Nodal_Proofs NodalMult_Proofs NodalEnergy_Proofs.
Import ListNotations.
Local Open Scope R_scope.

Definition unitV (i : nat) : nat -> R := fun k => if (k =? i)%nat then 1 else 0.
Lemma entry_form : forall N M i j, (i < N)%nat -> (j < N)%nat -> mform N M (unitV i) (unitV j) = M i j.
Proof.
  intros N M i j Hi Hj. unfold mform, unitV.
  rewrite (sumN_ext N _ (fun a => if (a =? i)%nat then M a j else 0)); [apply (sumN_delta N i (fun a => M a j) Hi)|].
  intros a _. destruct (a =? i)%nat.
  - rewrite (sumN_ext N _ (fun b => if (b =? j)%nat then M a b else 0)); [apply (sumN_delta N j (fun b => M a b) Hj)|].
    intros b _. destruct (b =? j)%nat; ring.
  - apply sumN_zero. intros. ring.
Qed.
Lemma local_zero : forall N f i k, wfMF N f -> ~ In i (mf_dofs1 f ++ mf_dofs2 f) -> (k < faceSize (mf_face f))%nat -> local f (unitV i) k = 0.
Proof.
  intros N f i k W H K. unfold local, unitV. pose proof (face_size N f W) as L. unfold vdofs in L.
  destruct (Nat.eqb_spec (nth k (mf_dofs1 f ++ mf_dofs2 f) 0%nat) i) as [E|]; [|reflexivity]. exfalso. apply H. rewrite <- E. apply nth_In. rewrite L. exact K.
Qed.
Lemma bil_zero : forall N k f i j, wfMF N f -> ~ (In i (mf_dofs1 f ++ mf_dofs2 f) /\ In j (mf_dofs1 f ++ mf_dofs2 f)) -> bil k f (unitV i) (unitV j) = 0.
Proof.
  intros N k f i j W H. unfold bil. destruct (k (mf_face f)); try reflexivity. unfold mform.
  destruct (in_dec Nat.eq_dec i (mf_dofs1 f ++ mf_dofs2 f)) as [I|I].
  - assert (J : ~ In j (mf_dofs1 f ++ mf_dofs2 f)) by (intros J; apply H; split; assumption).
    apply sumN_zero. intros p _. apply sumN_zero. intros q Hq. rewrite (local_zero N f j q W J Hq). ring.
  - apply sumN_zero. intros p Hp. apply sumN_zero. intros q _. rewrite (local_zero N f i p W I Hp). ring.
Qed.
Lemma interior_in : forall m a f, In (a, f) (interiorBdr m) -> exists fi, In (a, fi) (fm_bdr m) /\ nth_error (fm_faces m) fi = Some f /\ f_el2 (mf_face f) <> None.
Proof.
  intros m a f H. unfold interiorBdr in H. apply in_flat_map in H. destruct H as ([b fi] & Hb & H). cbn [fst snd] in H.
  destruct (nth_error (fm_faces m) fi) as [g|] eqn:E; [|destruct H]. destruct (f_el2 (mf_face g)) eqn:E2; [|destruct H].
  destruct H as [H|[]]. injection H as -> ->. exists fi. split; [exact Hb|]. split; [exact E|]. rewrite E2. discriminate.
Qed.
Lemma ibfi_untouched : forall N m (ks : list (integ * option marker)) M0 i j, wfMesh N m -> Forall (fun k => markerOk m (snd k)) ks ->
  (forall k f, In k ks -> In f (fm_faces m) -> isInteriorFace f = true -> exists K, fst k (mf_face f) = Ok K) ->
  (i < N)%nat -> (j < N)%nat ->
  (forall a f k, In (a, f) (interiorBdr m) -> In k ks -> selects (snd k) a = true -> ~ (In i (mf_dofs1 f ++ mf_dofs2 f) /\ In j (mf_dofs1 f ++ mf_dofs2 f))) ->
  exists M, assembleIBFI N m ks M0 = Ok M /\ M i j = M0 i j.
Proof.
  intros N m ks M0 i j W Hm Hk Hi Hj H. destruct (ibfi_adds N m ks W Hm Hk M0) as (M & E & V). exists M. split; [exact E|].
  specialize (V (unitV i) (unitV j)). rewrite !entry_form in V by assumption. rewrite V.
  rewrite suml_zero; [ring|]. intros [a f] Hp. cbn [fst snd]. apply suml_zero. intros k Ik. destruct (selects (snd k) a) eqn:S; [|reflexivity].
  apply (bil_zero N); [|apply (H a f k Hp Ik S)]. destruct (interior_in m a f Hp) as (fi & _ & E2 & _). destruct W as (W & _). rewrite Forall_forall in W.
  apply W. apply (nth_error_In _ _ E2).
Qed.

(** Three elements in a row: an outer face and two interior faces, all tagged. *)
Definition exMesh := mkFM [mkMF [0; 1] [] exO; mkMF [0; 1] [2; 3] exF; mkMF [2; 3] [4; 5] exF]%nat [(1%Z, 0%nat); (2%Z, 1%nat); (3%Z, 2%nat)] [1; 2; 3]%Z.
Definition exKs : list (integ * option marker) := [(zeroNormalJump 2, Some [0; 1; 0]%Z); (oneNormalJump [0%nat] 1, Some [0; 1; 1]%Z)].
Lemma ex_mesh_wf : wfMesh 6 exMesh.
Proof.
  split; [|split].
  - apply Forall_forall. intros f [<-|[<-|[<-|[]]]]; (split; [reflexivity|split; [reflexivity|]]); apply Forall_forall; cbn; intros d H; lia.
  - apply Forall_forall. intros a [<-|[<-|[<-|[]]]]; lia.
  - apply Forall_forall. intros b [<-|[<-|[<-|[]]]]; cbn; lia.
Qed.
Lemma ex_ibfi : wfMesh 6 exMesh /\ Forall (fun k => markerOk exMesh (snd k)) exKs /\
  (forall k f, In k exKs -> In f (fm_faces exMesh) -> isInteriorFace f = true -> exists K, fst k (mf_face f) = Ok K) /\
  map fst (interiorBdr exMesh) = [2; 3]%Z /\
  bil (zeroNormalJump 2) (mkMF [0; 1] [2; 3] exF)%nat one0 one0 = 1.
Proof.
  split; [exact ex_mesh_wf|]. split; [|split; [|split; [reflexivity|]]].
  - apply Forall_forall. intros k [<-|[<-|[]]]; apply marker_size; reflexivity.
  - intros k f Hk Hf I. assert (F : mf_face f = exF).
    { destruct Hf as [<-|[<-|[<-|[]]]]; [discriminate|reflexivity|reflexivity]. }
    rewrite F. destruct Hk as [<-|[<-|[]]]; cbn [fst].
    + destruct (zero_value exF wf_exF 2) as (K & E & _). exists K. exact E.
    + destruct (one_value exF wf_exF 0 1 ltac:(lia)) as (K & E & _). exists K. exact E.
  - unfold bil. cbn [mf_face]. destruct (zero_value exF wf_exF 2) as (K & E & V). rewrite E, V. unfold local. ev.
    cbn [mf_dofs1 mf_dofs2 Datatypes.app nth Nat.eqb]. rewrite !ds_w. field.
Qed.
Definition exLs : list ((face -> res vec) * option marker) := [(fun F => Ok (fun i => if (i =? 2)%nat then 3 else 0), Some [0; 0; 1]%Z); (fun F => Ok (fun _ => 1), None)].
Lemma ex_lin : wfMesh 6 exMesh /\ Forall (fun k => markerOk exMesh (snd k)) exLs /\
  (forall k f, In k exLs -> In f (fm_faces exMesh) -> isInteriorFace f = true -> exists e, fst k (mf_face f) = Ok e) /\
  suml (fun p => suml (fun k => if selects (snd k) (fst p) then lin (fst k) (snd p) (unitV 4) else 0) exLs) (interiorBdr exMesh) = 4.
Proof.
  split; [exact ex_mesh_wf|]. split; [|split].
  - apply Forall_forall. intros k [<-|[<-|[]]]; [apply marker_size; reflexivity|exact I].
  - intros k f [<-|[<-|[]]] _ _; cbn [fst]; eexists; reflexivity.
  - unfold suml, lin, local, unitV, sumN. cbn -[IZR Rplus Rmult]. change (Pos.to_nat 1) with 1%nat; change (Pos.to_nat 2) with 2%nat; cbn [negb Z.eqb Pos.eqb]; ring.
Qed.

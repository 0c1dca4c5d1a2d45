(** Proofs about assembly of face forms. *)
From Coq Require Import ZArith List Bool Reals Lia Lra.
From Verif Require Import Common Face_Model Face_Spec Face_Proofs Setup_Model Setup_Spec Assembly_Model Form_Model Form_Spec Nodal_Spec Nodal_Proofs NodalMult_Proofs NodalEnergy_Spec NodalEnergy_Proofs.
Import ListNotations.
Local Open Scope R_scope.

(** ** One face *)
Lemma dofAt_ok : forall l i, (i < length l)%nat -> dofAt l i = Ok (nth i l 0%nat).
Proof. intros l i H. unfold dofAt. rewrite (nth_error_nth' l 0%nat H). reflexivity. Qed.
Lemma adds_id : forall n, adds n (fun M => Ok M) (fun _ _ => 0).
Proof. intros n M. exists M. split; [reflexivity|]. intros. ring. Qed.
Lemma adds_fold : forall {A} n (k : A -> mat -> res mat) (g : A -> (nat -> R) -> (nat -> R) -> R) l,
  (forall a, In a l -> adds n (k a) (g a)) -> adds n (fun M => foldM (fun M a => k a M) l M) (fun v u => suml (fun a => g a v u) l).
Proof.
  intros A n k g l. induction l as [|a t IH]; intros H M; cbn [foldM].
  - exists M. split; [reflexivity|]. intros. unfold suml. cbn [map fold_right]. ring.
  - destruct (H a (or_introl eq_refl) M) as (M1 & E1 & V1). rewrite E1. cbn [bind].
    destruct (IH (fun b I => H b (or_intror I)) M1) as (M2 & E2 & V2). exists M2. split; [exact E2|].
    intros v u. rewrite V2, V1. unfold suml. cbn [map fold_right]. ring.
Qed.
Lemma adds_sub : forall N dofs K, Forall (fun d => (d < N)%nat) dofs ->
  adds N (addSubMatrix N dofs K) (fun v u => mform (length dofs) K (fun i => v (nth i dofs 0%nat)) (fun i => u (nth i dofs 0%nat))).
Proof.
  intros N dofs K H. unfold addSubMatrix. rewrite Forall_forall in H.
  eapply adds_ext; [apply (adds_fold N (fun i M => foldM (fun M j => di <- dofAt dofs i ;; dj <- dofAt dofs j ;; madd N di dj (K i j) M) (seq 0 (length dofs)) M)
    (fun i v u => suml (fun j => v (nth i dofs 0%nat) * K i j * u (nth j dofs 0%nat)) (seq 0 (length dofs))))|].
  - intros i Hi. apply in_seq in Hi.
    apply (adds_fold N (fun j M => di <- dofAt dofs i ;; dj <- dofAt dofs j ;; madd N di dj (K i j) M) (fun j v u => v (nth i dofs 0%nat) * K i j * u (nth j dofs 0%nat))).
    intros j Hj. apply in_seq in Hj. intros M. rewrite !dofAt_ok by lia. cbn [bind].
    assert (Bi : (nth i dofs 0 < N)%nat) by (apply H, nth_In; lia). assert (Bj : (nth j dofs 0 < N)%nat) by (apply H, nth_In; lia).
    destruct (madd_ok N _ _ (K i j) M Bi Bj) as (M' & E). exists M'. split; [exact E|]. intros v u. rewrite (mform_madd _ _ _ _ _ _ E). ring.
  - intros v u. unfold mform. rewrite suml_sumN. apply suml_ext. intros i _. rewrite suml_sumN. reflexivity.
Qed.
Lemma face_size : forall N f, wfMF N f -> length (vdofs f) = faceSize (mf_face f).
Proof. intros N f (H1 & H2 & _). unfold vdofs, faceSize. rewrite app_length, H1, H2. reflexivity. Qed.
Lemma adds_face : forall N f (k : integ) K, wfMF N f -> k (mf_face f) = Ok K ->
  adds N (fun M => K <- k (mf_face f) ;; addSubMatrix N (vdofs f) K M) (bil k f).
Proof.
  intros N f k K W E. pose proof (face_size N f W) as L. destruct W as (_ & _ & W).
  apply (adds_bind N _ K (fun K => addSubMatrix N (vdofs f) K)); [exact E|].
  eapply adds_ext; [apply adds_sub; exact W|]. intros v u. unfold bil. rewrite E, L. reflexivity.
Qed.

(** ** Markers *)
Lemma zget_nth : forall l i, (0 <= i < Z.of_nat (length l))%Z -> zget l i = Ok (nth (Z.to_nat i) l 0%Z).
Proof. intros l i H. destruct (zget_in_range l i H) as (a & E & F). rewrite E. f_equal. symmetry. apply nth_error_nth. exact F. Qed.
Lemma or_marker : forall a b, length a = length b ->
  exists r, orMarker a b = Ok r /\ length r = length a /\ forall i, nth i r 0%Z = Z.lor (nth i a 0%Z) (nth i b 0%Z).
Proof.
  intros a b L. unfold orMarker.
  destruct (foldM_inv (fun a i => x <- zget a i ;; y <- zget b i ;; zset a i (Z.lor x y))
    (fun done r => length r = length a /\ forall i, nth i r 0%Z = if (i <? length done)%nat then Z.lor (nth i a 0%Z) (nth i b 0%Z) else nth i a 0%Z)
    (zseq (length a)) a) as (r & E & Lr & V).
  - split; [reflexivity|]. intros i. reflexivity.
  - intros done x rest r Ez (Lr & V).
    assert (Hx : x = Z.of_nat (length done) /\ (length done < length a)%nat).
    { assert (H1 : nth_error (zseq (length a)) (length done) = Some x) by (rewrite Ez, nth_error_app2, Nat.sub_diag by lia; reflexivity).
      assert (H2 : (length done < length (zseq (length a)))%nat) by (apply nth_error_Some; congruence). rewrite zseq_length in H2.
      split; [|exact H2]. unfold zseq in H1. rewrite nth_error_map in H1. rewrite (nth_error_nth' _ 0%nat) in H1 by (rewrite seq_length; exact H2).
      rewrite seq_nth in H1 by exact H2. cbn [option_map] in H1. injection H1 as <-. reflexivity. }
    destruct Hx as (-> & Hd). rewrite (zget_nth r) by lia. cbn [bind]. rewrite (zget_nth b) by lia. cbn [bind]. rewrite Nat2Z.id.
    unfold zset. replace (Z.of_nat (length done) <? 0)%Z with false by (symmetry; apply Z.ltb_ge; lia). rewrite Nat2Z.id.
    replace (length done <? length r)%nat with true by (symmetry; apply Nat.ltb_lt; lia).
    eexists. split; [reflexivity|]. split; [rewrite upd_length; exact Lr|]. intros i. rewrite app_length. cbn [length].
    destruct (Nat.eq_dec i (length done)) as [->|Ni].
    + replace (length done <? length done + 1)%nat with true by (symmetry; apply Nat.ltb_lt; lia).
      rewrite (nth_error_nth _ _ 0%Z (nth_error_upd_same r (length done) _ ltac:(lia))). rewrite V, Nat.ltb_irrefl. reflexivity.
    + assert (X : nth i (upd r (length done) (Z.lor (nth (length done) r 0%Z) (nth (length done) b 0%Z))) 0%Z = nth i r 0%Z).
      { destruct (nth_error r i) as [y|] eqn:Y.
        - rewrite (nth_error_nth r i 0%Z Y). apply nth_error_nth. rewrite nth_error_upd_other by lia. exact Y.
        - apply nth_error_None in Y. rewrite !nth_overflow by (try rewrite upd_length; exact Y). reflexivity. }
      rewrite X, V. destruct (Nat.ltb_spec i (length done)), (Nat.ltb_spec i (length done + 1)); try reflexivity; lia.
  - exists r. split; [exact E|]. split; [exact Lr|]. intros i. rewrite V, zseq_length.
    destruct (Nat.ltb_spec i (length a)); [reflexivity|]. rewrite !nth_overflow by lia. reflexivity.
Qed.
Lemma union_marker : forall {A} (ks : list (A * option marker)) acc n, Z.of_nat (length acc) = n ->
  Forall (fun k => match snd k with None => True | Some l => Z.of_nat (length l) = n end) ks ->
  exists r, unionMarker ks acc = Ok r /\ Z.of_nat (length r) = n /\
    forall a, (1 <= a <= n)%Z -> (nth (Z.to_nat (a - 1)) r 0%Z = 0%Z <-> nth (Z.to_nat (a - 1)) acc 0%Z = 0%Z /\ forall k, In k ks -> selects (snd k) a = false).
Proof.
  intros A ks. induction ks as [|[x [l|]] t IH]; intros acc n L H; cbn [unionMarker].
  - exists acc. split; [reflexivity|]. split; [exact L|]. intros a _. split; [intros E; split; [exact E|intros k []]|intros (E & _); exact E].
  - inversion H as [|? ? H1 H2]; subst. cbn [snd] in H1. destruct (or_marker acc l ltac:(lia)) as (r1 & E1 & L1 & V1). rewrite E1. cbn [bind].
    destruct (IH r1 (Z.of_nat (length acc)) ltac:(lia) H2) as (r & E & Lr & V). exists r. split; [exact E|]. split; [exact Lr|].
    intros a Ha. rewrite (V a Ha), V1, Z.lor_eq_0_iff. split.
    + intros ((E2 & E3) & K). split; [exact E2|]. intros k [<-|I]; [cbn [snd selects]; rewrite E3; reflexivity|apply K; exact I].
    + intros (E2 & K). split; [split; [exact E2|]|intros k I; apply K; right; exact I].
      specialize (K (x, Some l) (or_introl eq_refl)). cbn [snd selects] in K. apply negb_false_iff, Z.eqb_eq in K. exact K.
  - exists (map (fun _ => 1%Z) acc). split; [reflexivity|]. split; [rewrite map_length; exact L|]. intros a Ha.
    rewrite (nth_indep _ 0%Z 1%Z) by (rewrite map_length; lia). rewrite (map_nth (fun _ => 1%Z) acc 1%Z). split; [discriminate|].
    intros (_ & K). specialize (K (x, None) (or_introl eq_refl)). discriminate.
Qed.
Lemma max_fold : forall l a, (forall x, In x (a :: l) -> (x <= fold_left Z.max l a)%Z) /\ In (fold_left Z.max l a) (a :: l).
Proof.
  intros l. induction l as [|b t IH]; intros a; cbn [fold_left]; [split; [intros x [<-|[]]; lia|left; reflexivity]|].
  destruct (IH (Z.max a b)) as [U I]. split.
  - intros x [<-|[<-|J]]; [specialize (U (Z.max a b) (or_introl eq_refl)); lia|specialize (U (Z.max a b) (or_introl eq_refl)); lia|exact (U x (or_intror J))].
  - destruct I as [I|I]; [|right; right; exact I]. rewrite <- I. destruct (Z.max_spec a b) as [[_ ->]|[_ ->]]; [right; left; reflexivity|left; reflexivity].
Qed.
Lemma marker_size : forall m (l : marker), markerOk m (Some l) <-> Z.of_nat (length l) = markerSize (fm_battrs m).
Proof.
  intros m l. unfold markerOk, markerSize. destruct (fm_battrs m) as [|a t].
  - split; [intros [_ [[_ ->]|[]]]; reflexivity|]. intros H. split; [intros x []|]. left. split; [reflexivity|]. destruct l; [reflexivity|cbn [length] in H; lia].
  - destruct (max_fold t a) as [U I]. split.
    + intros [H [[X _]|J]]; [discriminate X|]. specialize (H _ I). specialize (U _ J). lia.
    + intros H. rewrite H. split; [exact U|right; exact I].
Qed.
Lemma wf_range : forall N m, wfMesh N m -> Forall (wfMF N) (fm_faces m) /\ Forall (fun a => (1 <= a)%Z) (fm_battrs m) /\
  Forall (fun b => (1 <= fst b <= markerSize (fm_battrs m))%Z /\ (snd b < length (fm_faces m))%nat) (fm_bdr m).
Proof.
  intros N m (W1 & W0 & W2). split; [exact W1|]. split; [exact W0|]. rewrite Forall_forall in *. intros b I. destruct (W2 b I) as [J L]. split; [|exact L].
  split; [exact (W0 _ J)|]. unfold markerSize. destruct (fm_battrs m) as [|a t]; [destruct J|]. exact (proj1 (max_fold t a) _ J).
Qed.
Lemma markers_sized : forall {A} m (ks : list (A * option marker)), Forall (fun k => markerOk m (snd k)) ks ->
  Forall (fun k => match snd k with Some l => Z.of_nat (length l) = markerSize (fm_battrs m) | None => True end) ks.
Proof. intros A m ks H. eapply Forall_impl; [|exact H]. intros [x [l|]] K; cbn [snd] in *; [apply marker_size; exact K|exact I]. Qed.
Lemma skip_ok : forall m mk a, markerOk m mk -> (1 <= a <= markerSize (fm_battrs m))%Z -> skipped mk a = Ok (negb (selects mk a)).
Proof.
  intros m [l|] a H Ha; cbn [skipped selects] in *; [apply marker_size in H|reflexivity]. rewrite zget_nth by lia. cbn [bind]. rewrite negb_involutive. reflexivity.
Qed.
Lemma faceAt_ok : forall m i, (i < length (fm_faces m))%nat -> exists f, faceAt m i = Ok f /\ nth_error (fm_faces m) i = Some f /\ In f (fm_faces m).
Proof.
  intros m i H. unfold faceAt. destruct (nth_error (fm_faces m) i) as [f|] eqn:E; [|apply nth_error_None in E; lia].
  exists f. split; [reflexivity|]. split; [reflexivity|]. apply (nth_error_In _ _ E).
Qed.
Lemma marker_size_nonneg : forall m, Forall (fun a => (1 <= a)%Z) (fm_battrs m) -> (0 <= markerSize (fm_battrs m))%Z.
Proof.
  intros m H. unfold markerSize. destruct H as [|a t Ha Ht]; [lia|]. clear Ht. revert a Ha. induction t as [|b t IH]; intros a Ha; cbn [fold_left]; [lia|]. apply IH. lia.
Qed.

Lemma suml_zero : forall {A} (f : A -> R) l, (forall a, In a l -> f a = 0) -> suml f l = 0.
Proof. intros A f l H. rewrite (suml_ext f (fun _ => 0) l H). clear H. unfold suml. induction l as [|a t IH]; cbn [map fold_right]; [reflexivity|rewrite IH; ring]. Qed.
Lemma interior_sum : forall m (g : Z -> mface -> R),
  suml (fun p => g (fst p) (snd p)) (interiorBdr m) =
  suml (fun b => match nth_error (fm_faces m) (snd b) with
                 | Some f => if isInteriorFace f then g (fst b) f else 0 | None => 0 end) (fm_bdr m).
Proof.
  intros m g. unfold interiorBdr. rewrite suml_flat_map. apply suml_ext. intros b _.
  destruct (nth_error (fm_faces m) (snd b)) as [f|]; [|reflexivity]. unfold isInteriorFace. destruct (f_el2 (mf_face f)); unfold suml; cbn [map fold_right fst snd]; ring.
Qed.

(** ** C56 *)
Lemma ibfi_adds : forall N m (ks : list (integ * option marker)), wfMesh N m -> Forall (fun k => markerOk m (snd k)) ks ->
  (forall k f, In k ks -> In f (fm_faces m) -> isInteriorFace f = true -> exists K, fst k (mf_face f) = Ok K) ->
  adds N (assembleIBFI N m ks)
    (fun v u => suml (fun p => suml (fun k => if selects (snd k) (fst p) then bil (fst k) (snd p) v u else 0) ks) (interiorBdr m)).
Proof.
  intros N m ks W; apply wf_range in W; destruct W as (W1 & W0 & W2); intros Hm Hk. pose proof (marker_size_nonneg m W0) as Hn. rewrite Forall_forall in W1, W2.
  unfold assembleIBFI. destruct ks as [|k0 kt] eqn:Eks.
  { intros M. exists M. split; [reflexivity|]. intros v u. rewrite suml_zero; [ring|reflexivity]. }
  cbv beta iota. rewrite <- Eks in *. clear k0 kt Eks.
  destruct (union_marker (A := integ) ks (repeat 0%Z (Z.to_nat (markerSize (fm_battrs m)))) (markerSize (fm_battrs m))) as (mk & Em & Lm & Vm);
    [rewrite repeat_length; lia|exact (markers_sized m ks Hm)|].
  rewrite Forall_forall in Hm. rewrite Em. cbn [bind].
  eapply adds_ext; [apply (adds_fold N (fun (b : Z * nat) M => let (attr, fi) := b in
      x <- zget mk (attr - 1) ;;
      if (x =? 0)%Z then Ok M else
      f <- faceAt m fi ;;
      if isInteriorFace f then
        foldM (fun M k =>
          s <- skipped (snd k) attr ;;
          if (s : bool) then Ok M else
          K <- fst k (mf_face f) ;; addSubMatrix N (vdofs f) K M) ks M
      else Ok M)
    (fun b v u => match nth_error (fm_faces m) (snd b) with
                 | Some f => if isInteriorFace f then suml (fun k => if selects (snd k) (fst b) then bil (fst k) f v u else 0) ks else 0 | None => 0 end))|].
  - intros [a fi] Hb. destruct (W2 _ Hb) as (Ha & Hf). cbn [fst snd] in *. destruct (faceAt_ok m fi Hf) as (f & E1 & E2 & If). rewrite E1, E2, (zget_nth mk) by lia.
    cbn [bind]. destruct (nth (Z.to_nat (a - 1)) mk 0%Z =? 0)%Z eqn:Z0.
    + apply Z.eqb_eq in Z0. apply (Vm a Ha) in Z0. destruct Z0 as (_ & Z0). eapply adds_ext; [apply adds_id|]. intros v u.
      destruct (isInteriorFace f); [|reflexivity]. symmetry. apply suml_zero. intros k Ik. rewrite (Z0 k Ik). reflexivity.
    + destruct (isInteriorFace f) eqn:If'; [|apply adds_id].
      apply (adds_fold N (fun k M => s <- skipped (snd k) a ;; if (s : bool) then Ok M else K <- fst k (mf_face f) ;; addSubMatrix N (vdofs f) K M)
        (fun k v u => if selects (snd k) a then bil (fst k) f v u else 0)).
      intros k Ik. rewrite (skip_ok m (snd k) a (Hm k Ik) Ha). cbn [bind]. destruct (selects (snd k) a); cbn [negb]; [|apply adds_id].
      destruct (Hk k f Ik If If') as (K & EK). apply (adds_face N f (fst k) K (W1 f If) EK).
  - intros v u. symmetry. apply (interior_sum m (fun a f => suml (fun k => if selects (snd k) a then bil (fst k) f v u else 0) ks)).
Qed.

(** Linear forms. *)
Definition vadds (n : nat) (k : vec -> res vec) (g : (nat -> R) -> R) : Prop :=
  forall b, exists b', k b = Ok b' /\ forall v, sumN n (fun i => v i * b' i) = sumN n (fun i => v i * b i) + g v.
Lemma vadds_id : forall n, vadds n (fun b => Ok b) (fun _ => 0).
Proof. intros n b. exists b. split; [reflexivity|]. intros. ring. Qed.
Lemma vadds_ext : forall n k g h, vadds n k g -> (forall v, g v = h v) -> vadds n k h.
Proof. intros n k g h H E b. destruct (H b) as (b' & A & B). exists b'. split; [exact A|]. intros. rewrite B, E. reflexivity. Qed.
Lemma vadds_fold : forall {A} n (k : A -> vec -> res vec) (g : A -> (nat -> R) -> R) l,
  (forall a, In a l -> vadds n (k a) (g a)) -> vadds n (fun b => foldM (fun b a => k a b) l b) (fun v => suml (fun a => g a v) l).
Proof.
  intros A n k g l. induction l as [|a t IH]; intros H b; cbn [foldM].
  - exists b. split; [reflexivity|]. intros. unfold suml. cbn [map fold_right]. ring.
  - destruct (H a (or_introl eq_refl) b) as (b1 & E1 & V1). rewrite E1. cbn [bind].
    destruct (IH (fun b I => H b (or_intror I)) b1) as (b2 & E2 & V2). exists b2. split; [exact E2|].
    intros v. rewrite V2, V1. unfold suml. cbn [map fold_right]. ring.
Qed.
Lemma vadds_sub : forall N dofs e, Forall (fun d => (d < N)%nat) dofs ->
  vadds N (addSubVector N dofs e) (fun v => sumN (length dofs) (fun i => v (nth i dofs 0%nat) * e i)).
Proof.
  intros N dofs e H. unfold addSubVector. rewrite Forall_forall in H.
  eapply vadds_ext; [apply (vadds_fold N (fun i b => di <- dofAt dofs i ;;
    if (di <? N)%nat then Ok (fun k => if (k =? di)%nat then (b k + e i)%R else b k) else UB) (fun i v => v (nth i dofs 0%nat) * e i))|].
  - intros i Hi. apply in_seq in Hi. intros b. rewrite dofAt_ok by lia. cbn [bind].
    assert (Bi : (nth i dofs 0 < N)%nat) by (apply H, nth_In; lia).
    replace (nth i dofs 0 <? N)%nat with true by (symmetry; apply Nat.ltb_lt; exact Bi). eexists. split; [reflexivity|]. intros v.
    rewrite (sumN_ext N _ (fun k => v k * b k + (if (k =? nth i dofs 0)%nat then v k * e i else 0))).
    + rewrite sumN_plus. f_equal. rewrite (sumN_delta N (nth i dofs 0%nat) (fun k => v k * e i) Bi). reflexivity.
    + intros k _. destruct (k =? nth i dofs 0)%nat; ring.
  - intros v. rewrite suml_sumN. reflexivity.
Qed.
Lemma lin_ibfi_adds : forall N m (ks : list ((face -> res vec) * option marker)), wfMesh N m -> Forall (fun k => markerOk m (snd k)) ks ->
  (forall k f, In k ks -> In f (fm_faces m) -> isInteriorFace f = true -> exists e, fst k (mf_face f) = Ok e) ->
  vadds N (assembleLinearIBFI N m ks)
    (fun v => suml (fun p => suml (fun k => if selects (snd k) (fst p) then lin (fst k) (snd p) v else 0) ks) (interiorBdr m)).
Proof.
  intros N m ks W; apply wf_range in W; destruct W as (W1 & W0 & W2); intros Hm Hk. pose proof (marker_size_nonneg m W0) as Hn. rewrite Forall_forall in W1, W2.
  unfold assembleLinearIBFI. destruct ks as [|k0 kt] eqn:Eks.
  { intros M. exists M. split; [reflexivity|]. intros v. rewrite suml_zero; [ring|reflexivity]. }
  cbv beta iota. rewrite <- Eks in *. clear k0 kt Eks.
  destruct (union_marker (A := face -> res vec) ks (repeat 0%Z (Z.to_nat (markerSize (fm_battrs m)))) (markerSize (fm_battrs m))) as (mk & Em & Lm & Vm);
    [rewrite repeat_length; lia|exact (markers_sized m ks Hm)|].
  rewrite Forall_forall in Hm. rewrite Em. cbn [bind].
  eapply vadds_ext; [apply (vadds_fold N (fun (p : Z * nat) b => let (attr, fi) := p in
      x <- zget mk (attr - 1) ;;
      if (x =? 0)%Z then Ok b else
      f <- faceAt m fi ;;
      if isInteriorFace f then
        foldM (fun b k =>
          s <- skipped (snd k) attr ;;
          if (s : bool) then Ok b else
          e <- fst k (mf_face f) ;; addSubVector N (vdofs f) e b) ks b
      else Ok b)
    (fun b v => match nth_error (fm_faces m) (snd b) with
                 | Some f => if isInteriorFace f then suml (fun k => if selects (snd k) (fst b) then lin (fst k) f v else 0) ks else 0 | None => 0 end))|].
  - intros [a fi] Hb. destruct (W2 _ Hb) as (Ha & Hf). cbn [fst snd] in *. destruct (faceAt_ok m fi Hf) as (f & E1 & E2 & If). rewrite E1, E2, (zget_nth mk) by lia.
    cbn [bind]. destruct (nth (Z.to_nat (a - 1)) mk 0%Z =? 0)%Z eqn:Z0.
    + apply Z.eqb_eq in Z0. apply (Vm a Ha) in Z0. destruct Z0 as (_ & Z0). eapply vadds_ext; [apply vadds_id|]. intros v.
      destruct (isInteriorFace f); [|reflexivity]. symmetry. apply suml_zero. intros k Ik. rewrite (Z0 k Ik). reflexivity.
    + destruct (isInteriorFace f) eqn:If'; [|apply vadds_id].
      apply (vadds_fold N (fun k b => s <- skipped (snd k) a ;; if (s : bool) then Ok b else e <- fst k (mf_face f) ;; addSubVector N (vdofs f) e b)
        (fun k v => if selects (snd k) a then lin (fst k) f v else 0)).
      intros k Ik. rewrite (skip_ok m (snd k) a (Hm k Ik) Ha). cbn [bind]. destruct (selects (snd k) a); cbn [negb]; [|apply vadds_id].
      destruct (Hk k f Ik If If') as (e & Ee). intros b. unfold lin. rewrite Ee. cbn [bind].
      pose proof (face_size N f (W1 f If)) as L. destruct (W1 f If) as (_ & _ & Wd). destruct (vadds_sub N (vdofs f) e Wd b) as (b' & E' & V').
      exists b'. split; [exact E'|]. intros v. rewrite V', L. reflexivity.
  - intros v. symmetry. apply (interior_sum m (fun a f => suml (fun k => if selects (snd k) a then lin (fst k) f v else 0) ks)).
Qed.

(** ** Interior and boundary forms *)
Lemma interior_adds : forall N m k ign, wfMesh N m ->
  (forall f, In f (fm_faces m) -> isInteriorFace f = true -> exists K, k (mf_face f) = Ok K) ->
  adds N (assembleInterior N m k ign)
    (fun v u => suml (fun fi => match nth_error (fm_faces m) fi with
      | Some f => if isInteriorFace f && negb (ignored m ign fi) then bil k f v u else 0 | None => 0 end) (seq 0 (length (fm_faces m)))).
Proof.
  intros N m k ign (W1 & _ & _) Hk. rewrite Forall_forall in W1. unfold assembleInterior.
  apply (adds_fold N (fun fi M => f <- faceAt m fi ;;
    if isInteriorFace f && negb (ignored m ign fi) then K <- k (mf_face f) ;; addSubMatrix N (vdofs f) K M else Ok M)
    (fun fi v u => match nth_error (fm_faces m) fi with Some f => if isInteriorFace f && negb (ignored m ign fi) then bil k f v u else 0 | None => 0 end)).
  intros fi Hi. apply in_seq in Hi. destruct (faceAt_ok m fi ltac:(lia)) as (f & E1 & E2 & If). rewrite E1, E2. cbn [bind].
  destruct (isInteriorFace f) eqn:I; cbn [andb]; [|apply adds_id]. destruct (ignored m ign fi); cbn [negb]; [apply adds_id|].
  destruct (Hk f If I) as (K & EK). apply (adds_face N f k K (W1 f If) EK).
Qed.
Lemma bdr_adds : forall N m (ks : list (integ * marker)), wfMesh N m -> Forall (fun k => markerOk m (Some (snd k))) ks ->
  (forall k f, In k ks -> In f (fm_faces m) -> isInteriorFace f = false -> exists K, fst k (mf_face f) = Ok K) ->
  adds N (assembleBdr N m ks)
    (fun v u => suml (fun b => match nth_error (fm_faces m) (snd b) with
      | Some f => if isInteriorFace f then 0 else suml (fun k => if selects (Some (snd k)) (fst b) then bil (fst k) f v u else 0) ks
      | None => 0 end) (fm_bdr m)).
Proof.
  intros N m ks W; apply wf_range in W; destruct W as (W1 & W0 & W2); intros Hm Hk. rewrite Forall_forall in W1, W2, Hm. unfold assembleBdr.
  apply (adds_fold N (fun (b : Z * nat) M => let (attr, fi) := b in
    f <- faceAt m fi ;;
    if isInteriorFace f then Ok M else
    foldM (fun M k => x <- zget (snd k) (attr - 1) ;;
      if (x =? 0)%Z then Ok M else K <- fst k (mf_face f) ;; addSubMatrix N (vdofs f) K M) ks M)
    (fun b v u => match nth_error (fm_faces m) (snd b) with
      | Some f => if isInteriorFace f then 0 else suml (fun k => if selects (Some (snd k)) (fst b) then bil (fst k) f v u else 0) ks
      | None => 0 end)).
  intros [a fi] Hb. destruct (W2 _ Hb) as (Ha & Hf). cbn [fst snd] in *. destruct (faceAt_ok m fi Hf) as (f & E1 & E2 & If). rewrite E1, E2. cbn [bind].
  destruct (isInteriorFace f) eqn:I; [apply adds_id|].
  apply (adds_fold N (fun k M => x <- zget (snd k) (a - 1) ;;
      if (x =? 0)%Z then Ok M else K <- fst k (mf_face f) ;; addSubMatrix N (vdofs f) K M)
     (fun k v u => if selects (Some (snd k)) a then bil (fst k) f v u else 0)).
  intros [kk mk] Ik. pose proof (Hm _ Ik) as L. cbn [fst snd] in *. apply marker_size in L. rewrite (zget_nth mk) by lia. cbn [bind selects].
  destruct (nth (Z.to_nat (a - 1)) mk 0%Z =? 0)%Z; cbn [negb]; [apply adds_id|].
  destruct (Hk _ f Ik If I) as (K & EK). apply (adds_face N f kk K (W1 f If) EK).
Qed.

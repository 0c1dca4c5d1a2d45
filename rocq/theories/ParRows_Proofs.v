(** One process: its face forms, products and rows. *)
From Coq Require Import ZArith List Bool Reals Lia Lra Permutation.
From Verif Require Import Common Csr_Model Face_Model Face_Spec Face_Proofs FaceLoad_Proofs Setup_Model Setup_Spec Assembly_Model Assembly_Spec Assembly_Proofs Form_Model Form_Spec Form_Proofs Nodal_Spec Nodal_Proofs NodalMult_Proofs NodalEnergy_Spec NodalEnergy_Proofs Global_Spec Global_Proofs GlobalEnergy_Proofs Par_Model Par_Spec Par_Proofs.
Import ListNotations.
Local Open Scope R_scope.

Lemma forall2_in_r : forall (A B : Type) (P : A -> B -> Prop) l l' b, Forall2 P l l' -> In b l' -> exists a, In a l /\ P a b.
Proof.
  intros A B P l l' b F. induction F as [|x y t t' H F IH]; intros I; [destruct I|]. destruct I as [<-|I].
  - exists x. split; [left; reflexivity|exact H].
  - destruct (IH I) as (a & J & K). exists a. split; [right; exact J|exact K].
Qed.
Lemma forall2_strong : forall (A B : Type) (P : A -> B -> Prop) l l', Forall2 P l l' -> Forall2 (fun a b => In b l' /\ P a b) l l'.
Proof.
  intros A B P l l' F. assert (X : forall k, incl l' k -> Forall2 (fun a b => In b k /\ P a b) l l').
  { induction F as [|x y t t' H F IH]; intros k I; constructor.
    - split; [apply I; left; reflexivity|exact H].
    - apply IH. intros z J. apply I. right. exact J. }
  apply X. apply incl_refl.
Qed.
Lemma same_len : forall (A B : Type) (P : A -> B -> Prop) l l', Forall2 P l l' -> length l = length l'.
Proof. intros A B P l l' F. induction F as [|x y t t' H F IH]; [reflexivity|]. cbn [length]. rewrite IH. reflexivity. Qed.

Section Process.
Variable N : nat.
Variable m : fmesh.
Variable dim : Z.
Variable gb gi : list (Z * cond).
Variable ob ib : list (cond * marker).
Variable owns : list (list nat).
Variable own : list nat.
Variable rk : prank.
Hypothesis G : goodMesh N m dim.
Hypothesis T : tables m gb gi ob ib.
Hypothesis NDo : NoDup own.
Hypothesis Bo : forall d, In d own -> (d < N)%nat.
Hypothesis El : forall F, In F (fm_faces m) ->
  (incl (mf_dofs1 F) own \/ forall d, In d (mf_dofs1 F) -> ~ In d own) /\
  (incl (mf_dofs2 F) own \/ forall d, In d (mf_dofs2 F) -> ~ In d own).
Notation cols := (own ++ ghosts owns rk).
Notation mr := (pr_mesh rk).
Hypothesis Pn : pr_n rk = length own.
Hypothesis Pb : fm_battrs mr = fm_battrs m.
Variable fs gs : list nat.
Hypothesis NDf : NoDup fs.
Hypothesis NDg : NoDup gs.
Hypothesis Hf : forall fi F, nth_error (fm_faces m) fi = Some F -> (In fi fs <-> incl (vdofs F) own).
Hypothesis Hg : forall fi F, nth_error (fm_faces m) fi = Some F -> (In fi gs <-> ~ incl (vdofs F) own /\ exists d, In d (vdofs F) /\ In d own).
Hypothesis Lf : Forall2 (fun fi F' => exists F, nth_error (fm_faces m) fi = Some F /\ sameFace own F F') fs (fm_faces mr).
Hypothesis Lg : Forall2 (fun fi F' => exists F, nth_error (fm_faces m) fi = Some F /\ Forall (fun k => (k < length own)%nat) (mf_dofs1 F') /\
               (sameFace cols F F' \/ otherFace cols F F')) gs (pr_shared rk).
Hypothesis NDb : NoDup (map snd (fm_bdr mr)).
Hypothesis Hb : forall a k, In (a, k) (fm_bdr mr) <-> exists fi, nth_error fs k = Some fi /\ In (a, fi) (fm_bdr m).
Hypothesis Hs : forall a fi, In fi gs -> ~ In (a, fi) (fm_bdr m).

Let W : wfMesh N m := proj1 (proj2 G).
Let ND : NoDup (map snd (fm_bdr m)) := proj1 (proj2 (proj2 G)).
Lemma WF : forall F, In F (fm_faces m) -> wfFace (mf_face F).
Proof. pose proof (proj2 (proj2 (proj2 G))) as H. rewrite Forall_forall in H. exact H. Qed.
Lemma WM : forall F, In F (fm_faces m) -> wfMF N F.
Proof. pose proof (proj1 W) as H. rewrite Forall_forall in H. exact H. Qed.
Lemma nin : forall fi F, nth_error (fm_faces m) fi = Some F -> In F (fm_faces m).
Proof. intros fi F E. exact (nth_error_In _ _ E). Qed.

Lemma local_face : forall F', In F' (fm_faces mr) -> exists fi F, In fi fs /\ nth_error (fm_faces m) fi = Some F /\ sameFace own F F'.
Proof. intros F' I. destruct (forall2_in_r _ _ _ _ _ F' Lf I) as (fi & J & F & E & S). exists fi, F. auto. Qed.
Lemma shared_face : forall F', In F' (pr_shared rk) -> exists fi F, In fi gs /\ nth_error (fm_faces m) fi = Some F /\
  Forall (fun k => (k < length own)%nat) (mf_dofs1 F') /\ (sameFace cols F F' \/ otherFace cols F F').
Proof. intros F' I. destruct (forall2_in_r _ _ _ _ _ F' Lg I) as (fi & J & F & E & S). exists fi, F. tauto. Qed.
Lemma rank_wf : wfMesh (length own) mr.
Proof.
  pose proof W as (W1 & W2 & W3). rewrite Forall_forall in W1, W3. split; [|split].
  - apply Forall_forall. intros F' I. destruct (local_face F' I) as (fi & F & _ & E & S). destruct (W1 F (nin fi F E)) as (A1 & A2 & _).
    destruct (same_lengths _ _ _ S) as (L1 & L2). unfold wfMF. rewrite L1, L2, (proj1 S). split; [exact A1|]. split; [exact A2|]. exact (proj1 (proj2 S)).
  - rewrite Pb. exact W2.
  - apply Forall_forall. intros [a k] I. rewrite Pb. cbn [fst snd]. apply Hb in I. destruct I as (fi & E & I). split; [exact (proj1 (W3 _ I))|].
    rewrite <- (same_len _ _ _ _ _ Lf). apply nth_error_Some. congruence.
Qed.
Lemma rank_face_wf : forall F', In F' (fm_faces mr) -> wfFace (mf_face F').
Proof. intros F' I. destruct (local_face F' I) as (fi & F & _ & E & S). rewrite (proj1 S). apply WF. exact (nin fi F E). Qed.
Lemma rank_tables : tables mr gb gi ob ib.
Proof. destruct T as (A & B & C & D). unfold tables. rewrite Pb. auto. Qed.
Lemma tag_same : forall k fi, nth_error fs k = Some fi -> tagOf (fm_bdr mr) k = tagOf (fm_bdr m) fi.
Proof.
  intros k fi E. destruct (tagOf (fm_bdr m) fi) as [a|] eqn:Et.
  - apply tag_of_in; [exact NDb|]. apply Hb. exists fi. split; [exact E|]. apply tag_in. exact Et.
  - destruct (tagOf (fm_bdr mr) k) as [a|] eqn:Er; [|reflexivity]. apply tag_in in Er. apply Hb in Er. destruct Er as (fj & Ej & I).
    assert (fj = fi) by congruence. subst fj. rewrite (tag_of_in _ _ _ ND I) in Et. discriminate.
Qed.

(** ** Sums over faces *)
Section Sel.
Variable sel : bool -> option cond -> option integ.
Definition fterm (msh : fmesh) (fi : nat) (F : mface) (v u : nat -> R) : R :=
  match sel (isInteriorFace F) (faceKind msh gb gi fi F) with Some k => bil k F v u | None => 0 end.
Definition term (V U : nat -> R) (fi : nat) : R := match nth_error (fm_faces m) fi with Some F => fterm m fi F V U | None => 0 end.
Definition supp (V : nat -> R) : Prop := forall d, ~ In d own -> V d = 0.

Lemma local_sum : forall V U, over mr (fun k F => fterm mr k F (seen own V) (seen own U)) = suml (term V U) fs.
Proof.
  intros V U. unfold over.
  rewrite <- (two_sum_pos _ (fun k F => fterm mr k F (seen own V) (seen own U)) (term V U) fs (fm_faces mr) 0 Lf).
  - apply suml_ext. intros k _. rewrite Nat.sub_0_r. reflexivity.
  - intros k fi F' E E' (F & EF & S). cbn [Nat.add]. unfold term. rewrite EF. unfold fterm, isInteriorFace, faceKind. rewrite (proj1 S), (tag_same k fi E).
    destruct (sel _ _) as [g|]; [|reflexivity]. apply (same_bil N); [apply WM; exact (nin fi F EF)|exact S].
Qed.
Lemma outside : forall V U fi, supp V -> ~ In fi fs -> ~ In fi gs -> term V U fi = 0.
Proof.
  intros V U fi HV F1 F2. unfold term. destruct (nth_error (fm_faces m) fi) as [F|] eqn:E; [|reflexivity]. unfold fterm.
  destruct (sel _ _) as [g|]; [|reflexivity]. unfold bil. destruct (g (mf_face F)) as [K| |]; try reflexivity.
  pose proof (face_size N F (WM F (nin fi F E))) as L. rewrite <- L. unfold mform. apply sumN_zero. intros i Hi. apply sumN_zero. intros j Hj.
  rewrite (vdofs_map F). rewrite (HV (nth i (vdofs F) 0%nat)); [ring|]. intros I. apply F2. apply (Hg fi F E). split.
  - intros C. apply F1. apply (Hf fi F E). exact C.
  - exists (nth i (vdofs F) 0%nat). split; [apply nth_In; exact Hi|exact I].
Qed.
Lemma fs_range : forall fi, In fi fs -> (fi < length (fm_faces m))%nat.
Proof. intros fi I. destruct (forall2_in_l _ _ _ fi Lf I) as (F' & _ & F & E & _). apply nth_error_Some. congruence. Qed.
Lemma gs_range : forall fi, In fi gs -> (fi < length (fm_faces m))%nat.
Proof. intros fi I. destruct (forall2_in_l _ _ _ fi Lg I) as (F' & _ & F & E & _). apply nth_error_Some. congruence. Qed.
Lemma all_sum : forall V U, supp V -> over m (fun fi F => fterm m fi F V U) = suml (term V U) fs + suml (term V U) gs.
Proof.
  intros V U HV. rewrite (sum_in _ fs _ NDf fs_range), (sum_in _ gs _ NDg gs_range), <- sumN_plus. unfold over. rewrite <- suml_sumN.
  apply sumN_ext. intros fi Hi. change (match nth_error (fm_faces m) fi with Some f => fterm m fi f V U | None => 0 end) with (term V U fi).
  destruct (in_dec Nat.eq_dec fi fs) as [I|I]; destruct (in_dec Nat.eq_dec fi gs) as [J|J]; try ring.
  - exfalso. destruct (nth_error (fm_faces m) fi) as [F|] eqn:E; [|apply nth_error_None in E; lia]. apply (Hf fi F E) in I. apply (Hg fi F E) in J. exact (proj1 J I).
  - rewrite (outside V U fi HV I J). ring.
Qed.
End Sel.
Lemma gs_plain : forall fi F, In fi gs -> nth_error (fm_faces m) fi = Some F -> isInteriorFace F = true /\ faceKind m gb gi fi F = None.
Proof.
  intros fi F I E. split.
  - unfold isInteriorFace. destruct (f_el2 (mf_face F)) eqn:E2; [reflexivity|]. exfalso. destruct (WM F (nin fi F E)) as (_ & L2 & _). rewrite E2 in L2.
    destruct (mf_dofs2 F) as [|? ?] eqn:D2; [|discriminate]. apply (Hg fi F E) in I. destruct I as (C & d & Id & Io). unfold vdofs in *. rewrite D2, app_nil_r in *.
    destruct (proj1 (El F (nin fi F E))) as [X|X]; [exact (C X)|exact (X d Id Io)].
  - unfold faceKind. destruct (tagOf (fm_bdr m) fi) as [a|] eqn:Et; [|reflexivity]. exfalso. apply (Hs a fi I). apply tag_in. exact Et.
Qed.

(** ** Face forms *)
Lemma cols_own : forall V i, (i < length own)%nat -> seen cols V i = seen own V i.
Proof. intros V i Hi. unfold seen. rewrite app_nth1 by exact Hi. reflexivity. Qed.
Lemma widen : forall M g V U, pform (length own) (length own + g) (fun i j => if (j <? length own)%nat then M i j else 0) (seen cols V) (seen cols U) =
  mform (length own) M (seen own V) (seen own U).
Proof.
  intros M g V U. unfold pform, mform. apply sumN_ext. intros i Hi. rewrite sumN_app, (sumN_zero g), Rplus_0_r.
  - apply sumN_ext. intros j Hj. rewrite (proj2 (Nat.ltb_lt _ _) Hj), !cols_own by assumption. reflexivity.
  - intros j _. rewrite (proj2 (Nat.ltb_ge _ _)) by lia. ring.
Qed.
Lemma shared_size : forall F F', wfMF N F -> sameFace cols F F' \/ otherFace cols F F' -> length (vdofs F') = faceSize (mf_face F') /\ Forall (fun k => (k < length cols)%nat) (vdofs F').
Proof.
  intros F F' WMF [S|S].
  - split; [|exact (proj1 (proj2 S))]. rewrite (proj1 S), <- (face_size N F WMF). destruct (same_lengths _ _ _ S) as (L1 & L2). unfold vdofs. rewrite !app_length, L1, L2. reflexivity.
  - destruct S as ((F2 & F2' & _) & B & E1 & E2). split; [|exact B]. destruct WMF as (W1 & W2 & _). rewrite F2 in W2.
    unfold faceSize. rewrite F2'. unfold vdofs. rewrite app_length. rewrite E1, map_length in W1. rewrite E2, map_length in W2. lia.
Qed.
Lemma shared_vanish : forall F F' V, wfMF N F -> In F (fm_faces m) -> supp V -> ~ incl (vdofs F) own -> Forall (fun k => (k < length own)%nat) (mf_dofs1 F') ->
  mf_dofs1 F' <> [] \/ True -> sameFace cols F F' \/ otherFace cols F F' -> (exists d, In d (vdofs F) /\ In d own) ->
  forall k, In k (mf_dofs2 F') -> seen cols V k = 0.
Proof.
  intros F F' V WMF IF HV NI B _ S (d & Id & Io) k Ik.
  assert (IN : forall l, Forall (fun k => (k < length own)%nat) l -> forall x, In x (map (fun k => nth k cols 0%nat) l) -> In x own).
  { intros l Bl x Ix. rewrite Forall_forall in Bl. apply in_map_iff in Ix. destruct Ix as (j & <- & Ij). rewrite app_nth1 by (apply Bl; exact Ij). apply nth_In. apply Bl. exact Ij. }
  unfold seen. apply HV. intros C. destruct (El F IF) as (D1 & D2).
  assert (Ik' : In (nth k cols 0%nat) (map (fun k => nth k cols 0%nat) (mf_dofs2 F'))) by (apply (in_map (fun k => nth k cols 0%nat)); exact Ik).
  apply NI. intros x Ix. unfold vdofs in Ix. apply in_app_iff in Ix. destruct S as [(_ & _ & E1 & E2)|(_ & _ & E1 & E2)].
  - destruct Ix as [Ix|Ix]; [rewrite E1 in Ix; exact (IN _ B x Ix)|]. destruct D2 as [D2|D2]; [exact (D2 x Ix)|]. exfalso. apply (D2 (nth k cols 0%nat)); [rewrite E2; exact Ik'|exact C].
  - destruct Ix as [Ix|Ix]; [|rewrite E2 in Ix; exact (IN _ B x Ix)]. destruct D1 as [D1|D1]; [exact (D1 x Ix)|]. exfalso. apply (D1 (nth k cols 0%nat)); [rewrite E1; exact Ik'|exact C].
Qed.
Definition fsel (k : R -> integ) (a : R) (co : cond -> R) (i : bool) (c : option cond) : option integ :=
  if i then match c with None => Some (k a) | Some _ => None end else match c with Some c => Some (k (co c)) | None => None end.
Definition isel (k : R -> integ) (co : cond -> R) (i : bool) (c : option cond) : option integ :=
  if i then match c with Some SGBC => None | Some c => Some (k (co c)) | None => None end else None.

Lemma pface_rows : forall (k : R -> integ) a coeff (co : cond -> R), (forall c F, wfFace F -> exists K, k c F = Ok K) -> evenHanded (k a) ->
  (forall c, mapped c -> (if cond_eqb c SMA then Ok 1 else coeff c) = Ok (co c)) ->
  exists M M', faceForm N m ob ib k a coeff = Ok M /\ pfaceForm ob ib rk k a coeff = Ok M' /\
    forall V U, supp V -> pform (length own) (length own + length (pr_nbr rk)) M' (seen cols V) (seen cols U) = mform N M V U.
Proof.
  intros k a coeff co Hk He Hc.
  destruct (face_form N m gb gi ob ib W ND T k a coeff co (fun c f I => Hk c _ (WF f I)) Hc) as (M & EM & VM).
  destruct (face_form (length own) mr gb gi ob ib rank_wf NDb rank_tables k a coeff co (fun c f I => Hk c _ (rank_face_wf f I)) Hc) as (M0 & E0 & V0).
  assert (LC : length cols = (length own + length (pr_nbr rk))%nat) by (rewrite app_length; unfold ghosts; rewrite map_length; reflexivity).
  destruct (shared_adds (length own) (length own + length (pr_nbr rk)) (pr_shared rk) (k a)) as (g & PA & Vg).
  { intros F' I. destruct (shared_face F' I) as (fi & F & _ & E & B & S). pose proof (nin fi F E) as IF. destruct (shared_size F F' (WM F IF) S) as (L & B2).
    split; [exact B|]. split; [rewrite <- LC; exact B2|]. split; [exact L|]. apply Hk. destruct S as [S|S]; [rewrite (proj1 S); apply WF; exact IF|]. destruct S as ((_ & _ & X & _) & _). exact X. }
  destruct (PA (fun i j => if (j <? length own)%nat then M0 i j else 0)) as (M' & EM' & VM'). exists M, M'. split; [exact EM|]. split.
  { unfold pfaceForm. unfold pwidth. rewrite Pn, E0. cbn [bind]. exact EM'. }
  intros V U HV. rewrite VM', widen, V0, VM.
  transitivity (over m (fun fi F => fterm (fsel k a co) m fi F V U)).
  2:{ apply over_ext. intros fi F _. unfold fterm, fsel. destruct (isInteriorFace F), (faceKind m gb gi fi F); reflexivity. }
  rewrite (all_sum _ V U HV). f_equal.
  - rewrite <- local_sum. apply over_ext. intros fi F _. unfold fterm, fsel. destruct (isInteriorFace F), (faceKind mr gb gi fi F); reflexivity.
  - apply (two_suml (fun fi F' => In F' (pr_shared rk) /\ exists F, nth_error (fm_faces m) fi = Some F /\ Forall (fun k => (k < length own)%nat) (mf_dofs1 F') /\
               (sameFace cols F F' \/ otherFace cols F F'))).
    + exact (forall2_strong _ _ _ _ _ Lg).
    + intros fi F' Ifi (IF' & F & E & B & S). pose proof (nin fi F E) as IF. destruct (gs_plain fi F Ifi E) as (G1 & G2).
      pose proof (proj1 (Hg fi F E) Ifi) as (NI & Ex).
      rewrite Vg; [|exact IF'|exact (shared_vanish F F' V (WM F IF) IF HV NI B (or_intror I) S Ex)].
      unfold term. rewrite E. unfold fterm. rewrite G1, G2. cbn [fsel]. destruct S as [S|S]; [apply (same_bil N); [apply WM; exact IF|exact S]|].
      apply (He N); [apply WM; exact IF|apply WF; exact IF|exact S].
Qed.
Lemma ibfi_rows : forall (k k' : R -> integ) coeff (co : cond -> R), (forall c F, wfFace F -> f_el2 F <> None -> exists K, k c F = Ok K) ->
  (forall c, c = PEC \/ c = PMC -> coeff c = Ok (co c)) -> co SMA = 1 ->
  exists M M', ibfiForm N m ib k k' coeff = Ok M /\ ibfiForm (length own) mr ib k k' coeff = Ok M' /\
    forall V U, supp V -> mform (length own) M' (seen own V) (seen own U) = mform N M V U.
Proof.
  intros k k' coeff co Hk Hc Hs1.
  assert (I1 : intOk m k). { intros c f I If. apply Hk; [apply WF; exact I|]. unfold isInteriorFace in If. destruct (f_el2 (mf_face f)); congruence. }
  assert (I2 : intOk mr k). { intros c f I If. apply Hk; [apply rank_face_wf; exact I|]. unfold isInteriorFace in If. destruct (f_el2 (mf_face f)); congruence. }
  destruct (ibfi_form N m gb gi ob ib W ND T k k' coeff co I1 Hc Hs1) as (M & EM & VM).
  destruct (ibfi_form (length own) mr gb gi ob ib rank_wf NDb rank_tables k k' coeff co I2 Hc Hs1) as (M0 & E0 & V0).
  exists M, M0. split; [exact EM|]. split; [exact E0|]. intros V U HV. rewrite V0, VM.
  transitivity (over m (fun fi F => fterm (isel k co) m fi F V U)).
  2:{ apply over_ext. intros fi F _. unfold fterm, isel. destruct (isInteriorFace F), (faceKind m gb gi fi F) as [[]|]; reflexivity. }
  rewrite (all_sum _ V U HV). rewrite <- local_sum.
  assert (Z : suml (term (isel k co) V U) gs = 0).
  { apply suml_zero. intros fi I. unfold term. destruct (nth_error (fm_faces m) fi) as [F|] eqn:E; [|reflexivity].
    unfold fterm. destruct (gs_plain fi F I E) as (G1 & G2). rewrite G1, G2. reflexivity. }
  rewrite Z, Rplus_0_r. apply over_ext. intros fi F _. unfold fterm, isel. destruct (isInteriorFace F), (faceKind mr gb gi fi F) as [[]|]; reflexivity.
Qed.

(** ** Rows *)
Lemma row_gen : forall cs w M M' U i, (forall k, (k < length own)%nat -> nth k cs 0%nat = nth k own 0%nat) ->
  (forall V U, supp V -> pform (length own) w M' (seen cs V) (seen cs U) = mform N M V U) -> (i < length own)%nat ->
  sumN w (fun j => M' i j * seen cs U j) = sumN N (fun j => M (nth i own 0%nat) j * U j).
Proof.
  intros cs w M M' U i HC H Hi. set (a := nth i own 0%nat). assert (Ia : In a own) by (apply nth_In; exact Hi).
  specialize (H (fun d => if (d =? a)%nat then 1 else 0) U).
  transitivity (pform (length own) w M' (seen cs (fun d => if (d =? a)%nat then 1 else 0)) (seen cs U)).
  - unfold pform. rewrite (sumN_ext (length own) _ (fun k => if (k =? i)%nat then sumN w (fun j => M' k j * seen cs U j) else 0)).
    + symmetry. apply (sumN_delta (length own) i (fun k => sumN w (fun j => M' k j * seen cs U j)) Hi).
    + intros k Hk. unfold seen at 1. cbv beta. rewrite (HC k Hk). destruct (Nat.eqb_spec k i) as [->|Ne].
      * fold a. rewrite Nat.eqb_refl. apply sumN_ext. intros; ring.
      * destruct (Nat.eqb_spec (nth k own 0%nat) a) as [E|_]; [exfalso; apply Ne; apply (NoDup_nth own 0%nat); assumption|]. apply sumN_zero. intros; ring.
  - rewrite H.
    + unfold mform. rewrite (sumN_ext N _ (fun k => if (k =? a)%nat then sumN N (fun j => M k j * U j) else 0)).
      * apply (sumN_delta N a (fun k => sumN N (fun j => M k j * U j))). apply Bo. exact Ia.
      * intros k _. destruct (k =? a)%nat; [apply sumN_ext; intros; ring|apply sumN_zero; intros; ring].
    + intros d Nd. destruct (Nat.eqb_spec d a); [subst; contradiction|reflexivity].
Qed.
Definition rowsAgree (cs : list nat) (w : nat) (M M' : mat) : Prop := forall U i, (i < length own)%nat ->
  sumN w (fun j => M' i j * seen cs U j) = sumN N (fun j => M (nth i own 0%nat) j * U j).
Lemma within_rows : forall M M', within N own M M' -> rowsAgree own (length own) M M'.
Proof.
  intros M M' (H1 & H2) U i Hi. rewrite (own_sum own N _ NDo Bo).
  - apply sumN_ext. intros j Hj. rewrite H2 by assumption. reflexivity.
  - intros k Hk Nk. rewrite H1; [ring|apply nth_In; exact Hi|exact Hk|exact Nk].
Qed.
Lemma prod_rows : forall cs w MI MI' M M', within N own MI MI' -> rowsAgree cs w M M' -> rowsAgree cs w (mmul N MI M) (mmul (length own) MI' M').
Proof.
  intros cs w MI MI' M M' HI H U i Hi.
  assert (X : forall n B c A (u : nat -> R) z, sumN c (fun j => mmul n B A z j * u j) = sumN n (fun k => B z k * sumN c (fun j => A k j * u j))).
  { intros n B c A u z. transitivity (sumN c (fun j => sumN n (fun k => B z k * A k j * u j))).
    - apply sumN_ext. intros j _. unfold mmul. fold (sumN n (fun k => B z k * A k j)). symmetry. rewrite Rmult_comm, <- sumN_scal. apply sumN_ext. intros; ring.
    - rewrite sumN_swap. apply sumN_ext. intros k _. rewrite <- sumN_scal. apply sumN_ext. intros; ring. }
  rewrite !X. rewrite <- (within_rows MI MI' HI (fun d => sumN N (fun j => M d j * U j)) i Hi).
  apply sumN_ext. intros k Hk. rewrite (H U k Hk). reflexivity.
Qed.

Variable alpha : R.
Variable MInv D : Z -> mat.
Variable MSigma : mat.
Variable sm : marker.
Hypothesis HI : forall f, (f = 0 \/ f = 1)%Z -> within N own (MInv f) (pr_MInv rk f).
Hypothesis HD : forall d, (0 <= d < dim)%Z -> within N own (D d) (pr_D rk d).
Hypothesis HS : within N own MSigma (pr_Sigma rk).
Notation sop := (factoryMat N m dim alpha ob ib MInv D MSigma sm).
Notation rop := (pfactoryMat dim alpha ob ib sm rk).
Definition agree (o : opname) : Prop := exists A A', sop o = Ok A /\ rop o = Ok A' /\ rowsAgree cols (pcols rk o) A A'.
Lemma local_agree : forall A A', rowsAgree own (length own) A A' -> rowsAgree cols (length own) A A'.
Proof.
  intros A A' H U i Hi. rewrite <- (H U i Hi). apply sumN_ext. intros j Hj. rewrite cols_own by exact Hj. reflexivity.
Qed.
Lemma cols_nth : forall k, (k < length own)%nat -> nth k cols 0%nat = nth k own 0%nat.
Proof. intros k Hk. apply app_nth1. exact Hk. Qed.
Lemma zero_ok : forall c F, wfFace F -> exists K, zeroNormalJump c F = Ok K.
Proof. intros c F WFF. destruct (zero_value F WFF c) as (K & E & _). exists K. exact E. Qed.
Lemma one_ok : forall k c F, (k < 3)%nat -> wfFace F -> exists K, oneNormalJump [k] c F = Ok K.
Proof. intros k c F Hk WFF. destruct (one_value F WFF k c Hk) as (K & E & _). exists K. exact E. Qed.
Lemma two_ok : forall k l c F, (k < 3)%nat -> (l < 3)%nat -> wfFace F -> exists K, twoNormalJump [k; l] c F = Ok K.
Proof. intros k l c F Hk Hl WFF. destruct (two_value F WFF k l c Hk Hl) as (K & E & _). exists K. exact E. Qed.
Lemma int_ok : forall dirs, Forall (fun d => (d < 3)%nat) dirs -> (length dirs <= 2)%nat -> forall c F, wfFace F -> f_el2 F <> None -> exists K, interiorJump dirs c F = Ok K.
Proof. intros dirs H1 H2 c F WFF NE. destruct (interior_value F WFF dirs c NE H1 H2) as (K & E & _). exists K. exact E. Qed.

Lemma agree_der : forall f k, (f = 0 \/ f = 1)%Z -> (0 <= k < 3)%Z -> agree (OpDerivative f k).
Proof.
  intros f k Hz Hk. unfold agree. cbn [pfactoryMat factoryMat pcols]. rewrite Pn. eexists. eexists. split; [reflexivity|]. split; [reflexivity|].
  apply local_agree. apply prod_rows; [apply HI; exact Hz|]. unfold buildDerivativeSubOperator. destruct (dim <=? k)%Z eqn:E.
  - intros U i Hi. rewrite !sumN_zero; [reflexivity| |]; intros; unfold mzero; ring.
  - apply within_rows. apply HD. apply Z.leb_gt in E. lia.
Qed.
Lemma agree_cond : agree OpConductive.
Proof.
  unfold agree. cbn [pfactoryMat factoryMat pcols]. rewrite Pn. eexists. eexists. split; [reflexivity|]. split; [reflexivity|].
  apply local_agree. apply prod_rows; [apply HI; left; reflexivity|]. apply within_rows. exact HS.
Qed.
Lemma pen_ok : forall f c, (f = 0 \/ f = 1)%Z -> mapped c -> (if cond_eqb c SMA then Ok 1 else (v <- coeffAt alpha c f ;; Ok (v * alpha))) = Ok (pf alpha c f).
Proof. intros f c Hz Mc. rewrite (coeff_ok alpha c f Mc Hz). destruct Mc as [->|[->|[->| ->]]]; reflexivity. Qed.
Lemma one_co : forall f c, (f = 0 \/ f = 1)%Z -> mapped c -> (if cond_eqb c SMA then Ok 1 else coeffAt alpha c f) = Ok (cf c f).
Proof. intros f c Hz Mc. rewrite (coeff_ok alpha c f Mc Hz). destruct Mc as [->|[->|[->| ->]]]; reflexivity. Qed.
Lemma face_agree : forall f M M', (f = 0 \/ f = 1)%Z ->
  (forall V U, supp V -> pform (length own) (length own + length (pr_nbr rk)) M' (seen cols V) (seen cols U) = mform N M V U) ->
  rowsAgree cols (pwidth rk) (mmul N (MInv f) M) (mmul (pr_n rk) (pr_MInv rk f) M').
Proof.
  intros f M M' Hz H. unfold pwidth. rewrite Pn. apply prod_rows; [apply HI; exact Hz|]. intros U i Hi. apply row_gen; [exact cols_nth|exact H|exact Hi].
Qed.
Lemma agree_zero : forall f, (f = 0 \/ f = 1)%Z -> agree (OpZeroNormal f).
Proof.
  intros f Hz. destruct (pface_rows zeroNormalJump alpha (fun c => v <- coeffAt alpha c f ;; Ok (v * alpha)) (fun c => pf alpha c f)) as (M & M' & E & E' & H).
  - exact zero_ok.
  - apply even_zero.
  - intros c Mc. apply pen_ok; assumption.
  - unfold agree. cbn [pfactoryMat factoryMat pcols]. unfold buildZeroNormalSubOperator. rewrite E, E'. cbn [bind]. eexists. eexists. split; [reflexivity|]. split; [reflexivity|].
    apply face_agree; assumption.
Qed.
Lemma agree_one : forall f g k, (f = 0 \/ f = 1)%Z -> (g = 0 \/ g = 1)%Z -> (0 <= k < 3)%Z -> agree (OpOneNormal f g k).
Proof.
  intros f g k Hz Hgg Hk. destruct (pface_rows (oneNormalJump [Z.to_nat k]) 1 (fun c => coeffAt alpha c g) (fun c => cf c g)) as (M & M' & E & E' & H).
  - intros c F WFF. apply one_ok; [lia|exact WFF].
  - apply even_one. lia.
  - intros c Mc. apply one_co; assumption.
  - unfold agree. cbn [pfactoryMat factoryMat pcols]. unfold buildOneNormalSubOperator. rewrite E, E'. cbn [bind]. eexists. eexists. split; [reflexivity|]. split; [reflexivity|].
    apply face_agree; assumption.
Qed.
Lemma agree_two : forall f k l, (f = 0 \/ f = 1)%Z -> (0 <= k < 3)%Z -> (0 <= l < 3)%Z -> agree (OpTwoNormal f k l).
Proof.
  intros f k l Hz Hk Hl. destruct (pface_rows (twoNormalJump [Z.to_nat k; Z.to_nat l]) alpha (fun c => v <- coeffAt alpha c f ;; Ok (v * alpha)) (fun c => pf alpha c f)) as (M & M' & E & E' & H).
  - intros c F WFF. apply two_ok; [lia|lia|exact WFF].
  - apply even_two; lia.
  - intros c Mc. apply pen_ok; assumption.
  - unfold agree. cbn [pfactoryMat factoryMat pcols]. unfold buildTwoNormalSubOperator. rewrite E, E'. cbn [bind]. eexists. eexists. split; [reflexivity|]. split; [reflexivity|].
    apply face_agree; assumption.
Qed.
Lemma ibfi_agree : forall f M M', (f = 0 \/ f = 1)%Z -> (forall V U, supp V -> mform (length own) M' (seen own V) (seen own U) = mform N M V U) ->
  rowsAgree cols (length own) (mmul N (MInv f) M) (mmul (length own) (pr_MInv rk f) M').
Proof.
  intros f M M' Hz H. apply local_agree. apply prod_rows; [apply HI; exact Hz|]. intros U i Hi. apply row_gen; [reflexivity|exact H|exact Hi].
Qed.
Lemma agree_zeroI : forall f, (f = 0 \/ f = 1)%Z -> agree (OpZeroNormalIBFI f).
Proof.
  intros f Hz. destruct (ibfi_rows (interiorJump []) zeroNormalJump (fun c => v <- coeffAt alpha c f ;; Ok (v * alpha)) (fun c => pf alpha c f)) as (M & M' & E & E' & H).
  - apply int_ok; [constructor|cbn; lia].
  - intros c Hc. rewrite (coeff_ok alpha c f) by (try exact Hz; unfold mapped; tauto). destruct Hc as [->| ->]; reflexivity.
  - reflexivity.
  - unfold agree. cbn [pfactoryMat factoryMat pcols]. unfold buildZeroNormalIBFISubOperator. rewrite Pn. rewrite E, E'. cbn [bind]. eexists. eexists. split; [reflexivity|]. split; [reflexivity|].
    apply ibfi_agree; assumption.
Qed.
Lemma agree_oneI : forall f g k, (f = 0 \/ f = 1)%Z -> (g = 0 \/ g = 1)%Z -> (0 <= k < 3)%Z -> agree (OpOneNormalIBFI f g k).
Proof.
  intros f g k Hz Hgg Hk. destruct (ibfi_rows (interiorJump [Z.to_nat k]) (oneNormalJump [Z.to_nat k]) (fun c => coeffAt alpha c g) (fun c => cf c g)) as (M & M' & E & E' & H).
  - apply int_ok; [constructor; [lia|constructor]|cbn; lia].
  - intros c Hc. apply coeff_ok; [unfold mapped; tauto|exact Hgg].
  - reflexivity.
  - unfold agree. cbn [pfactoryMat factoryMat pcols]. unfold buildOneNormalIBFISubOperator. rewrite Pn. rewrite E, E'. cbn [bind]. eexists. eexists. split; [reflexivity|]. split; [reflexivity|].
    apply ibfi_agree; assumption.
Qed.
Lemma agree_twoI : forall f k l, (f = 0 \/ f = 1)%Z -> (0 <= k < 3)%Z -> (0 <= l < 3)%Z -> agree (OpTwoNormalIBFI f k l).
Proof.
  intros f k l Hz Hk Hl. destruct (ibfi_rows (interiorJump [Z.to_nat k; Z.to_nat l]) (twoNormalJump [Z.to_nat k; Z.to_nat l]) (fun c => v <- coeffAt alpha c f ;; Ok (v * alpha)) (fun c => pf alpha c f)) as (M & M' & E & E' & H).
  - apply int_ok; [constructor; [lia|constructor; [lia|constructor]]|cbn; lia].
  - intros c Hc. rewrite (coeff_ok alpha c f) by (try exact Hz; unfold mapped; tauto). destruct Hc as [->| ->]; reflexivity.
  - reflexivity.
  - unfold agree. cbn [pfactoryMat factoryMat pcols]. unfold buildTwoNormalIBFISubOperator. rewrite Pn. rewrite E, E'. cbn [bind]. eexists. eexists. split; [reflexivity|]. split; [reflexivity|].
    apply ibfi_agree; assumption.
Qed.

(** ** The right-hand side *)
Notation g := (length (pr_nbr rk)).
Variable x Wv : list R.
Hypothesis HW : forall f d j, (0 <= f <= 1)%Z -> (0 <= d <= 2)%Z -> (j < length own + g)%nat ->
  comp (Z.of_nat (length own)) (Z.of_nat g) Wv f d (Z.of_nat j) = fld N x f d (nth j cols 0%nat).
Lemma app_agree : forall o f d i, agree o -> (0 <= f <= 1)%Z -> (0 <= d <= 2)%Z -> (i < length own)%nat ->
  app (pfactoryRows dim alpha ob ib sm rk) (Z.of_nat (length own)) (Z.of_nat g) o Wv f d i =
  app (factoryRows N m dim alpha ob ib MInv D MSigma sm) (Z.of_nat N) 0 o x f d (nth i own 0%nat).
Proof.
  intros o f d i (A & A' & E & E' & H) Hf1 Hd Hi. unfold app, factoryRows, pfactoryRows. rewrite E, E'. unfold rowsOf. rewrite Pn.
  assert (Ho : (nth i own 0 < N)%nat) by (apply Bo, nth_In; exact Hi).
  assert (X : forall c n (B : mat) k, (k < n)%nat -> nth k (map (fun i => map (fun j => (Z.of_nat j, B i j)) (seq 0 c)) (seq 0 n)) [] = map (fun j => (Z.of_nat j, B k j)) (seq 0 c)).
  { intros c n B k Hk. rewrite (nth_indep _ [] ((fun i => map (fun j => (Z.of_nat j, B i j)) (seq 0 c)) 0%nat)) by (rewrite map_length, seq_length; exact Hk).
    rewrite (map_nth (fun i => map (fun j => (Z.of_nat j, B i j)) (seq 0 c)) (seq 0 n) 0%nat k), seq_nth by exact Hk. reflexivity. }
  rewrite (X (pcols rk o) (length own) A' i Hi), (X N N A (nth i own 0%nat) Ho), !map_map.
  transitivity (sumN (pcols rk o) (fun j => A' i j * seen cols (fld N x f d) j)).
  - apply (sumN_ext (pcols rk o) (fun j => snd (Z.of_nat j, A' i j) * comp (Z.of_nat (length own)) (Z.of_nat g) Wv f d (fst (Z.of_nat j, A' i j)))).
    intros j Hj. cbn [fst snd]. rewrite HW; try assumption; [reflexivity|]. assert (pcols rk o <= length own + g)%nat; [|lia]. destruct o; cbn [pcols]; unfold pwidth; rewrite Pn; lia.
  - rewrite (H (fld N x f d) i Hi). apply (sumN_ext N _ (fun j => snd (Z.of_nat j, A (nth i own 0%nat) j) * comp (Z.of_nat N) 0 x f d (fst (Z.of_nat j, A (nth i own 0%nat) j)))).
    intros j _. cbn [fst snd]. unfold comp, fld. rewrite Z.add_0_r. reflexivity.
Qed.
Lemma rhs_agree : forall b f d i, (f = 0 \/ f = 1)%Z -> (d = 0 \/ d = 1 \/ d = 2)%Z -> (i < length own)%nat ->
  rhs (pfactoryRows dim alpha ob ib sm rk) dim (Z.of_nat (length own)) (Z.of_nat g) b Wv f d i =
  rhs (factoryRows N m dim alpha ob ib MInv D MSigma sm) dim (Z.of_nat N) 0 b x f d (nth i own 0%nat).
Proof.
  intros b f d i Hf1 Hd Hi.
  assert (B : forall z, (0 <= (d + z) mod 3 < 3)%Z) by (intros z; apply Z.mod_pos_bound; lia). pose proof (B 1%Z) as B1. pose proof (B 2%Z) as B2.
  unfold rhs, curl_term, jump_term, penalty_term, conductive_term. cbv zeta.
  rewrite !(app_agree (OpDerivative _ _)) by (try apply agree_der; lia).
  rewrite !(app_agree (OpOneNormal _ _ _)) by (try apply agree_one; lia).
  rewrite !(app_agree (OpZeroNormal _)) by (try apply agree_zero; lia).
  rewrite !(app_agree (OpTwoNormal _ _ _)) by (try apply agree_two; lia).
  rewrite !(app_agree OpConductive) by (try apply agree_cond; lia).
  destruct b; [|reflexivity].
  rewrite !(app_agree (OpOneNormalIBFI _ _ _)) by (try apply agree_oneI; lia).
  rewrite !(app_agree (OpZeroNormalIBFI _)) by (try apply agree_zeroI; lia).
  rewrite !(app_agree (OpTwoNormalIBFI _ _ _)) by (try apply agree_twoI; lia).
  reflexivity.
Qed.
End Process.

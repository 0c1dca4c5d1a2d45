(** The built operator on a conforming mesh discretises the whole domain. *)
From Coq Require Import ZArith List Bool Reals Lia Lra Sorted Permutation.
From Verif Require Import Common Geo_Spec Face_Model Face_Spec Face_Proofs Nodal_Model Nodal_Spec NodalEnergy_Spec Step_Model Setup_Model Conn_Model Conn_Spec.
From Verif Require Import Nodal_Proofs NodalMult_Proofs NodalEnergy_Proofs GlobalEnergy_Proofs ConnPos_Proofs ConnWf_Proofs Sub_Proofs InputWall_Proofs Hest_Model Hest_Spec Hest_Proofs HestElem_Proofs HestWeak_Proofs HestBuild_Proofs HestMesh_Proofs.
Import ListNotations.
Local Open Scope R_scope.

Fixpoint idx (l : list Z) (f : Z) : nat := match l with [] => 0%nat | x :: r => if (x =? f)%Z then 0%nat else S (idx r f) end.
Lemma idx_in : forall l f, In f l -> nth_error l (idx l f) = Some f.
Proof.
  induction l as [|x l IH]; intros f H; [destruct H|]. cbn [idx]. destruct (Z.eqb_spec x f) as [->|N]; [reflexivity|].
  destruct H as [E|H]; [contradiction|]. cbn [nth_error]. apply IH. exact H.
Qed.
Lemma idx_nth : forall l k, NoDup l -> (k < length l)%nat -> idx l (nth k l 0%Z) = k.
Proof.
  intros l k H. revert k. induction H as [|x l Hx H IH]; intros k Hk; [cbn [length] in Hk; lia|]. destruct k as [|k]; cbn [nth idx]; [rewrite Z.eqb_refl; reflexivity|].
  cbn [length] in Hk. destruct (Z.eqb_spec x (nth k l 0%Z)) as [E|_]; [exfalso; apply Hx; rewrite E; apply nth_In; lia|]. rewrite IH by lia. reflexivity.
Qed.
Lemma flat_map_idx : forall {B} (F : nat -> list B) l, NoDup l -> flat_map F (seq 0 (length l)) = flat_map (fun f => F (idx l f)) l.
Proof.
  intros B F l H. transitivity (flat_map (fun k => F (idx l (nth k l 0%Z))) (seq 0 (length l))).
  - rewrite !flat_map_concat_map. f_equal. apply map_ext_in. intros k Hk. apply in_seq in Hk. rewrite idx_nth by (assumption || lia). reflexivity.
  - rewrite !flat_map_concat_map. f_equal. rewrite <- (map_map (fun k => nth k l 0%Z) (fun f => F (idx l f))). f_equal.
    clear. apply nth_ext with (d := 0%Z) (d' := 0%Z); [rewrite map_length, seq_length; reflexivity|]. intros i Hi. rewrite map_length, seq_length in Hi.
    rewrite nth_indep with (d' := nth 0%nat l 0%Z) by (rewrite map_length, seq_length; exact Hi). rewrite (map_nth (fun k => nth k l 0%Z)), seq_nth by exact Hi. reflexivity.
Qed.
Lemma flat_map_perm : forall {A B} (F : A -> list B) l l', Permutation l l' -> Permutation (flat_map F l) (flat_map F l').
Proof.
  intros A B F l l' H. induction H as [|x l l' H IH|x y l|l l' l'' H1 IH1 H2 IH2]; cbn [flat_map]; [constructor|apply Permutation_app_head; exact IH| |eapply Permutation_trans; eassumption].
  rewrite !app_assoc. apply Permutation_app_tail. apply Permutation_app_comm.
Qed.

Section Energy.
Variables (inv : nat -> mat -> mat) (fc : fecol) (dim : Z) (t : etype) (nf : nat) (ref : list (list nat)) (elems : list gelem)
  (posLin posCur : list vertex) (tfsf : list (cond * list Z)) (bdr : list bdrElem) (global : Z -> list (Z * R)) (alpha : R)
  (conn : list (Z * Z)) (maps : bdrMaps)
  (m : cmesh) (mnodes : Z -> list (nat * nat)) (kinds : Z -> kind).
Let n := fc_n fc t.
Let NF := length (fc_faces fc t).
Hypothesis Hsup : supported t dim.
Hypothesis Hnf : faceNodeNum fc dim t = Ok nf.
Hypothesis Hshape : refShape fc t nf ref.
Hypothesis Hinv : isInverse n (scaledMass fc t (refDet t)) (inv n (scaledMass fc t (refDet t))).
Hypothesis Hne : elems <> [].
Hypothesis H1 : Forall (dofsIn posLin) elems.
Hypothesis H2 : Forall (dofsIn posCur) elems.
Hypothesis Hst : Forall (fun g => ~ curvedBy posLin posCur g /\ straight fc dim t g) elems.
Hypothesis G : conforming m n mnodes.
Hypothesis FO : faceOrder m n mnodes.
Hypothesis HG : isGlobal m n mnodes conn.
Hypothesis SM : sameMesh m mnodes fc t nf ref elems.
Hypothesis FM : facesMatch m mnodes fc t elems.
Hypothesis OK : oneKind m nf maps kinds.
Variable s : nodal.
Hypothesis HB : buildNodal inv fc dim (cm_N m) elems posLin posCur tfsf bdr global alpha conn maps [] = Ok s.

Lemma types : Forall (fun g => ge_type g = t) elems.
Proof. rewrite Forall_forall in *. intros g Hg. apply (st_type fc dim). apply Hst. exact Hg. Qed.
Lemma all_straight : forall g, In g elems -> ~ curvedBy posLin posCur g -> straight fc dim t g.
Proof. intros g Hg _. rewrite Forall_forall in Hst. apply Hst. exact Hg. Qed.

Definition elAt (e : Z) : helem := nth (Z.to_nat e) (nd_lin s) (mkEl 0 [] [] [] []).
Definition gAt (e : Z) : gelem := nth (Z.to_nat e) elems noEl.

Lemma el_facts : length (nd_lin s) = cm_ne m /\ nd_global s = conn /\ nd_bdr s = maps /\ nd_src s = [] /\ nd_alpha s = alpha /\
  forall e, inR e (Z.of_nat (cm_ne m)) -> In (elAt e) (nd_lin s) /\ zget elems e = Ok (gAt e) /\ el_id (elAt e) = e /\ elSize (elAt e) = n /\ elFlux (elAt e) = (NF * nf)%nat.
Proof.
  destruct (built_facts inv fc dim t nf ref elems posLin posCur tfsf bdr global alpha conn maps [] m Hsup Hnf Hshape Hne types H1 H2 all_straight s HB)
    as [lin [cur [Mi [L [E1 [_ [F [_ [_ Es]]]]]]]]].
  destruct (split_right posLin posCur elems H1 H2) as [lin' [cur' [E1' [Sl [_ [Hl _]]]]]]. rewrite E1 in E1'. injection E1' as <- <-.
  assert (EL : lin = zseq (cm_ne m)).
  { apply sorted_same_Z; [exact Sl|apply sorted_zseq|]. intros e. rewrite Hl, in_zseq, <- (sm_n _ _ _ _ _ _ _ SM). split.
    - intros [g [Hz _]]. exact (zget_len _ _ _ Hz).
    - intros He. exists (nth (Z.to_nat e) elems noEl). split; [apply zget_v; exact He|]. rewrite Forall_forall in Hst. apply Hst, nth_In. lia. }
  rewrite EL in F. assert (LL : length (nd_lin s) = cm_ne m) by (rewrite <- (Forall2_length _ _ _ F); apply zseq_length).
  split; [exact LL|]. split; [rewrite Es; reflexivity|]. split; [rewrite Es; reflexivity|]. split; [rewrite Es; reflexivity|]. split; [rewrite Es; reflexivity|].
  intros e He. unfold inR in He.
  assert (P : exists g, zget elems e = Ok g /\ straight fc dim t g /\ goodEl fc dim t nf Mi e g (elAt e)).
  { pose proof (F2_nth _ _ _ 0%Z (mkEl 0 [] [] [] []) F (Z.to_nat e)) as Q. rewrite zseq_length in Q. specialize (Q ltac:(lia)). unfold elAt.
    assert (Ez : nth (Z.to_nat e) (zseq (cm_ne m)) 0%Z = e).
    { unfold zseq. rewrite (nth_indep _ 0%Z (Z.of_nat 0)) by (rewrite map_length, seq_length; lia). rewrite map_nth, seq_nth by lia. lia. }
    rewrite Ez in Q. exact Q. }
  destruct P as [g [Hz [_ P]]]. split; [apply nth_In; lia|]. split; [unfold gAt; apply zget_v; rewrite (sm_n _ _ _ _ _ _ _ SM); exact He|].
  destruct P as [P1 [_ [P2 [P3 _]]]]. split; [exact P1|]. split; [exact P2|exact P3].
Qed.

Definition sideOf (e : Z) (lf : nat) (q : qpoint) : side :=
  {| sd_el := elAt e; sd_w := q_w q * weightOf (geoN (gAt e) lf); sd_n := unit3 (geoN (gAt e) lf);
     sd_phi := fun i => if (i / nf =? lf)%nat then sh1 q (nth (i mod nf) (nth lf ref []) 0%nat) else 0 |}.
Definition faceSd (ef : Z * Z) : list side :=
  let lf := idx (nth (Z.to_nat (fst ef)) (cm_elface m) []) (snd ef) in map (sideOf (fst ef) lf) (f_pts (faceN fc t lf)).
Definition sidesEl (el : helem) : list side := sidesOf fc t nf ref (elemOf elems el) el.

Lemma elemOf_at : forall e, inR e (Z.of_nat (cm_ne m)) -> elemOf elems (elAt e) = gAt e.
Proof. intros e He. destruct el_facts as [_ [_ [_ [_ [_ P]]]]]. destruct (P e He) as [_ [_ [Ei _]]]. unfold elemOf, gAt. rewrite Ei. reflexivity. Qed.

Lemma nd_lin_at : nd_lin s = map elAt (zseq (cm_ne m)).
Proof.
  destruct el_facts as [LL _]. apply nth_ext with (d := mkEl 0 [] [] [] []) (d' := elAt 0); [rewrite map_length, zseq_length; exact LL|].
  intros i Hi. rewrite map_nth. unfold zseq. rewrite (nth_indep _ 0%Z (Z.of_nat 0)) by (rewrite map_length, seq_length; lia).
  rewrite map_nth, seq_nth by lia. unfold elAt. rewrite Nat2Z.id. reflexivity.
Qed.

Lemma sides_keys : flat_map sidesEl (nd_lin s) = flat_map faceSd (keys m).
Proof.
  rewrite nd_lin_at, (flat_map_concat_map sidesEl), map_map, <- flat_map_concat_map. unfold keys.
  transitivity (flat_map (fun e => flat_map faceSd (map (fun f => (e, f)) (nth (Z.to_nat e) (cm_elface m) []))) (zseq (cm_ne m))).
  - rewrite !flat_map_concat_map. f_equal. apply map_ext_in. intros e He. apply in_zseq in He. unfold sidesEl. rewrite elemOf_at by exact He.
    rewrite (flat_map_concat_map faceSd), map_map, <- flat_map_concat_map. unfold sidesOf.
    assert (LN : length (fc_faces fc t) = length (nth (Z.to_nat e) (cm_elface m) [])) by (symmetry; apply (proj1 (sm_uni _ _ _ _ _ _ _ SM)); exact He).
    rewrite LN. exact (flat_map_idx (fun lf => map (sideOf e lf) (f_pts (faceN fc t lf))) _ (o_nodup _ _ _ FO e He)).
  - generalize (zseq (cm_ne m)). induction l as [|e l IH]; [reflexivity|]. cbn [flat_map]. rewrite flat_map_app, IH. reflexivity.
Qed.

Definition faceKeys (f : Z) : list (Z * Z) :=
  (cf_e1 (faceAt m f), f) :: (if (0 <=? cf_e2 (faceAt m f))%Z then [(cf_e2 (faceAt m f), f)] else []).

Lemma keys_perm : Permutation (keys m) (flat_map faceKeys (zseq (length (cm_face m)))).
Proof.
  apply NoDup_Permutation.
  - unfold keys. apply NoDup_flat.
    + apply sorted_nodup, sorted_zseq.
    + intros e He. apply in_zseq in He. apply FinFun.Injective_map_NoDup; [intros a b E; injection E as E; exact E|]. apply (o_nodup _ _ _ FO e He).
    + intros e e' [a f] _ _ I I'. apply in_map_iff in I as [x [E _]]. apply in_map_iff in I' as [x' [E' _]]. congruence.
  - apply NoDup_flat.
    + apply sorted_nodup, sorted_zseq.
    + intros f Hf. apply in_zseq in Hf. unfold faceKeys. destruct (0 <=? cf_e2 (faceAt m f))%Z eqn:E; [|repeat constructor; intros []].
      apply Z.leb_le in E. destruct (g_int _ _ _ G f Hf E) as [K _]. constructor; [|repeat constructor; intros []]. intros [Q|[]]. injection Q as Q. lia.
    + intros f f' [a x] _ _ I I'. unfold faceKeys in I, I'. cbn [In] in I, I'.
      assert (forall g, (cf_e1 (faceAt m g), g) = (a, x) \/ In (a, x) (if (0 <=? cf_e2 (faceAt m g))%Z then [(cf_e2 (faceAt m g), g)] else []) -> g = x).
      { intros g [Q|Q]; [injection Q as _ Q; exact Q|]. destruct (0 <=? cf_e2 (faceAt m g))%Z; [|destruct Q]. destruct Q as [Q|[]]. injection Q as _ Q. exact Q. }
      rewrite (H f I), (H f' I'). reflexivity.
  - intros [e f]. rewrite (key_in m), in_flat_map. split.
    + intros K. destruct (key_face m n mnodes G e f K) as [Hf He]. exists f. split; [apply in_zseq; exact Hf|]. unfold faceKeys. destruct He as [<-|<-].
      * left. reflexivity.
      * destruct K as [He _]. unfold inR in He. replace (0 <=? cf_e2 (faceAt m f))%Z with true by (symmetry; apply Z.leb_le; lia). right. left. reflexivity.
    + intros [f' [Hf I]]. apply in_zseq in Hf. destruct (o_listed _ _ _ FO f' Hf) as [L1 L2]. unfold faceKeys in I. destruct I as [I|I].
      * injection I as <- <-. split; [apply (g_el1 _ _ _ G); exact Hf|exact L1].
      * destruct (0 <=? cf_e2 (faceAt m f'))%Z eqn:E; [|destruct I]. apply Z.leb_le in E. destruct I as [I|[]]. injection I as <- <-.
        destruct (g_int _ _ _ G f' Hf E) as [K _]. split; [unfold inR; lia|apply L2; exact E].
Qed.

(** Values seen through a face. *)
Lemma block_perm : forall e lf, inR e (Z.of_nat (cm_ne m)) -> (lf < NF)%nat -> forall B, isBlock m n mnodes e (fAt m e lf) B ->
  Permutation B (map (seenFrom m n e (fAt m e lf)) (mnodes (fAt m e lf))).
Proof.
  intros e lf He Hl B HBk. pose proof (key_at m mnodes fc t nf ref elems SM e lf He Hl) as K. apply NoDup_Permutation.
  - apply (NoDup_map_inv fst). apply sorted_nodup, sorted_map_fst, (proj1 HBk).
  - destruct (key_face m n mnodes G _ _ K) as [Hf _].
    assert (ND : NoDup (map (ownLocal m e (fAt m e lf)) (mnodes (fAt m e lf)))).
    { unfold ownLocal. destruct (0 <=? cf_e2 (faceAt m (fAt m e lf)))%Z eqn:E.
      - apply Z.leb_le in E. destruct (g_int _ _ _ G _ Hf E) as [_ [[_ [_ [_ [D1 [D2 _]]]]] _]]. destruct (negb (e =? cf_e1 (faceAt m (fAt m e lf)))%Z); cbn [andb]; assumption.
      - apply Z.leb_gt in E. destruct (g_bdr _ _ _ G _ Hf) as [_ [_ [_ [_ [D1 _]]]]]; [unfold interior; lia|]. exact D1. }
    apply (NoDup_map_inv fst). rewrite map_map.
    rewrite (map_ext_in _ (fun ij => gdof n e (ownLocal m e (fAt m e lf) ij))) by (intros ij I; apply (own_dof m n mnodes G); assumption).
    rewrite <- (map_map (ownLocal m e (fAt m e lf)) (gdof n e)). apply FinFun.Injective_map_NoDup; [|exact ND].
    intros a b E. unfold gdof in E. lia.
  - intros p. rewrite (proj2 HBk p), in_map_iff. split; intros [ij [A0 A1]]; exists ij; split; congruence || assumption || (symmetry; assumption).
Qed.

Lemma interp_side : forall e lf q h, inR e (Z.of_nat (cm_ne m)) -> (lf < NF)%nat ->
  interp (sideOf e lf q) (fun i => h (pairAt s (elPos (elAt e) i))) =
  suml (fun ij => sh1 q (ownLocal m e (fAt m e lf) ij) * h (seenFrom m n e (fAt m e lf) ij)) (mnodes (fAt m e lf)).
Proof.
  intros e lf q h He Hl. destruct el_facts as [_ [Eg [_ [_ [_ P]]]]]. destruct (P e He) as [_ [_ [Ei [Es Ef]]]].
  destruct (block_at m mnodes fc t nf ref elems conn G HG SM Hshape e lf He Hl) as [B [HBk [LB [M V]]]].
  unfold interp. cbn [sd_el sd_phi sideOf].
  rewrite (interp_value NF nf ref (elAt e) Ef lf q (fun i => h (pairAt s (elPos (elAt e) i))) Hl).
  transitivity (sumN nf (fun b => sh1 q (Z.to_nat (fst (nth b B (0, 0)%Z) - gdof n e 0)) * h (nth b B (0, 0)%Z))).
  - apply sumN_ext. intros b Hb. destruct (nodes_of fc t nf ref Hshape lf Hl) as [_ Hlen]. f_equal.
    + f_equal. pose proof (map_nth fst B (0, 0)%Z b) as Q. cbn [fst] in Q. rewrite <- Q, M.
      rewrite nth_indep with (d' := gdof n e 0%nat) by (rewrite map_length; lia). rewrite (map_nth (gdof n e)). unfold gdof. lia.
    + f_equal. unfold pairAt. rewrite Eg. rewrite <- V by exact Hb. unfold valAt. f_equal. unfold elPos, posAt. rewrite Ei, Ef. f_equal. unfold NF. lia.
  - transitivity (suml (fun p => sh1 q (Z.to_nat (fst p - gdof n e 0)) * h p) B).
    + rewrite <- LB. unfold suml, sumN. f_equal. apply nth_ext with (d := 0) (d' := sh1 q (Z.to_nat (fst (0, 0)%Z - gdof n e 0)) * h (0, 0)%Z); [rewrite !map_length, seq_length; reflexivity|].
      intros i Hi. rewrite map_length, seq_length in Hi. rewrite (map_nth (fun p => sh1 q (Z.to_nat (fst p - gdof n e 0)) * h p)).
      rewrite nth_indep with (d' := (fun b => sh1 q (Z.to_nat (fst (nth b B (0, 0)%Z) - gdof n e 0)) * h (nth b B (0, 0)%Z)) 0%nat) by (rewrite map_length, seq_length; exact Hi).
      rewrite (map_nth (fun b => sh1 q (Z.to_nat (fst (nth b B (0, 0)%Z) - gdof n e 0)) * h (nth b B (0, 0)%Z))), seq_nth by exact Hi. reflexivity.
    + rewrite (suml_perm _ _ _ (block_perm e lf He Hl B HBk)). rewrite suml_map. apply suml_ext. intros ij I.
      destruct (own_dof m n mnodes G e _ ij (key_at m mnodes fc t nf ref elems SM e lf He Hl) I) as [D _]. rewrite D. f_equal. f_equal. unfold gdof. lia.
Qed.

Lemma kind_side : forall e lf q, inR e (Z.of_nat (cm_ne m)) -> (lf < NF)%nat -> onKind s (kinds (fAt m e lf)) (sideOf e lf q).
Proof.
  intros e lf q He Hl i Hi Hp. cbn [sd_el sideOf] in *. destruct el_facts as [_ [_ [Eb [Esr [_ P]]]]]. destruct (P e He) as [_ [_ [Ei [Es Ef]]]].
  cbn [sd_phi sideOf] in Hp. rewrite Ef in Hi. destruct (i / nf =? lf)%nat eqn:E; [|exfalso; apply Hp; reflexivity]. apply Nat.eqb_eq in E.
  assert (nf <> 0)%nat by nia.
  split; [|unfold incE, incH, incident; rewrite Esr; unfold suml; cbn [map fold_right]; split; reflexivity].
  rewrite Eb. pose proof (proj1 (sm_uni _ _ _ _ _ _ _ SM) e He) as LN.
  pose proof (proj2 OK e lf (i mod nf)%nat He) as Q. rewrite LN in Q. specialize (Q Hl (Nat.mod_upper_bound i nf H)). fold (fAt m e lf) in Q. rewrite <- Q. f_equal.
  unfold elPos. rewrite Ei, Ef. fold NF. pose proof (Nat.div_mod i nf H) as D. rewrite E in D. rewrite D at 1. lia.
Qed.

Lemma face_points : forall f, inF m f -> exists fps, Permutation (flat_map faceSd (faceKeys f)) (flat_map faceSides fps) /\ Forall (faceOk s) fps /\
  Forall (fun p => match p with Inner _ _ => kinds f = KInterior | Outer k _ => k = kinds f /\ k <> KInterior end) fps /\
  forall p, In p fps -> exists e lf q, inR e (Z.of_nat (cm_ne m)) /\ (lf < NF)%nat /\ In q (f_pts (faceN fc t lf)) /\ faceWeight p = q_w q * weightOf (geoN (gAt e) lf).
Proof.
  intros f Hf. set (e1 := cf_e1 (faceAt m f)). set (e2 := cf_e2 (faceAt m f)).
  destruct (o_listed _ _ _ FO f Hf) as [L1 L2]. fold e1 in L1. fold e2 in L2.
  assert (K1 : inR e1 (Z.of_nat (cm_ne m))) by (apply (g_el1 _ _ _ G); exact Hf).
  assert (IX : forall e, inR e (Z.of_nat (cm_ne m)) -> In f (nth (Z.to_nat e) (cm_elface m) []) ->
     nth_error (nth (Z.to_nat e) (cm_elface m) []) (idx (nth (Z.to_nat e) (cm_elface m) []) f) = Some f /\
     (idx (nth (Z.to_nat e) (cm_elface m) []) f < NF)%nat /\ fAt m e (idx (nth (Z.to_nat e) (cm_elface m) []) f) = f).
  { intros e He I. pose proof (idx_in _ _ I) as Q. split; [exact Q|]. split.
    - unfold NF. rewrite <- (proj1 (sm_uni _ _ _ _ _ _ _ SM) e He). apply nth_error_Some. congruence.
    - unfold fAt. apply nth_error_nth. exact Q. }
  assert (SD : forall k, k <> KInterior -> kinds f = k -> forall e, inR e (Z.of_nat (cm_ne m)) -> In f (nth (Z.to_nat e) (cm_elface m) []) ->
     Forall (faceOk s) (map (Outer k) (faceSd (e, f))) /\
     Forall (fun p => match p with Inner _ _ => kinds f = KInterior | Outer k' _ => k' = kinds f /\ k' <> KInterior end) (map (Outer k) (faceSd (e, f))) /\
     (forall p, In p (map (Outer k) (faceSd (e, f))) -> exists e lf q, inR e (Z.of_nat (cm_ne m)) /\ (lf < NF)%nat /\ In q (f_pts (faceN fc t lf)) /\ faceWeight p = q_w q * weightOf (geoN (gAt e) lf))).
  { intros k Hk Ek e He I. destruct (IX e He I) as [_ [Hlt Hfa]]. split; [|split].
    - apply Forall_forall. intros p Hp. apply in_map_iff in Hp as [a [<- Ha]]. unfold faceSd in Ha. cbn [fst snd] in Ha. apply in_map_iff in Ha as [q [<- _]].
      cbn [faceOk]. split; [exact Hk|]. rewrite <- Ek. rewrite <- Hfa at 1. apply kind_side; assumption.
    - apply Forall_forall. intros p Hp. apply in_map_iff in Hp as [a [<- Ha]]. split; [symmetry; exact Ek|exact Hk].
    - intros p Hp. apply in_map_iff in Hp as [a [<- Ha]]. unfold faceSd in Ha. cbn [fst snd] in Ha. apply in_map_iff in Ha as [q [<- Hq]].
      exists e, (idx (nth (Z.to_nat e) (cm_elface m) []) f), q. split; [exact He|]. split; [exact Hlt|]. split; [exact Hq|reflexivity]. }
  assert (FS : forall k l, flat_map faceSides (map (Outer k) l) = l).
  { intros k l. induction l as [|a l IH]; [reflexivity|]. cbn [map flat_map faceSides app]. rewrite IH. reflexivity. }
  assert (D : kinds f = KInterior \/ kinds f <> KInterior) by (destruct (kinds f); (left; reflexivity) || (right; discriminate)).
  destruct D as [Ek|Ek].
  2: { exists (map (Outer (kinds f)) (flat_map faceSd (faceKeys f))). rewrite FS. split; [apply Permutation_refl|]. unfold faceKeys. fold e1 e2. cbn [flat_map]. rewrite map_app.
    destruct (SD _ Ek eq_refl e1 K1 L1) as [A1 [A2 A3]]. destruct (0 <=? e2)%Z eqn:E2.
    - apply Z.leb_le in E2. destruct (g_int _ _ _ G f Hf E2) as [KK _]. fold e1 e2 in KK.
      assert (K2 : inR e2 (Z.of_nat (cm_ne m))) by (unfold inR; lia). destruct (SD _ Ek eq_refl e2 K2 (L2 E2)) as [B1 [B2 B3]]. cbn [flat_map]. rewrite app_nil_r.
      split; [apply Forall_app; split; assumption|]. split; [apply Forall_app; split; assumption|].
      intros p Hp. apply in_app_or in Hp as [Hp|Hp]; [apply A3; exact Hp|apply B3; exact Hp].
    - cbn [flat_map map]. rewrite app_nil_r. split; [exact A1|]. split; [exact A2|exact A3]. }
  pose proof (proj1 OK f Hf Ek) as HI. unfold interior in HI. fold e2 in HI.
  destruct (g_int _ _ _ G f Hf HI) as [KK [CF _]]. fold e1 e2 in KK.
  assert (K2 : inR e2 (Z.of_nat (cm_ne m))) by (unfold inR; lia).
  destruct (IX e1 K1 L1) as [N1 [Q1 F1]]. destruct (IX e2 K2 (L2 HI)) as [N2 [Q2 F2]].
  set (l1 := idx (nth (Z.to_nat e1) (cm_elface m) []) f) in *. set (l2 := idx (nth (Z.to_nat e2) (cm_elface m) []) f) in *.
  destruct el_facts as [_ [_ [_ [_ [_ P]]]]]. destruct (P e1 K1) as [_ [Z1 _]]. destruct (P e2 K2) as [_ [Z2 _]].
  destruct (FM f l1 l2 (gAt e1) (gAt e2) Hf HI N1 N2 Z1 Z2) as [Wt [Nm [qs [M1 [M2 M3]]]]].
  exists (map (fun q => Inner (sideOf e1 l1 (fst q)) (sideOf e2 l2 (snd q))) qs). split; [|split; [|split]].
  - unfold faceKeys. fold e1 e2. replace (0 <=? e2)%Z with true by (symmetry; apply Z.leb_le; exact HI). cbn [flat_map]. rewrite app_nil_r.
    unfold faceSd. cbn [fst snd]. fold l1 l2. rewrite <- M1.
    apply Permutation_trans with (map (sideOf e1 l1) (map fst qs) ++ map (sideOf e2 l2) (map snd qs)).
    { apply Permutation_app_head, Permutation_map, Permutation_sym. exact M2. }
    clear. induction qs as [|q qs IH]; [constructor|]. cbn [map flat_map faceSides app]. constructor.
    apply Permutation_trans with (sideOf e2 l2 (snd q) :: map (sideOf e1 l1) (map fst qs) ++ map (sideOf e2 l2) (map snd qs)).
    { apply Permutation_sym, Permutation_middle. }
    constructor. exact IH.
  - apply Forall_forall. intros p Hp. apply in_map_iff in Hp as [q [<- Hq]]. destruct (M3 q Hq) as [Wq Sq]. cbn [faceOk].
    split; [cbn [sd_w sideOf]; rewrite Wt, Wq; reflexivity|]. split; [exact Nm|].
    assert (I1 : forall ij, ownLocal m e1 f ij = fst ij).
    { intros ij. unfold ownLocal. fold e1 e2. rewrite Z.eqb_refl. cbn [negb]. rewrite andb_false_r. reflexivity. }
    assert (I2 : forall ij, ownLocal m e2 f ij = snd ij).
    { intros ij. unfold ownLocal. fold e1 e2. replace (0 <=? e2)%Z with true by (symmetry; apply Z.leb_le; exact HI).
      replace (e2 =? e1)%Z with false by (symmetry; apply Z.eqb_neq; lia). reflexivity. }
    assert (J1 : forall ij, seenFrom m n e1 f ij = (gdof n e1 (fst ij), gdof n e2 (snd ij))).
    { intros ij. unfold seenFrom. fold e1 e2. replace (0 <=? e2)%Z with true by (symmetry; apply Z.leb_le; exact HI). rewrite Z.eqb_refl. reflexivity. }
    assert (J2 : forall ij, seenFrom m n e2 f ij = (gdof n e2 (snd ij), gdof n e1 (fst ij))).
    { intros ij. unfold seenFrom. fold e1 e2. replace (0 <=? e2)%Z with true by (symmetry; apply Z.leb_le; exact HI).
      replace (e2 =? e1)%Z with false by (symmetry; apply Z.eqb_neq; lia). reflexivity. }
    unfold traceN, trace. cbn [sd_el sideOf].
    split; [|split].
    + intros g. rewrite (interp_side e1 l1 (fst q) (fun p => g (snd p)) K1 Q1), (interp_side e2 l2 (snd q) (fun p => g (fst p)) K2 Q2). rewrite F1, F2.
      apply suml_ext. intros ij Iij. rewrite I1, I2, J1, J2. cbn [fst snd]. rewrite (Sq ij Iij). reflexivity.
    + intros g. rewrite (interp_side e1 l1 (fst q) (fun p => g (fst p)) K1 Q1), (interp_side e2 l2 (snd q) (fun p => g (snd p)) K2 Q2). rewrite F1, F2.
      apply suml_ext. intros ij Iij. rewrite I1, I2, J1, J2. cbn [fst snd]. rewrite (Sq ij Iij). reflexivity.
    + rewrite <- Ek. split; [rewrite <- F1 at 1; apply kind_side; assumption|rewrite <- F2 at 1; apply kind_side; assumption].
  - apply Forall_forall. intros p Hp. apply in_map_iff in Hp as [q [<- Hq]]. exact Ek.
  - intros p Hp. apply in_map_iff in Hp as [q [<- Hq]]. exists e1, l1, (fst q). split; [exact K1|]. split; [exact Q1|]. split; [rewrite <- M1; apply in_map; exact Hq|reflexivity].
Qed.

Lemma built_domain : exists fps, discretised s (fun el i j => massOf fc t elems el i j / kappa t) sidesEl fps /\
  Forall (fun p => exists f, inF m f /\ match p with Inner _ _ => kinds f = KInterior | Outer k _ => k = kinds f /\ k <> KInterior end) fps /\
  forall p, In p fps -> exists e lf q, inR e (Z.of_nat (cm_ne m)) /\ (lf < NF)%nat /\ In q (f_pts (faceN fc t lf)) /\ faceWeight p = q_w q * weightOf (geoN (gAt e) lf).
Proof.
  assert (KF : forall l, (forall f, In f l -> inF m f) -> exists fps, Permutation (flat_map faceSd (flat_map faceKeys l)) (flat_map faceSides fps) /\ Forall (faceOk s) fps /\
    Forall (fun p => exists f, inF m f /\ match p with Inner _ _ => kinds f = KInterior | Outer k _ => k = kinds f /\ k <> KInterior end) fps /\
    forall p, In p fps -> exists e lf q, inR e (Z.of_nat (cm_ne m)) /\ (lf < NF)%nat /\ In q (f_pts (faceN fc t lf)) /\ faceWeight p = q_w q * weightOf (geoN (gAt e) lf)).
  { induction l as [|f l IH]; intros Hl; [exists []; split; [constructor|split; [constructor|split; [constructor|intros p []]]]|].
    destruct (face_points f (Hl f (or_introl eq_refl))) as [fa [A1 [A2 [A3 A4]]]]. destruct IH as [fb [B1 [B2 [B3 B4]]]]; [intros; apply Hl; right; assumption|].
    exists (fa ++ fb). cbn [flat_map]. rewrite !flat_map_app. split; [apply Permutation_app; assumption|]. split; [apply Forall_app; split; assumption|].
    split; [apply Forall_app; split; [|exact B3]; eapply Forall_impl; [|exact A3]; intros p Hp; exists f; split; [apply Hl; left; reflexivity|exact Hp]|].
    intros p Hp. apply in_app_or in Hp as [Hp|Hp]; [apply A4; exact Hp|apply B4; exact Hp]. }
  destruct (KF (zseq (length (cm_face m)))) as [fps [P1 [P2 [P3 P4]]]]; [intros f Hf; apply in_zseq in Hf; exact Hf|].
  exists fps. split; [|split; assumption]. split; [|split; [|exact P2]].
  - apply Forall_forall. intros el Hel.
    destruct (built_facts inv fc dim t nf ref elems posLin posCur tfsf bdr global alpha conn maps [] m Hsup Hnf Hshape Hne types H1 H2 all_straight s HB) as [lin [cur [Mi [L [_ [_ [F _]]]]]]].
    assert (GE : elSize el = n /\ elFlux el = (NF * nf)%nat /\ inR (el_id el) (Z.of_nat (cm_ne m))).
    { rewrite nd_lin_at in Hel. apply in_map_iff in Hel as [e [<- He]]. apply in_zseq in He. destruct el_facts as [_ [_ [_ [_ [_ P]]]]]. destruct (P e He) as [_ [_ [Ei [Es Ef]]]].
      rewrite Ei. split; [exact Es|]. split; [exact Ef|exact He]. }
    destruct GE as [Es [Ef Ei]].
    destruct el_facts as [_ [Eg _]].
    pose proof (conn_lists m mnodes fc t nf ref elems conn G HG SM Hshape s el Eg Es Ef Ei) as LF.
    destruct (built_discretises inv fc dim t nf ref elems posLin posCur tfsf bdr global alpha conn maps [] (cm_N m) s Hsup Hnf Hshape Hinv Hne types H1 H2 all_straight HB el Hel LF)
      as [g [Hz [_ D]]].
    assert (Eg' : elemOf elems el = g).
    { pose proof (zget_len _ _ _ Hz) as Q. rewrite (zget_v elems (el_id el) (mkGE Triangle [] 0 0 [] (fun _ => mzero)) Q) in Hz. injection Hz as Hz. exact Hz. }
    unfold massOf, sidesEl. rewrite Eg'. exact D.
  - rewrite sides_keys. eapply Permutation_trans; [|exact P1]. apply flat_map_perm, keys_perm.
Qed.
End Energy.

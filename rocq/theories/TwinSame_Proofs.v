(** The nodal operator and the assembled operator built on the same mesh. *)
From Coq Require Import ZArith List Bool Reals Lia Lra Sorted Permutation.
From Verif Require Import Common Csr_Model Geo_Spec Face_Model Face_Spec Face_Proofs Nodal_Model Nodal_Spec NodalEnergy_Spec Step_Model Setup_Model Setup_Spec Assembly_Model Form_Model Form_Spec Global_Spec Conn_Model Conn_Spec Hest_Model Hest_Spec Twin_Spec.
From Verif Require Import Nodal_Proofs NodalMult_Proofs NodalEnergy_Proofs GlobalEnergy_Proofs GlobalBalance_Proofs ConnPos_Proofs ConnWf_Proofs Sub_Proofs Hest_Proofs HestElem_Proofs HestWeak_Proofs HestBuild_Proofs HestMesh_Proofs HestEnergy_Proofs HestKind_Proofs HestRun_Proofs TwinWeak_Proofs TwinNodal_Proofs.
Import ListNotations.
Local Open Scope R_scope.

(** A form in blocks is the sum of the forms of the elements. *)
Lemma blocks_form : forall n elems B A v w, inBlocks n elems B A -> forall d0,
  mform (length elems * n) A v w =
  suml (fun e => sumN n (fun i => sumN n (fun j => v (Z.to_nat (gdof n e i)) * B (nth (Z.to_nat e) elems d0) i j * w (Z.to_nat (gdof n e j))))) (zseq (length elems)).
Proof.
  intros n elems B A v w HB d0. unfold mform. rewrite sumN_blocks. unfold zseq. rewrite suml_map, suml_seq. apply sumN_ext. intros e He. rewrite Nat2Z.id.
  apply sumN_ext. intros i Hi. rewrite sumN_blocks.
  rewrite (sumN_ext (length elems) _ (fun e' => if (e' =? e)%nat then sumN n (fun j => v (e * n + i)%nat * B (nth e elems d0) i j * w (e' * n + j)%nat) else 0)).
  - rewrite sumN_delta by exact He. apply sumN_ext. intros j _. unfold gdof. replace (Z.to_nat (Z.of_nat e * Z.of_nat n + Z.of_nat i)) with (e * n + i)%nat by nia.
    replace (Z.to_nat (Z.of_nat e * Z.of_nat n + Z.of_nat j)) with (e * n + j)%nat by nia. reflexivity.
  - intros e' He'. assert (Q : forall j, (j < n)%nat -> A (e * n + i)%nat (e' * n + j)%nat = if (Z.of_nat e =? Z.of_nat e')%Z then B (nth e elems d0) i j else 0).
    { intros j Hj. specialize (HB (Z.of_nat e) (Z.of_nat e') i j (nth e elems d0)). unfold gdof in HB.
      replace (Z.to_nat (Z.of_nat e * Z.of_nat n + Z.of_nat i)) with (e * n + i)%nat in HB by nia.
      replace (Z.to_nat (Z.of_nat e' * Z.of_nat n + Z.of_nat j)) with (e' * n + j)%nat in HB by nia.
      apply HB; [|unfold inR; lia|exact Hi|exact Hj]. rewrite (zget_v elems (Z.of_nat e) d0) by lia. rewrite Nat2Z.id. reflexivity. }
    destruct (e' =? e)%nat eqn:E.
    + apply Nat.eqb_eq in E. subst e'. apply sumN_ext. intros j Hj. rewrite Q by exact Hj. rewrite Z.eqb_refl. reflexivity.
    + apply Nat.eqb_neq in E. apply sumN_zero. intros j Hj. rewrite Q by exact Hj. replace (Z.of_nat e =? Z.of_nat e')%Z with false by (symmetry; apply Z.eqb_neq; lia). ring.
Qed.

Lemma facesum_seq : forall fm h, facesum fm h = suml (fun fi => match nth_error (fm_faces fm) fi with Some f => suml (fun q => ds q * h fi f q) (f_pts (mf_face f)) | None => 0 end) (seq 0 (length (fm_faces fm))).
Proof. reflexivity. Qed.

Lemma suml_none : forall {A} (f : A -> R) l, (forall a, f a = 0) -> suml f l = 0.
Proof. intros A f l H. unfold suml. induction l as [|a l IH]; [reflexivity|]. cbn [map fold_right]. rewrite IH, H. ring. Qed.

Lemma suml_three : forall {A} (a b c : A -> R) sg l, sg * (suml a l - suml b l) + suml c l = suml (fun e => sg * (a e - b e) + c e) l.
Proof. intros A a b c sg l. unfold suml. induction l as [|e l IH]; cbn [map fold_right]; [ring|]. rewrite <- IH. ring. Qed.

Section Same.
Variables (inv : nat -> mat -> mat) (fc : fecol) (dim : Z) (t : etype) (nf : nat) (ref : list (list nat)) (elems : list gelem)
  (posLin posCur : list vertex) (tfsf : list (cond * list Z)) (bdr : list bdrElem) (global : Z -> list (Z * R)) (alpha : R)
  (conn : list (Z * Z)) (maps : bdrMaps) (attrs : list Z)
  (m : cmesh) (mnodes : Z -> list (nat * nat)) (bdrMk intMk tfsfMk : list (cond * list Z)) (kinds : Z -> kind).
Hypothesis Hsim : simplex t dim.
Hypothesis HR : refElement inv fc t nf ref.
Hypothesis HL : localMesh fc dim t posLin posCur elems.
Hypothesis HM : operatorMesh m (fc_n fc t) mnodes bdrMk intMk tfsfMk.
Hypothesis SM : sameMesh m mnodes fc t nf ref elems.
Hypothesis HC : connectivities m bdrMk intMk tfsfMk = Ok (conn, maps, attrs).
Hypothesis HG : rowsIn (cm_N m) global.
Hypothesis Hall : Forall (fun g => ~ curvedBy posLin posCur g) elems.
Hypothesis OK : oneKind m nf maps kinds.
Variables (fm : fmesh) (gb gi : list (Z * cond)).
Hypothesis HF : sameFaces m mnodes fc t elems fm.
Hypothesis HK : sameKinds m fm gb gi kinds.
Hypothesis Ha : alpha <> 0 \/ forall f, ~ carries m bdrMk SMA f.
Hypothesis Hk0 : forall f, inF m f -> kinds f = KSMA -> alpha <> 0.
Variable s : nodal.
Hypothesis HB : buildNodal inv fc dim (cm_N m) elems posLin posCur tfsf bdr global alpha conn maps [] = Ok s.
Let n := fc_n fc t.
Let NF := length (fc_faces fc t).
Let N := (length elems * n)%nat.
Hypothesis HW : wfMesh N fm.
Hypothesis HWF : Forall (fun f => wfFace (mf_face f)) (fm_faces fm).

Lemma supp : supported t dim. Proof. apply (simplex_supported t dim Hsim). Qed.
Lemma hst : Forall (fun g => ~ curvedBy posLin posCur g /\ straight fc dim t g) elems.
Proof. destruct HL as [L1 L2 L3 L4 L5]. rewrite Forall_forall in Hall |- *. intros g I. split; [apply Hall; exact I|apply L5; [exact I|apply Hall; exact I]]. Qed.
Lemma hglobal : isGlobal m n mnodes conn.
Proof. exact (conn_global fc t conn maps attrs m mnodes bdrMk intMk tfsfMk HM HC). Qed.
Definition facts := el_facts inv fc dim t nf ref elems posLin posCur tfsf bdr global alpha conn maps m mnodes supp (nf_value _ _ _ _ _ _ supp HR) (re_shape _ _ _ _ _ HR)
  (lm_some _ _ _ _ _ _ HL) (lm_lin _ _ _ _ _ _ HL) (lm_cur _ _ _ _ _ _ HL) hst SM s HB.
Definition iside := interp_side inv fc dim t nf ref elems posLin posCur tfsf bdr global alpha conn maps m mnodes supp (nf_value _ _ _ _ _ _ supp HR) (re_shape _ _ _ _ _ HR)
  (lm_some _ _ _ _ _ _ HL) (lm_lin _ _ _ _ _ _ HL) (lm_cur _ _ _ _ _ _ HL) hst (om_conf _ _ _ _ _ _ HM) hglobal SM s HB.
Definition kside := kind_side inv fc dim t nf ref elems posLin posCur tfsf bdr global alpha conn maps m mnodes kinds supp (nf_value _ _ _ _ _ _ supp HR) (re_shape _ _ _ _ _ HR)
  (lm_some _ _ _ _ _ _ HL) (lm_lin _ _ _ _ _ _ HL) (lm_cur _ _ _ _ _ _ HL) hst SM OK s HB.

Lemma sizeN : cm_N m = Z.of_nat N.
Proof. unfold N. rewrite (g_N _ _ _ (om_conf _ _ _ _ _ _ HM)), <- (sm_n _ _ _ _ _ _ _ SM). fold n. lia. Qed.
Lemma nd_n : nd_N s = cm_N m.
Proof.
  destruct HL as [L1 L2 L3 L4 L5].
  destruct (built_facts inv fc dim t nf ref elems posLin posCur tfsf bdr global alpha conn maps [] m supp (nf_value _ _ _ _ _ _ supp HR) (re_shape _ _ _ _ _ HR) L1 L2 L3 L4 L5 s HB) as [lin [cur [Mi [L [_ [_ [_ [_ [_ Es]]]]]]]]].
  rewrite Es. reflexivity.
Qed.

(** ** Traces *)
Lemma trace_all : forall e lf q v, inR e (Z.of_nat (cm_ne m)) -> (lf < NF)%nat -> In q (f_pts (faceN fc t lf)) ->
  trace s (sideOf nf ref elems s e lf q) v = sumN n (fun k => sh1 q k * v (gdof n e k)).
Proof.
  intros e lf q v He Hl Hq. destruct facts as [_ [Eg [_ [_ [_ P]]]]]. destruct (P e He) as [_ [_ [Ei [Es Ef]]]].
  unfold trace, interp. cbn [sd_el sd_phi sideOf]. rewrite (interp_value NF nf ref (elAt s e) Ef lf q (fun i => v (fst (pairAt s (elPos (elAt s e) i)))) Hl).
  assert (LF : listsFaces s fc t nf ref (elAt s e)) by (apply (conn_lists m mnodes fc t nf ref elems conn (om_conf _ _ _ _ _ _ HM) hglobal SM (re_shape _ _ _ _ _ HR) s (elAt s e) Eg Es Ef); rewrite Ei; exact He).
  rewrite (trace_value fc t nf ref (re_shape _ _ _ _ _ HR) s (elAt s e) LF lf q v Hl Hq). fold n.
  apply sumN_ext. intros k _. unfold onEl, elDof, gdof. rewrite Ei, Es. reflexivity.
Qed.
(** The value the connectivity puts across an interior face is the trace of the other side. *)
Lemma trace_across : forall f lf1 lf2 q1 q2 v, inF m f -> interior m f -> (lf1 < NF)%nat -> (lf2 < NF)%nat ->
  fAt m (cf_e1 (faceAt m f)) lf1 = f -> fAt m (cf_e2 (faceAt m f)) lf2 = f ->
  (forall ij, In ij (mnodes f) -> sh1 q1 (fst ij) = sh1 q2 (snd ij)) ->
  traceN s (sideOf nf ref elems s (cf_e1 (faceAt m f)) lf1 q1) v = trace s (sideOf nf ref elems s (cf_e2 (faceAt m f)) lf2 q2) v /\
  traceN s (sideOf nf ref elems s (cf_e2 (faceAt m f)) lf2 q2) v = trace s (sideOf nf ref elems s (cf_e1 (faceAt m f)) lf1 q1) v.
Proof.
  intros f l1 l2 q1 q2 v Hf HI Q1 Q2 F1 F2 Sq. set (e1 := cf_e1 (faceAt m f)) in *. set (e2 := cf_e2 (faceAt m f)) in *. unfold interior in HI. fold e2 in HI.
  pose proof (om_conf _ _ _ _ _ _ HM) as G. destruct (g_int _ _ _ G f Hf HI) as [KK _]. fold e1 e2 in KK.
  assert (K1 : inR e1 (Z.of_nat (cm_ne m))) by (apply (g_el1 _ _ _ G); exact Hf).
  assert (K2 : inR e2 (Z.of_nat (cm_ne m))) by (unfold inR; lia).
  assert (I1 : forall ij, ownLocal m e1 f ij = fst ij).
  { intros ij. unfold ownLocal. fold e1 e2. rewrite Z.eqb_refl. cbn [negb]. rewrite andb_false_r. reflexivity. }
  assert (I2 : forall ij, ownLocal m e2 f ij = snd ij).
  { intros ij. unfold ownLocal. fold e1 e2. replace (0 <=? e2)%Z with true by (symmetry; apply Z.leb_le; exact HI).
    replace (e2 =? e1)%Z with false by (symmetry; apply Z.eqb_neq; lia). reflexivity. }
  assert (J1 : forall ij, seenFrom m n e1 f ij = (gdof n e1 (fst ij), gdof n e2 (snd ij))).
  { intros ij. unfold seenFrom. fold e1 e2. replace (0 <=? e2)%Z with true by (symmetry; apply Z.leb_le; exact HI). rewrite Z.eqb_refl. reflexivity. }
  assert (J2 : forall ij, seenFrom m n e2 f ij = (gdof n e2 (snd ij), gdof n e1 (fst ij))).
  { intros ij. unfold seenFrom. fold e1 e2. replace (0 <=? e2)%Z with true by (symmetry; apply Z.leb_le; exact HI).
    replace (e2 =? e1)%Z with false by (symmetry; apply Z.eqb_neq; lia). reflexivity. }
  unfold traceN, trace. cbn [sd_el sideOf].
  rewrite (iside e1 l1 q1 (fun p => v (snd p)) K1 Q1), (iside e2 l2 q2 (fun p => v (fst p)) K2 Q2), (iside e1 l1 q1 (fun p => v (fst p)) K1 Q1), (iside e2 l2 q2 (fun p => v (snd p)) K2 Q2).
  rewrite F1, F2. fold n. split; apply suml_ext; intros ij Iij; rewrite I1, I2, J1, J2; cbn [fst snd]; rewrite (Sq ij Iij); reflexivity.
Qed.

Definition vz (v : nat -> R) (z : Z) : R := v (Z.to_nat z).
Lemma dofs_at : forall e g k, zget elems e = Ok g -> (k < n)%nat -> nth k (map Z.to_nat (ge_dofs g)) 0%nat = Z.to_nat (gdof n e k).
Proof.
  intros e g k Hz Hk. rewrite (sm_dofs _ _ _ _ _ _ _ SM e g Hz), map_map. fold n.
  rewrite (nth_indep _ 0%nat ((fun i => Z.to_nat (gdof n e i)) 0%nat)) by (rewrite map_length, seq_length; exact Hk).
  rewrite (map_nth (fun i => Z.to_nat (gdof n e i))), seq_nth by exact Hk. reflexivity.
Qed.
Lemma dofs_len : forall e g, zget elems e = Ok g -> length (map Z.to_nat (ge_dofs g)) = n.
Proof. intros e g Hz. rewrite (sm_dofs _ _ _ _ _ _ _ SM e g Hz), !map_length, seq_length. reflexivity. Qed.
Lemma face_t1 : forall F q g e v, In F (fm_faces fm) -> In q (f_pts (mf_face F)) -> zget elems e = Ok g -> f_el1 (mf_face F) = n -> mf_dofs1 F = map Z.to_nat (ge_dofs g) ->
  side1 (mf_face F) (local F v) q = sumN n (fun k => nth k (q_s1 q) 0 * vz v (gdof n e k)).
Proof.
  intros F q g e v IF Iq Hz E1 D1. rewrite Forall_forall in HWF. pose proof (HWF F IF) as W. unfold wfFace in W. rewrite Forall_forall in W. destruct (W q Iq) as [_ [L _]].
  unfold side1, tr. rewrite L, E1. apply sumN_ext. intros k Hk. unfold local, vz. rewrite Nat.add_0_r, D1, app_nth1 by (rewrite (dofs_len e g Hz); exact Hk).
  rewrite (dofs_at e g k Hz Hk). reflexivity.
Qed.
Lemma face_t2 : forall F q g1 e1 g e v, In F (fm_faces fm) -> In q (f_pts (mf_face F)) -> zget elems e1 = Ok g1 -> zget elems e = Ok g -> f_el1 (mf_face F) = n -> mf_dofs1 F = map Z.to_nat (ge_dofs g1) ->
  f_el2 (mf_face F) <> None -> mf_dofs2 F = map Z.to_nat (ge_dofs g) ->
  side2 (mf_face F) (local F v) q = sumN n (fun k => nth k (q_s2 q) 0 * vz v (gdof n e k)).
Proof.
  intros F q g1 e1 g e v IF Iq Hz1 Hz E1 D1 E2 D2. rewrite Forall_forall in HWF. pose proof (HWF F IF) as W. unfold wfFace in W. rewrite Forall_forall in W. destruct (W q Iq) as [_ [_ L]].
  destruct HW as [WM _]. rewrite Forall_forall in WM. destruct (WM F IF) as [_ [L2 _]].
  unfold side2, tr. destruct (f_el2 (mf_face F)) as [n2|]; [|congruence]. rewrite D2, (dofs_len e g Hz) in L2. rewrite L, <- L2.
  apply sumN_ext. intros k Hk. unfold local, vz. rewrite E1, D1, app_nth2 by (rewrite (dofs_len e1 g1 Hz1); lia). rewrite (dofs_len e1 g1 Hz1), D2.
  replace (k + n - n)%nat with k by lia. rewrite (dofs_at e g k Hz Hk). reflexivity.
Qed.
Lemma comp_fld : forall x f d e k, vz (fld N x f d) (gdof n e k) = comp6 (nd_N s) x (3 * f + d) (gdof n e k) \/ (e < 0)%Z.
Proof.
  intros x f d e k. destruct (Z.lt_ge_cases e 0) as [E|E]; [right; exact E|left]. unfold vz, fld, comp6. rewrite nd_n, sizeN. f_equal. f_equal. rewrite Z2Nat.id; [reflexivity|]. unfold gdof. nia.
Qed.

(** One side of one face. *)
Variable x : list R.
Notation u := (comp6 (nd_N s) x).
Notation sd := (sideOf nf ref elems s).
Lemma side_fields : forall e lf q (T : (nat -> R) -> R), inR e (Z.of_nat (cm_ne m)) -> (lf < NF)%nat -> In q (f_pts (faceN fc t lf)) ->
  (forall v, T v = sumN n (fun k => sh1 q k * vz v (gdof n e k))) ->
  (forall v, trace s (sd e lf q) (vz v) = T v) /\ (forall f d, trace s (sd e lf q) (u (3 * f + d)%Z) = T (fld N x f d)).
Proof.
  intros e lf q T He Hl Hq HT. split; [intros v; rewrite trace_all, HT by assumption; reflexivity|].
  intros f d. rewrite trace_all, HT by assumption. apply sumN_ext. intros k _. destruct (comp_fld x f d e k) as [Q|Q]; [rewrite Q; reflexivity|unfold inR in He; lia].
Qed.

Lemma suml_F2 : forall {A B} (P : A -> B -> Prop) l l' (f : A -> R) (h : B -> R), Forall2 P l l' -> (forall a b, In a l -> In b l' -> P a b -> f a = h b) -> suml f l = suml h l'.
Proof.
  intros A B P l l' f h H. unfold suml. induction H as [|a b l l' H0 H IH]; intros Q; [reflexivity|]. cbn [map fold_right].
  rewrite (Q a b (or_introl eq_refl) (or_introl eq_refl) H0), IH; [reflexivity|]. intros a' b' I I'. apply Q; right; assumption.
Qed.

Definition sideSum (v : nat -> R) (g d : Z) (a : side) : R := sd_w a * (trace s a (vz v) * rowOf (sideTerm s u a) g d).
Lemma face_match : forall f F v g d, inF m f -> nth_error (fm_faces fm) (Z.to_nat f) = Some F ->
  suml (fun key => suml (sideSum v g d) (faceSd fc t nf ref elems m s key)) (faceKeys m f) =
  suml (fun q => ds q * (faceTerm N alpha fm gb gi x v g d (Z.to_nat f) F q + excessAt N alpha x v g d (kinds f) F q)) (f_pts (mf_face F)).
Proof.
  intros f F v g d Hf EF. pose proof (om_conf _ _ _ _ _ _ HM) as G. pose proof (om_order _ _ _ _ _ _ HM) as FO.
  destruct HF as [_ HF2]. specialize (HF2 f F Hf EF). cbv zeta in HF2. destruct HF2 as [lf1 [g1 [N1 [Z1 [E1 [D1 [HO HI]]]]]]].
  pose proof (nth_error_In _ _ EF) as IF. destruct (HK f F Hf EF) as [FK IK]. set (e1 := cf_e1 (faceAt m f)) in *. set (e2 := cf_e2 (faceAt m f)) in *.
  assert (K1 : inR e1 (Z.of_nat (cm_ne m))) by (apply (g_el1 _ _ _ G); exact Hf).
  assert (IX : forall e lf, inR e (Z.of_nat (cm_ne m)) -> nth_error (nth (Z.to_nat e) (cm_elface m) []) lf = Some f ->
     idx (nth (Z.to_nat e) (cm_elface m) []) f = lf /\ (lf < NF)%nat /\ fAt m e lf = f).
  { intros e lf He Q. pose proof (nth_error_nth _ _ 0%Z Q) as Q'. assert (L : (lf < length (nth (Z.to_nat e) (cm_elface m) []))%nat) by (apply nth_error_Some; congruence).
    split; [rewrite <- Q' at 1; apply idx_nth; [apply (o_nodup _ _ _ FO e He)|exact L]|]. split; [unfold NF; rewrite <- (proj1 (sm_uni _ _ _ _ _ _ _ SM) e He); exact L|exact Q']. }
  assert (GZ : forall e g0, inR e (Z.of_nat (cm_ne m)) -> zget elems e = Ok g0 -> gAt elems e = g0).
  { intros e g0 He Hz. destruct facts as [_ [_ [_ [_ [_ P]]]]]. destruct (P e He) as [_ [Q _]]. congruence. }
  destruct (IX e1 lf1 K1 N1) as [I1 [Q1 F1]].
  assert (EA : nd_alpha s = alpha) by (destruct facts as [_ [_ [_ [_ [Q _]]]]]; exact Q).
  unfold faceKeys. fold e1 e2. unfold suml at 1. destruct (0 <=? e2)%Z eqn:E2; cbn [map fold_right].
  - apply Z.leb_le in E2. assert (HIn : interior m f) by exact E2. destruct (HI HIn) as [lf2 [g2 [rs [EF2 [N2 [Z2 [D2 [M1 [M2 [Sq F2]]]]]]]]]].
    destruct (g_int _ _ _ G f Hf E2) as [KK _]. fold e1 e2 in KK. assert (K2 : inR e2 (Z.of_nat (cm_ne m))) by (unfold inR; lia).
    destruct (IX e2 lf2 K2 N2) as [I2 [Q2 F2']].
    transitivity (suml (fun r => sideSum v g d (sd e1 lf1 (fst r)) + sideSum v g d (sd e2 lf2 (snd r))) rs).
    + rewrite Rplus_0_r. unfold faceSd. cbn [fst snd]. rewrite I1, I2, !suml_map, suml_plus. f_equal.
      * rewrite <- M1, suml_map. reflexivity.
      * rewrite <- (suml_map (fun q => sideSum v g d (sd e2 lf2 q)) snd). symmetry. apply suml_perm. exact M2.
    + symmetry. apply (suml_F2 _ _ _ _ _ F2). intros q r Iq Ir [[W1 [P1 S1]] [W2 [P2 S2]]].
      assert (J1 : In (fst r) (f_pts (faceN fc t lf1))) by (rewrite <- M1; apply in_map; exact Ir).
      assert (J2 : In (snd r) (f_pts (faceN fc t lf2))) by (apply (Permutation_in _ M2); apply in_map; exact Ir).
      destruct (side_fields e1 lf1 (fst r) (fun v => side1 (mf_face F) (local F v) q) K1 Q1 J1) as [A1 A2].
      { intros w. rewrite (face_t1 F q g1 e1 w IF Iq Z1 E1 D1). unfold sh1. rewrite S1. reflexivity. }
      destruct (side_fields e2 lf2 (snd r) (fun v => side2 (mf_face F) (local F v) q) K2 Q2 J2) as [B1 B2].
      { intros w. rewrite (face_t2 F q g1 e1 g2 e2 w IF Iq Z1 Z2 E1 D1 EF2 D2). unfold sh1. rewrite S2. reflexivity. }
      assert (X : forall w, traceN s (sd e1 lf1 (fst r)) w = trace s (sd e2 lf2 (snd r)) w /\ traceN s (sd e2 lf2 (snd r)) w = trace s (sd e1 lf1 (fst r)) w).
      { intros w. apply (trace_across f lf1 lf2 (fst r) (snd r) w Hf HIn Q1 Q2 F1 F2'). intros ij. apply (Sq r Ir). }
      unfold sideSum.
      rewrite (side_term s u (kinds f) (sd e1 lf1 (fst r))) by (rewrite <- F1 at 1; apply kside; assumption).
      rewrite (side_term s u (kinds f) (sd e2 lf2 (snd r))) by (rewrite <- F2' at 1; apply kside; assumption).
      unfold nbE, nbH. rewrite !(proj1 (X _)), !(proj2 (X _)). rewrite A1, B1.
      fold (trE s u (sd e1 lf1 (fst r))) (trE s u (sd e2 lf2 (snd r))) (trH s u (sd e1 lf1 (fst r))) (trH s u (sd e2 lf2 (snd r))).
      assert (T1 : trE s u (sd e1 lf1 (fst r)) = fieldAt side1 N x 0 F q /\ trH s u (sd e1 lf1 (fst r)) = fieldAt side1 N x 1 F q).
      { split; apply v3_eq; [exact (A2 0%Z 0%Z)|exact (A2 0%Z 1%Z)|exact (A2 0%Z 2%Z)|exact (A2 1%Z 0%Z)|exact (A2 1%Z 1%Z)|exact (A2 1%Z 2%Z)]. }
      assert (T2 : trE s u (sd e2 lf2 (snd r)) = fieldAt side2 N x 0 F q /\ trH s u (sd e2 lf2 (snd r)) = fieldAt side2 N x 1 F q).
      { split; apply v3_eq; [exact (B2 0%Z 0%Z)|exact (B2 0%Z 1%Z)|exact (B2 0%Z 2%Z)|exact (B2 1%Z 0%Z)|exact (B2 1%Z 1%Z)|exact (B2 1%Z 2%Z)]. }
      destruct T1 as [-> ->]. destruct T2 as [-> ->]. cbn [sd_w sd_n sideOf]. rewrite (GZ e1 g1 K1 Z1), (GZ e2 g2 K2 Z2), <- W1, <- W2, <- P1, <- P2, EA.
      rewrite !inner_terms by (apply IK; exact HIn). rewrite !row_plus. unfold faceTerm, excessAt. cbv zeta. rewrite FK.
      destruct (f_el2 (mf_face F)); [|congruence]. ring.
  - apply Z.leb_gt in E2. assert (HIn : ~ interior m f) by (unfold interior; fold e2; lia). destruct (HO HIn) as [EF2 F2].
    rewrite Rplus_0_r. unfold faceSd. cbn [fst snd]. rewrite I1, suml_map. symmetry. apply (suml_F2 _ _ _ _ _ F2). intros q r Iq Ir [W1 [P1 S1]].
    destruct (side_fields e1 lf1 r (fun v => side1 (mf_face F) (local F v) q) K1 Q1 Ir) as [A1 A2].
    { intros w. rewrite (face_t1 F q g1 e1 w IF Iq Z1 E1 D1). unfold sh1. rewrite S1. reflexivity. }
    unfold sideSum. rewrite (side_term s u (kinds f) (sd e1 lf1 r)) by (rewrite <- F1 at 1; apply kside; assumption). rewrite A1.
    assert (T1 : trE s u (sd e1 lf1 r) = fieldAt side1 N x 0 F q /\ trH s u (sd e1 lf1 r) = fieldAt side1 N x 1 F q).
    { split; apply v3_eq; [exact (A2 0%Z 0%Z)|exact (A2 0%Z 1%Z)|exact (A2 0%Z 2%Z)|exact (A2 1%Z 0%Z)|exact (A2 1%Z 1%Z)|exact (A2 1%Z 2%Z)]. }
    destruct T1 as [-> ->]. cbn [sd_w sd_n sideOf]. rewrite (GZ e1 g1 K1 Z1), <- W1, <- P1, EA.
    rewrite outer_terms; [|intros Q; apply HIn, IK; exact Q|apply Hk0; exact Hf]. rewrite row_plus. unfold faceTerm, excessAt. cbv zeta. rewrite FK.
    replace (side2 (mf_face F) (local F v) q) with 0 by (unfold side2; rewrite EF2; reflexivity). rewrite EF2. ring.
Qed.

Lemma all_faces : forall v g d,
  suml (fun el => suml (sideSum v g d) (sidesEl fc t nf ref elems el)) (nd_lin s) =
  facesum fm (fun fi F q => faceTerm N alpha fm gb gi x v g d fi F q + excessAt N alpha x v g d (kinds (Z.of_nat fi)) F q).
Proof.
  intros v g d. rewrite <- suml_flat_map.
  rewrite (sides_keys inv fc dim t nf ref elems posLin posCur tfsf bdr global alpha conn maps m mnodes supp (nf_value _ _ _ _ _ _ supp HR) (re_shape _ _ _ _ _ HR)
    (lm_some _ _ _ _ _ _ HL) (lm_lin _ _ _ _ _ _ HL) (lm_cur _ _ _ _ _ _ HL) hst (om_order _ _ _ _ _ _ HM) SM s HB).
  rewrite (suml_perm _ _ _ (flat_map_perm _ _ _ (keys_perm fc t m mnodes (om_conf _ _ _ _ _ _ HM) (om_order _ _ _ _ _ _ HM)))).
  rewrite !suml_flat_map. rewrite facesum_seq. destruct HF as [LF _]. rewrite LF. unfold zseq. rewrite suml_map. apply suml_ext. intros fi Hi. apply in_seq in Hi.
  destruct (nth_error (fm_faces fm) fi) as [F|] eqn:EF; [|apply nth_error_None in EF; lia].
  rewrite (face_match (Z.of_nat fi) F v g d); [|unfold inF; lia|rewrite Nat2Z.id; exact EF]. rewrite Nat2Z.id. reflexivity.
Qed.

(** ** The whole operator *)
Variables (Mass D : Z -> mat).
Hypothesis HBM : forall g, (g = 0 \/ g = 1)%Z -> inBlocks n elems (ownMass fc t) (Mass g).
Hypothesis HBD : forall d, (0 <= d < dim)%Z -> inBlocks n elems (fun g => ge_D g (Z.to_nat d)) (D d).
Hypothesis Hx : length x = (6 * N)%nat.

Lemma el_form : forall B A v w, inBlocks n elems B A -> mform N A v w = suml (fun el => form el (B (elemOf elems el)) (onEl el (vz v)) (onEl el (vz w))) (nd_lin s).
Proof.
  intros B A v w HBl. etransitivity; [exact (blocks_form n elems B A v w HBl noEl)|].
  rewrite (nd_lin_at inv fc dim t nf ref elems posLin posCur tfsf bdr global alpha conn maps m mnodes supp (nf_value _ _ _ _ _ _ supp HR) (re_shape _ _ _ _ _ HR)
    (lm_some _ _ _ _ _ _ HL) (lm_lin _ _ _ _ _ _ HL) (lm_cur _ _ _ _ _ _ HL) hst SM s HB), suml_map, (sm_n _ _ _ _ _ _ _ SM).
  apply suml_ext. intros e He. apply in_zseq in He. destruct facts as [_ [_ [_ [_ [_ P]]]]]. destruct (P e He) as [_ [_ [Ei [Es _]]]].
  unfold form, onEl, elDof, elemOf. rewrite Ei, Es. reflexivity.
Qed.

Lemma comp_form : forall el M v y f d, In el (nd_lin s) -> form el M v (onEl el (vz (fld N y f d))) = form el M v (onEl el (comp6 (nd_N s) y (3 * f + d))).
Proof.
  intros el M v y f d Hel. apply form_ext. intros k Hk.
  rewrite (nd_lin_at inv fc dim t nf ref elems posLin posCur tfsf bdr global alpha conn maps m mnodes supp (nf_value _ _ _ _ _ _ supp HR) (re_shape _ _ _ _ _ HR)
    (lm_some _ _ _ _ _ _ HL) (lm_lin _ _ _ _ _ _ HL) (lm_cur _ _ _ _ _ _ HL) hst SM s HB) in Hel. apply in_map_iff in Hel as [e [<- He]]. apply in_zseq in He.
  destruct facts as [_ [_ [_ [_ [_ P]]]]]. destruct (P e He) as [_ [_ [Ei [Es _]]]].
  unfold onEl, elDof. rewrite Ei, Es. destruct (comp_fld y f d e k) as [Q|Q]; [exact Q|unfold inR in He; lia].
Qed.

Lemma nodal_weak : exists out, nodalMult s x = Ok out /\ length out = length x /\ forall v g d, (g = 0 \/ g = 1)%Z -> (0 <= d < 3)%Z ->
  mform N (Mass g) v (fld N out g d) =
  weakCurl N dim D x v g d + facesum fm (fun fi F q => faceTerm N alpha fm gb gi x v g d fi F q + excessAt N alpha x v g d (kinds (Z.of_nat fi)) F q).
Proof.
  assert (W : wfNodal s) by exact (run_wf inv fc dim t nf ref elems posLin posCur tfsf bdr global alpha conn maps attrs m mnodes bdrMk intMk tfsfMk supp HR HL HM SM HC Ha HG [] s HB).
  destruct (nodal_value s x W) as [out [Eo [Lo [V _]]]]; [rewrite nd_n, sizeN, Hx; lia|]. exists out. split; [exact Eo|]. split; [exact Lo|]. intros v g d Hg Hd.
  rewrite (el_form (ownMass fc t) (Mass g) v _ (HBM g Hg)), <- all_faces.
  assert (PD : forall k, (0 <= k < 3)%Z -> forall w, (if (k <? dim)%Z then mform N (D k) v w else 0) =
     suml (fun el => form el (weakD dim (elemOf elems el) (Z.to_nat k)) (onEl el (vz v)) (onEl el (vz w))) (nd_lin s)).
  { intros k Hk w. unfold weakD. rewrite Z2Nat.id by lia. destruct (Z.ltb_spec k dim) as [L|L].
    - apply (el_form (fun g => ge_D g (Z.to_nat k)) (D k) v w (HBD k ltac:(lia))).
    - symmetry. apply suml_none. intros el. unfold form. apply sumN_zero. intros i _. apply sumN_zero. intros j _. unfold mzero. ring. }
  assert (M1 : (0 <= (d + 1) mod 3 < 3)%Z) by (apply Z.mod_pos_bound; lia). assert (M2 : (0 <= (d + 2) mod 3 < 3)%Z) by (apply Z.mod_pos_bound; lia).
  unfold weakCurl. cbv zeta. rewrite (PD _ M1), (PD _ M2).
  set (sg := if (g =? 0)%Z then 1 else -1).
  assert (SP : forall a b c, sg * (suml a (nd_lin s) - suml b (nd_lin s)) + suml c (nd_lin s) = suml (fun el => sg * (a el - b el) + c el) (nd_lin s)).
  { intros a b c. apply suml_three. }
  rewrite SP. apply suml_ext. intros el Hel.
  destruct (simplex_element inv fc dim t nf ref elems posLin posCur tfsf bdr global alpha conn maps attrs m mnodes bdrMk intMk tfsfMk Hsim HR HL HM SM HC [] s HB el Hel) as [ge [Hz [_ [_ [Dz WD]]]]].
  assert (Eg : elemOf elems el = ge).
  { pose proof (zget_len _ _ _ Hz) as Hr. unfold elemOf. pose proof (zget_v elems (el_id el) (mkGE Triangle [] 0 0 [] (fun _ => mzero)) Hr) as Q. rewrite Hz in Q. injection Q as Q. symmetry. exact Q. }
  unfold sidesEl. rewrite Eg, !comp_form by exact Hel.
  rewrite (element_weak s u (ownMass fc t ge) el _ (comp6 (nd_N s) out) Dz (fun k Hk => V el k Hel Hk) (vz v) g d Hg Hd). fold sg.
  rewrite (WD (Z.to_nat ((d + 1) mod 3))), (WD (Z.to_nat ((d + 2) mod 3))) by lia. reflexivity.
Qed.

(** The two operators apart. *)
Variables (ob ib : list (cond * marker)) (MInv : Z -> mat) (MSigma : mat) (sm : marker).
Hypothesis HS : dgSpace N fm dim Mass MInv D.
Hypothesis HT : tables fm gb gi ob ib.
Hypothesis HV : forall i j, MSigma i j = 0.

Lemma difference : exists A out y, theOperator N fm dim alpha ob ib MInv D MSigma sm = Ok A /\ applies A N x y /\ nodalMult s x = Ok out /\ length out = length x /\
  forall v g d, (g = 0 \/ g = 1)%Z -> (0 <= d < 3)%Z ->
  mform N (Mass g) v (fld N out g d) = mform N (Mass g) v (fld N y g d) + facesum fm (fun fi F q => excessAt N alpha x v g d (kinds (Z.of_nat fi)) F q).
Proof.
  destruct nodal_weak as [out [Eo [Lo V]]]. destruct (weak N fm dim alpha gb gi ob ib Mass MInv D MSigma sm HS HT) as [A [EA H]]. destruct (H x Hx) as [y [Hy Q]].
  exists A, out, y. split; [exact EA|]. split; [exact Hy|]. split; [exact Eo|]. split; [exact Lo|]. intros v g d Hg Hd.
  rewrite V, Q, facesum_plus by assumption.
  assert (Z0 : mform N MSigma v (fld N x 0 d) = 0) by (unfold mform; apply sumN_zero; intros i _; apply sumN_zero; intros j _; rewrite HV; ring).
  rewrite Z0. destruct (g =? 0)%Z; ring.
Qed.

Hypothesis Hsym : forall i j, fc_mass fc t i j = fc_mass fc t j i.
Lemma mass_sym : forall g v w, (g = 0 \/ g = 1)%Z -> mform N (Mass g) v w = mform N (Mass g) w v.
Proof.
  intros g v w Hg. rewrite !(el_form (ownMass fc t) (Mass g) _ _ (HBM g Hg)). apply suml_ext. intros el _. unfold form. rewrite sumN_swap. apply sumN_ext. intros i _. apply sumN_ext. intros j _.
  unfold ownMass. rewrite Hsym. ring.
Qed.
Lemma mass_unit : forall g k w, (g = 0 \/ g = 1)%Z -> (k < N)%nat -> mform N (Mass g) (fun i => MInv g i k) w = w k.
Proof.
  intros g k w Hg Hk. rewrite mass_sym by exact Hg. destruct HS as [_ [_ [_ [_ [HI _]]]]]. unfold mform.
  rewrite (sumN_ext N _ (fun i => if (i =? k)%nat then w i else 0)).
  - rewrite sumN_delta by exact Hk. reflexivity.
  - intros i Hi. rewrite (sumN_ext N _ (fun j => w i * (Mass g i j * MInv g j k))) by (intros; ring). rewrite sumN_scal, HI by assumption. destruct (i =? k)%nat; ring.
Qed.

(** The same operator where there is nothing in excess. *)
Hypothesis HX : forall f, inF m f -> (kinds f = KSMA -> alpha = 1) /\ kinds f <> KiPEC /\ kinds f <> KiPMC /\ kinds f <> KiSMA.
Lemma same : exists A out y, theOperator N fm dim alpha ob ib MInv D MSigma sm = Ok A /\ applies A N x y /\ nodalMult s x = Ok out /\ out = y.
Proof.
  destruct difference as [A [out [y [EA [Hy [Eo [Lo Q]]]]]]]. exists A, out, y. split; [exact EA|]. split; [exact Hy|]. split; [exact Eo|]. destruct Hy as [Ly _].
  assert (Z0 : forall v g d, facesum fm (fun fi F q => excessAt N alpha x v g d (kinds (Z.of_nat fi)) F q) = 0).
  { intros v g d. rewrite facesum_seq. assert (T : forall l, (forall fi, In fi l -> (fi < length (fm_faces fm))%nat) -> suml (fun fi => match nth_error (fm_faces fm) fi with
       | Some F => suml (fun q => ds q * excessAt N alpha x v g d (kinds (Z.of_nat fi)) F q) (f_pts (mf_face F)) | None => 0 end) l = 0).
    { induction l as [|fi l IH]; intros Hl; [reflexivity|]. unfold suml in *. cbn [map fold_right]. rewrite IH by (intros; apply Hl; right; assumption).
      pose proof (Hl fi (or_introl eq_refl)) as Hi. destruct (nth_error (fm_faces fm) fi) as [F|]; [|ring].
      assert (Hf : inF m (Z.of_nat fi)) by (unfold inF; destruct HF as [LF _]; lia). destruct (HX _ Hf) as [X1 [X2 [X3 X4]]].
      assert (X : forall q, excessAt N alpha x v g d (kinds (Z.of_nat fi)) F q = 0).
      { intros q. unfold excessAt. destruct (kinds (Z.of_nat fi)); try congruence; cbn [excess]; [| | |rewrite (X1 eq_refl)];
        unfold rowOf, pick, zero3, fieldAt, normalAt; destruct (g =? 0)%Z; cbv [fst snd scalep crossp]; destruct (d =? 0)%Z, (d =? 1)%Z; field. }
      assert (S0 : suml (fun q => ds q * excessAt N alpha x v g d (kinds (Z.of_nat fi)) F q) (f_pts (mf_face F)) = 0) by (apply suml_none; intros q; rewrite X; ring).
      unfold suml in S0. rewrite S0. ring. }
    apply T. intros fi I. apply in_seq in I. lia. }
  assert (P : forall g d k, (g = 0 \/ g = 1)%Z -> (0 <= d < 3)%Z -> (k < N)%nat -> fld N out g d k = fld N y g d k).
  { intros g d k Hg Hd Hk. pose proof (Q (fun i => MInv g i k) g d Hg Hd) as E. rewrite Z0, !mass_unit in E by assumption. lra. }
  apply nth_ext with (d := 0) (d' := 0); [rewrite Lo, Ly; exact Hx|]. intros i Hi. rewrite Lo, Hx in Hi.
  assert (NP : (0 < N)%nat) by lia.
  set (c := (i / N)%nat). set (k := (i mod N)%nat).
  assert (Ek : (i = c * N + k)%nat) by (unfold c, k; pose proof (Nat.div_mod i N ltac:(lia)); lia).
  assert (Hk : (k < N)%nat) by (apply Nat.mod_upper_bound; lia). assert (Hc : (c < 6)%nat) by (apply Nat.div_lt_upper_bound; lia).
  pose proof (P (Z.of_nat (c / 3)) (Z.of_nat (c mod 3)) k) as PP. unfold fld in PP.
  assert (C3 : (c = 3 * (c / 3) + c mod 3)%nat) by (apply Nat.div_mod; lia). assert (M3 : (c mod 3 < 3)%nat) by (apply Nat.mod_upper_bound; lia).
  assert (D3 : (c / 3 < 2)%nat) by (apply Nat.div_lt_upper_bound; lia).
  replace (Z.to_nat ((3 * Z.of_nat (c / 3) + Z.of_nat (c mod 3)) * Z.of_nat N + Z.of_nat k)) with i in PP by nia.
  apply PP; [lia|lia|exact Hk].
Qed.
End Same.

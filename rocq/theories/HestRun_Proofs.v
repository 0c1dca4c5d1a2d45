(** The nodal operator from its construction to its energy. *)
From Coq Require Import ZArith List Bool Reals Lia Lra Sorted Permutation.
From Verif Require Import Common Geo_Spec Face_Model Face_Spec Face_Proofs Nodal_Model Nodal_Spec NodalEnergy_Spec Step_Model Setup_Model Conn_Model Conn_Spec.
From Verif Require Import Nodal_Proofs NodalMult_Proofs NodalEnergy_Proofs GlobalEnergy_Proofs ConnPos_Proofs ConnInt_Proofs ConnWf_Proofs Sub_Proofs InputWall_Proofs Hest_Model Hest_Spec Hest_Proofs HestElem_Proofs HestWeak_Proofs HestBuild_Proofs HestMesh_Proofs HestEnergy_Proofs HestKind_Proofs.
Import ListNotations.
Local Open Scope R_scope.

Lemma nf_value : forall inv fc dim t nf ref, supported t dim -> refElement inv fc t nf ref -> faceNodeNum fc dim t = Ok nf.
Proof.
  intros inv fc dim t nf ref Hs R. rewrite (re_nf _ _ _ _ _ R). unfold faceNodeNum, faceNodeCount.
  destruct Hs as [[-> ->]|[[-> ->]|[-> ->]]]; reflexivity.
Qed.
Lemma inv_value : forall inv fc t nf ref, refElement inv fc t nf ref -> isInverse (fc_n fc t) (scaledMass fc t (refDet t)) (inv (fc_n fc t) (scaledMass fc t (refDet t))).
Proof. intros inv fc t nf ref R. apply (re_inv _ _ _ _ _ R (refDet t)). destruct t; cbn [refDet]; lra. Qed.
Lemma simplex_supported : forall t dim, simplex t dim -> supported t dim /\ kappa t = 1.
Proof. intros t dim [[-> ->]|[-> ->]]; (split; [|reflexivity]); [left|right; right]; auto. Qed.

(** Building succeeds, or throws because an incident field touches a curved element. *)
Lemma build_outcome : forall inv fc dim t nf ref elems posLin posCur tfsf bdr global alpha conn maps src N,
  supported t dim -> refElement inv fc t nf ref -> localMesh fc dim t posLin posCur elems ->
  Forall (fun mk => Forall (fun b => (1 <= be_attr b <= Z.of_nat (length (snd mk)))%Z) bdr) tfsf ->
  exists lin cur, splitElements posLin posCur elems = Ok (lin, cur) /\
  (((exists s, buildNodal inv fc dim N elems posLin posCur tfsf bdr global alpha conn maps src = Ok s /\ map el_id (nd_lin s) = lin /\ map cu_dofs (nd_cur s) = map snd cur) /\
    forall mk b, In mk tfsf -> In b bdr -> ~ tfsfOnCurved (snd mk) cur b) \/
   (buildNodal inv fc dim N elems posLin posCur tfsf bdr global alpha conn maps src = Throw /\
    exists mk b, In mk tfsf /\ In b bdr /\ tfsfOnCurved (snd mk) cur b)).
Proof.
  intros inv fc dim t nf ref elems posLin posCur tfsf bdr global alpha conn maps src N Hs R [L1 L2 L3 L4 L5] Hb.
  destruct (build_value inv fc dim t nf ref elems posLin posCur tfsf bdr global alpha conn maps src N Hs (nf_value _ _ _ _ _ _ Hs R) (re_shape _ _ _ _ _ R) L1 L2 L3 L4 L5)
    as [lin [cur [E1 [Mi [L [_ [_ [_ [_ [els [F E]]]]]]]]]]].
  exists lin, cur. split; [exact E1|]. rewrite E.
  destruct (tfsf_check tfsf bdr cur Hb) as [[-> Q]|[-> Q]]; cbn [bind].
  - left. split; [|intros mk b I1 I2 T; apply (Q mk b I1 I2 T)]. eexists. split; [reflexivity|]. cbn [nd_lin nd_cur]. split.
    + clear - F. induction F as [|e el l l' [g [_ [_ P]]] F IH]; [reflexivity|]. cbn [map]. rewrite IH. f_equal. apply P.
    + rewrite map_map. reflexivity.
  - right. split; [reflexivity|exact Q].
Qed.

Section Run.
Variables (inv : nat -> mat -> mat) (fc : fecol) (dim : Z) (t : etype) (nf : nat) (ref : list (list nat)) (elems : list gelem)
  (posLin posCur : list vertex) (tfsf : list (cond * list Z)) (bdr : list bdrElem) (global : Z -> list (Z * R)) (alpha : R)
  (conn : list (Z * Z)) (maps : bdrMaps) (attrs : list Z)
  (m : cmesh) (mnodes : Z -> list (nat * nat)) (bdrMk intMk tfsfMk : list (cond * list Z)).
Hypothesis Hsup : supported t dim.
Hypothesis HR : refElement inv fc t nf ref.
Hypothesis HL : localMesh fc dim t posLin posCur elems.
Hypothesis HM : operatorMesh m (fc_n fc t) mnodes bdrMk intMk tfsfMk.
Hypothesis SM : sameMesh m mnodes fc t nf ref elems.
Hypothesis HC : connectivities m bdrMk intMk tfsfMk = Ok (conn, maps, attrs).

Lemma conn_global : isGlobal m (fc_n fc t) mnodes conn.
Proof.
  destruct HM as [M1 M2 M3 M4 M5 M6 M7 M8 M9].
  destruct (connectivities_right m _ mnodes bdrMk intMk tfsfMk M1 M2 M3 M4 M5 M6 M7 M8 M9) as [g [s [E [HG _]]]]. rewrite HC in E. injection E as <- <- _. exact HG.
Qed.

(** Every straight element of the operator is the Galerkin one, times [kappa]. *)
Lemma run_element : forall src s, buildNodal inv fc dim (cm_N m) elems posLin posCur tfsf bdr global alpha conn maps src = Ok s ->
  forall el, In el (nd_lin s) -> exists g, zget elems (el_id el) = Ok g /\ ~ curvedBy posLin posCur g /\ el_dofs el = ge_dofs g /\
    discretises s (fun i j => ownMass fc t g i j / kappa t) el (sidesOf fc t nf ref g el) /\
    forall d, (d < 3)%nat -> forall v u : Z -> R,
      form el (ownMass fc t g) (onEl el v) (diff el d u) = kappa t * form el (weakD dim g d) (onEl el v) (onEl el u).
Proof.
  intros src s HB el Hel. destruct HL as [L1 L2 L3 L4 L5]. pose proof (nf_value _ _ _ _ _ _ Hsup HR) as Hnf. pose proof (inv_value _ _ _ _ _ HR) as Hinv. pose proof (re_shape _ _ _ _ _ HR) as Hsh.
  destruct (build_value inv fc dim t nf ref elems posLin posCur tfsf bdr global alpha conn maps src (cm_N m) Hsup Hnf Hsh L1 L2 L3 L4 L5)
    as [lin [cur [E1 [Mi [L [Vm [Rl [Cl [Vl [els [F E]]]]]]]]]]].
  destruct (split_right posLin posCur elems L3 L4) as [lin' [cur' [E1' [_ [_ [Hl _]]]]]]. rewrite E1 in E1'. injection E1' as <- <-.
  rewrite HB in E. destruct (checkTFSF tfsf bdr cur); cbn [bind] in E; [|discriminate E|discriminate E]. injection E as Es.
  assert (He : In el els) by (rewrite Es in Hel; exact Hel).
  assert (exists e, In e lin /\ exists g, zget elems e = Ok g /\ straight fc dim t g /\ goodEl fc dim t nf Mi e g el) as [e [Ie [g [Hz [Hg P]]]]].
  { clear - F He. induction F as [|e el' l l' H F IH]; [destruct He|]. destruct He as [<-|He]; [exists e; split; [left; reflexivity|exact H]|].
    destruct (IH He) as [e' [I Q]]. exists e'. split; [right; exact I|exact Q]. }
  destruct P as [Pi [Pd [Ps [Pf [_ [_ [Pdir [_ [_ [Pn Pw]]]]]]]]]].
  assert (Eg : nd_global s = conn) by (rewrite Es; reflexivity).
  assert (Ei : inR (el_id el) (Z.of_nat (cm_ne m))) by (rewrite Pi, <- (sm_n _ _ _ _ _ _ _ SM); unfold inR; apply (zget_len _ _ _ Hz)).
  pose proof (conn_lists m mnodes fc t nf ref elems conn (om_conf _ _ _ _ _ _ HM) conn_global SM Hsh s el Eg Ps Pf Ei) as LF.
  exists g. rewrite Pi. split; [exact Hz|]. split; [destruct (proj1 (Hl e) Ie) as [g' [Hz' Hc]]; congruence|]. split; [exact Pd|]. split.
  - apply (element_discretises inv fc dim t nf ref Hsup Hsh Hinv Mi L g); try assumption. rewrite Es. reflexivity.
  - intros d Hd v u. rewrite (weak_derivative inv fc dim t nf ref Hsup Hsh Hinv Mi L g Vm Rl Cl Vl Hg el Ps Pf Pdir Pn Pw d v u Hd). unfold form. rewrite Ps. f_equal.
    apply sumN_ext. intros j _. apply sumN_ext. intros l _. unfold derivMatrix, weakD. cbn [e_at].
    destruct (Z.leb_spec dim (Z.of_nat d)), (Z.ltb_spec (Z.of_nat d) dim); try lia; reflexivity.
Qed.

Hypothesis Ha : alpha <> 0 \/ forall f, ~ carries m bdrMk SMA f.
Hypothesis HG : rowsIn (cm_N m) global.

Lemma run_wf : forall src s, buildNodal inv fc dim (cm_N m) elems posLin posCur tfsf bdr global alpha conn maps src = Ok s -> wfNodal s.
Proof.
  intros src s HB. destruct HL as [L1 L2 L3 L4 L5]. destruct HM as [M1 M2 M3 M4 M5 M6 M7 M8 M9].
  destruct (connectivities_usable m _ mnodes bdrMk intMk tfsfMk M1 M2 M3 M4 M5 M6 M7 M8 M9) as [g [mp [E [U1 U2]]]]. rewrite HC in E. injection E as <- <- _.
  apply (wf_built inv fc dim t nf ref elems posLin posCur tfsf bdr global alpha conn maps src m mnodes Hsup (nf_value _ _ _ _ _ _ Hsup HR) (re_shape _ _ _ _ _ HR) L1 L2 L3 L4 L5 M1 conn_global SM HG U1 U2); [|exact HB].
  destruct Ha as [A|A]; [left; exact A|]. right.
  destruct (connectivities_right m _ mnodes bdrMk intMk tfsfMk M1 M2 M3 M4 M5 M6 M7 M8 M9) as [g [mp [E [_ [_ [_ [[B1 B2] _]]]]]]]. rewrite HC in E. injection E as <- <- _.
  rewrite B2, B1. destruct (wanted m bdrMk SMA (trueB m)) as [|b bs] eqn:W; [reflexivity|]. exfalso.
  destruct (proj1 (wanted_iff m bdrMk SMA (trueB m) b)) as [I [mk [I2 [I3 I4]]]]; [rewrite W; left; reflexivity|].
  apply (A (bdrFace m b)). exists b, mk. split; [|auto]. apply filter_In in I as [I _]. apply in_zseq in I. exact I.
Qed.

(** At the nodes of curved elements the operator is the global one. *)
Lemma run_curved : forall src s, buildNodal inv fc dim (cm_N m) elems posLin posCur tfsf bdr global alpha conn maps src = Ok s ->
  forall x, length x = Z.to_nat (6 * cm_N m) -> exists out, nodalMult s x = Ok out /\ length out = length x /\
    forall e g d c, zget elems e = Ok g -> curvedBy posLin posCur g -> In d (ge_dofs g) -> inR c 6 ->
      comp6 (cm_N m) out c d = globalRow global x (c * cm_N m + d).
Proof.
  intros src s HB x Hx. pose proof (run_wf src s HB) as W.
  destruct HL as [L1 L2 L3 L4 L5]. pose proof (nf_value _ _ _ _ _ _ Hsup HR) as Hnf. pose proof (re_shape _ _ _ _ _ HR) as Hsh.
  destruct (built_facts inv fc dim t nf ref elems posLin posCur tfsf bdr global alpha conn maps src m Hsup Hnf Hsh L1 L2 L3 L4 L5 s HB) as [lin [cur [Mi [L [E1 [_ [_ [_ [_ Es]]]]]]]]].
  destruct (split_right posLin posCur elems L3 L4) as [lin' [cur' [E1' [_ [_ [_ Hc]]]]]]. rewrite E1 in E1'. injection E1' as <- <-.
  assert (HN : nd_N s = cm_N m) by (rewrite Es; reflexivity).
  destruct (nodal_value s x W) as [out [Eo [Lo [_ [V _]]]]]; [rewrite HN; exact Hx|]. exists out. split; [exact Eo|]. split; [exact Lo|].
  intros e g d c Hz Hcu Id Hc6.
  assert (I : In (d + c * cm_N m, global (d + c * cm_N m))%Z (curRows s)).
  { unfold curRows. apply in_flat_map. exists (curvedElement (cm_N m) global (ge_dofs g)). split.
    - rewrite Es. cbn [nd_cur]. apply in_map_iff. exists (e, ge_dofs g). split; [reflexivity|]. apply Hc. exists g. auto.
    - rewrite (rows_of global m). apply in_flat_map. exists d. split; [exact Id|]. apply in_map_iff. exists c. split; [reflexivity|]. unfold inR in Hc6. cbn [comps6 In]. lia. }
  pose proof (V _ I) as Q. cbn [fst snd] in Q. unfold comp6, globalRow. rewrite (Z.add_comm (c * cm_N m) d). exact Q.
Qed.

(** ** Energy *)
Hypothesis Hcl : closedBox m bdrMk intMk tfsfMk.
Hypothesis Hall : Forall (fun g => ~ curvedBy posLin posCur g) elems.
Hypothesis FM : facesMatch m mnodes fc t elems.
Hypothesis Hq : forall F q, In F (fc_faces fc t) -> In q (f_pts F) -> 0 <= q_w q.
Hypothesis Ha0 : 0 <= alpha.
Hypothesis HaS : (exists f, carries m bdrMk SMA f) -> / 2 <= alpha.

Lemma run_domain : forall s, buildNodal inv fc dim (cm_N m) elems posLin posCur tfsf bdr global alpha conn maps [] = Ok s ->
  exists sides fps, discretised s (fun el i j => massOf fc t elems el i j / kappa t) sides fps /\ nd_alpha s = alpha /\ nd_N s = cm_N m /\
    Forall (fun f => 0 <= faceWeight f /\ passiveFace s f) fps /\
    Forall (fun f => match f with Inner _ _ => True | Outer KSMA _ => exists f, carries m bdrMk SMA f | Outer _ _ => True end) fps.
Proof.
  intros s HB. destruct HL as [L1 L2 L3 L4 L5]. destruct HM as [M1 M2 M3 M4 M5 M6 M7 M8 M9].
  pose proof (nf_value _ _ _ _ _ _ Hsup HR) as Hnf. pose proof (inv_value _ _ _ _ _ HR) as Hinv. pose proof (re_shape _ _ _ _ _ HR) as Hsh.
  destruct (connectivities_right m _ mnodes bdrMk intMk tfsfMk M1 M2 M3 M4 M5 M6 M7 M8 M9) as [g [mp [E [_ [B1 [B2 [B3 [J1 [J2 [J3 _]]]]]]]]]]. rewrite HC in E. injection E as <- <- _.
  pose proof (box_kinds m _ mnodes _ nf bdrMk intMk tfsfMk conn maps M1 M2 conn_global (sm_uni _ _ _ _ _ _ _ SM) M3 Hcl B1 B2 B3 J1 J2 J3) as OK.
  assert (Hst : Forall (fun g => ~ curvedBy posLin posCur g /\ straight fc dim t g) elems).
  { rewrite Forall_forall in Hall |- *. intros g I. split; [apply Hall; exact I|apply L5; [exact I|apply Hall; exact I]]. }
  destruct (built_facts inv fc dim t nf ref elems posLin posCur tfsf bdr global alpha conn maps [] m Hsup Hnf Hsh L1 L2 L3 L4 L5 s HB) as [lin [cur [Mi [L [_ [_ [_ [_ [_ Es]]]]]]]]].
  assert (EA : nd_alpha s = alpha) by (rewrite Es; reflexivity). assert (EN : nd_N s = cm_N m) by (rewrite Es; reflexivity).
  destruct (built_domain inv fc dim t nf ref elems posLin posCur tfsf bdr global alpha conn maps m mnodes (kindsOf m bdrMk) Hsup Hnf Hsh Hinv L1 L3 L4 Hst M1 M2 conn_global SM FM OK s HB)
    as [fps [D [K Wt]]].
  exists (sidesEl fc t nf ref elems), fps. split; [exact D|]. split; [exact EA|]. split; [exact EN|].
  assert (KK : forall f, In f fps -> match f with Inner _ _ => True | Outer KPEC _ => True | Outer KPMC _ => True | Outer KSMA _ => exists f, carries m bdrMk SMA f | Outer _ _ => False end).
  { intros f If. rewrite Forall_forall in K. destruct (K f If) as [f0 [F0 Q]]. destruct f as [a b|k a]; [exact I|]. destruct Q as [-> Q].
    unfold kindsOf in *. destruct (0 <=? cf_e2 (faceAt m f0))%Z; [congruence|]. destruct (carriesB m bdrMk SMA f0) eqn:C1; [exists f0; apply carries_iff; exact C1|].
    destruct (carriesB m bdrMk PMC f0); [exact I|]. destruct (carriesB m bdrMk PEC f0); [exact I|congruence]. }
  split; apply Forall_forall; intros f If; specialize (KK f If).
  - split.
    + destruct (Wt f If) as [e [lf [q [He [Hlf [Iq ->]]]]]]. apply Rmult_le_pos.
      * apply (Hq (faceN fc t lf)); [apply nth_In; exact Hlf|exact Iq].
      * unfold inR in He. assert (Ig : In (gAt elems e) elems) by (apply nth_In; rewrite (sm_n _ _ _ _ _ _ _ SM); lia).
        rewrite Forall_forall in Hst. destruct (Hst _ Ig) as [_ Hg]. pose proof (st_geo _ _ _ _ Hg) as GG. rewrite Forall_forall in GG.
        left. apply GG. apply nth_In. rewrite (st_faces _ _ _ _ Hg). exact Hlf.
    + destruct f as [a b|k a]; [exact I|]. destruct k; cbn [passiveFace]; try exact KK; try exact I. rewrite EA. apply HaS. exact KK.
  - destruct f as [a b|k a]; [exact I|]. destruct k; try exact I. exact KK.
Qed.

Lemma form_div : forall el M k v y, form el (fun i j => M i j / k) v y = form el M v y / k.
Proof. intros el M k v y. unfold form, Rdiv. rewrite <- sumN_scal_r. apply sumN_ext. intros j _. rewrite <- sumN_scal_r. apply sumN_ext. intros; ring. Qed.
Lemma suml2_div : forall s mass k (u o : Z -> Z -> R),
  suml (fun el => suml (fun c => form el (fun i j => mass el i j / k) (onEl el (u c)) (onEl el (o c))) [0; 1; 2; 3; 4; 5]%Z) (nd_lin s) =
  / k * suml (fun el => suml (fun c => form el (mass el) (onEl el (u c)) (onEl el (o c))) [0; 1; 2; 3; 4; 5]%Z) (nd_lin s).
Proof.
  intros s mass k u o. rewrite <- suml_scal. apply suml_ext. intros el _. rewrite <- suml_scal. apply suml_ext. intros c _. rewrite form_div. unfold Rdiv. ring.
Qed.
Lemma kappa_pos : 0 < kappa t. Proof. destruct t; cbn [kappa]; lra. Qed.

Lemma run_energy : forall s, buildNodal inv fc dim (cm_N m) elems posLin posCur tfsf bdr global alpha conn maps [] = Ok s ->
  forall x, length x = Z.to_nat (6 * cm_N m) -> exists out, nodalMult s x = Ok out /\ length out = length x /\
    energyRate s (massOf fc t elems) (comp6 (cm_N m) x) (comp6 (cm_N m) out) <= 0.
Proof.
  intros s HB x Hx. pose proof (run_wf [] s HB) as W. destruct (run_domain s HB) as [sides [fps [D [EA [EN [P _]]]]]].
  destruct (nodal_value s x W) as [out [Eo [Lo _]]]; [rewrite EN; exact Hx|]. exists out. split; [exact Eo|]. split; [exact Lo|].
  pose proof (energy_never_grows s _ sides fps x out W ltac:(rewrite EN; exact Hx) Eo D ltac:(rewrite EA; exact Ha0) P) as Q.
  rewrite EN in Q. unfold energyRate in *. rewrite suml2_div in Q. pose proof (Rinv_0_lt_compat _ kappa_pos). nra.
Qed.

Lemma run_decay : (forall i j, fc_mass fc t i j = fc_mass fc t j i) ->
  forall s, buildNodal inv fc dim (cm_N m) elems posLin posCur tfsf bdr global alpha conn maps [] = Ok s ->
  forall x, solves s x -> forall t1 t2, t1 <= t2 ->
    energyOf s (massOf fc t elems) (comp6 (cm_N m) (x t2)) <= energyOf s (massOf fc t elems) (comp6 (cm_N m) (x t1)).
Proof.
  intros Hsym s HB x Hs t1 t2 Ht. pose proof (run_wf [] s HB) as W. destruct (run_domain s HB) as [sides [fps [D [EA [EN [P _]]]]]].
  assert (Sy : forall el j k, massOf fc t elems el j k / kappa t = massOf fc t elems el k j / kappa t) by (intros; unfold massOf, ownMass; rewrite Hsym; reflexivity).
  pose proof (energy_decays s (fun el i j => massOf fc t elems el i j / kappa t) sides fps x W Hs Sy D ltac:(rewrite EA; exact Ha0) P t1 t2 Ht) as Q.
  rewrite EN in Q. unfold energyOf in *. rewrite !suml2_div in Q. pose proof (Rinv_0_lt_compat _ kappa_pos). nra.
Qed.

(** Centred flux and no absorbing face: the energy does not change. *)
Lemma run_conserved : alpha = 0 -> (forall f, ~ carries m bdrMk SMA f) ->
  forall s, buildNodal inv fc dim (cm_N m) elems posLin posCur tfsf bdr global alpha conn maps [] = Ok s ->
  forall x out, length x = Z.to_nat (6 * cm_N m) -> nodalMult s x = Ok out ->
    energyRate s (massOf fc t elems) (comp6 (cm_N m) x) (comp6 (cm_N m) out) = 0.
Proof.
  intros A0 NS s HB x out Hx Eo. pose proof (run_wf [] s HB) as W. destruct (run_domain s HB) as [sides [fps [D [EA [EN [P P2]]]]]].
  assert (Q : energyRate s (fun el i j => massOf fc t elems el i j / kappa t) (comp6 (nd_N s) x) (comp6 (nd_N s) out) = 0).
  { apply (energy_conserved s _ sides fps x out W); [rewrite EN; exact Hx|exact Eo|exact D|rewrite EA; exact A0|].
    rewrite Forall_forall in P, P2 |- *. intros f If. destruct (P f If) as [_ Q]. specialize (P2 f If). destruct f as [a b|k a]; [exact I|].
    destruct k; cbn [passiveFace] in Q; try exact I; try exact Q. destruct P2 as [f0 C]. exact (NS f0 C). }
  rewrite EN in Q. unfold energyRate in *. rewrite suml2_div in Q. pose proof (Rinv_0_lt_compat _ kappa_pos). nra.
Qed.
End Run.

Lemma discretises_scale : forall s M k el sds, k <> 0 -> discretises s (fun i j => M i j / k) el sds ->
  (forall a, In a sds -> sd_el a = el /\ sq (sd_n a) = 1 /\ forall i, (i < elFlux el)%nat -> sd_phi a i <> 0 -> elNormal el i = sd_n a) /\
  (forall d, (d < 3)%nat -> forall v u : Z -> R,
     form el M (onEl el v) (diff el d u) + form el M (onEl el u) (diff el d v) =
     k * suml (fun a => sd_w a * pick (sd_n a) (Z.of_nat d) * trace s a v * trace s a u) sds) /\
  (forall (v : Z -> R) (g : nat -> R),
     form el M (onEl el v) (lift1 s el g) = k * suml (fun a => sd_w a * / 2 * trace s a v * interp a g) sds).
Proof.
  intros s M k el sds Hk [A [B C]]. split; [exact A|]. split.
  - intros d Hd v u. rewrite <- (B d Hd v u), !form_div. field. exact Hk.
  - intros v g. rewrite <- (C v g), form_div. field. exact Hk.
Qed.

(** Triangles and tetrahedra. *)
Lemma simplex_element : forall inv fc dim t nf ref elems posLin posCur tfsf bdr global alpha conn maps attrs m nodes bdrMk intMk tfsfMk,
  simplex t dim -> refElement inv fc t nf ref -> localMesh fc dim t posLin posCur elems -> operatorMesh m (fc_n fc t) nodes bdrMk intMk tfsfMk ->
  sameMesh m nodes fc t nf ref elems -> connectivities m bdrMk intMk tfsfMk = Ok (conn, maps, attrs) ->
  forall src s, buildNodal inv fc dim (cm_N m) elems posLin posCur tfsf bdr global alpha conn maps src = Ok s ->
  forall el, In el (nd_lin s) -> exists g, zget elems (el_id el) = Ok g /\ ~ curvedBy posLin posCur g /\ el_dofs el = ge_dofs g /\
    discretises s (ownMass fc t g) el (sidesOf fc t nf ref g el) /\
    forall d, (d < 3)%nat -> forall v u : Z -> R,
      form el (ownMass fc t g) (onEl el v) (diff el d u) = form el (weakD dim g d) (onEl el v) (onEl el u).
Proof.
  intros inv fc dim t nf ref elems posLin posCur tfsf bdr global alpha conn maps attrs m nodes bdrMk intMk tfsfMk Hs HR HL HM SM HC src s HB el Hel.
  destruct (simplex_supported t dim Hs) as [Hsup K].
  destruct (run_element inv fc dim t nf ref elems posLin posCur tfsf bdr global alpha conn maps attrs m nodes bdrMk intMk tfsfMk Hsup HR HL HM SM HC src s HB el Hel) as [g [Hz [Hc [Hd [D W]]]]].
  exists g. split; [exact Hz|]. split; [exact Hc|]. split; [exact Hd|]. rewrite K in D, W. split.
  - destruct (discretises_scale s _ 1 el _ R1_neq_R0 D) as [A [B C]]. split; [exact A|]. split; [intros d Hd' v u; rewrite B by exact Hd'; ring|intros v h; rewrite C; ring].
  - intros d Hd' v u. rewrite W by exact Hd'. ring.
Qed.
(** Quadrilaterals: every derivative and every face term four times too large. *)
Lemma quad_element : forall inv fc nf ref elems posLin posCur tfsf bdr global alpha conn maps attrs m nodes bdrMk intMk tfsfMk,
  refElement inv fc Quadrilateral nf ref -> localMesh fc 2 Quadrilateral posLin posCur elems -> operatorMesh m (fc_n fc Quadrilateral) nodes bdrMk intMk tfsfMk ->
  sameMesh m nodes fc Quadrilateral nf ref elems -> connectivities m bdrMk intMk tfsfMk = Ok (conn, maps, attrs) ->
  forall src s, buildNodal inv fc 2 (cm_N m) elems posLin posCur tfsf bdr global alpha conn maps src = Ok s ->
  forall el, In el (nd_lin s) -> exists g, zget elems (el_id el) = Ok g /\
    (forall d, (d < 3)%nat -> forall v u : Z -> R,
      form el (ownMass fc Quadrilateral g) (onEl el v) (diff el d u) = 4 * form el (weakD 2 g d) (onEl el v) (onEl el u)) /\
    (forall (v : Z -> R) (h : nat -> R),
      form el (ownMass fc Quadrilateral g) (onEl el v) (lift1 s el h) =
      4 * suml (fun a => sd_w a * / 2 * trace s a v * interp a h) (sidesOf fc Quadrilateral nf ref g el)).
Proof.
  intros inv fc nf ref elems posLin posCur tfsf bdr global alpha conn maps attrs m nodes bdrMk intMk tfsfMk HR HL HM SM HC src s HB el Hel.
  assert (Hsup : supported Quadrilateral 2) by (right; left; auto).
  destruct (run_element inv fc 2 Quadrilateral nf ref elems posLin posCur tfsf bdr global alpha conn maps attrs m nodes bdrMk intMk tfsfMk Hsup HR HL HM SM HC src s HB el Hel) as [g [Hz [_ [_ [D W]]]]].
  exists g. split; [exact Hz|]. cbn [kappa] in D, W. split; [exact W|]. apply (discretises_scale s _ 4 el _); [lra|exact D].
Qed.

(** A mesh of straight elements with walls all around, without sources. *)
Lemma no_sma : forall m mk alpha, ((exists f, carries m mk SMA f) -> / 2 <= alpha) -> alpha <> 0 \/ forall f, ~ carries m mk SMA f.
Proof. intros m mk alpha H. destruct (Req_dec alpha 0) as [Q|Q]; [right; intros f C; assert (/ 2 <= alpha) by (apply H; exists f; exact C); lra|left; exact Q]. Qed.
Lemma cavity_energy : forall inv fc dim t nf ref elems posLin posCur tfsf bdr global alpha conn maps attrs m nodes bdrMk intMk tfsfMk,
  supported t dim -> refElement inv fc t nf ref -> localMesh fc dim t posLin posCur elems -> operatorMesh m (fc_n fc t) nodes bdrMk intMk tfsfMk ->
  sameMesh m nodes fc t nf ref elems -> connectivities m bdrMk intMk tfsfMk = Ok (conn, maps, attrs) -> rowsIn (cm_N m) global ->
  closedBox m bdrMk intMk tfsfMk -> Forall (fun g => ~ curvedBy posLin posCur g) elems -> facesMatch m nodes fc t elems ->
  (forall F q, In F (fc_faces fc t) -> In q (f_pts F) -> 0 <= q_w q) -> 0 <= alpha -> ((exists f, carries m bdrMk SMA f) -> / 2 <= alpha) ->
  forall s, buildNodal inv fc dim (cm_N m) elems posLin posCur tfsf bdr global alpha conn maps [] = Ok s ->
  (forall x, length x = Z.to_nat (6 * cm_N m) -> exists out, nodalMult s x = Ok out /\ length out = length x /\
    energyRate s (massOf fc t elems) (comp6 (cm_N m) x) (comp6 (cm_N m) out) <= 0 /\
    (alpha = 0 -> energyRate s (massOf fc t elems) (comp6 (cm_N m) x) (comp6 (cm_N m) out) = 0)) /\
  ((forall i j, fc_mass fc t i j = fc_mass fc t j i) -> forall x, solves s x -> forall t1 t2, t1 <= t2 ->
    energyOf s (massOf fc t elems) (comp6 (cm_N m) (x t2)) <= energyOf s (massOf fc t elems) (comp6 (cm_N m) (x t1))).
Proof.
  intros inv fc dim t nf ref elems posLin posCur tfsf bdr global alpha conn maps attrs m nodes bdrMk intMk tfsfMk Hs HR HL HM SM HC HG Hcl Hall FM Hq Ha0 HaS s HB.
  pose proof (no_sma _ _ _ HaS) as Ha. split.
  - intros x Hx. destruct (run_energy inv fc dim t nf ref elems posLin posCur tfsf bdr global alpha conn maps attrs m nodes bdrMk intMk tfsfMk Hs HR HL HM SM HC Ha HG Hcl Hall FM Hq Ha0 HaS s HB x Hx) as [out [E [L Q]]].
    exists out. split; [exact E|]. split; [exact L|]. split; [exact Q|]. intros A0.
    apply (run_conserved inv fc dim t nf ref elems posLin posCur tfsf bdr global alpha conn maps attrs m nodes bdrMk intMk tfsfMk Hs HR HL HM SM HC Ha HG Hcl Hall FM Hq HaS A0); try assumption.
    intros f C. assert (/ 2 <= alpha) by (apply HaS; exists f; exact C). lra.
  - intros Hsym x Hx t1 t2 Ht.
    apply (run_decay inv fc dim t nf ref elems posLin posCur tfsf bdr global alpha conn maps attrs m nodes bdrMk intMk tfsfMk Hs HR HL HM SM HC Ha HG Hcl Hall FM Hq Ha0 HaS Hsym s HB x Hx t1 t2 Ht).
Qed.

(** The layers can be attached, and fit the operator that evolves them. *)
From Coq Require Import ZArith List Bool Reals Lra Lia ZifyBool Sorting.Sorted Sorting.Permutation.
From Verif Require Import Common Evol_Model Evol_Spec EvolLayer_Spec Setup_Model Setup_Spec Geo_Model Geo_Spec Geo_Proofs GeoWall_Proofs GeoEx_Proofs Input_Model Input_Proofs InputWall_Proofs Wall_Model Wall_Spec WallBuild_Proofs Conn_Model Conn_Proofs Sub_Model Sub_Spec Sub_Proofs SubGeo_Proofs Attach_Model Attach_Spec Attach_Proofs AttachSite_Proofs AttachAll_Proofs.
Import ListNotations.
Open Scope Z_scope.

Lemma mapM_good : forall m dofs ndofs nodes quad d2e size t rs, dofToElem dofs ndofs = Ok d2e -> Forall (fun r => exists be, In be (withTag m t) /\ rawGood m dofs ndofs nodes quad be r) rs ->
  exists ss, mapM (newState d2e size) rs = Ok ss /\ Forall (fun s => exists be, sits m dofs nodes quad be s) ss.
Proof.
  intros m dofs ndofs nodes quad d2e size t rs Ed F. induction F as [|r rs (be & _ & G) F IH]; [exists []; split; [reflexivity|constructor]|].
  destruct IH as (ss & Es & Fs). destruct (G d2e size Ed) as (s & E & St & _). exists (s :: ss). cbn [mapM]. rewrite E. cbn [bind]. rewrite Es. split; [reflexivity|].
  constructor; [exists be; exact St|exact Fs].
Qed.
Lemma holds_get : forall dofs e d, holds dofs e d -> exists l, zget dofs e = Ok l.
Proof. intros dofs e d (l & E & _). exists l. exact E. Qed.
Lemma sits_elems : forall m dofs nodes quad be s, sits m dofs nodes quad be s -> (exists l, zget dofs (as_e1 s) = Ok l) /\ (as_e2 s <> -1 -> exists l, zget dofs (as_e2 s) = Ok l).
Proof.
  intros m dofs nodes quad be s St. destruct St as [f e1 e2 x n B P A1 A2 H1 H2 _ _ _|f e1 e2 x n B P A1 A2 H1 H2 _ _ _|f e1 e2 x n B A1 A2 Gr H1 _ _ _]; subst.
  - split; [exact (holds_get _ _ _ H1)|intros _; exact (holds_get _ _ _ H2)].
  - split; [exact (holds_get _ _ _ H1)|intros _; exact (holds_get _ _ _ H2)].
  - split; [exact (holds_get _ _ _ H1)|intros N; contradiction].
Qed.
Lemma collect_ok : forall dofs els, (forall e, In e els -> exists l, zget dofs e = Ok l) -> exists ds, collectDofs dofs els = Ok ds.
Proof. intros dofs els H. unfold collectDofs. destruct (mapM_ok (zget dofs) els H) as (ls & E). rewrite E. eexists. reflexivity. Qed.

Definition buildable (p : sprops) : Prop := forall k, exists w msg, buildWall k p = Ok (w, msg, true).
Lemma tag_ok : forall m dofs ndofs nodes quad d2e sb t rs c, dofToElem dofs ndofs = Ok d2e -> Forall buildable sb ->
  Forall (fun r => exists be, In be (withTag m t) /\ rawGood m dofs ndofs nodes quad be r) rs -> exists ss w c', attachTag d2e sb t rs c = Ok (ss, w, c').
Proof.
  intros m dofs ndofs nodes quad d2e sb t rs c Ed B F. unfold attachTag.
  assert (G : forall L, Forall buildable L -> forall st : list astate * option wall * bool, exists st', foldM (fun st p => ' (w, _, c) <- buildWall (snd st) p ;; ss <- mapM (newState d2e (stateSize w)) rs ;; Ok (fst (fst st) ++ ss, Some w, c)) L st = Ok st').
  { intros L H. induction H as [|p L Hp H IH]; intros st; [exists st; reflexivity|]. cbn [foldM]. destruct (Hp (snd st)) as (w & msg & Ew). rewrite Ew. cbn [bind].
    destruct (mapM_good _ _ _ _ _ d2e (stateSize w) t rs Ed F) as (ss & Es & _). rewrite Es. cbn [bind]. apply IH. }
  destruct (G (listing sb t)) with (st := (@nil astate, @None wall, c)) as ([[ss w] c'] & E).
  - apply Forall_forall. intros p I. apply listing_in in I as [I _]. rewrite Forall_forall in B. exact (B p I).
  - exists ss, w, c'. exact E.
Qed.
Section Total.
Variables (m : mesh) (order : Z) (mkI mkB : list Z) (dofs : list (list Z)) (ndofs : nat) (facePairs : Z -> res (list (Z * Z))) (faceNodes : Z -> res (list Z))
  (nodes : Z -> list point) (quad : Z -> list (point * list R)).
Hypothesis T : tableOk dofs ndofs.
Hypothesis Sok : sitesOk m mkI mkB dofs facePairs faceNodes nodes quad.

Lemma attach_total : forall sb checked, Forall buildable sb ->
  exists ats l1 l2, attach m order mkI mkB dofs ndofs facePairs faceNodes nodes quad sb checked = Ok (ats, l1, l2).
Proof.
  intros sb checked B. destruct (raw_all m order mkI mkB dofs ndofs facePairs faceNodes nodes quad T Sok) as (rp & F & Er & G & HF & He).
  destruct (dofToElem_spec _ _ T) as (d2e & Ed & _). unfold attach. rewrite Er. cbn [bind]. rewrite Ed. cbn [bind].
  assert (GR : Forall (fun tr : Z * list raw => Forall (fun r => exists be, In be (withTag m (fst tr)) /\ rawGood m dofs ndofs nodes quad be r) (snd tr)) rp).
  { apply Forall_forall. intros [t rs] I. cbn [fst snd]. rewrite <- (entry_in _ _ _ (proj1 G) I), He. exact (good_all m mkI mkB dofs ndofs facePairs faceNodes nodes quad F t HF). }
  assert (A : exists a c, attachAll d2e sb checked rp = Ok (a, c)).
  { unfold attachAll. match goal with |- exists a c, foldM ?f _ _ = _ => enough (Q : forall q, Forall (fun tr : Z * list raw => Forall (fun r => exists be, In be (withTag m (fst tr)) /\ rawGood m dofs ndofs nodes quad be r) (snd tr)) q ->
      forall k acc, exists a c, foldM f q (acc, k) = Ok (a, c)) by exact (Q rp GR checked []) end. clear GR. intros q GR. induction GR as [|[t rs] q Hq GR IH]; intros k acc; [exists acc, k; reflexivity|].
    cbn [foldM fst snd]. destruct (tag_ok m dofs ndofs nodes quad d2e sb t rs k Ed B Hq) as (ss & w & c' & E). rewrite E. cbn [bind]. destruct w; cbn [bind]; apply IH. }
  destruct A as (a & c & Ea). rewrite Ea. cbn [bind].
  assert (St : forall s, In s (flat_map at_states a) -> exists be, sits m dofs nodes quad be s).
  { intros s I. apply in_flat_map in I as (g & Ig & Is). assert (FA := attachAll_inv _ _ _ _ _ _ Ea). destruct (F2_in_r _ _ _ _ FA Ig) as ([t rs] & It & Et & ws & sss & Hw & Hs & Es & _).
    rewrite Es in Is. apply in_concat in Is as (ss & I & Is). destruct (F2_in_r _ _ _ _ Hs I) as (w & _ & Em). cbn [snd] in Em.
    apply filter_In in It as [It _]. rewrite Forall_forall in GR. specialize (GR _ It). cbn [fst snd] in GR. destruct (mapM_good _ _ _ _ _ d2e (stateSize w) t rs Ed GR) as (ss' & Es' & Fs).
    rewrite Em in Es'. injection Es' as <-. rewrite Forall_forall in Fs. exact (Fs _ Is). }
  destruct (collect_ok dofs (nodup Z.eq_dec (map as_e1 (flat_map at_states a)))) as (l1 & H1).
  { intros e I. rewrite nodup_In, in_map_iff in I. destruct I as (s & <- & Is). destruct (St s Is) as (be & Q). exact (proj1 (sits_elems _ _ _ _ _ _ Q)). }
  destruct (collect_ok dofs (nodup Z.eq_dec (filter (fun e => negb (e =? -1)) (map as_e2 (flat_map at_states a))))) as (l2 & H2).
  { intros e I. rewrite nodup_In, filter_In, in_map_iff in I. destruct I as [(s & <- & Is) Ne]. destruct (St s Is) as (be & Q). apply (proj2 (sits_elems _ _ _ _ _ _ Q)). lia. }
  exists a, l1, l2. unfold elem1Dofs, elem2Dofs. rewrite H1. cbn [bind]. rewrite H2. reflexivity.
Qed.
End Total.

(** * The sizes *)
Lemma field_size : forall p w, isWall p w -> Forall layerOk (sp_layers p) ->
  let ls := map sl_layer (sp_layers p) in
  fieldSize w = ((2 * ghosts ls + sumSegs (shape ls)) * (maxOrder ls + 1))%nat /\ wl_props w = p.
Proof.
  intros p w (k & msg & c & E) F ls. apply new_inv in E as (Ep & _ & Ea & _ & Eo & _). split; [|exact Ep]. unfold fieldSize. rewrite Eo. cbn [so_order buildSGBCSolverOptions setODEType setUpwindAlpha setOrder].
  assert (P := layers_positive _ F). destruct (wall_elements (mkMat 1 1 0) (map sl_layer (sp_layers p)) (ghosts (map sl_layer (sp_layers p))) P) as (attrs & Ea' & L & _).
  rewrite Ea in Ea'. injection Ea' as <-. rewrite (vertices_length _ _ P) in L. fold ls in L |- *.
  replace (List.length (wl_attrs w)) with (2 * ghosts ls + sumSegs (shape ls))%nat by lia. f_equal. f_equal.
  unfold buildSGBCSolverOptions, setODEType, setUpwindAlpha, setOrder; cbn [so_order]. apply Nat2Z.id.
Qed.
Lemma segs_some : forall Ls, Ls <> [] -> Forall layerOk Ls -> (0 < sumSegs (shape (map sl_layer Ls)))%nat.
Proof. intros [|L r] N F; [destruct (N eq_refl)|]. inversion F as [|? ? H]; subst. destruct H as [_ S _ _ _]. unfold shape. cbn [map sumSegs]. lia. Qed.
Lemma wrapper_roomy : forall A ode p w, isWall p w -> sp_layers p <> [] -> Forall layerOk (sp_layers p) -> roomy (wrapperOf A ode w).
Proof.
  intros A ode p w W N F. destruct (field_size p w W F) as [Sz Ep]. assert (S0 := segs_some _ N F). unfold roomy, wrapperOf. cbn [w_gh w_n]. rewrite Ep, Sz. unfold leftInterface.
  set (ls := map sl_layer (sp_layers p)) in *. nia.
Qed.
Lemma frame_ortho : forall s, framed s -> orthonormal (s_rot (as_state s)).
Proof. intros s [L F]. exact (frame_orthonormal _ L F). Qed.

(** * The operator made of the groups *)
Section Fit.
Variables (m : mesh) (order : Z) (mkI mkB : list Z) (dofs : list (list Z)) (ndofs : nat) (facePairs : Z -> res (list (Z * Z))) (faceNodes : Z -> res (list Z))
  (nodes : Z -> list point) (quad : Z -> list (point * list R)).
Hypothesis T : tableOk dofs ndofs.
Hypothesis Sok : sitesOk m mkI mkB dofs facePairs faceNodes nodes quad.
Variables (sb : list sprops) (checked : bool) (ats : list attached) (l1 l2 : list Z).
Hypothesis E : attach m order mkI mkB dofs ndofs facePairs faceNodes nodes quad sb checked = Ok (ats, l1, l2).
Hypothesis L : Forall (fun p => sp_layers p <> [] /\ Forall layerOk (sp_layers p)) sb.
Variables (A : wall -> matrix) (ode : wall -> R -> R -> list R -> prog).

Lemma groups_roomy : forall g, In g (map (groupOf A ode) ats) -> roomy (g_w g).
Proof.
  intros g Ig. apply in_map_iff in Ig as (a & <- & Ia). destruct (wall_last m order mkI mkB dofs ndofs facePairs faceNodes nodes quad T Sok sb checked ats l1 l2 E a Ia) as (p & Ip & _ & W & _).
  rewrite Forall_forall in L. destruct (L p Ip) as [N F]. exact (wrapper_roomy A ode p _ W N F).
Qed.
Lemma groups_fresh : forall base dt, (forall w t h x, (0 < h)%R -> avoids (ode w t h x)) -> fresh (mkEvol [] (map (groupOf A ode) ats) None base dt newCache).
Proof.
  intros base dt H. unfold fresh. cbn [e_work e_cp e_cache e_groups]. split; [reflexivity|]. split; [reflexivity|]. split; [reflexivity|].
  apply Forall_map, Forall_forall. intros g _. split; [|reflexivity]. intros t h x Hh. apply H. exact Hh.
Qed.
Lemma states_fit : forall g s, In g ats -> In s (at_states g) -> named sb (at_tag g) = 1%nat ->
  List.length (s_fs (as_state s)) = (6 * Z.to_nat (w_n (wrapperOf A ode (at_wall g))))%nat /\ orthonormal (s_rot (as_state s)) /\
  0 <= s_gl (as_state s) < Z.of_nat ndofs /\ (s_gr (as_state s) = -1 \/ 0 <= s_gr (as_state s) < Z.of_nat ndofs).
Proof.
  intros g s Ig Is N1. destruct (states_once m order mkI mkB dofs ndofs facePairs faceNodes nodes quad T Sok sb checked ats l1 l2 E g Ig N1) as (p & _ & _ & _ & _ & Fz).
  rewrite Forall_forall in Fz. rewrite (Fz s Is). split; [unfold zeros; rewrite repeat_length; unfold wrapperOf; cbn [w_n]; rewrite Nat2Z.id; reflexivity|].
  destruct (states_sit m order mkI mkB dofs ndofs facePairs faceNodes nodes quad T Sok sb checked ats l1 l2 E g s Ig Is) as (be & _ & St & Fr). split; [exact (frame_ortho s Fr)|].
  assert (Rg : forall e d, holds dofs e d -> 0 <= d < Z.of_nat ndofs).
  { intros e d (l & El & I). destruct T as [_ F]. rewrite Forall_forall in F. apply F. apply in_concat. exists l. split; [exact (zget_in _ _ _ El)|exact I]. }
  destruct St as [f e1 e2 x n B P A1 A2 H1 H2 _ _ _|f e1 e2 x n B P A1 A2 H1 H2 _ _ _|f e1 e2 x n B A1 A2 Gr H1 _ _ _].
  - split; [exact (Rg _ _ H1)|right; exact (Rg _ _ H2)].
  - split; [exact (Rg _ _ H1)|right; exact (Rg _ _ H2)].
  - split; [exact (Rg _ _ H1)|left; exact Gr].
Qed.
End Fit.

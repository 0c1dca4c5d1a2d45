(** Proofs about Wall_Model: the model, the ends and the copies of a wall. *)
From Coq Require Import List ZArith Reals Bool Lra Lia.
From Verif Require Import Common Evol_Model EvolSolve_Proofs Setup_Model Setup_Spec Setup_Proofs SetupBdr_Proofs Geo_Model Geo_Spec GeoWall_Proofs Time_Model Input_Model Input_Spec Input_Proofs InputLayer_Proofs InputWall_Proofs Wall_Model Wall_Spec Wall_Proofs.
Import ListNotations.
Open Scope Z_scope.

Lemma asc_range : forall (xs : list material) k v,
  ascending (map (fun p => (Z.of_nat (fst p), snd p)) (combine (seq k (length xs)) xs ++ [((k + length xs)%nat, v)])) /\
  (forall t m, In (t, m) (map (fun p => (Z.of_nat (fst p), snd p)) (combine (seq k (length xs)) xs ++ [((k + length xs)%nat, v)])) -> Z.of_nat k <= t).
Proof.
  induction xs as [|x xs IH]; intros k v; cbn [length seq combine app map fst snd].
  - split; [constructor; [intros ? ? []|constructor]|]. intros t m [E|[]]. inversion E. lia.
  - destruct (IH (S k) v) as (A & B). replace (k + S (length xs))%nat with (S k + length xs)%nat by lia. split.
    + constructor; [|exact A]. intros k' a' I. apply B in I. lia.
    + intros t m [E|I]; [inversion E; lia|]. apply B in I. lia.
Qed.
Lemma mapFind_in : forall (M : Type) k (l : list (nat * M)) m, mapFind k l = Some m -> In (k, m) l.
Proof.
  intros M k. induction l as [|(j, x) l IH]; intros m E; cbn [mapFind] in E; [discriminate|].
  destruct (Nat.eqb_spec j k) as [->|N]; [injection E as <-; left; reflexivity|right; apply IH, E].
Qed.
Definition vac : material := mkMat 1 1 0.
Lemma vac_ok : buildVacuumMaterial = Ok vac.
Proof. unfold buildVacuumMaterial, newMaterial. repeat (destruct (Rlt_dec _ _); [lra|]). reflexivity. Qed.

Definition endOk (c : option cond) : Prop := match c with Some x => hasMarker x | None => True end.
Lemma ints_fit : forall e, endOk (fst e) -> endOk (snd e) -> tagsFit 4 (buildIntBdrInfo e).
Proof.
  intros (l, r) A B. cbn [fst snd] in *. unfold tagsFit, buildIntBdrInfo. cbn [fst snd]. apply Forall_app. split.
  - destruct l; constructor; [split; [cbn; lia|exact A]|constructor].
  - destruct r; constructor; [split; [cbn; lia|exact B]|constructor].
Qed.
Lemma bdr_fit : tagsFit 4 buildBdrInfo.
Proof. repeat constructor; cbn; try lia; discriminate. Qed.

Lemma model_ok : forall ls e, endOk (fst e) -> endOk (snd e) ->
  exists md, buildSGBCModel ls e = Ok md /\ md_mat md = map (fun p => (Z.of_nat (fst p), snd p)) (wallMaterials vac ls) /\
    forall c, mapped c ->
      (forall m, In (c, m) (bdrToMarkerMap (md_mk md)) -> Setup_Spec.marks 4 buildBdrInfo c m) /\
      ((exists m, In (c, m) (bdrToMarkerMap (md_mk md))) <-> exists t, In (t, c) buildBdrInfo) /\
      (forall m, In (c, m) (intBdrToMarkerMap (md_mk md)) -> Setup_Spec.marks 4 (buildIntBdrInfo e) c m) /\
      ((exists m, In (c, m) (intBdrToMarkerMap (md_mk md))) <-> exists t, In (t, c) (buildIntBdrInfo e)).
Proof.
  intros ls e A B. unfold buildSGBCModel. rewrite vac_ok. cbn [bind].
  assert (M : arrayMax (map (fun p => Z.of_nat (snd p)) (wallBoundary ls (ghosts ls))) = Ok 4) by reflexivity.
  destruct (model_markers (map (fun p => (Z.of_nat (fst p), snd p)) (wallMaterials vac ls)) buildBdrInfo (buildIntBdrInfo e) _ 4 M bdr_fit (ints_fit e A B)) as (md & E & _ & _ & C).
  exists md. split; [exact E|]. split; [|exact C].
  clear C M. unfold newModel in E. destruct (map (fun p => (Z.of_nat (fst p), snd p)) (wallMaterials vac ls)) eqn:Q.
  { unfold wallMaterials in Q. rewrite map_app in Q. apply app_eq_nil in Q. destruct Q as (_ & Q). discriminate Q. }
  cbn [bind] in E. destruct (assembleGeomTagToTypeMap _ buildBdrInfo false noMarkers) as [mk1| |]; cbn [bind] in E; try discriminate.
  destruct (assembleGeomTagToTypeMap _ (buildIntBdrInfo e) true mk1) as [mk2| |]; cbn [bind] in E; try discriminate. injection E as <-. reflexivity.
Qed.

Lemma materials_at : forall get ls a m, mapFind a (wallMaterials vac ls) = Some m ->
  exists v, fillVector get (map (fun p => (Z.of_nat (fst p), snd p)) (wallMaterials vac ls)) = Ok v /\ pwEval v (Z.of_nat a) = Ok (get m).
Proof.
  intros get ls a m F. unfold wallMaterials in *. pose proof (asc_range (map l_mat ls) 1 vac) as (A & B).
  rewrite map_length in A, B. cbn [Nat.add] in A, B.
  destruct (fill_vector get _ A) as (v & E & G & _).
  { apply Forall_forall. intros (t, x) I. apply B in I. exact I. }
  exists v. split; [exact E|]. apply G. apply mapFind_in in F. apply in_map_iff. exists (a, m). split; [reflexivity|exact F].
Qed.

Lemma maxOrder_ge : forall (ls : list (layer material)) o, (o <= fold_left (fun o l => Nat.max o (l_order l)) ls o)%nat /\
  (forall l, In l ls -> (l_order l <= fold_left (fun o l => Nat.max o (l_order l)) ls o)%nat) /\
  (fold_left (fun o l => Nat.max o (l_order l)) ls o = o \/ exists l, In l ls /\ fold_left (fun o l => Nat.max o (l_order l)) ls o = l_order l).
Proof.
  induction ls as [|l ls IH]; intros o; cbn [fold_left].
  - split; [lia|]. split; [intros ? []|left; reflexivity].
  - destruct (IH (Nat.max o (l_order l))) as (A & B & C). split; [lia|]. split.
    + intros x [<-|I]; [lia|apply B, I].
    + destruct C as [C|(x & I & C)]; [|right; exists x; split; [right; exact I|exact C]].
      destruct (Nat.max_spec o (l_order l)) as [(G & E)|(G & E)]; rewrite E in *.
      * right. exists l. split; [left; reflexivity|exact C].
      * left. exact C.
Qed.
Lemma options_ok : forall ls, let o := buildSGBCSolverOptions ls in
  so_ode o = 4 /\ so_alpha o = 1%R /\ so_op o = OpGlobal /\
  (exists n, so_order o = Z.of_nat n /\ (1 <= n)%nat /\ (forall l, In l ls -> (l_order l <= n)%nat) /\ (n = 1%nat \/ exists l, In l ls /\ n = l_order l)) /\
  checkOptionsAreValid (timeOptions o) = Ok tt /\ assignODESolver o = Ok 4.
Proof.
  intros ls o. subst o. split; [reflexivity|]. split; [reflexivity|]. split; [reflexivity|]. split.
  - exists (maxOrder ls). split; [reflexivity|]. apply (maxOrder_ge ls 1).
  - split; [|reflexivity]. unfold checkOptionsAreValid. cbn. replace (Z.of_nat (maxOrder ls) <? 0) with false by (symmetry; apply Z.ltb_ge; lia).
    destruct (Rlt_dec 2 0); [lra|]. destruct (Rle_dec 1 0); [lra|]. reflexivity.
Qed.

Lemma layers_positive : forall Ls, Forall layerOk Ls -> Forall positive (shape (map sl_layer Ls)).
Proof.
  intros Ls F. unfold shape. rewrite map_map. apply Forall_map. eapply Forall_impl; [|exact F]. intros L K. split; [apply (lo_width L K)|apply (lo_segs L K)].
Qed.

Lemma new_ok : forall checked p e, (checked = true \/ sp_layers p <> []) -> Forall layerOk (sp_layers p) -> endOk (fst e) -> endOk (snd e) ->
  exists w, newWall checked p e = Ok (w, (if checked then [] else checkResolution 0 (map sl_layer (sp_layers p))), true) /\
    wl_props w = p /\ wl_vertices w = wallVertices (map sl_layer (sp_layers p)) (ghosts (map sl_layer (sp_layers p))) /\
    wallAttributes (map sl_layer (sp_layers p)) (ghosts (map sl_layer (sp_layers p))) = Ok (wl_attrs w) /\
    buildSGBCModel (map sl_layer (sp_layers p)) e = Ok (wl_model w) /\
    wl_opts w = buildSGBCSolverOptions (map sl_layer (sp_layers p)) /\ wl_rec w = recommendedStep (sp_layers p).
Proof.
  intros checked p e NE F A B. unfold newWall. set (ls := map sl_layer (sp_layers p)) in *.
  destruct (wall_elements vac ls (ghosts ls) (layers_positive _ F)) as (attrs & E & _). rewrite E. cbn [bind].
  destruct (model_ok ls e A B) as (md & EM & _). rewrite EM. cbn [bind].
  destruct (options_ok ls) as (_ & _ & _ & _ & V & O). rewrite V. cbn [bind]. rewrite O. cbn [bind].
  exists (mkWall p (wallVertices ls (ghosts ls)) attrs md (buildSGBCSolverOptions ls) (recommendedStep (sp_layers p))).
  split; [|repeat split; assumption].
  destruct checked; [reflexivity|]. destruct NE as [NE|NE]; [discriminate|]. destruct ls eqn:Q; [|reflexivity].
  exfalso. apply NE. unfold ls in Q. destruct (sp_layers p); [reflexivity|discriminate].
Qed.

(** What a wall is made of. *)
Definition propEnds (p : sprops) : ends := (sp_left p, sp_right p).
Lemma build_ok : forall checked p, sp_layers p <> [] -> Forall layerOk (sp_layers p) -> endOk (sp_left p) -> endOk (sp_right p) ->
  exists w, buildWall checked p = Ok (w, (if checked then [] else checkResolution 0 (map sl_layer (sp_layers p))), true).
Proof. intros checked p N F A B. destruct (new_ok checked p (sp_left p, sp_right p) (or_intror N) F A B) as (w & E & _). exists w. exact E. Qed.

Lemma new_inv : forall checked p e w msg c, newWall checked p e = Ok (w, msg, c) ->
  wl_props w = p /\ wl_vertices w = wallVertices (map sl_layer (sp_layers p)) (ghosts (map sl_layer (sp_layers p))) /\
  wallAttributes (map sl_layer (sp_layers p)) (ghosts (map sl_layer (sp_layers p))) = Ok (wl_attrs w) /\
  buildSGBCModel (map sl_layer (sp_layers p)) e = Ok (wl_model w) /\
  wl_opts w = buildSGBCSolverOptions (map sl_layer (sp_layers p)) /\ wl_rec w = recommendedStep (sp_layers p) /\ c = true.
Proof.
  intros checked p e w msg c E. unfold newWall in E. cbv zeta in E.
  apply bind_ok in E. destruct E as (attrs & EA & E). apply bind_ok in E. destruct E as (md & EM & E).
  apply bind_ok in E. destruct E as (u & _ & E). apply bind_ok in E. destruct E as (o & _ & E).
  assert (G : w = mkWall p (wallVertices (map sl_layer (sp_layers p)) (ghosts (map sl_layer (sp_layers p)))) attrs md (buildSGBCSolverOptions (map sl_layer (sp_layers p))) (recommendedStep (sp_layers p)) /\ c = true).
  { destruct checked; [injection E as <- _ <-; split; reflexivity|]. destruct (map sl_layer (sp_layers p)); [discriminate|]. injection E as <- _ <-. split; reflexivity. }
  destruct G as (-> & ->). cbn. repeat split; assumption.
Qed.
Lemma wall_eq : forall a b, wl_props a = wl_props b -> wl_vertices a = wl_vertices b -> wl_attrs a = wl_attrs b ->
  wl_model a = wl_model b -> wl_opts a = wl_opts b -> wl_rec a = wl_rec b -> a = b.
Proof. intros [] []. cbn. congruence. Qed.
Lemma new_fun : forall k1 k2 p e w1 m1 c1 w2 m2 c2, newWall k1 p e = Ok (w1, m1, c1) -> newWall k2 p e = Ok (w2, m2, c2) -> w1 = w2.
Proof.
  intros k1 k2 p e w1 m1 c1 w2 m2 c2 A B. apply new_inv in A, B. destruct A as (A1 & A2 & A3 & A4 & A5 & A6 & _), B as (B1 & B2 & B3 & B4 & B5 & B6 & _).
  apply wall_eq; congruence.
Qed.
(** A copy made after the wall is the same wall, and prints nothing. *)
Lemma clone_same : forall checked p w msg c, buildWall checked p = Ok (w, msg, c) -> cloneWall c w = Ok (w, [], true).
Proof.
  intros checked p w msg c E. pose proof (new_inv _ _ _ _ _ _ E) as (P & V & AT & M & O & RR & ->).
  unfold cloneWall, buildWall. rewrite P. clear E. unfold newWall. rewrite AT. cbn [bind]. rewrite M. cbn [bind].
  destruct (options_ok (map sl_layer (sp_layers p))) as (_ & _ & _ & _ & VV & OO). rewrite VV. cbn [bind]. rewrite OO. cbn [bind].
  rewrite <- V, <- O, <- RR. destruct w; cbn in *; subst; reflexivity.
Qed.

Lemma wall_materials : forall checked p w msg c, Forall layerOk (sp_layers p) -> endOk (sp_left p) -> endOk (sp_right p) ->
  buildWall checked p = Ok (w, msg, c) ->
  let ls := map sl_layer (sp_layers p) in let g := ghosts ls in
  forall get, get = m_eps \/ get = m_mu \/ get = m_sigma ->
  exists v, fillVector get (md_mat (wl_model w)) = Ok v /\
    (forall i, (i < g)%nat -> exists a b, nth_error (wl_attrs w) i = Some a /\ pwEval v (Z.of_nat a) = Ok (get vac) /\
       nth_error (wl_attrs w) (g + sumSegs (shape ls) + i) = Some b /\ pwEval v (Z.of_nat b) = Ok (get vac)) /\
    (forall k, (k < sumSegs (shape ls))%nat -> exists a l, nth_error (wl_attrs w) (g + k) = Some a /\
       nth_error ls (layerOf (shape ls) k) = Some l /\ pwEval v (Z.of_nat a) = Ok (get (l_mat l))).
Proof.
  intros checked p w msg c F A B E ls g get G. apply new_inv in E. destruct E as (_ & _ & AT & M & _). fold ls g in AT, M.
  destruct (model_ok ls (sp_left p, sp_right p) A B) as (md & EM & MM & _). rewrite EM in M. injection M as <-. rewrite MM.
  destruct (wall_elements vac ls g (layers_positive _ F)) as (attrs & EA & _ & L1 & L2 & L3). rewrite EA in AT. injection AT as <-.
  assert (V : mapFind (S (length ls)) (wallMaterials vac ls) = Some vac).
  { destruct (L1 0%nat) as (a & _ & -> & X); [unfold g, ghosts; lia|exact X]. }
  destruct (materials_at get ls _ _ V) as (v & EV & VV). exists v. split; [exact EV|]. split.
  - intros i I. destruct (L1 i I) as (a & N1 & -> & _). destruct (L3 i I) as (b & N3 & -> & _). exists (S (length ls)), (S (length ls)). auto.
  - intros k I. destruct (L2 k I) as (a & l & N1 & _ & N2 & X). exists a, l. split; [exact N1|]. split; [exact N2|].
    destruct (materials_at get ls _ _ X) as (v' & EV' & VV'). rewrite EV in EV'. injection EV' as <-. exact VV'.
Qed.

(** The ends: the outer points absorb, the faces of the wall have the conditions asked for. *)
Lemma in_int : forall e t c, In (t, c) (buildIntBdrInfo e) <-> (t = 3 /\ fst e = Some c) \/ (t = 4 /\ snd e = Some c).
Proof.
  intros (l, r) t c. unfold buildIntBdrInfo. rewrite in_app_iff. cbn [fst snd]. split.
  - intros [H|H]; [left; destruct l|right; destruct r]; cbn in H; try (destruct H; fail); destruct H as [H|[]]; inversion H; auto.
  - intros [(-> & ->)|(-> & ->)]; [left|right]; left; reflexivity.
Qed.
Lemma wall_ends : forall checked p w msg c0, endOk (sp_left p) -> endOk (sp_right p) -> buildWall checked p = Ok (w, msg, c0) ->
  forall c, mapped c ->
  let mk := md_mk (wl_model w) in
  ((exists m, In (c, m) (bdrToMarkerMap mk)) <-> c = SMA) /\ (forall m, In (SMA, m) (bdrToMarkerMap mk) -> m = [1; 1; 0; 0]) /\
  ((exists m, In (c, m) (intBdrToMarkerMap mk)) <-> sp_left p = Some c \/ sp_right p = Some c) /\
  (forall m, In (c, m) (intBdrToMarkerMap mk) -> exists l r, m = [0; 0; l; r] /\
     (l = 1 /\ sp_left p = Some c \/ l = 0 /\ sp_left p <> Some c) /\ (r = 1 /\ sp_right p = Some c \/ r = 0 /\ sp_right p <> Some c)).
Proof.
  intros checked p w msg c0 A B E c MC mk. apply new_inv in E. destruct E as (_ & _ & _ & M & _).
  destruct (model_ok (map sl_layer (sp_layers p)) (sp_left p, sp_right p) A B) as (md & EM & _ & C). rewrite EM in M. injection M as M. subst md. fold mk in C.
  assert (four : forall gt c m, Setup_Spec.marks 4 gt c m -> exists a b d e, m = [a; b; d; e] /\
            (a = 1 /\ In (1, c) gt \/ a = 0 /\ ~ In (1, c) gt) /\ (b = 1 /\ In (2, c) gt \/ b = 0 /\ ~ In (2, c) gt) /\
            (d = 1 /\ In (3, c) gt \/ d = 0 /\ ~ In (3, c) gt) /\ (e = 1 /\ In (4, c) gt \/ e = 0 /\ ~ In (4, c) gt)).
  { intros gt c' m (L & K). destruct m as [|a [|b [|d [|e [|]]]]]; cbn [length] in L; try lia. exists a, b, d, e. split; [reflexivity|].
    assert (inj : forall x y : Z, Ok x = Ok y -> x = y) by congruence.
    pose proof (K 0 ltac:(lia)) as K0. pose proof (K 1 ltac:(lia)) as K1. pose proof (K 2 ltac:(lia)) as K2. pose proof (K 3 ltac:(lia)) as K3.
    cbn in K0, K1, K2, K3.
    split; [destruct K0 as [(X & Y)|(X & Y)]; injection X as ->; auto|]. split; [destruct K1 as [(X & Y)|(X & Y)]; injection X as ->; auto|].
    split; [destruct K2 as [(X & Y)|(X & Y)]; injection X as ->; auto|]. destruct K3 as [(X & Y)|(X & Y)]; injection X as ->; auto. }
  split; [|split; [|split]].
  - destruct (C c MC) as (_ & H & _). rewrite H. split.
    + intros (t & [X|[X|[]]]); inversion X; reflexivity.
    + intros ->. exists 1. left. reflexivity.
  - intros m I. destruct (C SMA ltac:(unfold mapped; auto)) as (H & _). apply H, four in I. destruct I as (a & b & d & e & -> & I1 & I2 & I3 & I4).
    unfold buildBdrInfo in *. cbn [In] in *.
    destruct I1 as [(-> & _)|(_ & I1)]; [|exfalso; apply I1; auto]. destruct I2 as [(-> & _)|(_ & I2)]; [|exfalso; apply I2; auto].
    destruct I3 as [(_ & [I3|[I3|[]]])|(-> & _)]; [discriminate|discriminate|]. destruct I4 as [(_ & [I4|[I4|[]]])|(-> & _)]; [discriminate|discriminate|]. reflexivity.
  - destruct (C c MC) as (_ & _ & _ & H). rewrite H. split.
    + intros (t & I). apply in_int in I. cbn [fst snd] in I. tauto.
    + intros [H1|H1]; [exists 3|exists 4]; apply in_int; auto.
  - intros m I. destruct (C c MC) as (_ & _ & H & _). apply H, four in I. destruct I as (a & b & d & e & -> & I1 & I2 & I3 & I4).
    rewrite !in_int in *. cbn [fst snd] in *.
    assert (a = 0) by (destruct I1 as [(_ & [(X & _)|(X & _)])|(X & _)]; [discriminate|discriminate|exact X]).
    assert (b = 0) by (destruct I2 as [(_ & [(X & _)|(X & _)])|(X & _)]; [discriminate|discriminate|exact X]).
    subst a b. exists d, e. split; [reflexivity|]. split.
    + destruct I3 as [(-> & [(_ & X)|(X & _)])|(-> & X)]; [left; auto|discriminate|right; split; [reflexivity|]]. intros Y. apply X. left. auto.
    + destruct I4 as [(-> & [(X & _)|(_ & X)])|(-> & X)]; [discriminate|left; auto|right; split; [reflexivity|]]. intros Y. apply X. right. auto.
Qed.

(** ** In use *)
Lemma substeps_in_cells : forall checked p w msg c dt m, Forall layerOk (sp_layers p) -> buildWall checked p = Ok (w, msg, c) ->
  (0 < dt)%R -> nsteps (wl_rec w) dt = Ok m -> (dt / wl_rec w <= 2147483647)%R ->
  forall L t, In L (sp_layers p) -> crossingTime L t ->
  (dt / IZR m <= 25 * t)%R /\ ((sl_nskin L <= 3)%R -> (dt / IZR m <= t / 2)%R).
Proof.
  intros checked p w msg c dt m F E D N B L t I T. apply new_inv in E. destruct E as (_ & _ & _ & _ & _ & RR & _).
  rewrite RR in *. pose proof (step_pos _ F) as P. destruct (nsteps_spec _ dt P D B) as (m' & N' & _ & S & _).
  rewrite N in N'. injection N' as <-.
  assert (K : layerOk L) by (rewrite Forall_forall in F; apply F, I).
  pose proof (crossing_pos L K t T) as TP.
  destruct (slack_ex (sl_nskin L)) as (k & SK). pose proof (slack_pos _ _ SK) as KB.
  assert (A : allowed L (t / 2 * k)) by (exists t, k; auto).
  pose proof (step_below _ _ _ F I A) as G. split.
  - nra.
  - intros C. assert (k = 1)%R by (apply (slack_fun (sl_nskin L)); [exact SK|constructor; exact C]). subst k. lra.
Qed.

(** ** From the case file *)
Lemma parsed_layer_ok : forall f j L, parseSGBCLayer f j = Ok L -> (0 < l_width (sl_layer L))%R -> (0 < l_segs (sl_layer L))%nat -> layerOk L.
Proof.
  intros f j L E W S. destruct (layer_sound f j L E) as (eps & mu & sigma & width & LI & M & _). destruct LI as [_ _ _ _ (A & B & C)].
  constructor; [exact W|exact S| | |]; rewrite M; cbn; try assumption. apply Rmult_le_pos; [exact C|apply Rlt_le, z0_pos].
Qed.
Lemma parsed_layers : forall f b p, parseSGBC f b = Ok p -> Forall (fun L => exists j, parseSGBCLayer f j = Ok L) (sp_layers p) /\ endOk (sp_left p) /\ endOk (sp_right p).
Proof.
  intros f b p E. apply wall_iff in E. destruct E as [_ LL EE]. split.
  - destruct LL as [(x & _ & F2)|(_ & m & L & _ & E & ->)].
    + clear -F2. induction F2; constructor; eauto.
    + constructor; [exists m; exact E|constructor].
  - assert (Q : forall src k c, endAt src k c -> endOk c).
    { intros src k [c|] H; cbn in *; [|exact I]. destruct H as (sb & s & _ & _ & N). destruct N; split; discriminate. }
    destruct EE as [(A & B & _)|(_ & _ & m & _ & A & B)]; split; eapply Q; eassumption.
Qed.
Lemma case_wall : forall f b p checked, parseSGBC f b = Ok p -> sp_layers p <> [] ->
  Forall (fun L => (0 < l_width (sl_layer L))%R /\ (0 < l_segs (sl_layer L))%nat) (sp_layers p) ->
  Forall layerOk (sp_layers p) /\ endOk (sp_left p) /\ endOk (sp_right p) /\ exists w msg, buildWall checked p = Ok (w, msg, true).
Proof.
  intros f b p checked E N F. destruct (parsed_layers f b p E) as (P & A & B).
  assert (K : Forall layerOk (sp_layers p)).
  { rewrite Forall_forall in *. intros L I. destruct (P L I) as (j & EJ). destruct (F L I) as (W & S). apply (parsed_layer_ok f j); assumption. }
  split; [exact K|]. split; [exact A|]. split; [exact B|]. destruct (build_ok checked p N K A B) as (w & X). exists w. eexists. exact X.
Qed.

(** ** Findings *)
Lemma pec_clone_lost : forall p, sp_layers p <> [] -> Forall layerOk (sp_layers p) -> sp_left p = None -> sp_right p = None ->
  exists w msg w' , buildWallWithPEC false p = Ok (w, msg, true) /\ cloneWall true w = Ok (w', [], true) /\
    md_int (wl_model w) = [(3, PEC); (4, PEC)] /\ md_int (wl_model w') = [].
Proof.
  intros p N F L RR.
  destruct (new_ok false p (Some PEC, Some PEC) (or_intror N) F) as (w & E & P & _ & _ & M & _).
  { split; discriminate. } { split; discriminate. }
  destruct (new_ok true p (None, None) (or_introl eq_refl) F I I) as (w' & E' & P' & _ & _ & M' & _).
  exists w. eexists. exists w'. split; [exact E|]. split; [unfold cloneWall, buildWall; rewrite P, L, RR; exact E'|].
  assert (Q : forall ls e md, buildSGBCModel ls e = Ok md -> md_int md = buildIntBdrInfo e).
  { intros ls e md X. unfold buildSGBCModel, newModel in X. repeat (apply bind_ok in X; destruct X as (? & _ & X)). injection X as <-. reflexivity. }
  split; [exact (Q _ _ _ M)|exact (Q _ _ _ M')].
Qed.
Lemma empty_wall : forall p, sp_layers p = [] -> buildWall false p = UB \/ buildWall false p = Throw.
Proof.
  intros p E. unfold buildWall, newWall. rewrite E. cbn [map].
  destruct (wallAttributes _ _) as [a| |]; [|right; reflexivity|left; reflexivity]. cbn [bind].
  destruct (buildSGBCModel _ _) as [m| |]; [|right; reflexivity|left; reflexivity]. cbn [bind].
  destruct (options_ok []) as (_ & _ & _ & _ & V & O). rewrite V. cbn [bind]. rewrite O. cbn [bind]. left. reflexivity.
Qed.
(** Only the first wall of a process is reported. *)
Lemma walls_messages : forall ps checked ws ms c, buildWalls checked ps = Ok (ws, ms, c) ->
  Forall2 (fun p w => exists k m c, buildWall k p = Ok (w, m, c)) ps ws /\
  (checked = true -> Forall (fun m => m = []) ms) /\ Forall (fun m => m = []) (tl ms) /\ length ms = length ps.
Proof.
  intros ps checked. unfold buildWalls.
  assert (G : forall ps W M k ws ms c,
     foldM (fun st p => ' (w, msg, c) <- buildWall (snd st) p ;; Ok (fst (fst st) ++ [w], snd (fst st) ++ [msg], c)) ps (W, M, k) = Ok (ws, ms, c) ->
     exists W' M', ws = W ++ W' /\ ms = M ++ M' /\ length M' = length ps /\ Forall2 (fun p w => exists k m c, buildWall k p = Ok (w, m, c)) ps W' /\
       (k = true -> Forall (fun m => m = []) M') /\ Forall (fun m => m = []) (tl M')).
  { clear ps checked. induction ps as [|p ps IH]; intros W M k ws ms c E; cbn [foldM] in E.
    - injection E as <- <- _. exists [], []. rewrite !app_nil_r. repeat split; try constructor.
    - apply bind_ok in E. destruct E as (st & E1 & E2). apply bind_ok in E1. destruct E1 as (((w, msg), c1) & EB & E1). cbn [fst snd] in EB, E1. injection E1 as <-.
      destruct (IH _ _ _ _ _ _ E2) as (W' & M' & -> & -> & LN & F2 & Q1 & Q2).
      pose proof (new_inv _ _ _ _ _ _ EB) as (_ & _ & _ & _ & _ & _ & ->).
      exists (w :: W'), (msg :: M'). rewrite <- !app_assoc. cbn [app length tl]. split; [reflexivity|]. split; [reflexivity|]. split; [lia|].
      split; [constructor; [eauto|exact F2]|]. split; [|apply Q1; reflexivity].
      intros ->. constructor; [|apply Q1; reflexivity]. unfold buildWall, newWall in EB. repeat (apply bind_ok in EB; destruct EB as (? & _ & EB)). injection EB as _ <-. reflexivity. }
  intros ws ms c E. destruct (G _ _ _ _ _ _ _ E) as (W' & M' & -> & -> & LN & F2 & Q1 & Q2). cbn [app]. auto.
Qed.

(** Properties C80 to C82: the options, the thin layers and the surface markers of a case file. *)
From Coq Require Import String List ZArith Reals.
From Verif Require Import Common Setup_Model Geo_Model Time_Model Input_Model Input_Spec Input_Proofs InputLayer_Proofs InputWall_Proofs InputMark_Proofs InputEx_Proofs InputBad_Proofs.
Import ListNotations.
Open Scope string_scope.
Open Scope Z_scope.

(** C80.  Every option is the value given under its key or its default, whatever the others. *)
Theorem C80_options_partial : forall c o, buildSolverOptions c = Ok o <-> optionsOf c o.
Proof. exact options_iff. Qed.
Print Assumptions C80_options_partial.
(** Options of the right types are always read. *)
Theorem C80_total : forall c so, given c "solver_options" so -> wellTyped so -> exists o, buildSolverOptions c = Ok o.
Proof. exact options_total. Qed.
Print Assumptions C80_total.
(** What reaches the time loop on rank 0. *)
Theorem C80_accepted : forall c o, acceptOptions c = Ok o <->
  optionsOf c o /\ 0 <= so_order o /\ (0 <= so_tf o)%R /\ (0 < so_cfl o)%R /\ 0 <= so_ode o <= 6.
Proof. exact accept_iff. Qed.
Print Assumptions C80_accepted.
(** An option of another type ends in an error, floating values of the whole options being in their range. *)
Theorem C80_rejects : forall c so, given c "solver_options" so -> realsFit whole32 so "order" -> realsFit whole32 so "basis_type" -> realsFit whole64 so "ode_type" ->
  ~ wellTyped so -> buildSolverOptions c = Throw.
Proof. exact options_rejects. Qed.
Print Assumptions C80_rejects.
Example C80_rejects_type_ex : buildSolverOptions (opts [("spectral", JStr "yes")]) = Throw /\ buildSolverOptions (opts [("export_operator", JInt 1)]) = Throw.
Proof. exact (conj eq_refl eq_refl). Qed.
(** Another key changes nothing. *)
Theorem C80_unknown_key : forall k v, ~ In k ["upwind_alpha"; "time_step"; "final_time"; "cfl"; "order"; "spectral"; "export_operator"; "evolution_operator"; "basis_type"; "ode_type"] ->
  forall l, buildSolverOptions (opts ((k, v) :: l)) = buildSolverOptions (opts l).
Proof. exact unknown_key. Qed.
Print Assumptions C80_unknown_key.
(** The documented default order is 3. *)
Theorem C80_order_refuted : exists o, buildSolverOptions (opts []) = Ok o /\ buildSolverOptions (JObj []) = Ok o /\ so_order o <> 3.
Proof. exact order_refuted. Qed.
Print Assumptions C80_order_refuted.
(** The documented type of these two options is a string. *)
Theorem C80_string_refuted : buildSolverOptions (opts [("ode_type", JStr "RK4")]) = Throw /\ buildSolverOptions (opts [("basis_type", JStr "GaussLobatto")]) = Throw.
Proof. exact string_refuted. Qed.
Print Assumptions C80_string_refuted.
(** The documented ranges of the Courant number and the flux blend, and a forward time step, are not enforced. *)
Theorem C80_range_refuted : exists o, acceptOptions (opts [("cfl", JInt 5); ("upwind_alpha", JInt (-3)); ("time_step", JInt (-1))]) = Ok o /\
  (1 < so_cfl o)%R /\ (so_alpha o < 0)%R /\ (so_dt o < 0)%R.
Proof. exact range_refuted. Qed.
Print Assumptions C80_range_refuted.
Example C80_ex : acceptOptions exOpts = Ok (mkSO 0 10 1 1 0 OpHesthaven 3 1 true false).
Proof. exact options_ex. Qed.
Example C80_rejects_ex : acceptOptions (opts [("evolution_operator", JStr "Global")]) = Throw /\ acceptOptions (opts [("final_time", JStr "10")]) = Throw /\
  acceptOptions (opts [("ode_type", JInt (-1))]) = Throw /\ acceptOptions (opts [("order", JInt (-1))]) = Throw.
Proof. exact rejects_ex. Qed.

(** C81.  The material, the width and the cell counts of a layer are those of its input. *)
Theorem C81_layer : forall f j L, parseSGBCLayer f j = Ok L ->
  exists eps mu sigma width, layerIn j eps mu sigma width /\
    l_mat (sl_layer L) = mkMat eps mu (sigma * freeSpaceImpedanceSI) /\ l_width (sl_layer L) = width /\
    (forall n, (exists x, given j "num_of_segments" x /\ whole64 x n) -> l_segs (sl_layer L) = Z.to_nat n) /\
    (forall n, (exists x, given j "order" x /\ whole64 x n) -> l_order (sl_layer L) = Z.to_nat n) /\
    ((0 < f)%R -> (0 < sigma)%R -> forall d, isSkinDepth f mu sigma d -> (sl_nskin L * d = width)%R).
Proof. exact layer_sound. Qed.
Print Assumptions C81_layer.
(** A description of another shape ends in an error: no object, no model object, no list of boundaries. *)
Theorem C81_shape : forall f c,
  (~ isObject c -> parseSGBCs f c = Throw) /\
  (forall m, given c "model" m -> ~ isObject m -> parseSGBCs f c = Throw) /\
  (forall m b, given c "model" m -> given m "boundaries" b -> (forall l, ~ listOf b l) -> parseSGBCs f c = Throw).
Proof. exact (fun f c => conj (walls_shape f c) (conj (walls_model f c) (walls_list f c))). Qed.
Print Assumptions C81_shape.
Example C81_shape_ex : forall f, parseSGBCs f (JObj [("model", JObj [("boundaries", JStr "all")])]) = Throw.
Proof. exact (fun f => eq_refl). Qed.
(** So does an end of a wall that is not the name of a condition. *)
Theorem C81_end_rejects : forall src b k v lr, given src "sgbc_boundaries" b -> (k = "left" \/ k = "right") -> given b k v -> (forall c, ~ endName v c) ->
  parseBoundaries src lr = Throw.
Proof. exact ends_type. Qed.
Print Assumptions C81_end_rejects.
Example C81_end_rejects_ex : parseBoundaries (JObj [("sgbc_boundaries", JObj [("left", JStr "PEC"); ("right", JInt 1)])]) (None, None) = Throw.
Proof. exact eq_refl. Qed.
(** A physical layer that is not absurdly wide is accepted. *)
Theorem C81_total : forall f j eps mu sigma width, (0 < f)%R -> layerIn j eps mu sigma width -> (0 <= width)%R ->
  fits whole64 j "num_of_segments" -> fits whole64 j "order" ->
  (forall lam, isWavelength f eps mu lam -> width * 10 <= lam * 2147483647)%R ->
  (forall d, (0 < sigma)%R -> isSkinDepth f mu sigma d -> width * 2 <= d * 2147483647)%R ->
  exists L, parseSGBCLayer f j = Ok L.
Proof. exact layer_total. Qed.
Print Assumptions C81_total.
(** The automatic mesh resolves the wave and the skin depth below its bound of 1000 cells. *)
Theorem C81_resolution_partial : forall f j L eps mu sigma width, (0 < f)%R ->
  parseSGBCLayer f j = Ok L -> absent j "num_of_segments" -> absent j "order" -> layerIn j eps mu sigma width -> (0 < width)%R ->
  (4 <= l_segs (sl_layer L) <= 1000)%nat /\
  ((l_segs (sl_layer L) < 1000)%nat ->
   resolves f eps mu sigma (l_order (sl_layer L)) (width / INR (l_segs (sl_layer L)))).
Proof. exact resolution. Qed.
Print Assumptions C81_resolution_partial.
(** It is the coarsest one of at least four cells that meets the two targets. *)
Theorem C81_coarsest : forall f j L eps mu sigma width (n : nat), (0 < f)%R ->
  parseSGBCLayer f j = Ok L -> absent j "num_of_segments" -> absent j "order" -> layerIn j eps mu sigma width ->
  (4 <= n)%nat ->
  (width / INR n <= wavelength f (mu * vacuumPermeabilitySI) (eps * vacuumPermittivitySI) / IZR (Flocq.Core.Raux.Zceil (20 / INR (l_order (sl_layer L)))))%R ->
  ((0 < sigma)%R -> (width / INR n <= skinDepth f (mu * vacuumPermeabilitySI) sigma / 2)%R) ->
  (l_segs (sl_layer L) <= n)%nat.
Proof. exact coarsest. Qed.
Print Assumptions C81_coarsest.
(** The automatic order follows the loss tangent. *)
Theorem C81_order : forall f j L eps mu sigma width, (0 < f)%R ->
  parseSGBCLayer f j = Ok L -> absent j "order" -> layerIn j eps mu sigma width ->
  let T := (sigma / (f * (eps * vacuumPermittivitySI)))%R in
  ((100 < T)%R -> l_order (sl_layer L) = 2%nat) /\
  ((T < 1 / 10 /\ sigma < 1 / 1000)%R -> l_order (sl_layer L) = 4%nat) /\
  ((T <= 100 /\ (1 / 10 <= T \/ 1 / 1000 <= sigma))%R -> l_order (sl_layer L) = 3%nat).
Proof. exact order_regime. Qed.
Print Assumptions C81_order.
(** A wall is its tags, its layers in order (or its material) and its ends; anything else is an error. *)
Theorem C81_wall : forall f b p, parseSGBC f b = Ok p <-> wallOf f b p.
Proof. exact wall_iff. Qed.
Print Assumptions C81_wall.
(** The walls of a case are its SGBC boundaries, in order. *)
Theorem C81_walls : forall f c ps, parseSGBCs f c = Ok ps <->
  exists m bs l, given c "model" m /\ given m "boundaries" bs /\ listOf bs l /\ selected sgbcB (wallOf f) l ps.
Proof. exact walls_iff. Qed.
Print Assumptions C81_walls.
(** At the bound of 1000 cells the layer is accepted without the resolution. *)
Theorem C81_bound_refuted : exists j L, parseSGBCLayer GHz j = Ok L /\ absent j "num_of_segments" /\ absent j "order" /\ layerIn j 1 1 0 1000 /\
  ~ resolves GHz 1 1 0 (l_order (sl_layer L)) (1000 / INR (l_segs (sl_layer L))).
Proof. exact bound_refuted. Qed.
Print Assumptions C81_bound_refuted.
(** The cell count is not computed for the order given. *)
Theorem C81_override_refuted : exists j L, parseSGBCLayer GHz j = Ok L /\ absent j "num_of_segments" /\ layerIn j 1 1 0 1 /\
  (l_segs (sl_layer L) < 1000)%nat /\ ~ resolves GHz 1 1 0 (l_order (sl_layer L)) (1 / INR (l_segs (sl_layer L))).
Proof. exact override_refuted. Qed.
Print Assumptions C81_override_refuted.
(** A layer without cells and a wall without layers are accepted. *)
Theorem C81_empty_refuted :
  (exists L, parseSGBCLayer GHz (vacLayer 1 [("num_of_segments", JInt 0)]) = Ok L /\ l_segs (sl_layer L) = 0%nat) /\
  (exists p, parseSGBC GHz (JObj [("type", JStr "SGBC"); ("tags", JArr [JInt 2]); ("layers", JArr [])]) = Ok p /\ sp_layers p = []).
Proof. exact empty_refuted. Qed.
Print Assumptions C81_empty_refuted.
(** So is a negative width. *)
Theorem C81_width_refuted : exists L, parseSGBCLayer GHz (vacLayer (-1) []) = Ok L /\ (l_width (sl_layer L) < 0)%R /\ l_segs (sl_layer L) = 4%nat.
Proof. exact width_refuted. Qed.
Print Assumptions C81_width_refuted.
Example C81_layer_ex : exists j L, parseSGBCLayer GHz j = Ok L /\ absent j "num_of_segments" /\ absent j "order" /\ layerIn j 1 1 0 1 /\
  (l_segs (sl_layer L) < 1000)%nat /\ l_order (sl_layer L) = 4%nat.
Proof. exact layer_ex. Qed.
Example C81_wall_ex : exists p, parseSGBC GHz bothWall = Ok p /\ sp_tags p = [2; 5] /\ map (fun L => l_width (sl_layer L)) (sp_layers p) = [1%R; 2%R] /\
  sp_left p = Some PEC /\ sp_right p = None.
Proof. exact both_ex. Qed.

(** C82.  The markers left after the set-up: the surface of the first total field source that
    touches the partition, and the union of all the thin layers. *)
Theorem C82_markers_partial : forall c pm sma o srcs bdrs md, meshOk pm -> caseOf c srcs bdrs ->
  postProcessInformation c pm (mkPMd sma None None) o = Ok md ->
  pd_sma md = sma /\ firstOf pm srcs (pd_tfsf md) /\ surfaceOf pm (tagsOfAll (fun ty => ty = "SGBC") bdrs) (pd_sgbc md).
Proof. exact post_ok. Qed.
Print Assumptions C82_markers_partial.
(** The total field surface is right when its sources share their tags. *)
Theorem C82_one_surface : forall pm srcs m, firstOf pm srcs m ->
  (forall e1 e2 a, In e1 srcs -> In e2 srcs -> isTotalField (fst e1) -> isTotalField (fst e2) ->
     In a (pm_attrs pm) -> touches pm (snd e1) -> In a (snd e2) -> In a (snd e1)) ->
  surfaceOf pm (tagsOfAll isTotalField srcs) m.
Proof. exact first_surface. Qed.
Print Assumptions C82_one_surface.
(** The set-up fails only for a centred flux with absorbing boundaries under Hesthaven's operator. *)
Theorem C82_rejects : forall c pm sma o srcs bdrs, meshOk pm -> caseOf c srcs bdrs ->
  (postProcessInformation c pm (mkPMd sma None None) o = Throw <-> (sma = true /\ so_alpha o = 0%R /\ so_op o = OpHesthaven)) /\
  postProcessInformation c pm (mkPMd sma None None) o <> UB.
Proof. exact post_throw. Qed.
Print Assumptions C82_rejects.
(** The surface of a second source on other tags is dropped. *)
Theorem C82_second_refuted : exists md, postProcessInformation twoWaves pmAll (mkPMd false None None) defaultOptions = Ok md /\
  pd_tfsf md = Some [1; 0; 0; 0; 0] /\ pd_sgbc md = Some [0; 0; 0; 1; 1] /\
  ~ surfaceOf pmAll (tagsOfAll isTotalField [("planewave", [1]); ("dipole", [2])]) (pd_tfsf md).
Proof. exact second_refuted. Qed.
Print Assumptions C82_second_refuted.
(** Two ranks may keep the surfaces of different sources. *)
Theorem C82_ranks_refuted : exists ma mb,
  postProcessInformation twoWaves (mkPM [1; 3] 5) (mkPMd false None None) defaultOptions = Ok ma /\
  postProcessInformation twoWaves (mkPM [2] 5) (mkPMd false None None) defaultOptions = Ok mb /\
  pd_tfsf ma = Some [1; 0; 0; 0; 0] /\ pd_tfsf mb = Some [0; 1; 0; 0; 0].
Proof. exact ranks_refuted. Qed.
Print Assumptions C82_ranks_refuted.
Example C82_case_ex : meshOk pmAll /\ caseOf twoWaves [("planewave", [1]); ("dipole", [2])] [("PEC", [3]); ("SGBC", [4]); ("SGBC", [5])].
Proof. exact (conj pmAll_ok twoWaves_of). Qed.
Example C82_one_ex : (exists md, postProcessInformation oneBox pmAll (mkPMd false None None) defaultOptions = Ok md /\ pd_tfsf md = Some [1; 1; 0; 0; 0] /\ pd_sgbc md = None) /\
  (forall e1 e2 a, In e1 [("planewave", [1; 2]); ("initial", []); ("dipole", [2; 1])] -> In e2 [("planewave", [1; 2]); ("initial", []); ("dipole", [2; 1])] ->
    isTotalField (fst e1) -> isTotalField (fst e2) -> In a (pm_attrs pmAll) -> touches pmAll (snd e1) -> In a (snd e2) -> In a (snd e1)).
Proof. exact (conj oneBox_ex oneBox_same). Qed.

(** C83: the solver made for a thin layer. *)
From Coq Require Import List ZArith Reals.
From Verif Require Import Common Evol_Model Setup_Model Setup_Spec Geo_Model Geo_Spec GeoWall_Proofs Input_Model Wall_Model Wall_Spec Wall_Proofs WallBuild_Proofs WallEx_Proofs.
Import ListNotations.
Open Scope Z_scope.

(** Every wall of a case with layers of a positive width and some cells is built. *)
Theorem C83_from_case : forall f b p checked, parseSGBC f b = Ok p -> sp_layers p <> [] ->
  Forall (fun L => (0 < l_width (sl_layer L))%R /\ (0 < l_segs (sl_layer L))%nat) (sp_layers p) ->
  Forall layerOk (sp_layers p) /\ endOk (sp_left p) /\ endOk (sp_right p) /\ exists w msg, buildWall checked p = Ok (w, msg, true).
Proof. exact case_wall. Qed.
Print Assumptions C83_from_case.
(** Its cells have the materials of their layers, vacuum outside. *)
Theorem C83_materials : forall checked p w msg c, Forall layerOk (sp_layers p) -> endOk (sp_left p) -> endOk (sp_right p) ->
  buildWall checked p = Ok (w, msg, c) ->
  let ls := map sl_layer (sp_layers p) in let g := ghosts ls in
  forall get, get = m_eps \/ get = m_mu \/ get = m_sigma ->
  exists v, fillVector get (md_mat (wl_model w)) = Ok v /\
    (forall i, (i < g)%nat -> exists a b, nth_error (wl_attrs w) i = Some a /\ pwEval v (Z.of_nat a) = Ok (get vac) /\
       nth_error (wl_attrs w) (g + sumSegs (shape ls) + i) = Some b /\ pwEval v (Z.of_nat b) = Ok (get vac)) /\
    (forall k, (k < sumSegs (shape ls))%nat -> exists a l, nth_error (wl_attrs w) (g + k) = Some a /\
       nth_error ls (layerOf (shape ls) k) = Some l /\ pwEval v (Z.of_nat a) = Ok (get (l_mat l))).
Proof. exact wall_materials. Qed.
Print Assumptions C83_materials.
(** The outer points absorb, and the faces of the wall have exactly the conditions asked for. *)
Theorem C83_ends : forall checked p w msg c0, endOk (sp_left p) -> endOk (sp_right p) -> buildWall checked p = Ok (w, msg, c0) ->
  forall c, mapped c ->
  let mk := md_mk (wl_model w) in
  ((exists m, In (c, m) (bdrToMarkerMap mk)) <-> c = SMA) /\ (forall m, In (SMA, m) (bdrToMarkerMap mk) -> m = [1; 1; 0; 0]) /\
  ((exists m, In (c, m) (intBdrToMarkerMap mk)) <-> sp_left p = Some c \/ sp_right p = Some c) /\
  (forall m, In (c, m) (intBdrToMarkerMap mk) -> exists l r, m = [0; 0; l; r] /\
     (l = 1 /\ sp_left p = Some c \/ l = 0 /\ sp_left p <> Some c) /\ (r = 1 /\ sp_right p = Some c \/ r = 0 /\ sp_right p <> Some c)).
Proof. exact wall_ends. Qed.
Print Assumptions C83_ends.
(** The options: the highest order of the layers, full upwinding, an implicit integrator. *)
Theorem C83_options : forall ls, let o := buildSGBCSolverOptions ls in
  so_ode o = 4 /\ so_alpha o = 1%R /\ so_op o = OpGlobal /\
  (exists n, so_order o = Z.of_nat n /\ (1 <= n)%nat /\ (forall l, In l ls -> (l_order l <= n)%nat) /\ (n = 1%nat \/ exists l, In l ls /\ n = l_order l)) /\
  Time_Model.checkOptionsAreValid (timeOptions o) = Ok tt /\ assignODESolver o = Ok 4.
Proof. exact options_ok. Qed.
Print Assumptions C83_options.
(** The recommended step is the smallest of those the layers allow. *)
Theorem C83_step : forall Ls L t, Forall layerOk Ls -> In L Ls -> allowed L t -> (t < maxDouble)%R -> isStep Ls (recommendedStep Ls).
Proof. exact step_is. Qed.
Print Assumptions C83_step.
Theorem C83_step_positive : forall Ls, Forall layerOk Ls -> (0 < recommendedStep Ls)%R.
Proof. exact step_pos. Qed.
Print Assumptions C83_step_positive.
(** In use no part of a step is longer than 25 crossings of a cell, or half of one in the
    layers of at most three skin depths. *)
Theorem C83_substeps : forall checked p w msg c dt m, Forall layerOk (sp_layers p) -> buildWall checked p = Ok (w, msg, c) ->
  (0 < dt)%R -> nsteps (wl_rec w) dt = Ok m -> (dt / wl_rec w <= 2147483647)%R ->
  forall L t, In L (sp_layers p) -> crossingTime L t ->
  (dt / IZR m <= 25 * t)%R /\ ((sl_nskin L <= 3)%R -> (dt / IZR m <= t / 2)%R).
Proof. exact substeps_in_cells. Qed.
Print Assumptions C83_substeps.
(** A copy for another thread is the same wall. *)
Theorem C83_clone : forall checked p w msg c, buildWall checked p = Ok (w, msg, c) -> cloneWall c w = Ok (w, [], true).
Proof. exact clone_same. Qed.
Print Assumptions C83_clone.
(** The messages: one for each conducting layer, by the highest frequency whose skin depth is
    more than a cell. *)
Theorem C83_report : forall ls i k v, In (k, v) (checkResolution i ls) <->
  exists j l, nth_error ls j = Some l /\ k = (i + S j)%nat /\ (0 < m_sigma (l_mat l))%R /\ v = layerVerdict l.
Proof. exact report_in. Qed.
Print Assumptions C83_report.
Theorem C83_verdict : forall L, layerOk L -> (0 < m_sigma (l_mat (sl_layer L)))%R ->
  match layerVerdict (sl_layer L) with
  | Excellent => sees (sl_layer L) (10 ^ 10)
  | WellResolved => sees (sl_layer L) (10 ^ 9) /\ ~ sees (sl_layer L) (10 ^ 10)
  | Coarse => sees (sl_layer L) (10 ^ 6) /\ ~ sees (sl_layer L) (10 ^ 9)
  | SeverelyCoarse => ~ sees (sl_layer L) (10 ^ 6)
  end.
Proof. exact verdict_spec. Qed.
Print Assumptions C83_verdict.
(** Every wall of a process is built from its own properties; only the first prints. *)
Theorem C83_walls : forall ps checked ws ms c, buildWalls checked ps = Ok (ws, ms, c) ->
  Forall2 (fun p w => exists k m c, buildWall k p = Ok (w, m, c)) ps ws /\
  (checked = true -> Forall (fun m => m = []) ms) /\ Forall (fun m => m = []) (tl ms) /\ List.length ms = List.length ps.
Proof. exact walls_messages. Qed.
Print Assumptions C83_walls.
(** Finding: a severely coarse second wall is not reported. *)
Theorem C83_report_refuted : exists ws ms c, buildWalls false [exFine; exBad] = Ok (ws, ms, c) /\ nth_error ms 1 = Some [] /\
  checkResolution 0 (map sl_layer (sp_layers exBad)) = [(1%nat, SeverelyCoarse)].
Proof. exact report_lost. Qed.
Print Assumptions C83_report_refuted.
(** Finding: the inside of a wall with a clear layer whose cells are crossed in less than 2e-9
    (two nanometres in vacuum) is never advanced. *)
Theorem C83_thin_refuted : forall checked p w msg c L t inv W base dt gh s d s' d', Forall layerOk (sp_layers p) -> buildWall checked p = Ok (w, msg, c) ->
  In L (sp_layers p) -> crossingTime L t -> (sl_nskin L <= 3)%R -> (t < 2 / 1000000000)%R ->
  w_rec W = wl_rec w -> (1 / 1000000000 <= dt)%R -> (dt / wl_rec w <= 2147483647)%R ->
  (forall a k all, gh a k all = Ok all) -> advance inv W base dt gh s d = Ok (s', d') -> s_fs s' = s_fs s.
Proof. exact thin_wall. Qed.
Print Assumptions C83_thin_refuted.
Example C83_thin_ex : layerOk exThin /\ crossingTime exThin (1 / 4000000000) /\ (sl_nskin exThin <= 3)%R.
Proof. exact ex_thin. Qed.
(** Finding: a copy of a wall closed by PEC has open ends. *)
Theorem C83_clone_refuted : exists p w msg w', sp_layers p <> [] /\ buildWallWithPEC false p = Ok (w, msg, true) /\ cloneWall true w = Ok (w', [], true) /\
    md_int (wl_model w) = [(3, PEC); (4, PEC)] /\ md_int (wl_model w') = [].
Proof. exact pec_clone_ex. Qed.
Print Assumptions C83_clone_refuted.
(** Finding: a wall without layers, which the case reader accepts (C81_empty_refuted), is not built. *)
Theorem C83_empty_refuted : forall p, sp_layers p = [] -> buildWall false p = UB \/ buildWall false p = Throw.
Proof. exact empty_wall. Qed.
Print Assumptions C83_empty_refuted.
Example C83_wall_ex : Forall layerOk (sp_layers exWall) /\ sp_layers exWall <> [] /\ endOk (sp_left exWall) /\ endOk (sp_right exWall).
Proof. exact ex_ok. Qed.
Example C83_step_ex : isStep (sp_layers exWall) (1 / 4) /\ recommendedStep (sp_layers exWall) = (1 / 4)%R.
Proof. exact ex_step. Qed.

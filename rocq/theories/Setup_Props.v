(** C35 to C38: materials, coefficients, markers and boundary conditions of a case. *)
From Coq Require Import String ZArith List Bool Reals.
From Verif Require Import Common Setup_Model Setup_Spec Setup_Proofs SetupBdr_Proofs SetupEx_Proofs.
Import ListNotations.
Local Open Scope Z_scope.

(** ** C35 *)
(** Accepted inputs, and the material of each tag. *)
Theorem C35_assignment : forall Z0 ms bs sm a b, assembleAttributeToMaterial Z0 ms bs sm = Ok (a, b) ->
  (forall t, mfind t a = option_map (materialOf Z0) (firstFor t (matsIn ms))) /\
  (forall t, mfind t b = option_map (materialOf Z0) (firstFor t (bdrMatsIn bs))) /\ ascending a /\ ascending b.
Proof. exact materials_first. Qed.
Print Assumptions C35_assignment.
Theorem C35_accepted : forall Z0 ms bs sm,
  (forall e, In e ms -> me_tags e <> [] -> physical (materialOf Z0 (me_mat e))) ->
  (forall ts i, In (ts, i) (bdrMatsIn bs) -> ts <> [] -> physical (materialOf Z0 i)) ->
  (forall t, listed t (matsIn ms) -> In t (sm_attrs sm)) -> (forall t, listed t (bdrMatsIn bs) -> In t (sm_battrs sm)) ->
  exists a b, assembleAttributeToMaterial Z0 ms bs sm = Ok (a, b) /\ ascending a /\ ascending b /\
    (forall t, mfind t a = option_map (materialOf Z0) (firstFor t (matsIn ms))) /\
    (forall t, mfind t b = option_map (materialOf Z0) (firstFor t (bdrMatsIn bs))).
Proof. exact materials_ok. Qed.
Print Assumptions C35_accepted.
(** Anything else is refused. *)
Theorem C35_refused : forall Z0 ms bs sm,
  (exists a b, assembleAttributeToMaterial Z0 ms bs sm = Ok (a, b) /\
    (forall e, In e ms -> me_tags e <> [] -> physical (materialOf Z0 (me_mat e))) /\
    (forall ts i, In (ts, i) (bdrMatsIn bs) -> ts <> [] -> physical (materialOf Z0 i)) /\
    (forall t, listed t (matsIn ms) -> In t (sm_attrs sm)) /\ (forall t, listed t (bdrMatsIn bs) -> In t (sm_battrs sm))) \/
  assembleAttributeToMaterial Z0 ms bs sm = Throw.
Proof. exact materials_inv. Qed.
Print Assumptions C35_refused.
Theorem C35_physical : forall Z0 ms bs sm a b, assembleAttributeToMaterial Z0 ms bs sm = Ok (a, b) ->
  forall t m, In (t, m) (a ++ b) -> physical m.
Proof. exact materials_physical. Qed.
Print Assumptions C35_physical.
Theorem C35_wave : forall m, physical m -> m_sigma m = 0%R ->
  exists z y c, getImpedance m = Ok z /\ getAdmittance m = Ok y /\ getSpeedOfWave m = Ok c /\
    (z * y = 1 /\ 0 < z /\ 0 < c <= 1 /\ c * c * (m_eps m * m_mu m) = 1 /\ z * m_eps m * c = 1)%R.
Proof. exact wave_values. Qed.
Print Assumptions C35_wave.
Theorem C35_wave_lossy : forall m, m_sigma m <> 0%R -> getImpedance m = Throw /\ getAdmittance m = Throw /\ getSpeedOfWave m = Throw.
Proof. exact wave_lossy. Qed.
Print Assumptions C35_wave_lossy.
Example C35_case : exists a b, assembleAttributeToMaterial 1 exMs exBs exSM = Ok (a, b) /\
  mfind 2 a = Some (mkMat 2 1 0) /\ mfind 1 a = Some (mkMat 1 1 (3 * 1)).
Proof. exact exMs_ok. Qed.

(** ** C36 *)
Theorem C36_vector : forall get mats, ascending mats -> Forall (fun p => 1 <= fst p) mats ->
  exists v, fillVector get mats = Ok v /\
    (forall t m, In (t, m) mats -> pwEval v t = Ok (get m)) /\
    (forall t, (forall m, ~ In (t, m) mats) -> pwEval v t = Ok 0%R \/ pwEval v t = UB) /\
    (forall t, pwEval v t <> UB <-> 1 <= t /\ exists p, In p mats /\ t <= fst p).
Proof. exact fill_vector. Qed.
Print Assumptions C36_vector.
Theorem C36_epsmu : forall Z0 ms bs sm a b isE, assembleAttributeToMaterial Z0 ms bs sm = Ok (a, b) ->
  (forall t, In t (sm_attrs sm) -> 1 <= t) ->
  exists v, buildEpsMuPiecewiseVector isE a = Ok v /\
    (forall t i, firstFor t (matsIn ms) = Some i -> pwEval v t = Ok ((if isE then m_eps else m_mu) (materialOf Z0 i))) /\
    (forall t, ~ listed t (matsIn ms) -> pwEval v t = Ok 0%R \/ pwEval v t = UB).
Proof. exact epsmu_of_input. Qed.
Print Assumptions C36_epsmu.
Theorem C36_sigma : forall Z0 ms bs sm a b, assembleAttributeToMaterial Z0 ms bs sm = Ok (a, b) ->
  (forall t, In t (sm_attrs sm) -> 1 <= t) ->
  exists v, buildSigmaPiecewiseVector a = Ok v /\
    (forall t i, firstFor t (matsIn ms) = Some i -> pwEval v t = Ok (m_sigma (materialOf Z0 i))) /\
    (forall t, ~ listed t (matsIn ms) -> pwEval v t = Ok 0%R \/ pwEval v t = UB).
Proof. exact sigma_of_input. Qed.
Print Assumptions C36_sigma.
(** Elements without a material are accepted. *)
Theorem C36_missing_refuted : exists ms bs sm a b v, assembleAttributeToMaterial 1 ms bs sm = Ok (a, b) /\
  In 1 (sm_attrs sm) /\ In 3 (sm_attrs sm) /\ buildEpsMuPiecewiseVector true a = Ok v /\ pwEval v 1 = Ok 0%R /\ pwEval v 3 = UB.
Proof. exact missing_material. Qed.
Print Assumptions C36_missing_refuted.

(** ** C37 *)
Theorem C37_markers : forall gt2m gt2b gt2ib battrs n, arrayMax battrs = Ok n -> tagsFit n gt2b -> tagsFit n gt2ib ->
  exists md, newModel gt2m gt2b gt2ib battrs = Ok md /\ md_bdr md = gt2b /\ md_int md = gt2ib /\
    forall c, mapped c ->
      (forall m, In (c, m) (bdrToMarkerMap (md_mk md)) -> marks n gt2b c m) /\
      ((exists m, In (c, m) (bdrToMarkerMap (md_mk md))) <-> exists t, In (t, c) gt2b) /\
      (forall m, In (c, m) (intBdrToMarkerMap (md_mk md)) -> marks n gt2ib c m) /\
      ((exists m, In (c, m) (intBdrToMarkerMap (md_mk md))) <-> exists t, In (t, c) gt2ib).
Proof. exact model_markers. Qed.
Print Assumptions C37_markers.
Example C37_case : tagsFit 6 [(5, SMA)] /\ tagsFit 6 [(6, PEC)] /\ arrayMax (sm_battrs exSM) = Ok 6.
Proof. exact exMk_ok. Qed.
(** From the input file to the markers. *)
Theorem C37_from_input : forall bs sm n gt2m, wfSM sm -> Forall entryOk bs -> arrayMax (sm_battrs sm) = Ok n ->
  (forall t, listed t (condsIn bs) -> 1 <= t <= n) ->
  exists gb gi md, assembleAttributeToBoundary bs sm = Ok (gb, gi) /\ newModel gt2m gb gi (sm_battrs sm) = Ok md /\
    forall c, mapped c ->
      ((exists m, In (c, m) (bdrToMarkerMap (md_mk md))) <->
         exists t s, firstFor t (condsIn bs) = Some s /\ condNamed s c /\ ~ onInterior sm t) /\
      ((exists m, In (c, m) (intBdrToMarkerMap (md_mk md))) <->
         exists t s, firstFor t (condsIn bs) = Some s /\ condNamed s c /\ onInterior sm t) /\
      (forall m, In (c, m) (bdrToMarkerMap (md_mk md)) -> Z.of_nat (length m) = n /\ forall t, 1 <= t <= n ->
         (zget m (t - 1) = Ok 1 /\ (exists s, firstFor t (condsIn bs) = Some s /\ condNamed s c /\ ~ onInterior sm t) \/
          zget m (t - 1) = Ok 0 /\ ~ (exists s, firstFor t (condsIn bs) = Some s /\ condNamed s c /\ ~ onInterior sm t))) /\
      (forall m, In (c, m) (intBdrToMarkerMap (md_mk md)) -> Z.of_nat (length m) = n /\ forall t, 1 <= t <= n ->
         (zget m (t - 1) = Ok 1 /\ (exists s, firstFor t (condsIn bs) = Some s /\ condNamed s c /\ onInterior sm t) \/
          zget m (t - 1) = Ok 0 /\ ~ (exists s, firstFor t (condsIn bs) = Some s /\ condNamed s c /\ onInterior sm t))).
Proof. exact input_markers. Qed.
Print Assumptions C37_from_input.
Example C37_input_case : wfSM exSM /\ Forall entryOk exBs /\ arrayMax (sm_battrs exSM) = Ok 6 /\ (forall t, listed t (condsIn exBs) -> 1 <= t <= 6) /\
  (exists s, firstFor 6 (condsIn exBs) = Some s /\ condNamed s PEC /\ onInterior exSM 6).
Proof. exact exInput. Qed.
(** A tag the mesh does not have is accepted by the driver and written out of bounds. *)
Theorem C37_unknown_tag_refuted : exists bs sm gb gi, wfSM sm /\ Forall entryOk bs /\
  assembleAttributeToBoundary bs sm = Ok (gb, gi) /\ newModel [] gb gi (sm_battrs sm) = UB.
Proof. exact unknown_tag. Qed.
Print Assumptions C37_unknown_tag_refuted.

(** ** C38 *)
Theorem C38_assignment : forall bs sm, wfSM sm -> Forall entryOk bs ->
  exists gb gi, assembleAttributeToBoundary bs sm = Ok (gb, gi) /\ ascending gb /\ ascending gi /\
    (forall t c, mfind t gb = Some c <-> (exists s, firstFor t (condsIn bs) = Some s /\ condNamed s c) /\ ~ onInterior sm t) /\
    (forall t c, mfind t gi = Some c <-> (exists s, firstFor t (condsIn bs) = Some s /\ condNamed s c) /\ onInterior sm t).
Proof. exact boundary_assign. Qed.
Print Assumptions C38_assignment.
Theorem C38_refused : forall bs sm, wfSM sm -> ~ Forall entryOk bs -> assembleAttributeToBoundary bs sm = Throw.
Proof. exact boundary_refused. Qed.
Print Assumptions C38_refused.
Example C38_case : wfSM exSM /\ Forall entryOk exBs /\ assembleAttributeToBoundary exBs exSM = Ok ([(5, SMA)], [(6, PEC)]).
Proof. exact (conj exSM_wf (conj exBs_ok exBs_run)). Qed.
(** An outer face whose tag also appears inside has no outer condition. *)
Theorem C38_outer_refuted : exists bs sm gb gi f b tag, wfSM sm /\ Forall entryOk bs /\
  assembleAttributeToBoundary bs sm = Ok (gb, gi) /\
  nth_error (sm_f2b sm) f = Some b /\ b <> -1 /\ nth_error (sm_inter sm) f = Some false /\ zget (sm_bdrAttr sm) b = Ok tag /\
  (exists s c, firstFor tag (condsIn bs) = Some s /\ condNamed s c) /\ mfind tag gb = None.
Proof. exact outer_lost. Qed.
Print Assumptions C38_outer_refuted.

From Coq Require Import String List ZArith Reals Lia Lra Bool ZifyBool.
From Flocq Require Import Core.
From Verif Require Import Common Probe_Model Setup_Model Geo_Model Time_Model Input_Model Input_Spec Input_Proofs InputLayer_Proofs InputWall_Proofs InputMark_Proofs.
Import ListNotations.
Open Scope string_scope.
Open Scope Z_scope.

(** ** Options *)
Definition opts (l : list (string * json)) : json := JObj [("solver_options", JObj l)].

Lemma order_refuted : exists o, buildSolverOptions (opts []) = Ok o /\ buildSolverOptions (JObj []) = Ok o /\ so_order o <> 3.
Proof. exists defaultOptions. repeat split; discriminate. Qed.
Lemma string_refuted : buildSolverOptions (opts [("ode_type", JStr "RK4")]) = Throw /\ buildSolverOptions (opts [("basis_type", JStr "GaussLobatto")]) = Throw.
Proof. split; reflexivity. Qed.
Lemma range_refuted : exists o, acceptOptions (opts [("cfl", JInt 5); ("upwind_alpha", JInt (-3)); ("time_step", JInt (-1))]) = Ok o /\
  (1 < so_cfl o)%R /\ (so_alpha o < 0)%R /\ (so_dt o < 0)%R.
Proof.
  exists (mkSO (-1) 2 5 1 0 OpGlobal 2 (-3) false false). split; [|cbn; lra].
  apply accept_iff. split; [apply options_iff; reflexivity|]. cbn. repeat split; try lra; lia.
Qed.
Lemma unknown_key : forall k v, ~ In k ["upwind_alpha"; "time_step"; "final_time"; "cfl"; "order"; "spectral"; "export_operator"; "evolution_operator"; "basis_type"; "ode_type"] ->
  forall l, buildSolverOptions (opts ((k, v) :: l)) = buildSolverOptions (opts l).
Proof.
  intros k v N l. unfold buildSolverOptions, opts. cbn [contains jlookup jat bind]. rewrite String.eqb_refl. cbn [bind].
  assert (R : forall A (conv : json -> res A) set k' o, k <> k' -> readOption conv set (JObj ((k, v) :: l)) k' o = readOption conv set (JObj l) k' o).
  { intros A conv set k' o D. unfold readOption. cbn [contains jat jlookup].
    destruct (String.eqb_spec k' k) as [->|_]; [congruence|reflexivity]. }
  assert (Q : forall {A B} (m : res A) (f g : A -> res B), (forall a, f a = g a) -> bind m f = bind m g).
  { intros A B m f g E. destruct m; cbn [bind]; auto. }
  cbn [In] in N.
  repeat (rewrite R by (intros E; apply N; auto 20); apply Q; intros ?). apply R. intros E; apply N; auto 20.
Qed.
Definition exOpts : json := opts [("order", JInt 3); ("evolution_operator", JStr "hesthaven"); ("final_time", JReal 10); ("spectral", JBool true)].
Lemma options_ex : acceptOptions exOpts = Ok (mkSO 0 10 1 1 0 OpHesthaven 3 1 true false).
Proof.
  apply accept_iff. split; [apply options_iff; reflexivity|]. cbn. repeat split; try lra; lia.
Qed.
Lemma rejects_ex : acceptOptions (opts [("evolution_operator", JStr "Global")]) = Throw /\ acceptOptions (opts [("final_time", JStr "10")]) = Throw /\
  acceptOptions (opts [("ode_type", JInt (-1))]) = Throw /\ acceptOptions (opts [("order", JInt (-1))]) = Throw.
Proof.
  repeat split; try reflexivity. unfold acceptOptions.
  replace (buildSolverOptions (opts [("ode_type", JInt (-1))])) with (Ok (setODEType 18446744073709551615 defaultOptions)) by reflexivity.
  cbn [bind]. unfold checkOptionsAreValid. cbn [timeOptions o_order o_final_time o_cfl setODEType defaultOptions so_order so_dt so_tf so_cfl].
  change (2 <? 0) with false. destruct (Rlt_dec 2 0); [lra|]. destruct (Rle_dec 1 0); [lra|]. reflexivity.
Qed.

(** ** Layers *)
Definition vacLayer (w : Z) (extra : list (string * json)) : json := JObj (("bulk_conductivity", JInt 0) :: ("material_width", JInt w) :: extra).
Definition GHz : R := 1000000000.
Lemma vac_in : forall w extra, absent (JObj extra) "relative_permittivity" -> absent (JObj extra) "relative_permeability" ->
  layerIn (vacLayer w extra) 1 1 0 (IZR w).
Proof.
  intros w extra A1 A2. apply contains_false in A1. apply contains_false in A2. cbn [contains] in A1, A2.
  constructor.
  - right. split; [|reflexivity]. apply contains_false. exact A1.
  - right. split; [|reflexivity]. apply contains_false. exact A2.
  - exists (JInt 0). split; [apply given_lookup; eexists; split; reflexivity|constructor].
  - exists (JInt w). split; [apply given_lookup; eexists; split; reflexivity|constructor].
  - lra.
Qed.
Lemma vac_order : autoOrder GHz 0 (1 * vacuumPermittivitySI) = 4.
Proof. unfold autoOrder. destruct (Rlt_dec 0 0); [lra|]. destruct (Rlt_dec 0 (/ 1000)); [reflexivity|lra]. Qed.
Lemma vac_wave : (1 / 4 < wavelength GHz (1 * vacuumPermeabilitySI) (1 * vacuumPermittivitySI) < 34 / 100)%R.
Proof.
  unfold wavelength, GHz. rewrite !Rmult_1_l. set (p := (vacuumPermeabilitySI * vacuumPermittivitySI)%R).
  assert (B : (9 / 1000000000000000000 < p < 16 / 1000000000000000000)%R).
  { unfold p, vacuumPermeabilitySI, vacuumPermittivitySI. pose proof PI_4. pose proof PI2_3_2 as P3.
    assert (3 < PI)%R by lra. lra. }
  assert (S : (3 / 1000000000 < sqrt p < 4 / 1000000000)%R).
  { split.
    - rewrite <- (sqrt_square (3 / 1000000000)) by lra. apply sqrt_lt_1; lra.
    - rewrite <- (sqrt_square (4 / 1000000000)) by lra. apply sqrt_lt_1; lra. }
  set (s := sqrt p) in *. assert (Q : (0 < 1000000000 * s)%R) by lra.
  split; (apply (Rmult_lt_reg_r (1000000000 * s)); [exact Q|]).
  - replace (1 / (1000000000 * s) * (1000000000 * s))%R with 1%R by (field; lra). lra.
  - replace (1 / (1000000000 * s) * (1000000000 * s))%R with 1%R by (field; lra). lra.
Qed.
Lemma vac_segs : forall w, 0 < w < 100000000 -> exists n, autoSegments GHz (1 * vacuumPermeabilitySI) (1 * vacuumPermittivitySI) 0 (IZR w) 4 = Ok n /\
  n = Z.min 1000 (Z.max 4 (Zceil (IZR w / (wavelength GHz (1 * vacuumPermeabilitySI) (1 * vacuumPermittivitySI) / 5)))) /\
  Z.min 1000 (Z.max 4 (14 * w)) <= n <= Z.min 1000 (Z.max 4 (20 * w)).
Proof.
  intros w Hw. pose proof vac_wave as W. set (wl := wavelength GHz (1 * vacuumPermeabilitySI) (1 * vacuumPermittivitySI)) in *.
  assert (Hr : (0 < IZR w)%R) by (apply IZR_lt; lia).
  assert (T : targetDx GHz (1 * vacuumPermeabilitySI) (1 * vacuumPermittivitySI) 0 4 = (wl / 5)%R).
  { unfold targetDx. destruct (Rlt_dec 0 0); [lra|]. fold wl. replace (Zceil (20 / 4)) with 5; [reflexivity|].
    symmetry; apply Zceil_imp. cbn. lra. }
  assert (B : (14 * IZR w < IZR w / (wl / 5) < 20 * IZR w)%R).
  { split; apply (Rmult_lt_reg_r (wl / 5)); try lra;
      replace (IZR w / (wl / 5) * (wl / 5))%R with (IZR w) by (field; lra).
    - rewrite <- (Rmult_1_l (IZR w)) at 2. replace (14 * IZR w * (wl / 5))%R with (14 / 5 * wl * IZR w)%R by field. apply Rmult_lt_compat_r; lra.
    - rewrite <- (Rmult_1_l (IZR w)) at 1. replace (20 * IZR w * (wl / 5))%R with (4 * wl * IZR w)%R by field. apply Rmult_lt_compat_r; lra. }
  assert (C : 14 * w <= Zceil (IZR w / (wl / 5)) <= 20 * w).
  { split.
    - apply le_IZR. rewrite mult_IZR. eapply Rle_trans; [left; apply B|apply Zceil_ub].
    - apply Zceil_glb. rewrite mult_IZR. left; apply B. }
  exists (Z.min 1000 (Z.max 4 (Zceil (IZR w / (wl / 5))))). split; [|split; [reflexivity|lia]].
  unfold autoSegments. rewrite T. destruct (Req_EM_T GHz 0) as [E|_]; [unfold GHz in E; lra|].
  unfold ceil_int. destruct ((-2147483648 <=? Zceil (IZR w / (wl / 5))) && (Zceil (IZR w / (wl / 5)) <=? 2147483647))%bool eqn:E; [reflexivity|lia].
Qed.
Lemma vac_parse : forall w extra, 0 < w < 100000000 -> absent (JObj extra) "relative_permittivity" -> absent (JObj extra) "relative_permeability" ->
  forall segs order, (forall n, Z.min 1000 (Z.max 4 (14 * w)) <= n <= Z.min 1000 (Z.max 4 (20 * w)) -> optionIs whole64 (vacLayer w extra) "num_of_segments" n (segs n)) ->
  optionIs whole64 (vacLayer w extra) "order" 4 order ->
  exists n, Z.min 1000 (Z.max 4 (14 * w)) <= n <= Z.min 1000 (Z.max 4 (20 * w)) /\
  parseSGBCLayer GHz (vacLayer w extra) = Ok (mkSL (mkLayer (mkMat 1 1 0) (IZR w) (Z.to_nat (segs n)) (Z.to_nat order)) 0).
Proof.
  intros w extra Hw A1 A2 segs order Hs Ho. destruct (vac_segs w Hw) as (n & En & _ & Bn). exists n. split; [exact Bn|].
  apply parse_iff. exists 1%R, 1%R, 0%R, (IZR w), n, (segs n), order. rewrite vac_order.
  split; [apply vac_in; assumption|]. split; [exact En|]. split; [apply Hs; exact Bn|]. split; [exact Ho|].
  f_equal.
  - rewrite Rmult_0_l. reflexivity.
  - unfold nSkinDepths. destruct (Rlt_dec 0 0); [lra|reflexivity].
Qed.
Lemma absent_nil : forall k, absent (JObj []) k.
Proof. intros k. apply contains_false. reflexivity. Qed.
Lemma vac_wavelength : isWavelength GHz 1 1 (wavelength GHz (1 * vacuumPermeabilitySI) (1 * vacuumPermittivitySI)).
Proof. apply wavelength_is; [unfold GHz; lra| |]; rewrite Rmult_1_l; [apply eps0_pos|apply mu0_pos]. Qed.

(** A wide layer meets the bound of 1000 cells. *)
Lemma bound_refuted : exists j L, parseSGBCLayer GHz j = Ok L /\ absent j "num_of_segments" /\ absent j "order" /\ layerIn j 1 1 0 1000 /\
  ~ resolves GHz 1 1 0 (l_order (sl_layer L)) (1000 / INR (l_segs (sl_layer L))).
Proof.
  destruct (vac_parse 1000 [] ltac:(lia) (absent_nil _) (absent_nil _) (fun n => n) 4) as (n & Bn & E).
  - intros n _. right. split; [|reflexivity]. apply contains_false. reflexivity.
  - right. split; [|reflexivity]. apply contains_false. reflexivity.
  - exists (vacLayer 1000 []). eexists. split; [exact E|].
    split; [apply contains_false; reflexivity|]. split; [apply contains_false; reflexivity|]. split; [apply vac_in; apply absent_nil|].
    cbn [sl_layer l_order l_segs]. intros [R _]. specialize (R _ vac_wavelength). pose proof vac_wave as W.
    assert (n = 1000) as -> by lia. rewrite INR_IZR_INZ in R. rewrite Z2Nat.id in R by lia.
    rewrite INR_IZR_INZ in R. rewrite Z2Nat.id in R by lia. lra.
Qed.
(** An order given without a number of cells. *)
Lemma override_refuted : exists j L, parseSGBCLayer GHz j = Ok L /\ absent j "num_of_segments" /\ layerIn j 1 1 0 1 /\
  (l_segs (sl_layer L) < 1000)%nat /\ ~ resolves GHz 1 1 0 (l_order (sl_layer L)) (1 / INR (l_segs (sl_layer L))).
Proof.
  destruct (vac_parse 1 [("order", JInt 1)] ltac:(lia)) with (segs := fun n : Z => n) (order := 1) as (n & Bn & E).
  - apply contains_false; reflexivity.
  - apply contains_false; reflexivity.
  - intros n _. right. split; [|reflexivity]. apply contains_false. reflexivity.
  - left. exists (JInt 1). split; [apply given_lookup; eexists; split; reflexivity|]. constructor; [exists 0; ring|lia].
  - exists (vacLayer 1 [("order", JInt 1)]). eexists. split; [exact E|].
    split; [apply contains_false; reflexivity|]. split; [apply vac_in; apply contains_false; reflexivity|].
    cbn [sl_layer l_order l_segs]. split; [lia|]. intros [R _]. specialize (R _ vac_wavelength). pose proof vac_wave as W.
    rewrite INR_IZR_INZ in R. rewrite Z2Nat.id in R by lia. rewrite INR_IZR_INZ in R. rewrite Z2Nat.id in R by lia.
    assert (Bn' : (14 <= IZR n <= 20)%R) by (split; apply IZR_le; lia).
    assert (Q : (1 / IZR n * 20 >= 1)%R).
    { apply Rle_ge. apply (Rmult_le_reg_r (IZR n)); [lra|]. replace (1 / IZR n * 20 * IZR n)%R with 20%R by (field; lra). lra. }
    lra.
Qed.
(** Layers without cells and walls without layers are accepted. *)
Lemma empty_refuted :
  (exists L, parseSGBCLayer GHz (vacLayer 1 [("num_of_segments", JInt 0)]) = Ok L /\ l_segs (sl_layer L) = 0%nat) /\
  (exists p, parseSGBC GHz (JObj [("type", JStr "SGBC"); ("tags", JArr [JInt 2]); ("layers", JArr [])]) = Ok p /\ sp_layers p = []).
Proof.
  split.
  - destruct (vac_parse 1 [("num_of_segments", JInt 0)] ltac:(lia)) with (segs := fun n : Z => 0) (order := 4) as (n & Bn & E).
    + apply contains_false; reflexivity.
    + apply contains_false; reflexivity.
    + intros n _. left. exists (JInt 0). split; [apply given_lookup; eexists; split; reflexivity|]. constructor; [exists 0; ring|lia].
    + right. split; [|reflexivity]. apply contains_false. reflexivity.
    + eexists. split; [exact E|]. reflexivity.
  - eexists. split; reflexivity.
Qed.
Lemma width_refuted : exists L, parseSGBCLayer GHz (vacLayer (-1) []) = Ok L /\ (l_width (sl_layer L) < 0)%R /\ l_segs (sl_layer L) = 4%nat.
Proof.
  pose proof vac_wave as W. set (wl := wavelength GHz (1 * vacuumPermeabilitySI) (1 * vacuumPermittivitySI)) in *.
  assert (E : autoSegments GHz (1 * vacuumPermeabilitySI) (1 * vacuumPermittivitySI) 0 (-1) 4 = Ok 4).
  { unfold autoSegments. destruct (Req_EM_T GHz 0) as [E|_]; [unfold GHz in E; lra|].
    unfold targetDx. destruct (Rlt_dec 0 0); [lra|]. fold wl. replace (Zceil (20 / 4)) with 5 by (symmetry; apply Zceil_imp; cbn; lra).
    assert (B : (-20 < -1 / (wl / 5) < 0)%R).
    { split; apply (Rmult_lt_reg_r (wl / 5)); try lra; replace (-1 / (wl / 5) * (wl / 5))%R with (-1)%R by (field; lra); lra. }
    assert (C : -20 <= Zceil (-1 / (wl / 5)) <= 0).
    { split; [apply le_IZR; eapply Rle_trans; [left; apply B|apply Zceil_ub]|apply Zceil_glb; left; apply B]. }
    unfold ceil_int. destruct ((-2147483648 <=? Zceil (-1 / (wl / 5))) && (Zceil (-1 / (wl / 5)) <=? 2147483647))%bool eqn:Q; [|lia].
    cbn [bind]. f_equal. lia. }
  eexists. split.
  - apply parse_iff. exists 1%R, 1%R, 0%R, (-1)%R, 4, 4, 4. rewrite vac_order.
    split; [apply (vac_in (-1) []); apply absent_nil|]. split; [exact E|].
    split; [right; split; [apply contains_false; reflexivity|reflexivity]|].
    split; [right; split; [apply contains_false; reflexivity|reflexivity]|]. reflexivity.
  - cbn. split; [lra|reflexivity].
Qed.
Lemma layer_ex : exists j L, parseSGBCLayer GHz j = Ok L /\ absent j "num_of_segments" /\ absent j "order" /\ layerIn j 1 1 0 1 /\
  (l_segs (sl_layer L) < 1000)%nat /\ l_order (sl_layer L) = 4%nat.
Proof.
  destruct (vac_parse 1 [] ltac:(lia) (absent_nil _) (absent_nil _) (fun n => n) 4) as (n & Bn & E).
  - intros n _. right. split; [|reflexivity]. apply contains_false. reflexivity.
  - right. split; [|reflexivity]. apply contains_false. reflexivity.
  - exists (vacLayer 1 []). eexists. split; [exact E|].
    split; [apply contains_false; reflexivity|]. split; [apply contains_false; reflexivity|]. split; [apply (vac_in 1 []); apply absent_nil|].
    cbn [sl_layer l_segs l_order]. split; [lia|reflexivity].
Qed.

(** The layers win over the material, and the ends of the material are still read. *)
Definition bothWall : json := JObj [("type", JStr "SGBC"); ("tags", JArr [JInt 2; JInt 5]); ("layers", JArr [vacLayer 1 []; vacLayer 2 []]);
  ("material", JObj [("sgbc_boundaries", JObj [("left", JStr "PEC")])])].
Lemma both_ex : exists p, parseSGBC GHz bothWall = Ok p /\ sp_tags p = [2; 5] /\ map (fun L => l_width (sl_layer L)) (sp_layers p) = [1%R; 2%R] /\
  sp_left p = Some PEC /\ sp_right p = None.
Proof.
  assert (H : forall w, 0 < w < 100 -> exists L, parseSGBCLayer GHz (vacLayer w []) = Ok L /\ l_width (sl_layer L) = IZR w).
  { intros w Hw. destruct (vac_parse w [] ltac:(lia) (absent_nil _) (absent_nil _) (fun n => n) 4) as (n & Bn & E).
    - intros n _. right. split; [|reflexivity]. apply contains_false. reflexivity.
    - right. split; [|reflexivity]. apply contains_false. reflexivity.
    - eexists. split; [exact E|reflexivity]. }
  destruct (H 1 ltac:(lia)) as (L1 & E1 & W1). destruct (H 2 ltac:(lia)) as (L2 & E2 & W2).
  exists (mkSP [2; 5] [L1; L2] (Some PEC) None). cbn [sp_tags sp_layers sp_left sp_right map]. rewrite W1, W2.
  split; [|auto]. apply wall_iff. constructor; cbn [sp_tags sp_layers sp_left sp_right].
  - exists (JArr [JInt 2; JInt 5]), [JInt 2; JInt 5]. split; [apply given_lookup; eexists; split; reflexivity|].
    split; [left; reflexivity|]. constructor; [constructor; [exists 0; ring|lia]|]. constructor; [constructor; [exists 0; ring|lia]|constructor].
  - left. eexists. split; [apply given_lookup; eexists; split; reflexivity|]. constructor; [exact E1|]. constructor; [exact E2|constructor].
  - right. split; [intros sb G; apply given_contains in G as [C _]; discriminate|].
    split; [intros sb G; apply given_contains in G as [C _]; discriminate|].
    eexists. split; [apply given_lookup; eexists; split; reflexivity|]. split.
    + eexists; eexists. split; [apply given_lookup; eexists; split; reflexivity|].
      split; [apply given_lookup; eexists; split; reflexivity|constructor].
    + intros sb G. apply given_contains in G as [_ G]. cbn in G. injection G as <-. apply contains_false. reflexivity.
Qed.

(** ** Markers *)
Definition srcJ (ty : string) (tags : list Z) : json := JObj [("type", JStr ty); ("tags", JArr (map JInt tags))].
Definition caseJ (srcs bdrs : list (string * list Z)) : json :=
  JObj [("sources", JArr (map (fun e => srcJ (fst e) (snd e)) srcs)); ("model", JObj [("boundaries", JArr (map (fun e => srcJ (fst e) (snd e)) bdrs))])].
Lemma srcJ_entry : forall ty tags, Forall (fun t => 0 < t < 2^31) tags -> entry (srcJ ty tags) ty tags.
Proof.
  intros ty tags F. split; [apply given_lookup; eexists; split; reflexivity|]. split; [apply given_lookup; eexists; split; reflexivity|exact F].
Qed.
Lemma caseJ_of : forall srcs bdrs, Forall (fun e => Forall (fun t => 0 < t < 2^31) (snd e)) srcs ->
  Forall (fun e => Forall (fun t => 0 < t < 2^31) (snd e)) bdrs -> caseOf (caseJ srcs bdrs) srcs bdrs.
Proof.
  assert (G : forall es, Forall (fun e : string * list Z => Forall (fun t => 0 < t < 2^31) (snd e)) es ->
    Forall2 (fun j e => entry j (fst e) (snd e)) (map (fun e => srcJ (fst e) (snd e)) es) es).
  { induction 1; cbn [map]; constructor; [apply srcJ_entry; assumption|assumption]. }
  intros srcs bdrs F1 F2. split.
  - eexists. split; [apply given_lookup; eexists; split; reflexivity|]. apply G; exact F1.
  - eexists. split; [apply given_lookup; eexists; split; reflexivity|].
    eexists. split; [apply given_lookup; eexists; split; reflexivity|]. apply G; exact F2.
Qed.
Definition twoWaves : json := caseJ [("planewave", [1]); ("dipole", [2])] [("PEC", [3]); ("SGBC", [4]); ("SGBC", [5])].
Lemma twoWaves_of : caseOf twoWaves [("planewave", [1]); ("dipole", [2])] [("PEC", [3]); ("SGBC", [4]); ("SGBC", [5])].
Proof. apply caseJ_of; repeat (constructor; cbn [snd]; try lia). Qed.
Definition pmAll : pmesh := mkPM [1; 2; 3; 4; 5] 5.
Lemma pmAll_ok : meshOk pmAll.
Proof. unfold meshOk; cbn. repeat (constructor; try lia). Qed.
(** The second surface is dropped. *)
Lemma second_refuted : exists md, postProcessInformation twoWaves pmAll (mkPMd false None None) defaultOptions = Ok md /\
  pd_tfsf md = Some [1; 0; 0; 0; 0] /\ pd_sgbc md = Some [0; 0; 0; 1; 1] /\
  ~ surfaceOf pmAll (tagsOfAll isTotalField [("planewave", [1]); ("dipole", [2])]) (pd_tfsf md).
Proof.
  exists (mkPMd false (Some [1; 0; 0; 0; 0]) (Some [0; 0; 0; 1; 1])). split; [reflexivity|]. split; [reflexivity|]. split; [reflexivity|].
  intros [_ [_ M]]. destruct (M 2) as (v & E & _ & H); [cbn; lia|]. cbn in E. injection E as <-.
  assert (0 = 1); [|discriminate]. apply H. split; [cbn; auto|]. exists ("dipole", [2]). cbn. repeat split; auto. right; reflexivity.
Qed.
(** Two ranks may keep the surfaces of different sources. *)
Lemma ranks_refuted : exists ma mb,
  postProcessInformation twoWaves (mkPM [1; 3] 5) (mkPMd false None None) defaultOptions = Ok ma /\
  postProcessInformation twoWaves (mkPM [2] 5) (mkPMd false None None) defaultOptions = Ok mb /\
  pd_tfsf ma = Some [1; 0; 0; 0; 0] /\ pd_tfsf mb = Some [0; 1; 0; 0; 0].
Proof. eexists; eexists. split; [reflexivity|]. split; [reflexivity|]. split; reflexivity. Qed.
(** One box given twice, as a plane wave and a dipole on the same tags. *)
Definition oneBox : json := caseJ [("planewave", [1; 2]); ("initial", []); ("dipole", [2; 1])] [("PEC", [3])].
Lemma oneBox_ex : exists md, postProcessInformation oneBox pmAll (mkPMd false None None) defaultOptions = Ok md /\ pd_tfsf md = Some [1; 1; 0; 0; 0] /\ pd_sgbc md = None.
Proof. eexists. split; [reflexivity|]. split; reflexivity. Qed.
Lemma oneBox_same : forall e1 e2 a, In e1 [("planewave", [1; 2]); ("initial", []); ("dipole", [2; 1])] -> In e2 [("planewave", [1; 2]); ("initial", []); ("dipole", [2; 1])] ->
  isTotalField (fst e1) -> isTotalField (fst e2) -> In a (pm_attrs pmAll) -> touches pmAll (snd e1) -> In a (snd e2) -> In a (snd e1).
Proof.
  intros e1 e2 a H1 H2 T1 T2 _ _. cbn [In] in H1, H2. unfold isTotalField in T1.
  destruct H1 as [<-|[<-|[<-|[]]]]; destruct H2 as [<-|[<-|[<-|[]]]]; cbn [fst snd In] in *; try tauto; destruct T1; discriminate.
Qed.

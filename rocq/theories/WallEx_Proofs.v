(** Examples and findings about Wall_Model. *)
From Coq Require Import List ZArith Reals Bool Lra Lia.
From Verif Require Import Common Evol_Model EvolSolve_Proofs EvolEx_Proofs Setup_Model Setup_Spec Geo_Model Time_Model Input_Model Wall_Model Wall_Spec Wall_Proofs WallBuild_Proofs.
Import ListNotations.
Open Scope R_scope.

(** A clear layer of two cells and an opaque one of four. *)
Definition exClear : slayer := mkSL (mkLayer (mkMat 1 1 0) 1 2 1) 0.
Definition exOpaque : slayer := mkSL (mkLayer (mkMat 4 1 freeSpaceImpedanceSI) 1 4 3) 10.
Definition exWall : sprops := mkSP [7%Z] [exClear; exOpaque] (Some PEC) None.
Lemma ex_clear : layerOk exClear. Proof. constructor; cbn; try lra. lia. Qed.
Lemma ex_opaque : layerOk exOpaque. Proof. pose proof z0_pos. constructor; cbn; try lra. lia. Qed.
Lemma ex_ok : Forall layerOk (sp_layers exWall) /\ sp_layers exWall <> [] /\ endOk (sp_left exWall) /\ endOk (sp_right exWall).
Proof.
  split; [constructor; [apply ex_clear|constructor; [apply ex_opaque|constructor]]|]. split; [discriminate|]. split; [split; discriminate|exact I].
Qed.
Lemma ex_allowed : allowed exClear (1 / 4).
Proof.
  exists (1 / 2), 1. split; [|split; [constructor; cbn; lra|lra]]. exists 1. cbn. split; [lra|]. split; lra.
Qed.
Lemma ex_allowed' : allowed exOpaque (25 / 2).
Proof.
  exists (1 / 2), 50. split; [|split; [apply sl_bound; cbn; lra|lra]]. exists (1 / 2). cbn. split; [lra|]. split; lra.
Qed.
Lemma big_max : 100 < maxDouble.
Proof.
  unfold maxDouble. assert (A : 1 <= 2 - / 2 ^ 52). { assert (/ 2 ^ 52 <= / 1); [|lra]. apply Rinv_le_contravar; [lra|]. apply pow_R1_Rle. lra. }
  assert (B : 2 ^ 7 <= 2 ^ 1023) by (apply Rle_pow; [lra|lia]). assert (C : 2 ^ 7 = 128) by (cbn; ring). assert (D : 0 < 2 ^ 1023) by (apply pow_lt; lra).
  set (x := 2 ^ 1023) in *. nra.
Qed.
Lemma ex_step : isStep (sp_layers exWall) (1 / 4) /\ recommendedStep (sp_layers exWall) = 1 / 4.
Proof.
  destruct ex_ok as (F & _).
  assert (A : forall L t, In L (sp_layers exWall) -> allowed L t -> 1 / 4 <= t).
  { intros L t [<-|[<-|[]]] A.
    - rewrite (allowed_fun exClear ex_clear _ _ A ex_allowed). lra.
    - rewrite (allowed_fun exOpaque ex_opaque _ _ A ex_allowed'). lra. }
  split; [split; [exact A|exists exClear; split; [left; reflexivity|exact ex_allowed]]|].
  apply Rle_antisym.
  - apply (step_below _ exClear _ F); [left; reflexivity|exact ex_allowed].
  - destruct (step_is _ exClear _ F (or_introl eq_refl) ex_allowed) as (_ & L & I & G); [pose proof big_max; lra|]. apply (A L); assumption.
Qed.

(** ** A wall with very thin cells is not advanced *)
Lemma thin_wall : forall checked p w msg c L t inv W base dt gh s d s' d', Forall layerOk (sp_layers p) -> buildWall checked p = Ok (w, msg, c) ->
  In L (sp_layers p) -> crossingTime L t -> sl_nskin L <= 3 -> t < 2 / 1000000000 ->
  w_rec W = wl_rec w -> 1 / 1000000000 <= dt -> dt / wl_rec w <= 2147483647 ->
  (forall a k all, gh a k all = Ok all) -> advance inv W base dt gh s d = Ok (s', d') -> s_fs s' = s_fs s.
Proof.
  intros checked p w msg c L t inv W base dt gh s d s' d' F E I T N B RW D M GH A.
  pose proof (new_inv _ _ _ _ _ _ E) as (_ & _ & _ & _ & _ & RR & _). pose proof (step_pos _ F) as P.
  assert (K : layerOk L) by (rewrite Forall_forall in F; apply F, I).
  assert (Al : allowed L (t / 2 * 1)) by (exists t, 1; split; [exact T|]; split; [constructor; exact N|reflexivity]).
  pose proof (step_below _ _ _ F I Al) as G.
  eapply thin_layer_frozen; [| | |exact GH|exact A]; rewrite RW; rewrite ?RR in *; lra.
Qed.
Definition exThin : slayer := mkSL (mkLayer (mkMat 1 1 0) (1 / 1000000000) 4 1) 0.
Lemma ex_thin : layerOk exThin /\ crossingTime exThin (1 / 4000000000) /\ sl_nskin exThin <= 3.
Proof.
  split; [constructor; cbn; try lra; lia|]. split; [|cbn; lra]. exists 1. cbn. split; [lra|]. split; lra.
Qed.

(** ** Only the first wall is reported *)
Definition exCoarse : slayer := mkSL (mkLayer (mkMat 1 1 freeSpaceImpedanceSI) 1000 1 1) 10.
Definition exFine : sprops := mkSP [1%Z] [exClear] None None.
Definition exBad : sprops := mkSP [2%Z] [exCoarse] None None.
Lemma ex_coarse : layerOk exCoarse. Proof. pose proof z0_pos. constructor; cbn; try lra. lia. Qed.
Lemma coarse_verdict : layerVerdict (sl_layer exCoarse) = SeverelyCoarse.
Proof.
  unfold layerVerdict. rewrite (cell_some exCoarse ex_coarse). cbn [sl_layer exCoarse l_width l_segs l_mat m_mu m_sigma].
  pose proof z0_pos as Z. pose proof PI_RGT_0. pose proof PI2_1. assert (P : 2 < PI) by (unfold PI2 in *; lra).
  destruct (Req_EM_T _ _) as [E|_]; [reflexivity || (exfalso; cbn in E; lra)|].
  replace (freeSpaceImpedanceSI / freeSpaceImpedanceSI) with 1 by (field; lra). cbv zeta.
  assert (Q : 1 / (PI * (1 * vacuumPermeabilitySI) * 1 * (1000 / INR 1) * (1000 / INR 1)) <= 1).
  { cbn [INR]. unfold vacuumPermeabilitySI. set (x := PI * (1 * (4 * PI * / 10000000)) * 1 * (1000 / 1) * (1000 / 1)).
    assert (x = PI * PI * (4 / 10)) by (unfold x; field). assert (1 <= x) by nra.
    unfold Rdiv. rewrite Rmult_1_l. rewrite <- Rinv_1. apply Rinv_le_contravar; lra. }
  assert (B : forall n, 1 <= 10 ^ n) by (intros; apply pow_R1_Rle; lra).
  pose proof (B 10%nat) as B1. pose proof (B 9%nat) as B2. pose proof (B 6%nat) as B3.
  repeat (destruct (Rlt_dec _ _) as [G|_]; [exfalso; eapply Rlt_irrefl, Rlt_le_trans; [exact G|]; eapply Rle_trans; [exact Q|]; assumption|]).
  reflexivity.
Qed.
Lemma report_lost : exists ws ms c, buildWalls false [exFine; exBad] = Ok (ws, ms, c) /\ nth_error ms 1 = Some [] /\
  checkResolution 0 (map sl_layer (sp_layers exBad)) = [(1%nat, SeverelyCoarse)].
Proof.
  unfold buildWalls. cbn [foldM snd fst].
  destruct (build_ok false exFine) as (w1 & E1); [discriminate|exact (Forall_cons _ ex_clear (Forall_nil _))|exact I|exact I|]. rewrite E1. cbn [bind fst snd].
  destruct (build_ok true exBad) as (w2 & E2); [discriminate|exact (Forall_cons _ ex_coarse (Forall_nil _))|exact I|exact I|]. rewrite E2. cbn [bind fst snd].
  eexists. eexists. eexists. split; [reflexivity|]. split; [reflexivity|].
  cbn [sp_layers exBad map checkResolution]. pose proof z0_pos. destruct (Rle_dec _ _) as [G|_]; [cbn in G; lra|]. rewrite coarse_verdict. reflexivity.
Qed.
Lemma pec_clone_ex : exists p w msg w', sp_layers p <> [] /\ buildWallWithPEC false p = Ok (w, msg, true) /\ cloneWall true w = Ok (w', [], true) /\
    md_int (wl_model w) = [(3%Z, PEC); (4%Z, PEC)] /\ md_int (wl_model w') = [].
Proof.
  exists exFine. destruct (pec_clone_lost exFine) as (w & msg & w' & A & B & C & D); [discriminate|exact (Forall_cons _ ex_clear (Forall_nil _))|reflexivity|reflexivity|].
  exists w, msg, w'. split; [discriminate|]. auto.
Qed.

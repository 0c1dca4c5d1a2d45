(** Proofs about Wall_Model: the recommended step and the report. *)
From Coq Require Import List ZArith Reals Bool Lra Lia Psatz.
From Verif Require Import Common Setup_Model Geo_Model Time_Model Input_Model Wall_Model Wall_Spec.
Import ListNotations.
Open Scope R_scope.

Lemma c_pos : 0 < speedOfLightSI. Proof. unfold speedOfLightSI. lra. Qed.
Lemma mu0_pos : 0 < vacuumPermeabilitySI. Proof. unfold vacuumPermeabilitySI. pose proof PI_RGT_0. lra. Qed.
Lemma z0_pos : 0 < freeSpaceImpedanceSI.
Proof. unfold freeSpaceImpedanceSI. apply Rmult_lt_0_compat; [apply mu0_pos|apply c_pos]. Qed.
Lemma max_pos : 0 < maxDouble.
Proof. unfold maxDouble. apply Rmult_lt_0_compat; [|apply pow_lt; lra]. assert (/ 2 ^ 52 < / 1); [|lra]. apply Rinv_lt_contravar; [|apply Rlt_pow_R1; [lra|lia]]. rewrite Rmult_1_l. apply pow_lt. lra. Qed.

Section OneLayer.
Variable L : slayer.
Hypothesis K : layerOk L.
Let dx := l_width (sl_layer L) / INR (l_segs (sl_layer L)).
Let n2 := m_eps (l_mat (sl_layer L)) * m_mu (l_mat (sl_layer L)).

Lemma segs_pos : 0 < INR (l_segs (sl_layer L)). Proof. apply lt_0_INR, (lo_segs L K). Qed.
Lemma dx_pos : 0 < l_width (sl_layer L) / INR (l_segs (sl_layer L)).
Proof. apply Rdiv_lt_0_compat; [apply (lo_width L K)|apply segs_pos]. Qed.
Lemma n2_pos : 0 < m_eps (l_mat (sl_layer L)) * m_mu (l_mat (sl_layer L)).
Proof. pose proof (lo_eps L K). pose proof (lo_mu L K). nra. Qed.
Lemma cell_some : cellWidth (sl_layer L) = Some (l_width (sl_layer L) / INR (l_segs (sl_layer L))).
Proof. unfold cellWidth. pose proof (lo_segs L K). destruct (l_segs (sl_layer L)); [lia|reflexivity]. Qed.

Lemma crossing_iff : forall t, crossingTime L t <-> t = l_width (sl_layer L) / INR (l_segs (sl_layer L)) * sqrt (m_eps (l_mat (sl_layer L)) * m_mu (l_mat (sl_layer L))).
Proof.
  intros t. pose proof segs_pos as N. pose proof n2_pos as E. pose proof (sqrt_lt_R0 _ E) as Q. pose proof (sqrt_sqrt _ (Rlt_le _ _ E)) as SQ.
  split.
  - intros (v & V & VV & T).
    assert (Hv : v = / sqrt (m_eps (l_mat (sl_layer L)) * m_mu (l_mat (sl_layer L)))).
    { set (s := sqrt _) in *. assert (Hs : (v * s) * (v * s) = 1) by (rewrite <- VV, <- SQ; ring).
      assert (P : 0 < v * s) by (apply Rmult_lt_0_compat; assumption).
      assert (v * s = 1) by nra. apply Rmult_eq_reg_r with s; [|lra]. rewrite Rinv_l; lra. }
    subst v. set (s := sqrt _) in *. rewrite <- T. field. split; lra.
  - intros ->. set (s := sqrt _) in *. exists (/ s). split; [apply Rinv_0_lt_compat; exact Q|]. split; [rewrite <- SQ; field; lra|field; split; lra].
Qed.

Lemma crossing_pos : forall t, crossingTime L t -> 0 < t.
Proof.
  intros t (v & V & _ & T). pose proof segs_pos as N. pose proof (lo_width L K) as W. rewrite <- T in W.
  destruct (Rle_or_lt t 0) as [G|G]; [|exact G]. exfalso. assert (t * v <= 0) by nra. nra.
Qed.
Lemma slack_pos : forall n k, slack n k -> 1 <= k <= 50.
Proof. intros n k []; nra. Qed.
Lemma slack_fun : forall n k k', slack n k -> slack n k' -> k = k'.
Proof. intros n k k' [] []; try reflexivity; lra. Qed.
Lemma slack_ex : forall n, exists k, slack n k.
Proof.
  intros n. destruct (Rle_or_lt n 3); [exists 1; constructor; assumption|]. destruct (Rle_or_lt (n * n) 50); eexists; [apply sl_opaque|apply sl_bound]; assumption.
Qed.
Lemma layer_step_allowed : exists dt, layerStep L = Some dt /\ allowed L (dt * speedOfLightSI).
Proof.
  pose proof c_pos as C. unfold layerStep. rewrite cell_some. cbn [option_map]. eexists. split; [reflexivity|].
  set (c := l_width (sl_layer L) / INR (l_segs (sl_layer L)) * sqrt (m_eps (l_mat (sl_layer L)) * m_mu (l_mat (sl_layer L)))).
  assert (HC : crossingTime L c) by (apply crossing_iff; reflexivity).
  destruct (Rlt_dec 3 (sl_nskin L)) as [G|G].
  - destruct (Rle_or_lt (sl_nskin L * sl_nskin L) 50) as [B|B].
    + rewrite Rmin_left by exact B. exists c, (sl_nskin L * sl_nskin L). split; [exact HC|]. split; [constructor; assumption|]. unfold c. field. split; apply Rgt_not_eq; [exact segs_pos|exact C].
    + rewrite Rmin_right by lra. exists c, 50. split; [exact HC|]. split; [constructor; assumption|]. unfold c. field. split; apply Rgt_not_eq; [exact segs_pos|exact C].
  - exists c, 1. split; [exact HC|]. split; [constructor; lra|]. unfold c. field. split; apply Rgt_not_eq; [exact segs_pos|exact C].
Qed.
Lemma allowed_fun : forall t t', allowed L t -> allowed L t' -> t = t'.
Proof.
  intros t t' (c & k & C & S & E) (c' & k' & C' & S' & E'). apply crossing_iff in C, C'. pose proof (slack_fun _ _ _ S S'). congruence.
Qed.
Lemma allowed_pos : forall t, allowed L t -> 0 < t.
Proof. intros t (c & k & C & S & ->). pose proof (crossing_pos c C). pose proof (slack_pos _ _ S). nra. Qed.
End OneLayer.

(** The minimum, in seconds. *)
Lemma fold_step : forall Ls r, Forall layerOk Ls -> 0 < r ->
  let s := fold_left (fun r L => match layerStep L with Some dt => Rmin r dt | None => r end) Ls r in
  0 < s /\ s <= r /\ (forall L t, In L Ls -> allowed L t -> s * speedOfLightSI <= t) /\ (s = r \/ exists L, In L Ls /\ allowed L (s * speedOfLightSI)).
Proof.
  pose proof c_pos as C.
  induction Ls as [|L Ls IH]; intros r F P; cbn [fold_left].
  - split; [exact P|]. split; [lra|]. split; [intros ? ? []|left; reflexivity].
  - inversion F as [|? ? FL FT]; subst. destruct (layer_step_allowed L FL) as (dt & E & A). rewrite E.
    pose proof (allowed_pos L FL _ A) as AP.
    assert (D : 0 < dt) by (destruct (Rle_or_lt dt 0) as [G|G]; [exfalso; nra|exact G]).
    assert (M : 0 < Rmin r dt) by (apply Rmin_glb_lt; assumption).
    destruct (IH _ FT M) as (S1 & S2 & S3 & S4). cbv zeta in *. set (s := fold_left _ _ _) in *.
    pose proof (Rmin_l r dt). pose proof (Rmin_r r dt).
    split; [exact S1|]. split; [lra|]. split.
    + intros L' t [<-|I] A'; [|apply (S3 L'); assumption]. rewrite (allowed_fun L FL _ _ A' A). apply Rmult_le_compat_r; lra.
    + destruct S4 as [S4|(L' & I & A')]; [|right; exists L'; split; [right; exact I|exact A']].
      unfold Rmin in S4. destruct (Rle_dec r dt); [left; exact S4|]. right. exists L. split; [left; reflexivity|]. rewrite S4. exact A.
Qed.
Lemma step_pos : forall Ls, Forall layerOk Ls -> 0 < recommendedStep Ls.
Proof. intros Ls F. destruct (fold_step Ls maxDouble F max_pos) as (A & _). unfold recommendedStep. apply Rmult_lt_0_compat; [exact A|apply c_pos]. Qed.
Lemma step_is : forall Ls L t, Forall layerOk Ls -> In L Ls -> allowed L t -> t < maxDouble -> isStep Ls (recommendedStep Ls).
Proof.
  intros Ls L t F I A B. destruct (fold_step Ls maxDouble F max_pos) as (S1 & _ & S3 & S4). cbv zeta in *. unfold recommendedStep. set (s := fold_left _ _ _) in *.
  split; [exact S3|]. destruct S4 as [S4|S4]; [|exact S4]. exfalso.
  pose proof (S3 L t I A) as G. rewrite S4 in G. assert (maxDouble <= maxDouble * speedOfLightSI); [|lra].
  pose proof max_pos. unfold speedOfLightSI. lra.
Qed.
Lemma step_below : forall Ls L t, Forall layerOk Ls -> In L Ls -> allowed L t -> recommendedStep Ls <= t.
Proof. intros Ls L t F I A. destruct (fold_step Ls maxDouble F max_pos) as (_ & _ & S3 & _). apply (S3 L t I A). Qed.

(** ** The report *)
Lemma sees_iff : forall L f, layerOk L -> 0 < m_sigma (l_mat (sl_layer L)) -> 0 < f ->
  let l := sl_layer L in let dx := l_width l / INR (l_segs l) in
  (sees l f <-> f < 1 / (PI * (m_mu (l_mat l) * vacuumPermeabilitySI) * (m_sigma (l_mat l) / freeSpaceImpedanceSI) * dx * dx)).
Proof.
  intros L f K S F l dx. pose proof (segs_pos L K) as N. pose proof (dx_pos L K) as D. pose proof (lo_mu L K) as Mu. pose proof mu0_pos. pose proof z0_pos. pose proof PI_RGT_0.
  fold l in N, D, Mu, S |- *. fold dx in D.
  set (a := PI * (m_mu (l_mat l) * vacuumPermeabilitySI) * (m_sigma (l_mat l) / freeSpaceImpedanceSI)).
  assert (A : 0 < a). { unfold a. apply Rmult_lt_0_compat; [apply Rmult_lt_0_compat; [assumption|apply Rmult_lt_0_compat; lra]|apply Rdiv_lt_0_compat; assumption]. }
  assert (W : l_width l = dx * INR (l_segs l)) by (unfold dx; field; lra).
  assert (DD : 0 < dx * dx) by (apply Rmult_lt_0_compat; assumption).
  assert (AD : 0 < a * dx * dx) by (rewrite Rmult_assoc; apply Rmult_lt_0_compat; assumption).
  assert (Q : f < 1 / (a * dx * dx) <-> f * a * (dx * dx) < 1).
  { split; intros G.
    - apply Rmult_lt_compat_r with (r := a * dx * dx) in G; [|exact AD]. replace (1 / (a * dx * dx) * (a * dx * dx)) with 1 in G by (field; lra). lra.
    - apply Rmult_lt_reg_r with (a * dx * dx); [exact AD|]. replace (1 / (a * dx * dx) * (a * dx * dx)) with 1 by (field; lra). lra. }
  rewrite Q. assert (FA : 0 < f * a) by (apply Rmult_lt_0_compat; assumption). split.
  - intros (d & P & E & G). rewrite W in G. assert (dx < d) by (apply Rmult_lt_reg_r with (INR (l_segs l)); [exact N|exact G]).
    assert (dx * dx < d * d) by nra. replace (PI * f * (m_mu (l_mat l) * vacuumPermeabilitySI) * (m_sigma (l_mat l) / freeSpaceImpedanceSI)) with (f * a) in E by (unfold a; ring).
    assert (f * a * (dx * dx) < f * a * (d * d)) by (apply Rmult_lt_compat_l; assumption). lra.
  - intros G. exists (/ sqrt (f * a)). pose proof (sqrt_lt_R0 _ FA) as SP. pose proof (sqrt_sqrt _ (Rlt_le _ _ FA)) as SS.
    split; [apply Rinv_0_lt_compat; exact SP|]. split.
    + replace (PI * f * (m_mu (l_mat l) * vacuumPermeabilitySI) * (m_sigma (l_mat l) / freeSpaceImpedanceSI)) with (f * a) by (unfold a; ring).
      rewrite <- SS at 3. field. lra.
    + rewrite W. apply Rmult_lt_compat_r; [exact N|]. apply Rmult_lt_reg_r with (sqrt (f * a)); [exact SP|]. rewrite Rinv_l by lra.
      assert (0 < dx * sqrt (f * a)) by (apply Rmult_lt_0_compat; assumption).
      assert ((dx * sqrt (f * a)) * (dx * sqrt (f * a)) < 1) by (replace ((dx * sqrt (f * a)) * (dx * sqrt (f * a))) with (sqrt (f * a) * sqrt (f * a) * (dx * dx)) by ring; rewrite SS; exact G).
      nra.
Qed.
Lemma verdict_spec : forall L, layerOk L -> 0 < m_sigma (l_mat (sl_layer L)) ->
  match layerVerdict (sl_layer L) with
  | Excellent => sees (sl_layer L) (10 ^ 10)
  | WellResolved => sees (sl_layer L) (10 ^ 9) /\ ~ sees (sl_layer L) (10 ^ 10)
  | Coarse => sees (sl_layer L) (10 ^ 6) /\ ~ sees (sl_layer L) (10 ^ 9)
  | SeverelyCoarse => ~ sees (sl_layer L) (10 ^ 6)
  end.
Proof.
  intros L K S. unfold layerVerdict. rewrite (cell_some L K). pose proof (dx_pos L K) as D.
  destruct (Req_EM_T _ _) as [E|_]; [lra|]. cbv zeta.
  assert (P : forall n, 0 < 10 ^ n) by (intros; apply pow_lt; lra).
  destruct (Rlt_dec (10 ^ 10) _) as [A|A].
  { apply (sees_iff L _ K S (P _)). exact A. }
  destruct (Rlt_dec (10 ^ 9) _) as [B|B].
  { split; [apply (sees_iff L _ K S (P _)); exact B|]. intros G. apply (sees_iff L _ K S (P _)) in G. apply A, G. }
  destruct (Rlt_dec (10 ^ 6) _) as [C|C].
  { split; [apply (sees_iff L _ K S (P _)); exact C|]. intros G. apply (sees_iff L _ K S (P _)) in G. apply B, G. }
  intros G. apply (sees_iff L _ K S (P _)) in G. apply C, G.
Qed.
Lemma report_in : forall ls i k v, In (k, v) (checkResolution i ls) <->
  exists j l, nth_error ls j = Some l /\ k = (i + S j)%nat /\ 0 < m_sigma (l_mat l) /\ v = layerVerdict l.
Proof.
  induction ls as [|l ls IH]; intros i k v; cbn [checkResolution].
  - split; [intros []|intros ([|j] & l & E & _); discriminate E].
  - rewrite in_app_iff, IH. split.
    + intros [H|(j & l' & E & -> & S & V)].
      * destruct (Rle_dec _ _) as [G|G]; [destruct H|]. destruct H as [H|[]]. inversion H; subst. exists 0%nat, l. split; [reflexivity|]. split; [lia|]. split; [lra|reflexivity].
      * exists (Datatypes.S j), l'. split; [exact E|]. split; [lia|]. split; [exact S|exact V].
    + intros ([|j] & l' & E & -> & S & V); cbn [nth_error] in E.
      * injection E as <-. left. destruct (Rle_dec _ _) as [G|G]; [lra|]. left. f_equal; [lia|symmetry; exact V].
      * right. exists j, l'. split; [exact E|]. split; [lia|]. split; [exact S|exact V].
Qed.

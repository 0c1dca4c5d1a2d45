From Coq Require Import ZArith List Bool Reals Lra Lia Psatz Permutation ZifyBool.
From Flocq Require Import Core.Core IEEE754.BinarySingleNaN.
From Verif Require Import Common Rcs_Model Rcs_Spec Rcs_Proofs Merge_Model Far_Model Far_Spec Far_Proofs FarTool_Proofs FarMore_Proofs FarRound_Model.
From Verif Require Source_Model Time_Model.
Import ListNotations.
Local Open Scope R_scope.

Lemma tool_true : forall s m r f, m <= 0 -> j_freq s = None -> toolPower s m r f = powerOf (incident (j_spread s) m (j_freq s)) (map sn_t (k_snaps r)) f.
Proof. intros s m r f Hm F. unfold toolPower. rewrite F. apply powerOf_ext. intros t _. now apply incident_tool. Qed.
Theorem manager_section : forall s l m r freqs angles, meanAlong s = Some m -> m <= 0 -> j_freq s = None ->
  readable r -> offOrigin r -> anglesFit r angles -> ownFiles angles ->
  (forall f, In f freqs -> f <> 0 /\ powerOf (incident (j_spread s) m (j_freq s)) (map sn_t (k_snaps r)) (f / 299792458) <> 0) ->
  rcsManager (s :: l) [r] freqs angles = Ok (map (fun a => (a,
    (map (fun f => mkRD (fst a) (snd a) f (farPower r (f / 299792458) a) (normCol (k_dim r) f)) freqs,
     map (fun f => mkRD (fst a) (snd a) f (trueSection s m r (f / 299792458) a / INR (length (k_snaps r))) (normCol (k_dim r) f)) freqs))) angles).
Proof.
  intros s l m r freqs angles M Hm F H O A U K. rewrite (manager_value s l m [r] freqs angles M); try assumption.
  - f_equal. apply map_ext. intros a. f_equal. f_equal; apply map_ext_in; intros f If; destruct (K f If) as [K1 K2]; unfold total; cbn [map fold_right]; rewrite !Rplus_0_r; [reflexivity|].
    f_equal. unfold toolSection, trueSection. rewrite (tool_true s m r (f / speedOfLight_SI) Hm F). unfold speedOfLight_SI. pose proof (INR_snaps r H). field. split; lra.
  - discriminate.
  - intros x [<-|[]]. auto.
  - intros f If. now destruct (K f If).
  - intros x f [<-|[]] If. rewrite (tool_true s m r _ Hm F). now destruct (K f If).
Qed.

Theorem incoming_true : forall s l m times f, meanAlong s = Some m -> m <= 0 -> j_freq s = None -> times <> [] ->
  buildIncomingPowerTerm (s :: l) times f = Ok (INR (length times) * powerOf (incident (j_spread s) m (j_freq s)) times f).
Proof.
  intros s l m ts f M Hm F T. rewrite (incoming_value s l m ts f M T). rewrite F. f_equal. f_equal. apply powerOf_ext. intros t _. now apply incident_tool.
Qed.
(** The pulse the simulation injects at the origin. *)
Theorem incident_simulated : forall spread m carrier t,
  Source_Model.funcEval (match carrier with None => Source_Model.FGauss spread [m] 1 | Some f => Source_Model.FModGauss spread [m] (f / Source_Model.speedOfLight_SI) end) [0 - t] =
  Ok (incident spread m carrier t).
Proof.
  intros spread m [fr|] t; unfold Source_Model.funcEval, incident.
  - change (zget [0 - t] 0) with (Ok (0 - t)). change (zget [m] 0) with (Ok m). cbn [bind]. f_equal. unfold Source_Model.speedOfLight_SI. f_equal.
    + f_equal. replace (2 * spread ^ 2) with (2 * spread * spread) by ring. unfold Rdiv. ring.
    + replace (2 * PI * (fr / 299792458) * (0 - t - m)) with (- (2 * PI * (fr / 299792458) * (t + m))) by ring. apply cos_neg.
  - cbn [Z.leb Z.compare Pos.compare Pos.compare_cont andb]. unfold Source_Model.gaussArg. change (zseq (Z.to_nat 1)) with [0%Z]. cbn [foldM].
    change (zget [0 - t] 0) with (Ok (0 - t)). change (zget [m] 0) with (Ok m). cbn [bind]. f_equal. rewrite Rmult_1_r. f_equal. f_equal. ring.
Qed.
Theorem missing_mean : forall s l times f, j_mean s = None -> buildIncomingPowerTerm (s :: l) times f = UB.
Proof. intros s l ts f H. unfold buildIncomingPowerTerm. now rewrite H. Qed.

(** ** A surface of one point *)
Definition exQ : spoint := mkPoint (1, 0, 0) 1 (0, 0, -1) (fun _ => 1).
Definition exSnap : snap := mkSnap 0 (fun c _ => if (c =? 3)%nat then 1 else 0).
Definition exR : frank := mkFrank 3 301 1 [exSnap] [exQ].
Definition exS : srcJson := mkSrcJson true 1 (0, 0, 1) (Some (0, 0, 0)) None false [].
Definition exA : angle := (0, 0).
Lemma ex_readable : readable exR /\ offOrigin exR /\ anglesFit exR [exA] /\ ownFiles [exA] /\ meanAlong exS = Some 0.
Proof.
  split; [|split; [|split; [|split]]].
  - repeat split; cbn; [now right|lia|discriminate].
  - intros q [<-|[]]. cbn. intros E. injection E. lra.
  - intros D. discriminate.
  - intros a b [<-|[]] [<-|[]] _. reflexivity.
  - unfold meanAlong, exS, inner. cbn [j_mean j_prop option_map]. f_equal. unfold Rdiv. ring.
Qed.
Lemma ex_spectrum : forall f c, spectrum [exSnap] f c 0 = if (c =? 3)%nat then (1, 0) else (0, 0).
Proof.
  intros f c. unfold spectrum. cbn [map csum length INR exSnap sn_v sn_t]. rewrite Rmult_0_r. unfold cis_neg. rewrite cos_0, sin_0.
  destruct (c =? 3)%nat; apply C_ext; unfold creal, cplus; cbn [fst snd]; field.
Qed.
Lemma ex_int : forall f first i, surfaceInt exR f exA first i = cross (fun d => (- coordinate (0, 0, -1) d, 0)) (fun c => if (first + c =? 3)%nat then (1, 0) else (0, 0)) i.
Proof.
  intros. unfold surfaceInt. cbn [exR k_pts map csum k_dim k_snaps k_ndofs].
  assert (F : forall c, fieldAt [exSnap] 1 f c exQ = if (c =? 3)%nat then (1, 0) else (0, 0)).
  { intros. unfold fieldAt. cbn [seq map csum]. rewrite ex_spectrum. cbn [exQ sp_shape]. destruct (c =? 3)%nat; apply C_ext; unfold creal, cplus; cbn [fst snd]; ring. }
  assert (P : inner (rhat exA) (flat 3 (sp_x exQ)) = 0).
  { change (flat 3 (sp_x exQ)) with (1, 0, 0). unfold inner, rhat, exA. cbn [fst snd]. rewrite sin_0. ring. }
  rewrite P, Rmult_0_r. unfold cis. rewrite cos_0, sin_0. change (flat 3 (sp_n exQ)) with (0, 0, -1). cbn [exQ sp_w].
  unfold cross. destruct i as [|[|i]]; rewrite !F; destruct (first + 0 =? 3)%nat, (first + 1 =? 3)%nat, (first + 2 =? 3)%nat; apply C_ext; unfold cmul, creal, cplus, cminus; cbn [fst snd]; ring.
Qed.
Lemma ex_power : forall f, farPower exR f exA = f ^ 2 / 8.
Proof.
  intros f. unfold farPower, farIntensity. cbv zeta. unfold alongTheta, alongPhi. rewrite !ex_int. unfold exA. cbn [fst snd]. rewrite sin_0, cos_0.
  unfold cross. cbn [Nat.add Nat.eqb coordinate]. unfold cmod2, cmul, cplus, cminus, creal. cbn [fst snd]. pose proof PI_RGT_0. field. lra.
Qed.
Lemma ex_incident : forall f, powerOf (incident 1 0 None) [0] f = 1 / 2.
Proof.
  intros. unfold powerOf, incident. cbn [map csum length INR]. rewrite Rmult_0_r. unfold cis_neg. rewrite cos_0, sin_0.
  replace (- (0 + 0) ^ 2 / (2 * 1 ^ 2)) with 0 by field. rewrite exp_0. unfold cmod2, cplus, creal. cbn [fst snd]. field.
Qed.
Lemma ex_tool : forall f, toolPower exS 0 exR f = 1 / 2.
Proof. intros. rewrite tool_true; [|lra|reflexivity]. apply ex_incident. Qed.
Lemma si : 299792458 / 299792458 = 1. Proof. field. Qed.
Lemma ex_met : readable exR /\ offOrigin exR /\ anglesFit exR [exA] /\ ownFiles [exA] /\ meanAlong exS = Some 0 /\ j_freq exS = None /\
  powerOf (incident (j_spread exS) 0 (j_freq exS)) (map sn_t (k_snaps exR)) (299792458 / 299792458) <> 0 /\
  farPower exR (299792458 / 299792458) exA = 1 / 8 /\ trueSection exS 0 exR (299792458 / 299792458) exA = PI.
Proof.
  destruct ex_readable as (A & B & C & D & E). rewrite si. unfold trueSection. rewrite ex_power. cbn [exS j_spread j_freq exR k_snaps map exSnap sn_t]. rewrite ex_incident.
  repeat split; try assumption; try apply A; lra.
Qed.
(** Two dimensions. *)
Definition exR2 : frank := mkFrank 2 301 1 [exSnap] [exQ].
Lemma ex_met2 : readable exR2 /\ offOrigin exR2 /\ anglesFit exR2 [(PI / 2, 0); (PI / 2, 1)] /\ ownFiles [(PI / 2, 0); (PI / 2, 1)] /\ offOrigin (moved (1, 2, 0) exR2).
Proof.
  split; [|split; [|split; [|split]]].
  - repeat split; cbn; [now left|lia|discriminate].
  - intros q [<-|[]]. cbn. intros E. injection E. lra.
  - intros _ a [<-|[<-|[]]]; reflexivity.
  - assert (L : label 0 <> label 1).
    { unfold label. destruct (base_Int_part (0 * 10 ^ 6 + / 2)) as [U1 U2]. destruct (base_Int_part (1 * 10 ^ 6 + / 2)) as [V1 V2]. intros E. rewrite E in U1. lra. }
    intros a b [<-|[<-|[]]] [<-|[<-|[]]]; unfold fileName; cbn [fst snd]; try reflexivity; intros E; exfalso; assert (E2 := f_equal snd E); cbn [snd] in E2; congruence.
  - intros q [<-|[]]. cbn. intros E. injection E. lra.
Qed.

(** ** Refutations *)
Lemma sampling_refuted : exists s r f a x, readable r /\ offOrigin r /\ 0 < x /\
  rcsManager [s] [r] [f] [a] = Ok [(a, ([mkRD (fst a) (snd a) f (farPower r (f / 299792458) a) (normCol 3 f)], [mkRD (fst a) (snd a) f x (normCol 3 f)]))] /\
  rcsManager [s] [sampledTwice r] [f] [a] = Ok [(a, ([mkRD (fst a) (snd a) f (farPower r (f / 299792458) a) (normCol 3 f)], [mkRD (fst a) (snd a) f (x / 2) (normCol 3 f)]))].
Proof.
  destruct ex_met as (A & B & C & D & E & F & G & P & S1). exists exS, exR, 299792458, exA, PI. split; [exact A|]. split; [exact B|]. split; [apply PI_RGT_0|].
  assert (HF : forall r0 f, In f [299792458] -> (map sn_t (k_snaps r0) = [0] \/ map sn_t (k_snaps r0) = [0; 0]) -> f <> 0 /\ powerOf (incident (j_spread exS) 0 (j_freq exS)) (map sn_t (k_snaps r0)) (f / 299792458) <> 0).
  { intros r0 f [<-|[]] Ht. split; [lra|]. cbn [exS j_spread j_freq]. destruct Ht as [-> | ->]; [rewrite ex_incident; lra|]. change [0; 0] with ([0] ++ [0]). rewrite powerOf_double, ex_incident. lra. }
  split.
  - rewrite (manager_section exS [] 0 exR [299792458] [exA] E); try assumption; [|lra|intros; apply HF; [assumption|now left]].
    cbn [map]. rewrite S1. replace (PI / INR (length (k_snaps exR))) with PI by (cbn [exR k_snaps length INR]; field). reflexivity.
  - rewrite (manager_section exS [] 0 (sampledTwice exR) [299792458] [exA] E); try assumption; [|lra|repeat split; [now right|apply A|discriminate]|intros; apply HF; [assumption|now right]].
    cbn [map]. destruct (double_section exS 0 exR (299792458 / 299792458) exA A) as (D1 & _ & _); [rewrite ex_tool; lra|].
    assert (D2 : trueSection exS 0 (sampledTwice exR) (299792458 / 299792458) exA / INR (length (k_snaps (sampledTwice exR))) = PI / 2).
    { rewrite <- S1. unfold trueSection. rewrite D1. unfold sampledTwice, withSnaps. cbn [k_snaps exR app map length INR exSnap sn_t exS j_spread j_freq].
      change [0; 0] with ([0] ++ [0]). rewrite powerOf_double, ex_incident. field. }
    rewrite D1, D2. reflexivity.
Qed.
Lemma ranks_refuted : exists s r f a x, readable r /\ offOrigin r /\ 0 < x /\
  (exists far, rcsManager [s] [twice r] [f] [a] = Ok [(a, (far, [mkRD (fst a) (snd a) f x (normCol 3 f)]))]) /\
  (exists far, rcsManager [s] [r; r] [f] [a] = Ok [(a, (far, [mkRD (fst a) (snd a) f (x / 2) (2 * normCol 3 f)]))]).
Proof.
  destruct ex_met as (A & B & C & D & E & F & G & P & S1). exists exS, exR, 299792458, exA, (4 * PI). split; [exact A|]. split; [exact B|]. split; [pose proof PI_RGT_0; lra|]. split; eexists.
  - rewrite (manager_value exS [] 0 [twice exR] [299792458] [exA] E); [|discriminate| | | |exact D].
    + assert (T : toolSection exS 0 (twice exR) (299792458 / speedOfLight_SI) exA = 4 * PI).
      { unfold toolSection. rewrite twice_power. change (toolPower exS 0 (twice exR)) with (toolPower exS 0 exR). unfold speedOfLight_SI. rewrite si, ex_tool, ex_power.
        cbn [twice exR k_snaps length INR]. field. }
      cbn [map total fold_right]. rewrite !Rplus_0_r, T. reflexivity.
    + intros r [<-|[]]. split; [exact A|]. split; [|exact C]. intros q I. apply B. apply in_app_or in I. now destruct I.
    + intros f [<-|[]]. lra.
    + intros r f [<-|[]] _. change (toolPower exS 0 (twice exR)) with (toolPower exS 0 exR). rewrite ex_tool. lra.
  - rewrite (manager_value exS [] 0 [exR; exR] [299792458] [exA] E); [|discriminate| | | |exact D].
    + assert (T : toolSection exS 0 exR (299792458 / speedOfLight_SI) exA = PI).
      { unfold toolSection, speedOfLight_SI. rewrite si, ex_tool, ex_power. cbn [exR k_snaps length INR]. field. }
      cbn [map total fold_right]. rewrite !Rplus_0_r, T. replace (4 * PI / 2) with (PI + PI) by field. cbn [exR k_dim].
      replace (2 * normCol 3 299792458) with (normCol 3 299792458 + normCol 3 299792458) by ring. reflexivity.
    + intros r [<-|[<-|[]]]; auto.
    + intros f [<-|[]]. lra.
    + intros r f [<-|[<-|[]]] _; rewrite ex_tool; lra.
Qed.
Lemma origin_refuted : exists s r d f a, readable r /\ offOrigin r /\ (exists out, rcsManager [s] [r] [f] [a] = Ok out) /\ rcsManager [s] [moved d r] [f] [a] = Throw.
Proof.
  destruct ex_met as (A & B & C & D & E & F & G & P & S1). exists exS, exR, (-1, 0, 0), 299792458, exA. split; [exact A|]. split; [exact B|]. split.
  - eexists. apply (manager_section exS [] 0 exR [299792458] [exA] E); try assumption; [lra|]. intros f [<-|[]]. split; [lra|exact G].
  - apply (manager_throws exS [] 0); [exact E| |discriminate|].
    + intros r [<-|[]]. exact A.
    + exists (moved (-1, 0, 0) exR). split; [now left|]. exists 299792458. split; [now left|]. left. eexists. split; [now left|]. cbn. f_equal; [f_equal|]; ring.
Qed.
Lemma carrier_refuted : exists s times f, j_plane s = true /\ meanAlong s = Some 0 /\ times <> [] /\
  powerOf (incident (j_spread s) 0 (j_freq s)) times f = 0 /\ exists x, buildIncomingPowerTerm [s] times f = Ok x /\ 0 < x.
Proof.
  exists (mkSrcJson true 1 (0, 0, 1) (Some (0, 0, 0)) (Some (299792458 / 4)) false []), [1], 0.
  assert (M : meanAlong (mkSrcJson true 1 (0, 0, 1) (Some (0, 0, 0)) (Some (299792458 / 4)) false []) = Some 0).
  { unfold meanAlong, inner. cbn [j_mean j_prop option_map]. f_equal. unfold Rdiv. ring. }
  split; [reflexivity|]. split; [exact M|]. split; [discriminate|]. split.
  - unfold powerOf, incident. cbn [j_spread j_freq map csum length INR]. replace (2 * PI * (299792458 / 4 / 299792458) * (1 + 0)) with (PI / 2) by field.
    rewrite cos_PI2. unfold cmod2, cplus, creal. cbn [fst snd]. field.
  - eexists. split; [apply (incoming_value _ _ 0 [1] 0 M); discriminate|]. unfold powerOf, toolPulse, cis_neg. cbn [j_spread map csum length INR].
    replace (2 * PI * 0 * 1) with 0 by ring. rewrite cos_0, sin_0. unfold cmod2, cplus, creal. cbn [fst snd]. set (e := exp _). assert (0 < e) by apply exp_pos.
    replace (1 * ((((/ 1) * (e * 1 + 0)) ^ 2 + ((/ 1) * (e * - 0 + 0)) ^ 2) / 2)) with (e * e / 2) by field. nra.
Qed.
Lemma positive_refuted : exists s times f m, j_plane s = true /\ j_freq s = None /\ meanAlong s = Some m /\ times <> [] /\
  exists x, buildIncomingPowerTerm [s] times f = Ok x /\ powerOf (incident (j_spread s) m None) times f < x / INR (length times).
Proof.
  exists (mkSrcJson true 1 (0, 0, 1) (Some (0, 0, 1)) None false []), [1], 0, 1.
  assert (M : meanAlong (mkSrcJson true 1 (0, 0, 1) (Some (0, 0, 1)) None false []) = Some 1).
  { unfold meanAlong, inner. cbn [j_mean j_prop option_map]. f_equal. replace (0 * 0 + 0 * 0 + 1 * 1) with 1 by ring. rewrite sqrt_1. field. }
  split; [reflexivity|]. split; [reflexivity|]. split; [exact M|]. split; [discriminate|].
  eexists. split; [apply (incoming_value _ _ 1 [1] 0 M); discriminate|]. unfold powerOf, toolPulse, incident, cis_neg. cbn [j_spread map csum length INR].
  replace (2 * PI * 0 * 1) with 0 by ring. rewrite cos_0, sin_0, Rabs_R1. replace (- (1 - 1) ^ 2 / (2 * 1 ^ 2)) with 0 by field. rewrite exp_0.
  replace (- (1 + 1) ^ 2 / (2 * 1 ^ 2)) with (-2) by field. set (e := exp (-2)). assert (e < 1). { unfold e. rewrite <- exp_0. apply exp_increasing. lra. } assert (0 < e) by apply exp_pos.
  unfold cmod2, cplus, creal. cbn [fst snd]. replace ((/ 1 * (e * 1 * 1 + 0)) ^ 2 + (/ 1 * (e * 1 * - 0 + 0)) ^ 2) with (e * e) by field.
  replace ((/ 1 * (1 * 1 + 0)) ^ 2 + (/ 1 * (1 * - 0 + 0)) ^ 2) with 1 by field. nra.
Qed.


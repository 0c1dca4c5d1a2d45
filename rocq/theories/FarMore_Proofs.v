From Coq Require Import ZArith List Bool Reals Lra Lia Psatz Permutation ZifyBool.
From Verif Require Import Common Rcs_Model Rcs_Spec Rcs_Proofs Merge_Model Far_Model Far_Spec Far_Proofs FarTool_Proofs.
Import ListNotations.
Local Open Scope R_scope.

(** * When the tool stops with an error *)
Lemma read_defined : forall o, readDataFile o <> UB.
Proof.
  intros [[|h l]|]; cbn [readDataFile]; [congruence| |congruence]. induction l as [|x l IH]; cbn [mapM]; [congruence|].
  assert (D : readRow x <> UB).
  { unfold readRow. destruct x as [|[?|] [|[?|] [|[?|] [|[?|] [|[?|] ?]]]]]; discriminate. }
  destruct (readRow x); cbn [bind]; [|congruence|congruence]. destruct (mapM readRow l); cbn [bind]; congruence.
Qed.
Lemma merge_throws : forall n dirs d, In d dirs -> readDataFile (d n) = Throw -> mergeNamed n dirs = Throw.
Proof.
  intros n [|d0 l] d I H; [destruct I|]. unfold mergeNamed.
  assert (G : forall l acc, In d l -> foldM (fun acc d => rows <- readDataFile (d n) ;; addRows acc rows) l acc = Throw).
  { clear I l. induction l as [|x l IH]; intros acc I; [destruct I|]. cbn [foldM]. destruct I as [->|I].
    - rewrite H. reflexivity.
    - pose proof (read_defined (x n)). destruct (readDataFile (x n)); cbn [bind]; [|reflexivity|congruence].
      unfold addRows. destruct (Nat.eqb _ _); cbn [bind]; [now apply IH|reflexivity]. }
  destruct I as [->|I]; [now rewrite H|]. pose proof (read_defined (d0 n)). destruct (readDataFile (d0 n)); cbn [bind]; [|reflexivity|congruence]. now apply G.
Qed.
Lemma phases_none : forall dim f a pts q, In q pts -> flat dim (sp_x q) = (0, 0, 0) -> phases dim f a pts = None.
Proof.
  induction pts as [|x l IH]; intros q I E; [destruct I|]. cbn [phases]. destruct I as [->|I].
  - assert (K : expPart dim f a (sp_x q) = None).
    { unfold expPart, calcPsiAngle. change (coords dim (sp_x q)) with (flat dim (sp_x q)). rewrite E.
      assert (Z : normR3 (0, 0, 0) = 0). { unfold normR3, dotR3. replace (0 * 0 + 0 * 0 + 0 * 0) with 0 by ring. apply sqrt_0. }
      unfold rdiv. rewrite Z. destruct (Req_EM_T (normR3 (buildObsPointVec a) * 0) 0); [reflexivity|lra]. }
    now rewrite K.
  - rewrite (IH q I E). now destruct (expPart dim f a (sp_x x)).
Qed.
Lemma entry_some : forall s l m r f a, meanAlong s = Some m -> readable r ->
  exists P S, entry (s :: l) r f a = Ok (P, S, if (k_dim r =? 2)%Z then rdiv speedOfLight f else omul (rdiv speedOfLight f) (rdiv speedOfLight f)) /\
    (forall q, In q (k_pts r) -> flat (k_dim r) (sp_x q) = (0, 0, 0) -> P = None).
Proof.
  intros s l m r f a M H. pose proof H as (D & A & Hs). unfold entry.
  assert (G : exists P, getPotRad r f a = Ok P /\ forall q, In q (k_pts r) -> flat (k_dim r) (sp_x q) = (0, 0, 0) -> P = None).
  { unfold getPotRad. destruct (k_snaps r) as [|s0 l0]; [congruence|]. replace (k_maxAttr r <? NearToFarField)%Z with false by (unfold NearToFarField; lia).
    replace (negb ((k_dim r =? 2)%Z || (k_dim r =? 3)%Z)) with false by lia. destruct (phases (k_dim r) f a (k_pts r)) as [ph|] eqn:E.
    - eexists. split; [reflexivity|]. intros q I O. rewrite (phases_none _ f a _ q I O) in E. discriminate.
    - exists None. split; reflexivity. }
  destruct G as (P & -> & V). cbn [bind]. fold (times r). rewrite times_eq.
  rewrite (incoming_value s l m); [|assumption|]. 2:{ destruct (k_snaps r); [congruence|discriminate]. }
  cbn [bind]. eauto.
Qed.

Section Throws.
Variables (s : srcJson) (l : list srcJson) (m : R) (freqs : list R).
Hypothesis M : meanAlong s = Some m.
Definition fileShape (r : frank) (x : option file) : Prop :=
  exists a v n, x = Some (oneFile v n freqs a) /\ (forall f, n f = if (k_dim r =? 2)%Z then rdiv speedOfLight f else omul (rdiv speedOfLight f) (rdiv speedOfLight f)) /\
    (forall q, In q (k_pts r) -> flat (k_dim r) (sp_x q) = (0, 0, 0) -> forall f, v f = None).
Lemma loop_shape : forall r angles m0, readable r ->
  exists mm, foldM (fun mm a => ff <- angleFiles (s :: l) r freqs a ;; Ok (putFiles mm a ff)) angles m0 = Ok mm /\
    forall a, (In a angles \/ fileShape r (fst m0 (fileName a))) -> fileShape r (fst mm (fileName a)).
Proof.
  intros r angles m0 H. revert m0. induction angles as [|b bs IH]; intros m0.
  - exists m0. split; [reflexivity|]. intros a [[]|K]. exact K.
  - cbn [foldM]. set (nn := fun f => if (k_dim r =? 2)%Z then rdiv speedOfLight f else omul (rdiv speedOfLight f) (rdiv speedOfLight f)).
    assert (E : exists P S, angleFiles (s :: l) r freqs b = Ok (oneFile P nn freqs b, oneFile S nn freqs b) /\
       (forall q, In q (k_pts r) -> flat (k_dim r) (sp_x q) = (0, 0, 0) -> forall f, P f = None)).
    { exists (fun f => match entry (s :: l) r f b with Ok (P, _, _) => P | _ => None end), (fun f => match entry (s :: l) r f b with Ok (_, S0, _) => S0 | _ => None end).
      split.
      - apply (angleFiles_ok (s :: l) freqs r (fun b f => match entry (s :: l) r f b with Ok (P, _, _) => P | _ => None end) (fun b f => match entry (s :: l) r f b with Ok (_, S0, _) => S0 | _ => None end) (fun _ => nn)).
        intros f If. destruct (entry_some s l m r f b M H) as (P & Q & E & _). rewrite E. reflexivity.
      - intros q I O f. destruct (entry_some s l m r f b M H) as (P & Q & E & V). rewrite E. now apply (V q). }
    destruct E as (P & Q & E & V). rewrite E. cbn [bind]. destruct (IH (putFiles m0 b (oneFile P nn freqs b, oneFile Q nn freqs b))) as (mm & E2 & W).
    exists mm. split; [exact E2|]. intros a K. apply W. destruct (named (fileName a) b) eqn:Nm.
    + right. unfold putFiles. cbn [fst snd]. rewrite Nm. exists b, P, nn. repeat split; auto.
    + destruct K as [[->|K]|K]; [|now left|].
      * exfalso. rewrite (proj2 (named_iff (fileName a) a) eq_refl) in Nm. discriminate.
      * right. unfold putFiles. cbn [fst]. now rewrite Nm.
Qed.
End Throws.

Lemma mapM_cases : forall {A B} (f : A -> res B) l, (forall x, In x l -> f x <> UB) -> mapM f l = Throw \/ exists ys, mapM f l = Ok ys /\ Forall2 (fun x y => f x = Ok y) l ys.
Proof.
  intros A B f l. induction l as [|x l IH]; intros H.
  - right. exists []. split; [reflexivity|constructor].
  - cbn [mapM]. pose proof (H x (or_introl eq_refl)) as Hx. destruct (f x) as [y| |] eqn:E; cbn [bind]; [|now left|congruence].
    destruct IH as [->|(ys & -> & F)]; [intros; apply H; now right|now left|]. right. exists (y :: ys). split; [reflexivity|]. now constructor.
Qed.
Lemma F2_In_l : forall {A B} (P : A -> B -> Prop) l ys x, Forall2 P l ys -> In x l -> exists y, In y ys /\ P x y.
Proof. intros A B P l ys x F. induction F as [|u v l ys H F IH]; intros I; [destruct I|]. destruct I as [->|I]; [exists v; split; [now left|assumption]|]. destruct (IH I) as (y & ? & ?). exists y. split; [now right|assumption]. Qed.

(** One rank that leaves a non-finite number in every far-field file stops the tool. *)
Lemma manager_throws : forall s l m ranks freqs angles, meanAlong s = Some m -> (forall r, In r ranks -> readable r) -> angles <> [] ->
  (exists r, In r ranks /\ exists f, In f freqs /\
     ((exists q, In q (k_pts r) /\ flat (k_dim r) (sp_x q) = (0, 0, 0)) \/ f = 0)) ->
  rcsManager (s :: l) ranks freqs angles = Throw.
Proof.
  intros s l m ranks freqs angles M Hr NA (r & Ir & f & If & B). unfold rcsManager. fold (nfs freqs).
  assert (K : forall r, In r ranks -> rankFiles (s :: l) (nfs freqs) angles r = Throw \/
      exists mm, rankFiles (s :: l) (nfs freqs) angles r = Ok mm /\ forall a, In a angles -> fileShape (nfs freqs) r (fst mm (fileName a))).
  { intros r' I. unfold rankFiles. destruct (negb (checkAngles (k_dim r') angles)); [now left|]. right.
    destruct (loop_shape s l m (nfs freqs) M r' angles (fun _ => None, fun _ => None) (Hr r' I)) as (mm & E & V).
    exists mm. split; [exact E|]. intros a Ia. apply V. now left. }
  destruct (mapM_cases (rankFiles (s :: l) (nfs freqs) angles) ranks) as [->|(dirs & -> & F)].
  { intros x Ix. destruct (K x Ix) as [->|(mm & -> & _)]; discriminate. }
  { reflexivity. }
  cbn [bind]. destruct angles as [|a0 al]; [congruence|].
  destruct dirs as [|d0 dl]; [reflexivity|]. set (dirs := d0 :: dl) in *. cbn [mapM].
  destruct (F2_In_l _ _ _ r F Ir) as (mm & Im & E). destruct (K r Ir) as [E'|(mm' & E' & V)]; [congruence|]. assert (mm' = mm) by congruence. subst mm'.
  destruct (V a0 (or_introl eq_refl)) as (b & v & n & Ef & En & Ev).
  rewrite (merge_throws (fileName a0) (map fst dirs) (fst mm)); [reflexivity|now apply in_map|].
  rewrite Ef. apply (read_bad v n (nfs freqs) b (f / speedOfLight_SI)).
  - unfold nfs. apply (in_map (fun f => f / speedOfLight_SI)). exact If.
  - destruct B as [(q & Iq & O)| -> ]; [left; now apply (Ev q)|]. right. rewrite En. unfold speedOfLight_SI. replace (0 / 299792458) with 0 by (unfold Rdiv; ring).
    unfold rdiv. destruct (Req_EM_T 0 0); [|lra]. now destruct (k_dim r =? 2)%Z.
Qed.

(** * Comparison with the tool for surface data *)
Lemma kept_all : forall r, kept None r = r_snaps r.
Proof. intros. unfold kept, before. induction (r_snaps r) as [|x l IH]; [reflexivity|]. cbn [filter]. now rewrite IH. Qed.
Lemma surface_intensity : forall r f a, intensity None [asSurface r] f a = farIntensity r f a.
Proof.
  intros. unfold intensity, farIntensity. cbv zeta. cbn [map csum]. rewrite kept_all. cbn [asSurface r_snaps].
  assert (N : forall i, Nint (asSurface r) (k_snaps r) f a i = surfaceInt r f a 3 i) by (intros; apply surface_value).
  assert (L : forall i, Lint (asSurface r) (k_snaps r) f a i = creal (-1) (surfaceInt r f a 0 i)).
  { intros. unfold Lint. f_equal. apply (surface_value r f a 0 i). }
  unfold alongTheta, alongPhi. rewrite !N, !L. f_equal; f_equal; cring.
Qed.
Lemma pulse_tool : forall spread m t, pulse (mkPw spread m 0) t = toolPulse spread m t.
Proof. intros. unfold pulse, toolPulse. cbn [pw_spread pw_mean pw_freq]. replace (2 * PI * 0 * (t - Rabs m)) with 0 by ring. rewrite cos_0. ring. Qed.
Theorem tools_compared : forall s l m r f a, meanAlong s = Some m -> readable r -> offOrigin r -> anglesFit r [a] ->
  let g := f / speedOfLight_SI in
  exists far rcs, computeResults None (Ok (mkPw (j_spread s) m 0)) [asSurface r] [f] [a] = Ok (far, rcs) /\
    far (a, g) = Some ((if (k_dim r =? 2)%Z then PI ^ 2 else 1) * farPower r g a) /\
    (f <> 0 -> toolPower s m r g <> 0 -> exists x,
       entry (s :: l) r g a = Ok (Some (farPower r g a), Some x, Some (normOf r g)) /\
       rcs (a, g) = Some ((if (k_dim r =? 2)%Z then / (2 * g) else 1) * INR (length (k_snaps r)) * x)).
Proof.
  intros s l m r f a M H O A g.
  assert (U : usable (k_dim r) None [asSurface r] [a]).
  { split; [discriminate|]. split.
    - intros x [<-|[]]. split; [reflexivity|]. rewrite kept_all. apply H.
    - intros D b [<-|[]]. rewrite (A D a (or_introl eq_refl)). rewrite Rminus_diag_eq by reflexivity. rewrite Rabs_R0. left. apply Rinv_0_lt_compat. lra. }
  destruct (results_value (k_dim r) None (mkPw (j_spread s) m 0) [asSurface r] [f] [a] U) as (far & rcs & E & V).
  exists far, rcs. split; [exact E|].
  destruct (V a g (or_introl eq_refl)) as [V1 V2]; [now left|].
  assert (T : timesAsked [a] (map (fun f => f / speedOfLight_SI) [f]) a g = 1%nat).
  { unfold timesAsked. cbn [map count_occ]. destruct (angle_dec a a); [|congruence]. fold g. destruct (Req_EM_T g g); [reflexivity|congruence]. }
  unfold Rcs_Proofs.nfs in V1, V2. rewrite T in V1, V2. cbn [INR] in V1, V2. pose proof PI_RGT_0 as Hpi. split.
  - rewrite V1. f_equal. unfold radiated, farPower. rewrite surface_intensity. destruct (k_dim r =? 2)%Z; field; lra.
  - intros Hf HP.
    assert (Hg : g <> 0). { unfold g, speedOfLight_SI. intros Z. apply (Rmult_eq_compat_r 299792458) in Z. unfold Rdiv in Z. rewrite Rmult_assoc, Rinv_l, Rmult_0_l in Z by lra. lra. }
    exists (toolSection s m r g a). split; [now apply entry_finite|]. rewrite V2. unfold crossSection. cbv zeta.
    assert (EP : pulsePower (mkPw (j_spread s) m 0) (firstTimes None [asSurface r]) g = toolPower s m r g).
    { unfold firstTimes. rewrite kept_all. cbn [asSurface r_snaps]. unfold pulsePower, toolPower, powerOf. erewrite csum_ext; [reflexivity|]. intros t _. cbv beta. now rewrite pulse_tool. }
    rewrite EP, surface_intensity. pose proof (INR_snaps r H) as N. unfold toolSection, farPower.
    destruct (k_dim r =? 2)%Z.
    + destruct (Req_EM_T (2 * PI * g * toolPower s m r g) 0) as [Z|Z]; [exfalso; apply Rmult_integral in Z; destruct Z as [Z|Z]; [nra|lra]|]. cbn [option_map]. f_equal. field. repeat split; lra.
    + destruct (Req_EM_T (toolPower s m r g) 0); [contradiction|]. cbn [option_map]. f_equal. field. repeat split; lra.
Qed.

(** * Sampling twice, and two ranks with the same surface *)
Lemma spectrum_double : forall l f c v, spectrum (l ++ l) f c v = spectrum l f c v.
Proof.
  intros l f c v. unfold spectrum. rewrite map_app, csum_app, app_length, plus_INR. set (z := csum _). destruct l as [|x l']; [unfold z; cbn [map csum length INR]; cring|].
  assert (0 < INR (length (x :: l'))) by (apply lt_0_INR; cbn; lia). apply C_ext; unfold creal, cplus; cbn [fst snd]; field; lra.
Qed.
Lemma powerOf_double : forall g l f, powerOf g (l ++ l) f = powerOf g l f.
Proof.
  intros g l f. unfold powerOf. f_equal. f_equal. rewrite map_app, csum_app, app_length, plus_INR. set (z := csum _). destruct l as [|x l']; [unfold z; cbn [map csum length INR]; cring|].
  assert (0 < INR (length (x :: l'))) by (apply lt_0_INR; cbn; lia). apply C_ext; unfold creal, cplus; cbn [fst snd]; field; lra.
Qed.
Lemma int_ext : forall r r' f a first i, k_dim r = k_dim r' -> k_pts r = k_pts r' -> k_ndofs r = k_ndofs r' ->
  (forall c v, spectrum (k_snaps r) f c v = spectrum (k_snaps r') f c v) -> surfaceInt r f a first i = surfaceInt r' f a first i.
Proof.
  intros r r' f a first i D P N H. unfold surfaceInt. rewrite D, P. apply csum_ext. intros q _.
  assert (F : forall c, fieldAt (k_snaps r) (k_ndofs r) f c q = fieldAt (k_snaps r') (k_ndofs r') f c q).
  { intros. unfold fieldAt. rewrite N. apply csum_ext. intros v _. now rewrite H. }
  unfold cross. destruct i as [|[|i]]; now rewrite !F.
Qed.
Lemma power_ext : forall r r' f a, (forall first i, surfaceInt r f a first i = surfaceInt r' f a first i) -> farPower r f a = farPower r' f a.
Proof. intros r r' f a H. unfold farPower, farIntensity. cbv zeta. unfold alongTheta, alongPhi. now rewrite !H. Qed.
Lemma double_section : forall s m r f a, readable r -> toolPower s m r f <> 0 ->
  farPower (sampledTwice r) f a = farPower r f a /\ toolPower s m (sampledTwice r) f = toolPower s m r f /\ toolSection s m (sampledTwice r) f a = toolSection s m r f a / 2.
Proof.
  intros s m r f a H P.
  assert (E : farPower (sampledTwice r) f a = farPower r f a).
  { apply power_ext. intros. apply int_ext; try reflexivity. intros. apply spectrum_double. }
  assert (T : toolPower s m (sampledTwice r) f = toolPower s m r f) by (unfold toolPower, sampledTwice, withSnaps; cbn [k_snaps]; rewrite map_app; apply powerOf_double).
  repeat split; auto. unfold toolSection. rewrite E, T. unfold sampledTwice, withSnaps. cbn [k_snaps]. rewrite app_length, plus_INR.
  pose proof (INR_snaps r H). field. lra.
Qed.
Lemma twice_int : forall r f a first i, surfaceInt (twice r) f a first i = creal 2 (surfaceInt r f a first i).
Proof. intros. unfold surfaceInt, twice. cbn [k_pts k_dim k_snaps k_ndofs]. rewrite map_app, csum_app. set (z := csum _). cring. Qed.
Lemma twice_power : forall r f a, farPower (twice r) f a = 4 * farPower r f a.
Proof.
  intros. unfold farPower, farIntensity. cbv zeta. unfold alongTheta, alongPhi. rewrite !twice_int.
  generalize (surfaceInt r f a 3) (surfaceInt r f a 0). intros u w. unfold cmod2, cplus, cminus, creal. cbn [fst snd]. pose proof PI_RGT_0. field. lra.
Qed.

(** * Orders that do not matter *)
Lemma incoming_perm : forall sources ts ts' f, Permutation ts ts' -> buildIncomingPowerTerm sources ts f = buildIncomingPowerTerm sources ts' f.
Proof.
  intros [|s l] ts ts' f P; [reflexivity|]. unfold buildIncomingPowerTerm. destruct (j_mean s); [|reflexivity]. cbv zeta. unfold gaussianVector. rewrite !combine_map, !fold_cadd, !map_map.
  rewrite (Permutation_length P). f_equal. f_equal. f_equal. f_equal. f_equal. apply csum_perm. apply Permutation_map. exact P.
Qed.
Lemma entry_perm : forall sources r r' f a, reordered r r' -> entry sources r f a = entry sources r' f a.
Proof.
  intros sources r r' f a (l & P & ->). unfold entry. rewrite (pot_perm r l f a P). cbn [withSnaps k_snaps k_dim].
  rewrite (incoming_perm sources (map (fun s => sn_t s / speedOfLight) (k_snaps r)) (map (fun s => sn_t s / speedOfLight) l) f) by (now apply Permutation_map). reflexivity.
Qed.
Lemma rankFiles_perm : forall sources freqs angles r r', reordered r r' -> rankFiles sources freqs angles r = rankFiles sources freqs angles r'.
Proof.
  intros sources freqs angles r r' P. unfold rankFiles. replace (k_dim r') with (k_dim r) by (destruct P as (l & _ & ->); reflexivity). destruct (negb _); [reflexivity|].
  apply foldM_ext_in. intros m a _. assert (E : angleFiles sources r freqs a = angleFiles sources r' freqs a); [|now rewrite E].
  unfold angleFiles. rewrite (mapM_ext _ (fun f => e <- entry sources r' f a ;; Ok (f, e)) freqs); [reflexivity|]. intros f _. now rewrite (entry_perm sources r r' f a P).
Qed.
(** Without rank directories the tool stops with an exception. *)
Lemma manager_empty : forall sources freqs angles, rcsManager sources [] freqs angles = Throw.
Proof. reflexivity. Qed.
Theorem manager_perm : forall sources ranks ranks' freqs angles, Forall2 reordered ranks ranks' ->
  rcsManager sources ranks freqs angles = rcsManager sources ranks' freqs angles.
Proof.
  intros sources ranks ranks' freqs angles F. unfold rcsManager. cbv zeta.
  assert (E : mapM (rankFiles sources (map (fun f => f / speedOfLight_SI) freqs) angles) ranks = mapM (rankFiles sources (map (fun f => f / speedOfLight_SI) freqs) angles) ranks').
  { induction F as [|r r' l l' P F IH]; [reflexivity|]. cbn [mapM]. now rewrite IH, (rankFiles_perm _ _ _ r r' P). }
  now rewrite E.
Qed.
Lemma total_perm : forall l l', Permutation l l' -> total l = total l'.
Proof. intros l l' P. unfold total. induction P; cbn [fold_right]; lra. Qed.
Theorem manager_order : forall s l m ranks ranks' freqs angles, meanAlong s = Some m -> ranks <> [] ->
  (forall r, In r ranks -> readable r /\ offOrigin r /\ anglesFit r angles) ->
  (forall f, In f freqs -> f <> 0) ->
  (forall r f, In r ranks -> In f freqs -> toolPower s m r (f / speedOfLight_SI) <> 0) -> ownFiles angles ->
  Permutation ranks ranks' -> rcsManager (s :: l) ranks freqs angles = rcsManager (s :: l) ranks' freqs angles.
Proof.
  intros s l m ranks ranks' freqs angles M NE Hr Hf HP U P. rewrite (manager_value s l m ranks freqs angles) by assumption.
  rewrite (manager_value s l m ranks' freqs angles); try assumption.
  - f_equal. apply map_ext. intros a. f_equal.
    assert (T : forall g : frank -> R, total (map g ranks) = total (map g ranks')) by (intros; apply total_perm; now apply Permutation_map).
    f_equal; apply map_ext; intros f; now rewrite !(T _).
  - intros ->. apply NE. now apply Permutation_nil, Permutation_sym.
  - intros r I. apply Hr. now apply (Permutation_in r (Permutation_sym P)).
  - intros r f I. apply HP. now apply (Permutation_in r (Permutation_sym P)).
Qed.

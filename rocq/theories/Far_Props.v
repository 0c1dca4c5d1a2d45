(** Properties of the far-field tool that reads field snapshots: C90 - C94. *)
From Coq Require Import ZArith List Bool Reals Permutation.
From Flocq Require Import Core.Core IEEE754.BinarySingleNaN.
From Verif Require Import Common Rcs_Model Rcs_Spec Merge_Model Far_Model Far_Spec FarRound_Model Far_Proofs FarTool_Proofs FarMore_Proofs FarRound_Proofs FarEx_Proofs.
From Verif Require Source_Model Time_Model.
Import ListNotations.
Local Open Scope R_scope.

(** The power sent towards an angle is the near-to-far-field formula with the surface
    integrals of n x H and -n x E; missing: surfaces with a quadrature point at the
    origin (refuted) and the rounding of the phase (refuted). *)
Theorem C90_power_partial : forall r f a, readable r -> offOrigin r -> getPotRad r f a = Ok (Some (farPower r f a)).
Proof. exact pot_value. Qed.
Print Assumptions C90_power_partial.
(** It is never negative. *)
Theorem C90_nonnegative : forall r f a, 0 <= farPower r f a.
Proof. exact farPower_nonneg. Qed.
Print Assumptions C90_nonnegative.
(** It does not depend on where the origin is. *)
Theorem C90_translation_partial : forall d r f a, readable r -> offOrigin r -> offOrigin (moved d r) -> getPotRad (moved d r) f a = getPotRad r f a.
Proof. exact pot_moved. Qed.
Print Assumptions C90_translation_partial.
Example C90_hypotheses_met : readable exR2 /\ offOrigin exR2 /\ anglesFit exR2 [(PI / 2, 0); (PI / 2, 1)] /\ ownFiles [(PI / 2, 0); (PI / 2, 1)] /\ offOrigin (moved (1, 2, 0) exR2).
Proof. exact ex_met2. Qed.
(** A point at the origin, or a frequency of 0 Hz, stops the tool. *)
Theorem C90_throws : forall s l m ranks freqs angles, meanAlong s = Some m -> (forall r, In r ranks -> readable r) -> angles <> [] ->
  (exists r, In r ranks /\ exists f, In f freqs /\ ((exists q, In q (k_pts r) /\ flat (k_dim r) (sp_x q) = (0, 0, 0)) \/ f = 0)) ->
  rcsManager (s :: l) ranks freqs angles = Throw.
Proof. exact manager_throws. Qed.
Print Assumptions C90_throws.
Theorem C90_origin_refuted : exists s r d f a, readable r /\ offOrigin r /\ (exists out, rcsManager [s] [r] [f] [a] = Ok out) /\ rcsManager [s] [moved d r] [f] [a] = Throw.
Proof. exact origin_refuted. Qed.
Print Assumptions C90_origin_refuted.
(** In double arithmetic the phase is a number exactly when the argument of the inverse cosine is a finite
    number between -1 and 1, where quotients and roots are the exact ones rounded to nearest. *)
Theorem C90_phase_number : forall x : Time_Model.double, acosIsNaN x = false <-> is_finite x = true /\ -1 <= B2R x <= 1.
Proof. exact acos_domain. Qed.
Print Assumptions C90_phase_number.
Theorem C90_quotient : forall x y : Time_Model.double, is_finite x = true -> B2R y <> 0 ->
  Rabs (round radix2 (SpecFloat.fexp 53 1024) ZnearestE (B2R x / B2R y)) < bpow radix2 1024 ->
  B2R (ddiv x y) = round radix2 (SpecFloat.fexp 53 1024) ZnearestE (B2R x / B2R y) /\ is_finite (ddiv x y) = true.
Proof. exact ddiv_ok. Qed.
Print Assumptions C90_quotient.
Theorem C90_root : forall x : Time_Model.double, B2R (dsqrt x) = round radix2 (SpecFloat.fexp 53 1024) ZnearestE (sqrt (B2R x)) /\ B2R (dabs x) = Rabs (B2R x).
Proof. exact root_ok. Qed.
Print Assumptions C90_root.
Example C90_phase_example : acosIsNaN done = false /\ acosIsNaN (acosArg normPlain [done; Time_Model.dzero; Time_Model.dzero] [done; done; Time_Model.dzero]) = false /\ acosIsNaN B754_nan = true.
Proof. exact ex_domain. Qed.
(** In double arithmetic the phase of a point in the direction of observation can be
    NaN: here the point (1, 1, 1) seen along the diagonal. *)
Theorem C90_rounding_refuted : exists st ct sp cp one : Time_Model.double, B2R one = 1 /\
  Rabs (B2R st ^ 2 + B2R ct ^ 2 - 1) <= / 2 ^ 52 /\ Rabs (B2R sp ^ 2 + B2R cp ^ 2 - 1) <= / 2 ^ 52 /\
  Forall2 (fun x y => Rabs (B2R x - y) <= / 10 ^ 9) (obsPointF st ct sp cp)
    [10 ^ 6 * B2R st * B2R cp; 10 ^ 6 * B2R st * B2R sp; 10 ^ 6 * B2R ct] /\
  forall norm, norm = normScaled \/ norm = normPlain ->
    Rabs (B2R (norm (obsPointF st ct sp cp)) - 10 ^ 6) <= / 10 ^ 9 /\ Rabs (B2R (norm [one; one; one]) ^ 2 - 3) <= / 2 ^ 50 /\
    is_finite (acosArg norm (obsPointF st ct sp cp) [one; one; one]) = true /\
    1 < B2R (acosArg norm (obsPointF st ct sp cp) [one; one; one]) /\
    acosIsNaN (acosArg norm (obsPointF st ct sp cp) [one; one; one]) = true.
Proof. exact rounding_refuted. Qed.
Print Assumptions C90_rounding_refuted.

(** The order of the snapshots does not matter. *)
Theorem C91_order : forall sources ranks ranks' freqs angles, Forall2 reordered ranks ranks' ->
  rcsManager sources ranks freqs angles = rcsManager sources ranks' freqs angles.
Proof. exact manager_perm. Qed.
Print Assumptions C91_order.
(** The reported cross section is the cross section divided by the number of
    snapshots. *)
Theorem C91_section_partial : forall s l m r freqs angles, meanAlong s = Some m -> m <= 0 -> j_freq s = None ->
  readable r -> offOrigin r -> anglesFit r angles -> ownFiles angles ->
  (forall f, In f freqs -> f <> 0 /\ powerOf (incident (j_spread s) m (j_freq s)) (map sn_t (k_snaps r)) (f / 299792458) <> 0) ->
  rcsManager (s :: l) [r] freqs angles = Ok (map (fun a => (a,
    (map (fun f => mkRD (fst a) (snd a) f (farPower r (f / 299792458) a) (normCol (k_dim r) f)) freqs,
     map (fun f => mkRD (fst a) (snd a) f (trueSection s m r (f / 299792458) a / INR (length (k_snaps r))) (normCol (k_dim r) f)) freqs))) angles).
Proof. exact manager_section. Qed.
Print Assumptions C91_section_partial.
Example C91_hypotheses_met : readable exR /\ offOrigin exR /\ anglesFit exR [exA] /\ ownFiles [exA] /\ meanAlong exS = Some 0 /\ j_freq exS = None /\
  powerOf (incident (j_spread exS) 0 (j_freq exS)) (map sn_t (k_snaps exR)) (299792458 / 299792458) <> 0 /\
  farPower exR (299792458 / 299792458) exA = 1 / 8 /\ trueSection exS 0 exR (299792458 / 299792458) exA = PI.
Proof. exact ex_met. Qed.
(** Taking every snapshot twice halves the result. *)
Theorem C91_sampling_refuted : exists s r f a x, readable r /\ offOrigin r /\ 0 < x /\
  rcsManager [s] [r] [f] [a] = Ok [(a, ([mkRD (fst a) (snd a) f (farPower r (f / 299792458) a) (normCol 3 f)], [mkRD (fst a) (snd a) f x (normCol 3 f)]))] /\
  rcsManager [s] [sampledTwice r] [f] [a] = Ok [(a, ([mkRD (fst a) (snd a) f (farPower r (f / 299792458) a) (normCol 3 f)], [mkRD (fst a) (snd a) f (x / 2) (normCol 3 f)]))].
Proof. exact sampling_refuted. Qed.
Print Assumptions C91_sampling_refuted.
Theorem C91_doubled : forall s m r f a, readable r -> toolPower s m r f <> 0 ->
  farPower (sampledTwice r) f a = farPower r f a /\ toolPower s m (sampledTwice r) f = toolPower s m r f /\ toolSection s m (sampledTwice r) f a = toolSection s m r f a / 2.
Proof. exact double_section. Qed.
Print Assumptions C91_doubled.

(** The two tools on the same surface and snapshots: the same power in three
    dimensions, pi^2 times as much from the surface tool in two; its cross section is the
    other's times the number of snapshots, and in two dimensions also divided by twice
    the frequency (in the solver's units). *)
Theorem C92_tools_partial : forall s l m r f a, meanAlong s = Some m -> readable r -> offOrigin r -> anglesFit r [a] ->
  let g := f / speedOfLight_SI in
  exists far rcs, computeResults None (Ok (mkPw (j_spread s) m 0)) [asSurface r] [f] [a] = Ok (far, rcs) /\
    far (a, g) = Some ((if (k_dim r =? 2)%Z then PI ^ 2 else 1) * farPower r g a) /\
    (f <> 0 -> toolPower s m r g <> 0 -> exists x,
       entry (s :: l) r g a = Ok (Some (farPower r g a), Some x, Some (if (k_dim r =? 2)%Z then 1 / g else (1 / g) ^ 2)) /\
       rcs (a, g) = Some ((if (k_dim r =? 2)%Z then / (2 * g) else 1) * INR (length (k_snaps r)) * x)).
Proof. exact tools_compared. Qed.
Print Assumptions C92_tools_partial.

(** Every merged file holds, per frequency, the sums over the ranks. *)
Theorem C93_sums : forall s l m ranks freqs angles, meanAlong s = Some m -> ranks <> [] ->
  (forall r, In r ranks -> readable r /\ offOrigin r /\ anglesFit r angles) ->
  (forall f, In f freqs -> f <> 0) ->
  (forall r f, In r ranks -> In f freqs -> toolPower s m r (f / speedOfLight_SI) <> 0) ->
  (forall a b, In a angles -> In b angles -> fileName b = fileName a -> b = a) ->
  rcsManager (s :: l) ranks freqs angles = Ok (map (fun a => (a,
    (map (fun f => mkRD (fst a) (snd a) f (total (map (fun r => farPower r (f / speedOfLight_SI) a) ranks)) (total (map (fun r => normCol (k_dim r) f) ranks))) freqs,
     map (fun f => mkRD (fst a) (snd a) f (total (map (fun r => toolSection s m r (f / speedOfLight_SI) a) ranks)) (total (map (fun r => normCol (k_dim r) f) ranks))) freqs))) angles).
Proof. exact manager_value. Qed.
Print Assumptions C93_sums.
(** Without the directory of any process the tool stops with an exception, also when no angle is asked for. *)
Theorem C93_no_ranks : forall sources freqs angles, rcsManager sources [] freqs angles = Throw.
Proof. exact manager_empty. Qed.
Print Assumptions C93_no_ranks.
(** The order of the ranks does not matter. *)
Theorem C93_order : forall s l m ranks ranks' freqs angles, meanAlong s = Some m -> ranks <> [] ->
  (forall r, In r ranks -> readable r /\ offOrigin r /\ anglesFit r angles) ->
  (forall f, In f freqs -> f <> 0) ->
  (forall r f, In r ranks -> In f freqs -> toolPower s m r (f / speedOfLight_SI) <> 0) -> ownFiles angles ->
  Permutation ranks ranks' -> rcsManager (s :: l) ranks freqs angles = rcsManager (s :: l) ranks' freqs angles.
Proof. exact manager_order. Qed.
Print Assumptions C93_order.
(** A surface counted twice sends four times the power; as two ranks the tool reports
    twice the power. *)
Theorem C93_coherent : forall r f a, farPower (twice r) f a = 4 * farPower r f a.
Proof. exact twice_power. Qed.
Print Assumptions C93_coherent.
Theorem C93_split_refuted : exists s r f a x, readable r /\ offOrigin r /\ 0 < x /\
  (exists far, rcsManager [s] [twice r] [f] [a] = Ok [(a, (far, [mkRD (fst a) (snd a) f x (normCol 3 f)]))]) /\
  (exists far, rcsManager [s] [r; r] [f] [a] = Ok [(a, (far, [mkRD (fst a) (snd a) f (x / 2) (2 * normCol 3 f)]))]).
Proof. exact ranks_refuted. Qed.
Print Assumptions C93_split_refuted.

(** The incident power is that of the simulated pulse, times the number of snapshots;
    missing: carriers, means ahead of the origin, no mean (all refuted). *)
Theorem C94_incident_partial : forall s l m times f, meanAlong s = Some m -> m <= 0 -> j_freq s = None -> times <> [] ->
  buildIncomingPowerTerm (s :: l) times f = Ok (INR (length times) * powerOf (incident (j_spread s) m (j_freq s)) times f).
Proof. exact incoming_true. Qed.
Print Assumptions C94_incident_partial.
(** [incident] is what the simulation injects at the origin. *)
Theorem C94_simulated : forall spread m carrier t,
  Source_Model.funcEval (match carrier with None => Source_Model.FGauss spread [m] 1 | Some f => Source_Model.FModGauss spread [m] (f / Source_Model.speedOfLight_SI) end) [0 - t] =
  Ok (incident spread m carrier t).
Proof. exact incident_simulated. Qed.
Print Assumptions C94_simulated.
Theorem C94_carrier_refuted : exists s times f, j_plane s = true /\ meanAlong s = Some 0 /\ times <> [] /\
  powerOf (incident (j_spread s) 0 (j_freq s)) times f = 0 /\ exists x, buildIncomingPowerTerm [s] times f = Ok x /\ 0 < x.
Proof. exact carrier_refuted. Qed.
Print Assumptions C94_carrier_refuted.
Theorem C94_ahead_refuted : exists s times f m, j_plane s = true /\ j_freq s = None /\ meanAlong s = Some m /\ times <> [] /\
  exists x, buildIncomingPowerTerm [s] times f = Ok x /\ powerOf (incident (j_spread s) m None) times f < x / INR (length times).
Proof. exact positive_refuted. Qed.
Print Assumptions C94_ahead_refuted.
Theorem C94_no_mean_refuted : forall s l times f, j_mean s = None -> buildIncomingPowerTerm (s :: l) times f = UB.
Proof. exact missing_mean. Qed.
Print Assumptions C94_no_mean_refuted.

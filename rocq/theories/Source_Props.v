(** C28, C29, C30, C32, C57, C71, C72: excitations. *)
From Coq Require Import String ZArith List Bool Reals Permutation.
From Verif Require Import Common Source_Model Source_Spec SourceMgr_Proofs SourceWave_Proofs SourceBuild_Proofs SourceDelay_Proofs SourceEx_Proofs.
From Verif Require Import Nodal_Model Nodal_Spec SourceNodal_Proofs.
From Verif Require Import Source_Model Source_Spec SourceMgr_Proofs.
Import ListNotations.
Local Open Scope R_scope.

(** Initial fields add up, node by node, to what was there before. *)
Theorem C28_sum : forall n srcs ids nodes fields, Forall (fun p : list R => length p = n) nodes -> Forall2 (realises n) srcs ids ->
  exists g, setInitialFields srcs nodes fields = Ok g /\
    forall f d i, g f d i = fields f d i + (if isFd f d && inr (length nodes) i then total (fun o => optAt o (nth (Z.to_nat i) nodes []) f d) ids else 0).
Proof. exact init_fields. Qed.
Print Assumptions C28_sum.
Example C28_sum_ex : Forall (fun p : list R => length p = 2%nat) [[0; 0]; [1; 2]] /\ Forall2 (realises 2) exInit exIdeals /\
  total (fun o => optAt o [1; 2] 0 2) exIdeals = exp (- 5 / 2) + 1.
Proof. exact ex_init. Qed.
(** The order of the sources does not matter. *)
Theorem C28_order : forall n srcs ids srcs' ids' nodes fields, Forall (fun p : list R => length p = n) nodes -> Forall2 (realises n) srcs ids -> Forall2 (realises n) srcs' ids' ->
  Permutation ids ids' -> exists g g', setInitialFields srcs nodes fields = Ok g /\ setInitialFields srcs' nodes fields = Ok g' /\ forall f d i, g f d i = g' f d i.
Proof. exact init_order. Qed.
Print Assumptions C28_order.
(** A component that no source drives keeps its value. *)
Theorem C28_undriven : forall n srcs ids nodes fields f d, Forall (fun p : list R => length p = n) nodes -> Forall2 (realises n) srcs ids ->
  (forall a, In (Some a) ids -> id_ft a <> f \/ nth (Z.to_nat d) (id_pol a) 0 = 0) ->
  exists g, setInitialFields srcs nodes fields = Ok g /\ forall i, g f d i = fields f d i.
Proof. exact init_undriven. Qed.
Print Assumptions C28_undriven.
(** A Gaussian initial field of the input file is such a source. *)
Theorem C28_input : forall bj sbj mesh s mag srcs, buildSource bj sbj mesh s = Ok srcs -> js_type s = "initial"%string -> js_mag s = Some mag -> mg_type mag = Some "gaussian"%string ->
  exists i sp c pol dim ft fn, srcs = [SInit i] /\ mg_spread mag = Some sp /\ js_center s = Some c /\ js_pol s = Some pol /\ js_dim s = Some dim /\ js_field s = Some fn /\ ((fn = "electric" /\ ft = 0%Z) \/ (fn = "magnetic" /\ ft = 1%Z))%string /\
    ((1 <= dim <= 3)%Z -> (Z.to_nat dim <= length c)%nat ->
     realises (Z.to_nat dim) (SInit i) (Some (mkIdeal ft pol c (fun q => exp (- fold_right (fun a s => a ^ 2 + s) 0 q / (2 * sp ^ 2)))))).
Proof. exact built_gauss. Qed.
Print Assumptions C28_input.
(** So is a resonant mode. *)
Theorem C28_input_modes : forall bj sbj mesh s mag srcs, buildSource bj sbj mesh s = Ok srcs -> js_type s = "initial"%string -> js_mag s = Some mag -> mg_type mag = Some "resonant"%string ->
  exists i modes pol ft fn, srcs = [SInit i] /\ mg_modes mag = Some modes /\ js_pol s = Some pol /\ js_field s = Some fn /\
    ((fn = "electric" /\ ft = 0%Z) \/ (fn = "magnetic" /\ ft = 1%Z))%string /\
    realises (length modes) (SInit i) (Some (mkIdeal ft pol (repeat 0 (length modes))
      (fun q => fold_right (fun p r => sin (INR (fst p) * PI * snd p) * r) 1 (combine modes q)))).
Proof. exact built_modes. Qed.
Print Assumptions C28_input_modes.
Example C28_input_ex : Forall (fun s => ~ dropped s) exGood /\ exists r, buildSources (fun _ => 0) (fun _ => 0) None exGood = Ok r /\ length r = 2%nat.
Proof. exact ex_good. Qed.

(** Total field sources around a surface: the path of the global operator. *)
Theorem C29_global : forall srcs incs sb nodes time, Forall2 (incident nodes time) srcs incs -> wellSplit (length nodes) sb ->
  exists g, evalDirect srcs sb nodes time = Ok g /\
    forall f d i w, (0 <= f <= 1)%Z -> (0 <= d <= 2)%Z -> (0 <= i < Z.of_nat (length nodes))%Z -> weight (dofOf sb) (tfOf sb) (sb_sf sb) i w ->
      g f d i = w * total (fun o => optInc o (nth (Z.to_nat i) nodes []) f d) incs.
Proof. exact direct_weight. Qed.
Print Assumptions C29_global.
Example C29_global_ex : Forall2 (incident exNodes 0) exSrcs exIncs /\ wellSplit (length exNodes) exSub /\
  weight (dofOf exSub) (tfOf exSub) (sb_sf exSub) 1 (- / 2) /\ weight (dofOf exSub) (tfOf exSub) (sb_sf exSub) 2 (/ 2).
Proof. exact (conj ex_srcs (conj ex_split ex_weight)). Qed.
(** The nodal operator: several sources act as one source carrying their sum. *)
Theorem C29_nodal : forall s l x, wfNodal s -> length x = Z.to_nat (6 * nd_N s) ->
  exists out out', nodalMult (withSrc s l) x = Ok out /\ nodalMult (withSrc s [Some (sumSrc l)]) x = Ok out' /\
    forall c i, (0 <= c < 6)%Z -> (0 <= i < nd_N s)%Z -> comp6 (nd_N s) out c i = comp6 (nd_N s) out' c i.
Proof. exact nodal_superposition. Qed.
Print Assumptions C29_nodal.
(** The matrix operator with one total field source. *)
Theorem C29_matrix_partial : forall srcs incs sb nodes time inj out, Forall2 (incident nodes time) srcs incs -> wellSplit (length nodes) sb -> length (filter isSome incs) = 1%nat ->
  exists g o, evalFallback srcs sb nodes time = Ok g /\ maxwellSources srcs sb nodes time inj out = Ok o /\ (forall r, o r = out r - inj g r) /\
    forall f d i w, (0 <= f <= 1)%Z -> (0 <= d <= 2)%Z -> (0 <= i < Z.of_nat (length nodes))%Z -> weight (dofOf sb) (tfOf sb) (sb_sf sb) i w ->
      g f d i = w * total (fun o => optInc o (nth (Z.to_nat i) nodes []) f d) incs.
Proof. exact matrix_one. Qed.
Print Assumptions C29_matrix_partial.
Example C29_matrix_ex : Forall2 (incident exNodes 0) exOne [incW 0; None] /\ length (filter isSome [incW 0; None]) = 1%nat /\ optInc (incW 0) [0] 0 1 = 1.
Proof. exact ex_one. Qed.
(** With two, it injects the last one twice. *)
Theorem C29_matrix_refuted : exists o, maxwellSources exSrcs exSub exNodes 0 (fun g r => g 0%Z 1%Z r) (fun _ => 0) = Ok o /\
  o 2%Z = - exp (- (1 ^ 2) / 2) /\ total (fun c => optInc c [0] 0 1) exIncs = 1 + exp (- (1 ^ 2) / 2) /\ o 2%Z <> 0 - / 2 * total (fun c => optInc c [0] 0 1) exIncs.
Proof. exact two_waves. Qed.
Print Assumptions C29_matrix_refuted.

(** A plane wave travels without change of shape. *)
Theorem C30_travel : forall f pol dir ft w, total1 f -> length pol = 3%nat -> length dir = 3%nat -> (ft = 0 \/ ft = 1)%Z -> newPlanewave f pol dir ft = Ok w ->
  exists k, along k dir /\ forall p t s fi d, length p = 3%nat -> (0 <= fi <= 1)%Z -> (0 <= d <= 2)%Z ->
    exists v, planeEval w p t fi d = Ok v /\ planeEval w (move p k s) (t + s) fi d = Ok v.
Proof. exact travel. Qed.
Print Assumptions C30_travel.
Theorem C30_transverse : forall f pol dir ft w, total1 f -> length pol = 3%nat -> length dir = 3%nat -> (ft = 0 \/ ft = 1)%Z -> newPlanewave f pol dir ft = Ok w -> dot3 pol dir = 0 ->
  exists k F, along k dir /\ (forall p t fi d, length p = 3%nat -> (0 <= fi <= 1)%Z -> (0 <= d <= 2)%Z -> planeEval w p t fi d = Ok (F fi d t p)) /\
    forall t p, let E := vec F 0 t p in let H := vec F 1 t p in
      dot3 E k = 0 /\ dot3 H k = 0 /\ dot3 E H = 0 /\ dot3 E E = dot3 H H /\ cross3 E H = map (Rmult (dot3 E E)) k.
Proof. exact transverse_wave. Qed.
Print Assumptions C30_transverse.
(** It solves Maxwell's equations. *)
Theorem C30_maxwell : forall f pol dir ft w, smooth f -> length pol = 3%nat -> length dir = 3%nat -> (ft = 0 \/ ft = 1)%Z -> newPlanewave f pol dir ft = Ok w -> dot3 pol dir = 0 ->
  exists F, (forall p t fi d, length p = 3%nat -> (0 <= fi <= 1)%Z -> (0 <= d <= 2)%Z -> planeEval w p t fi d = Ok (F fi d t p)) /\
    forall t p, length p = 3%nat -> maxwellAt F t p.
Proof. exact wave_maxwell. Qed.
Print Assumptions C30_maxwell.
Theorem C30_profiles : (forall sp m, sp <> 0 -> smooth (FGauss sp [m] 1)) /\ (forall sp m fr, sp <> 0 -> smooth (FModGauss sp [m] fr)).
Proof. exact (conj gauss_smooth mod_smooth). Qed.
Print Assumptions C30_profiles.
Example C30_ex : smooth exF /\ total1 exF /\ (exists w, newPlanewave exF [0; 1; 0] [1; 0; 0] 0 = Ok w) /\ dot3 [0; 1; 0] [1; 0; 0] = 0.
Proof. exact ex_wave. Qed.
(** Points of one or two components stand for points of space. *)
Theorem C30_low_dimension : forall w p t f d, (1 <= length p <= 3)%nat -> planeEval w p t f d = planeEval w (pad3 p) t f d.
Proof. exact plane_pad. Qed.
Print Assumptions C30_low_dimension.
(** A polarisation along the direction of travel is accepted and gives a longitudinal wave. *)
Theorem C30_longitudinal_refuted : exists w v, newPlanewave exF [1; 0; 0] [1; 0; 0] 0 = Ok w /\ planeEval w [1; 0; 0] 0 0 0 = Ok v /\ v <> 0.
Proof. exact longitudinal. Qed.
Print Assumptions C30_longitudinal_refuted.

(** The dipole. *)
Theorem C71_maxwell : forall w, dp_spread w <> 0 ->
  exists F : vfield, (forall p t f d, length p = 3%nat -> p <> [0; 0; 0] -> (0 <= f <= 1)%Z -> (0 <= d <= 2)%Z -> dipoleEval w p t f d = Ok (F f d t p)) /\
    forall t p, length p = 3%nat -> p <> [0; 0; 0] -> maxwellAt F t p.
Proof. exact dipole_field. Qed.
Print Assumptions C71_maxwell.
Example C71_ex : exists p t, length p = 3%nat /\ p <> [0; 0; 0] /\ exists v, dipoleEval (mkDip 1 1 0) p t 1 1 = Ok v /\ v <> 0.
Proof. exact dipole_live. Qed.
Theorem C71_plane : forall w x y t f d, (x <> 0 \/ y <> 0) -> dipoleEval w [x; y] t f d = dipoleEval w [x; y; 0] t f d.
Proof. exact dipole_2D. Qed.
Print Assumptions C71_plane.
Theorem C71_origin : forall w t f d, dipoleEval w [0; 0; 0] t f d = UB.
Proof. exact dipole_origin. Qed.
Print Assumptions C71_origin.

(** The field is that of a Hertzian dipole of the given length and pulse. *)
Theorem C71_hertz : forall w, dp_spread w <> 0 -> exists q' q'', (forall s, derivable_pt_lim (dipolePulse (dp_spread w) (dp_mean w)) s (q' s)) /\ (forall s, derivable_pt_lim q' s (q'' s)) /\
  forall p t f d, length p = 3%nat -> p <> [0; 0; 0] -> (0 <= f <= 1)%Z -> (0 <= d <= 2)%Z ->
    dipoleEval w p t f d = Ok (hertz (dp_len w) (dipolePulse (dp_spread w) (dp_mean w)) q' q'' f d t p).
Proof. exact hertz_field. Qed.
Print Assumptions C71_hertz.
Example C71_hertz_ex : dp_spread (mkDip 1 1 0) <> 0 /\ [1; 2; 3] <> [0; 0; 0].
Proof. exact ex_dip. Qed.

(** The frequency used for thin layers covers every modulated source, *)
Theorem C32_modulated : forall l s f sp, In s l -> modulated s f sp -> edgeOf f sp <= maxSourceFrequency l.
Proof. exact freq_mod. Qed.
Print Assumptions C32_modulated.
(** and every Gaussian one when there is no modulated source. *)
Theorem C32_gaussian_partial : forall l s sp, In s l -> plainGauss s sp -> (forall q f w, In q l -> modulated q f w -> edgeOf f w <= 0) -> edgeOf 0 sp <= maxSourceFrequency l.
Proof. exact freq_gauss. Qed.
Print Assumptions C32_gaussian_partial.
Example C32_ex : modulated (modS 5 2) 5 2 /\ plainGauss (gauS 3) 3 /\ 0 < edgeOf 5 2 /\
  In (gauS 3) [gauS 3; gauS 4] /\ (forall q f w, In q [gauS 3; gauS 4] -> modulated q f w -> edgeOf f w <= 0).
Proof. exact ex_freq. Qed.
Theorem C32_mixed_refuted : exists l s sp, In s l /\ plainGauss s sp /\ maxSourceFrequency l < edgeOf 0 sp.
Proof. exact mixed_freq. Qed.
Print Assumptions C32_mixed_refuted.
Theorem C32_plane_refuted : exists s, js_type s = "planewave"%string /\ (exists m, js_mag s = Some m /\ mg_freq m = None /\ mg_spread m = Some (/ 1000)) /\ maxSourceFrequency [s] < edgeOf 0 (/ 1000).
Proof. exact plane_freq. Qed.
Print Assumptions C32_plane_refuted.

(** A plane wave without a given delay: at time zero the pulse is below exp(-25) at the
    centroid of every marked boundary element, and at a point lying [h] ahead of a centroid
    the bound weakens with [h]. *)
Theorem C57_centroids_partial : forall bj sbj bes dim s mag sp tags w srcs, buildSource bj sbj (Some (bes, dim)) s = Ok srcs -> srcs = [SPlane w] -> js_type s = "planewave"%string ->
  js_mag s = Some mag -> mg_mean mag = None -> mg_spread mag = Some sp -> 0 < sp -> js_tags s = Some tags ->
  forall b fi d v, In b bes -> hasTag b tags = true -> planeEval w (centroid b dim) 0 fi d = Ok v -> Rabs v <= exp (-25).
Proof. exact delay_centroid. Qed.
Print Assumptions C57_centroids_partial.
Theorem C57_points_partial : forall bj sbj bes dim s mag sp tags w srcs, buildSource bj sbj (Some (bes, dim)) s = Ok srcs -> srcs = [SPlane w] -> js_type s = "planewave"%string ->
  js_mag s = Some mag -> mg_mean mag = None -> mg_spread mag = Some sp -> 0 < sp -> js_tags s = Some tags ->
  exists k, length k = 3%nat /\ dot3 k k = 1 /\ (exists pr n, js_prop s = Some pr /\ k = map (fun c => c / n) pr /\ 0 < n) /\
  forall b h p fi d v, In b bes -> hasTag b tags = true -> 0 <= h <= 5 * sp * sqrt 2 -> dotv (centroid b dim) k - dotv p k <= h ->
    planeEval w p 0 fi d = Ok v -> Rabs v <= exp (- ((5 * sp * sqrt 2 - h) / sp) ^ 2 / 2).
Proof. exact auto_delay. Qed.
Print Assumptions C57_points_partial.
(** Corners are not looked at: the pulse can be at its peak there. *)
Theorem C57_corners_refuted : exists w, buildSource (fun _ => 0) (fun _ => 0) (Some (exBes, 2%nat)) exPW = Ok [SPlane w] /\ hasTag (mkBE 3 [[-1; 1]; [1; -1]]) [3]%Z = true /\
  planeEval w [-1; 1] 0 0 1 = Ok 1.
Proof. exact ex_delay. Qed.
Print Assumptions C57_corners_refuted.
Theorem C57_dipole_partial : forall bj sbj bes dim s mag sp tags w srcs, buildSource bj sbj (Some (bes, dim)) s = Ok srcs -> srcs = [SDipole w] -> js_type s = "dipole"%string ->
  js_mag s = Some mag -> mg_mean1 mag = None -> mg_spread mag = Some sp -> 0 < sp -> js_tags s = Some tags ->
  dp_spread w = sp /\ forall b, In b bes -> hasTag b tags = true -> exp (- ((0 - dp_mean w - norml2 (centroid b dim)) / (sp * sqrt 2)) ^ 2) <= exp (-25).
Proof. exact dipole_delay. Qed.
Print Assumptions C57_dipole_partial.

(** The exact delays, and what a centroid is. *)
Theorem C57_centroid_mean : forall b dim, be_verts b <> [] -> length (centroid b dim) = dim /\ isCentroid (be_verts b) (centroid b dim).
Proof. exact centroid_mean. Qed.
Print Assumptions C57_centroid_mean.
Theorem C57_dipole_delay : forall bj sbj mesh s mag sp w, buildSource bj sbj mesh s = Ok [SDipole w] -> js_type s = "dipole"%string -> js_mag s = Some mag -> mg_mean1 mag = None -> mg_spread mag = Some sp ->
  match mesh, js_tags s with
  | Some (bes, dim), Some tags => exists r, leastOr0 (map (fun b => norml2 (centroid b dim)) (filter (fun b => if in_dec Z.eq_dec (be_attr b) tags then true else false) bes)) r /\
      dp_mean w = Rmax (sp * sqrt 2) (5 * sp * sqrt 2 - r)
  | _, _ => dp_mean w = 5 * sp * sqrt 2
  end.
Proof. exact dipole_mean. Qed.
Print Assumptions C57_dipole_delay.
Theorem C57_plane_delay : forall bj sbj mesh s mag sp w, buildSource bj sbj mesh s = Ok [SPlane w] -> js_type s = "planewave"%string -> js_mag s = Some mag -> mg_mean mag = None -> mg_spread mag = Some sp ->
  exists k m pr n, js_prop s = Some pr /\ k = map (fun c => c / n) pr /\ 0 < n /\ dot3 k k = 1 /\
  match mesh, js_tags s with
  | Some (bes, dim), Some tags => exists r, leastOr0 (map (fun b => dotv (centroid b dim) k) (filter (fun b => if in_dec Z.eq_dec (be_attr b) tags then true else false) bes)) r /\ m = r - 5 * sp * sqrt 2
  | _, _ => m = 0
  end /\ forall p t f d v, planeEval w p t f d = Ok v -> exists g a, funcEval (match mg_freq mag with None => FGauss sp [m] 1 | Some fr => FModGauss sp [m] (fr / 299792458) end) [dotv p k - t] = Ok g /\ v = g * a /\ Rabs a <= 1.
Proof. exact plane_mean. Qed.
Print Assumptions C57_plane_delay.
Example C57_delay_ex : (exists w, buildSource (fun _ => 0) (fun _ => 0) (Some (exBes, 2%nat)) exPW = Ok [SPlane w]) /\ be_verts (mkBE 3 [[-1; 1]; [1; -1]]) <> [] /\
  leastOr0 [2; 1; 3] 1.
Proof. exact ex_delays. Qed.

(** Every entry of the input gives one source, in order, except initial fields of an unknown kind. *)
Theorem C72_complete_partial : forall bj sbj mesh l r, buildSources bj sbj mesh l = Ok r -> Forall (fun s => ~ dropped s) l ->
  Forall2 (fun s a => buildSource bj sbj mesh s = Ok [a]) l r.
Proof. exact build_complete. Qed.
Print Assumptions C72_complete_partial.
Theorem C72_kinds : forall bj sbj mesh s a, buildSource bj sbj mesh s = Ok [a] ->
  match a with SInit _ => js_type s = "initial"%string | SPlane w => js_type s = "planewave"%string /\ pw_ft w = 0%Z | SDipole w => js_type s = "dipole"%string /\ exists m, js_mag s = Some m /\ mg_length m = Some (dp_len w) /\ mg_spread m = Some (dp_spread w) end.
Proof. exact build_kind. Qed.
Print Assumptions C72_kinds.
Example C72_ex : Forall (fun s => ~ dropped s) exGood /\ exists r, buildSources (fun _ => 0) (fun _ => 0) None exGood = Ok r /\ length r = 2%nat.
Proof. exact ex_good. Qed.
Theorem C72_dropped_refuted : exists s, js_type s = "initial"%string /\ buildSources (fun _ => 0) (fun _ => 0) None [s] = Ok [].
Proof. exact ex_dropped. Qed.
Print Assumptions C72_dropped_refuted.
Theorem C72_short_vector_refuted : exists s, js_pol s = Some [0; 1] /\ buildSource (fun _ => 0) (fun _ => 0) None s = UB.
Proof. exact short_vector. Qed.
Print Assumptions C72_short_vector_refuted.

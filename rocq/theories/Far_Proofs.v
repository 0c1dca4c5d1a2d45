From Coq Require Import ZArith List Bool Reals Lra Lia Psatz Permutation ZifyBool.
From Verif Require Import Common Rcs_Model Rcs_Spec Rcs_Proofs Merge_Model Far_Model Far_Spec.
Import ListNotations.
Local Open Scope R_scope.

(** * The phase at a surface point *)
Lemma obs_norm : forall a, normR3 (buildObsPointVec a) = obs_radius.
Proof.
  intros [th ph]. unfold normR3, buildObsPointVec, dotR3. cbn [fst snd].
  assert (P : 0 <= obs_radius) by (unfold obs_radius; lra).
  rewrite <- (sqrt_square obs_radius P) at 7. f_equal.
  pose proof (sin2_cos2 th) as A. pose proof (sin2_cos2 ph) as B. unfold Rsqr in *.
  replace (obs_radius * sin th * cos ph * (obs_radius * sin th * cos ph) + obs_radius * sin th * sin ph * (obs_radius * sin th * sin ph) + obs_radius * cos th * (obs_radius * cos th))
    with (obs_radius * obs_radius * (sin th * sin th * (sin ph * sin ph + cos ph * cos ph) + cos th * cos th)) by ring.
  rewrite B. replace (sin th * sin th * 1 + cos th * cos th) with 1 by lra. ring.
Qed.
Lemma rhat_unit : forall a, inner (rhat a) (rhat a) = 1.
Proof.
  intros [th ph]. unfold inner, rhat. cbn [fst snd].
  pose proof (sin2_cos2 th) as A. pose proof (sin2_cos2 ph) as B. unfold Rsqr in *.
  replace (sin th * cos ph * (sin th * cos ph) + sin th * sin ph * (sin th * sin ph) + cos th * cos th)
    with (sin th * sin th * (sin ph * sin ph + cos ph * cos ph) + cos th * cos th) by ring. rewrite B. lra.
Qed.
Lemma norm_pos : forall p, p <> (0, 0, 0) -> 0 < normR3 p.
Proof.
  intros [[x y] z] H. unfold normR3, dotR3. apply sqrt_lt_R0.
  pose proof (Rle_0_sqr x). pose proof (Rle_0_sqr y). pose proof (Rle_0_sqr z). unfold Rsqr in *.
  destruct (Req_dec x 0) as [->|Hx]; [|pose proof (Rsqr_pos_lt x Hx); unfold Rsqr in *; lra]. destruct (Req_dec y 0) as [->|Hy]; [|pose proof (Rsqr_pos_lt y Hy); unfold Rsqr in *; lra].
  destruct (Req_dec z 0) as [->|Hz]; [congruence|pose proof (Rsqr_pos_lt z Hz); unfold Rsqr in *; lra].
Qed.
Lemma norm_sq : forall p, normR3 p * normR3 p = inner p p.
Proof. intros [[x y] z]. unfold normR3, dotR3, inner. rewrite sqrt_sqrt; [reflexivity|nra]. Qed.
Lemma cauchy : forall u v, inner u v * inner u v <= inner u u * inner v v.
Proof.
  intros [[a b] c] [[x y] z]. unfold inner.
  pose proof (pow2_ge_0 (a * y - b * x)). pose proof (pow2_ge_0 (a * z - c * x)). pose proof (pow2_ge_0 (b * z - c * y)). nra.
Qed.
Lemma obs_dot : forall a p, dotR3 (buildObsPointVec a) p = obs_radius * inner (rhat a) p.
Proof. intros [th ph] [[x y] z]. unfold dotR3, buildObsPointVec, inner, rhat. cbn [fst snd]. ring. Qed.

Lemma psi_value : forall dim p a, flat dim p <> (0, 0, 0) ->
  exists psi, calcPsiAngle dim p a = Some psi /\ normR3 (flat dim p) * cos psi = inner (rhat a) (flat dim p).
Proof.
  intros dim p a H. unfold calcPsiAngle. change (coords dim p) with (flat dim p). set (q := flat dim p) in *.
  pose proof (norm_pos q H) as Np. assert (Pr : 0 < obs_radius) by (unfold obs_radius; lra).
  rewrite obs_norm, obs_dot. unfold rdiv. destruct (Req_EM_T (obs_radius * normR3 q) 0) as [E|E]; [nra|].
  set (x := obs_radius * inner (rhat a) q / (obs_radius * normR3 q)).
  assert (X : x * normR3 q = inner (rhat a) q) by (unfold x; field; lra).
  assert (B : x * x <= 1).
  { pose proof (cauchy (rhat a) q) as K. rewrite rhat_unit, <- norm_sq, <- X in K.
    assert (0 < normR3 q * normR3 q) by nra. apply (Rmult_le_reg_r (normR3 q * normR3 q)); [assumption|]. lra. }
  assert (L : -1 <= x <= 1) by (split; nra). unfold acosd.
  destruct (Rle_dec (-1) x); [|lra]. destruct (Rle_dec x 1); [|lra]. exists (acos x). split; [reflexivity|]. rewrite cos_acos by assumption. lra.
Qed.
Lemma wavenumber_eq : forall f, wavenumber f = 2 * PI * f.
Proof. intros f. unfold wavenumber, speedOfLight. destruct (Req_EM_T f 0) as [->|H]; [ring|]. field. assumption. Qed.
Lemma expPart_value : forall dim f a p, flat dim p <> (0, 0, 0) -> expPart dim f a p = Some (cis (2 * PI * f * inner (rhat a) (flat dim p))).
Proof.
  intros dim f a p H. destruct (psi_value dim p a H) as (psi & E & V). unfold expPart. rewrite E. cbn [option_map]. change (coords dim p) with (flat dim p).
  rewrite wavenumber_eq, Rmult_assoc, V. reflexivity.
Qed.
Lemma phases_value : forall dim f a pts, (forall q, In q pts -> flat dim (sp_x q) <> (0, 0, 0)) ->
  phases dim f a pts = Some (map (fun q => (q, cis (2 * PI * f * inner (rhat a) (flat dim (sp_x q))))) pts).
Proof.
  induction pts as [|q l IH]; intros H; [reflexivity|]. cbn [phases map].
  rewrite expPart_value by (apply H; now left). rewrite IH by (intros; apply H; now right). reflexivity.
Qed.

(** * The surface sums *)
Lemma formDir_value : forall dim n d, formDir dim n d = - coordinate (flat dim n) d.
Proof. intros dim [[x y] z] d. unfold formDir, flat, coordinate, comp. destruct (dim =? 2)%Z; destruct d as [|[|d]]; cbn [andb Nat.leb]; try reflexivity; lra. Qed.
Lemma form_value : forall dim f a pts d v,
  form dim (map (fun q => (q, cis (2 * PI * f * inner (rhat a) (flat dim (sp_x q))))) pts) d v =
  csum (map (fun q => creal (- coordinate (flat dim (sp_n q)) d * sp_w q * sp_shape q v) (cis (2 * PI * f * inner (rhat a) (flat dim (sp_x q))))) pts).
Proof.
  intros. unfold form. rewrite fold_cadd, cadd_0_l, map_map. apply csum_ext. intros q _. cbn [fst snd]. rewrite formDir_value. cring.
Qed.
Lemma freqField_value : forall snaps f c v, freqField snaps f c v = spectrum snaps f c v.
Proof. intros. unfold freqField, spectrum. rewrite fold_cadd, cadd_0_l. unfold speedOfLight. apply f_equal. apply csum_ext. intros s _. unfold weight, cis_neg. replace (sn_t s / 1) with (sn_t s) by field. reflexivity. Qed.
Lemma ip_value : forall n g h, complexInnerProduct n g h = csum (map (fun v => cmul (g v) (h v)) (seq 0 n)).
Proof. intros. unfold complexInnerProduct. rewrite fold_cadd. apply cadd_0_l. Qed.

Lemma cmul_csum_l : forall (X : Type) (g : X -> C) l z, cmul (csum (map g l)) z = csum (map (fun x => cmul (g x) z) l).
Proof. induction l as [|x l IH]; intros z; cbn [map csum]; [cring|]. rewrite <- IH. cring. Qed.
Lemma cmul_csum_r : forall (X : Type) (g : X -> C) l z, cmul z (csum (map g l)) = csum (map (fun x => cmul z (g x)) l).
Proof. induction l as [|x l IH]; intros z; cbn [map csum]; [cring|]. rewrite <- IH. cring. Qed.
Lemma csum_0 : forall (X : Type) (l : list X), csum (map (fun _ => (0, 0)) l) = (0, 0).
Proof. induction l as [|x l IH]; cbn [map csum]; [reflexivity|]. rewrite IH. cring. Qed.
Lemma csum_swap : forall (X Y : Type) (g : X -> Y -> C) l m,
  csum (map (fun x => csum (map (fun y => g x y) m)) l) = csum (map (fun y => csum (map (fun x => g x y) l)) m).
Proof.
  induction l as [|x l IH]; intros m; cbn [map csum]; [symmetry; apply csum_0|]. rewrite IH, <- csum_plus. reflexivity.
Qed.
(** sum over dofs of form times field = sum over points of phase, weight, normal and
    interpolated field. *)
Lemma ip_surface : forall (r : frank) f a d c,
  csum (map (fun v => cmul (r_lf (asSurface r) f a d v) (spectrum (k_snaps r) f c v)) (seq 0 (k_ndofs r))) =
  csum (map (fun q => cmul (cis (2 * PI * f * inner (rhat a) (flat (k_dim r) (sp_x q))))
                        (creal (- coordinate (flat (k_dim r) (sp_n q)) d * sp_w q) (fieldAt (k_snaps r) (k_ndofs r) f c q))) (k_pts r)).
Proof.
  intros. cbn [asSurface r_lf].
  transitivity (csum (map (fun v => csum (map (fun q => cmul (creal (- coordinate (flat (k_dim r) (sp_n q)) d * sp_w q * sp_shape q v) (cis (2 * PI * f * inner (rhat a) (flat (k_dim r) (sp_x q)))))
                           (spectrum (k_snaps r) f c v)) (k_pts r))) (seq 0 (k_ndofs r)))).
  { apply csum_ext. intros v _. apply cmul_csum_l. }
  rewrite csum_swap. apply csum_ext. intros q _. unfold fieldAt. rewrite <- csum_creal, cmul_csum_r. apply csum_ext. intros v _. cring.
Qed.
Lemma surface_value : forall (r : frank) f a first i,
  csum (map (fun v => cross (fun d => r_lf (asSurface r) f a d v) (fun c => spectrum (k_snaps r) f (first + c) v) i) (seq 0 (k_ndofs r))) = surfaceInt r f a first i.
Proof.
  intros. unfold surfaceInt.
  assert (G : forall d1 c1 d2 c2,
    csum (map (fun v => cminus (cmul (r_lf (asSurface r) f a d1 v) (spectrum (k_snaps r) f c1 v)) (cmul (r_lf (asSurface r) f a d2 v) (spectrum (k_snaps r) f c2 v))) (seq 0 (k_ndofs r))) =
    csum (map (fun q => cmul (cis (2 * PI * f * inner (rhat a) (flat (k_dim r) (sp_x q)))) (creal (sp_w q)
       (cminus (cmul (- coordinate (flat (k_dim r) (sp_n q)) d1, 0) (fieldAt (k_snaps r) (k_ndofs r) f c1 q))
               (cmul (- coordinate (flat (k_dim r) (sp_n q)) d2, 0) (fieldAt (k_snaps r) (k_ndofs r) f c2 q))))) (k_pts r))).
  { intros. rewrite csum_minus, !ip_surface, <- csum_minus. apply csum_ext. intros q _. cring. }
  unfold cross. destruct i as [|[|i]]; apply G.
Qed.

Lemma NL_value : forall (r : frank) f a first (e : bool),
  calcNLpair (k_ndofs r) (r_lf (asSurface r) f a) (fun c => freqField (k_snaps r) f (first + c)) a e =
  (alongTheta a (fun i => creal (if e then -1 else 1) (surfaceInt r f a first i)), alongPhi a (fun i => creal (if e then -1 else 1) (surfaceInt r f a first i))).
Proof.
  intros. unfold calcNLpair. cbv zeta.
  assert (I : forall d c, complexInnerProduct (k_ndofs r) (r_lf (asSurface r) f a d) (freqField (k_snaps r) f (first + c)) =
     csum (map (fun v => cmul (r_lf (asSurface r) f a d v) (spectrum (k_snaps r) f (first + c) v)) (seq 0 (k_ndofs r)))).
  { intros. rewrite ip_value. apply csum_ext. intros v _. now rewrite freqField_value. }
  rewrite !I.
  assert (S : forall i, surfaceInt r f a first i = csum (map (fun v => cross (fun d => r_lf (asSurface r) f a d v) (fun c => spectrum (k_snaps r) f (first + c) v) i) (seq 0 (k_ndofs r)))) by (intros; symmetry; apply surface_value).
  unfold alongTheta, alongPhi. rewrite !S. unfold cross. rewrite !csum_minus.
  generalize (fun d c => csum (map (fun v => cmul (r_lf (asSurface r) f a d v) (spectrum (k_snaps r) f (first + c) v)) (seq 0 (k_ndofs r)))). intros J.
  destruct e; f_equal; cring.
Qed.

Lemma calcNLpair_ext : forall n lf lf' F a e, (forall d v, lf d v = lf' d v) -> calcNLpair n lf F a e = calcNLpair n lf' F a e.
Proof.
  intros n lf lf' F a e H. unfold calcNLpair. cbv zeta.
  assert (E : forall d c, complexInnerProduct n (lf d) (F c) = complexInnerProduct n (lf' d) (F c)).
  { intros. rewrite !ip_value. apply csum_ext. intros v _. now rewrite H. }
  now rewrite !E.
Qed.
Lemma power_cmod2 : forall z, cnorm z = cmod2 z. Proof. intros. unfold cnorm, cmod2. ring. Qed.

Theorem pot_value : forall r f a, readable r -> offOrigin r -> getPotRad r f a = Ok (Some (farPower r f a)).
Proof.
  intros r f a (D & M & Hs) O. unfold getPotRad. destruct (k_snaps r) as [|s0 l0] eqn:ES; [congruence|]. rewrite <- ES. clear Hs.
  replace (k_maxAttr r <? NearToFarField)%Z with false by (unfold NearToFarField; lia).
  replace (negb ((k_dim r =? 2)%Z || (k_dim r =? 3)%Z)) with false by lia.
  rewrite (phases_value _ f a (k_pts r) O).
  set (ph := map _ (k_pts r)).
  assert (F : forall d v, form (k_dim r) ph d v = r_lf (asSurface r) f a d v) by (intros; apply form_value).
  rewrite (calcNLpair_ext _ _ _ (fun c => freqField (k_snaps r) f (3 + c)) a false F), (calcNLpair_ext _ _ _ (fun c => freqField (k_snaps r) f c) a true F).
  rewrite (NL_value r f a 3 false). change (fun c => freqField (k_snaps r) f c) with (fun c => freqField (k_snaps r) f (0 + c)). rewrite (NL_value r f a 0 true).
  cbn [fst snd]. rewrite !power_cmod2, wavenumber_eq. unfold farPower, farIntensity, freeSpaceImpedance, speedOfLight. cbv zeta.
  assert (U : forall (w : nat -> C), alongTheta a (fun i => creal 1 (w i)) = alongTheta a w /\ alongPhi a (fun i => creal 1 (w i)) = alongPhi a w).
  { intros. split; unfold alongTheta, alongPhi; cring. }
  destruct (U (surfaceInt r f a 3)) as [-> ->].
  replace (32 * PI ^ 2 * (1 * 1)) with (32 * PI ^ 2) by ring.
  assert (V : forall u w : C, cadd u (cscale (1 * 1) w) = cplus u w /\ csub u (cscale (1 * 1) w) = cminus u w) by (intros; split; cring).
  match goal with |- context [cadd ?u (cscale (1 * 1) ?w)] => rewrite (proj1 (V u w)) end.
  match goal with |- context [csub ?u (cscale (1 * 1) ?w)] => rewrite (proj2 (V u w)) end.
  reflexivity.
Qed.

Lemma farPower_nonneg : forall r f a, 0 <= farPower r f a.
Proof.
  intros. unfold farPower, farIntensity. cbv zeta. apply Rmult_le_pos.
  - apply Rmult_le_pos; [apply pow2_ge_0|]. left. apply Rinv_0_lt_compat. pose proof PI_RGT_0. nra.
  - apply Rplus_le_le_0_compat; apply cmod2_nonneg.
Qed.

(** * Moving the surface *)
Lemma cis_plus : forall x y, cis (x + y) = cmul (cis x) (cis y).
Proof. intros. unfold cis, cmul. rewrite cos_plus, sin_plus. cring. Qed.
Lemma cis_mod : forall x z, cmod2 (cmul (cis x) z) = cmod2 z.
Proof.
  intros x [u v]. unfold cis, cmul, cmod2. cbn [fst snd]. pose proof (sin2_cos2 x) as H. unfold Rsqr in H.
  replace ((cos x * u - sin x * v) ^ 2 + (cos x * v + sin x * u) ^ 2) with ((sin x * sin x + cos x * cos x) * (u ^ 2 + v ^ 2)) by ring. rewrite H. ring.
Qed.
Lemma inner_plus : forall a dim p d, inner (rhat a) (flat dim (plus3 p d)) = inner (rhat a) (flat dim d) + inner (rhat a) (flat dim p).
Proof. intros a dim [[x y] z] [[u v] w]. unfold flat, plus3, inner, rhat. destruct (dim =? 2)%Z; ring. Qed.
Lemma moved_int : forall d r f a first i,
  surfaceInt (moved d r) f a first i = cmul (cis (2 * PI * f * inner (rhat a) (flat (k_dim r) d))) (surfaceInt r f a first i).
Proof.
  intros. unfold surfaceInt, moved. cbn [k_dim k_pts k_snaps k_ndofs]. rewrite map_map, cmul_csum_r. apply csum_ext. intros q _. cbn [sp_x sp_w sp_n sp_shape].
  rewrite inner_plus, Rmult_plus_distr_l, cis_plus. unfold fieldAt. cbn [sp_shape].
  set (X := creal (sp_w q) _). cring.
Qed.
Lemma farIntensity_moved : forall d r f a, farIntensity (moved d r) f a = farIntensity r f a.
Proof.
  intros. unfold farIntensity. cbv zeta. set (be := 2 * PI * f * inner (rhat a) (flat (k_dim r) d)).
  rewrite <- (cis_mod be (cplus _ (alongTheta a (surfaceInt r f a 3)))), <- (cis_mod be (cminus _ (alongPhi a (surfaceInt r f a 3)))).
  f_equal; f_equal; unfold alongTheta, alongPhi; rewrite !moved_int; fold be;
    generalize (surfaceInt r f a 3) (surfaceInt r f a 0) (cis be); intros; cring.
Qed.
Lemma pot_moved : forall d r f a, readable r -> offOrigin r -> offOrigin (moved d r) -> getPotRad (moved d r) f a = getPotRad r f a.
Proof.
  intros d r f a H O O'. rewrite (pot_value r f a H O), (pot_value (moved d r) f a H O'). unfold farPower. now rewrite farIntensity_moved.
Qed.

(** * The order of the snapshots *)
Lemma perm_snap : forall l l' f c v, Permutation l l' -> freqField l f c v = freqField l' f c v.
Proof.
  intros l l' f c v P. unfold freqField. rewrite (Permutation_length P), !fold_cadd. f_equal. f_equal. apply csum_perm. now apply Permutation_map.
Qed.
Lemma pot_perm : forall r l f a, Permutation (k_snaps r) l -> getPotRad (withSnaps r l) f a = getPotRad r f a.
Proof.
  intros r l f a P. unfold getPotRad, withSnaps. cbn [k_snaps k_maxAttr k_dim k_pts k_ndofs].
  destruct (k_snaps r) as [|s0 l0] eqn:E.
  - apply Permutation_nil in P. subst. reflexivity.
  - destruct l as [|s1 l1]; [apply Permutation_sym, Permutation_nil in P; discriminate|].
    destruct (k_maxAttr r <? NearToFarField)%Z; [reflexivity|]. destruct (negb _); [reflexivity|]. destruct (phases _ _ _ _); [|reflexivity].
    assert (G : forall lf first e, calcNLpair (k_ndofs r) lf (fun c => freqField (s1 :: l1) f (first + c)) a e = calcNLpair (k_ndofs r) lf (fun c => freqField (s0 :: l0) f (first + c)) a e).
    { intros. unfold calcNLpair. cbv zeta.
      assert (I : forall d c, complexInnerProduct (k_ndofs r) (lf d) (freqField (s1 :: l1) f (first + c)) = complexInnerProduct (k_ndofs r) (lf d) (freqField (s0 :: l0) f (first + c))).
      { intros. rewrite !ip_value. apply csum_ext. intros v _. now rewrite (perm_snap _ _ f (first + c) v P). }
      now rewrite !I. }
    pose proof (G (form (k_dim r) l) 3%nat false) as G1. pose proof (G (form (k_dim r) l) 0%nat true) as G2. cbn [Nat.add] in G1, G2 |- *. cbv zeta. rewrite G1. now rewrite G2.
Qed.

(** * The incident power *)
Lemma combine_map : forall (X Y : Type) (g : X -> Y) l, combine l (map g l) = map (fun x => (x, g x)) l.
Proof. induction l; cbn; congruence. Qed.
Lemma dot_inner : forall u v, dotR3 u v = inner u v. Proof. intros [[? ?] ?] [[? ?] ?]. reflexivity. Qed.
Lemma incoming_value : forall s l m times f, meanAlong s = Some m -> times <> [] ->
  buildIncomingPowerTerm (s :: l) times f = Ok (INR (length times) * powerOf (toolPulse (j_spread s) m) times f).
Proof.
  intros s l m times f M T. unfold buildIncomingPowerTerm, meanAlong in *. destruct (j_mean s) as [mean|]; [|discriminate]. cbn [option_map] in M. injection M as M.
  cbv zeta. replace (dotR3 mean (j_prop s) / normR3 (j_prop s)) with m by (rewrite <- M; unfold normR3; now rewrite !dot_inner). f_equal. unfold gaussianVector. rewrite combine_map, fold_cadd, cadd_0_l, map_map. cbn [fst snd].
  assert (E : csum (map (fun t => cscale (exp (- ((t - Rabs m) * (t - Rabs m)) / (2 * (j_spread s * j_spread s)))) (weight f t)) times) =
              csum (map (fun t => creal (toolPulse (j_spread s) m t) (cis_neg (2 * PI * f * t))) times)).
  { apply csum_ext. intros t _. unfold toolPulse. replace ((t - Rabs m) ^ 2) with ((t - Rabs m) * (t - Rabs m)) by ring. replace (j_spread s ^ 2) with (j_spread s * j_spread s) by ring. reflexivity. }
  rewrite E. unfold powerOf, freeSpaceImpedance, speedOfLight. set (z := csum _). destruct z as [x y]. unfold cnorm, cmod2, creal. cbn [fst snd].
  assert (N : INR (length times) <> 0) by (apply not_0_INR; destruct times; cbn; congruence || lia). field. assumption.
Qed.
Lemma powerOf_ext : forall g h times f, (forall t, In t times -> g t = h t) -> powerOf g times f = powerOf h times f.
Proof. intros g h times f H. unfold powerOf. erewrite csum_ext; [reflexivity|]. intros t I. cbv beta. now rewrite H. Qed.
Lemma incident_tool : forall spread m t, m <= 0 -> toolPulse spread m t = incident spread m None t.
Proof. intros. unfold toolPulse, incident. rewrite Rabs_left1 by assumption. rewrite Rmult_1_r. do 3 f_equal. ring. Qed.

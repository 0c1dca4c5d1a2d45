From Coq Require Import ZArith List Bool Reals Lra Lia Psatz.
From Flocq Require Import Core.Core.
From Flocq.Prop Require Import Relative.
From Flocq.IEEE754 Require Import BinarySingleNaN.
From Verif Require Import Common Rcs_Model Far_Model Print_Model Print_Spec.
Import ListNotations.
Local Open Scope R_scope.

Notation fexp := (SpecFloat.fexp 53 1024).
#[local] Instance P53 : Prec_gt_0 53 := eq_refl _.
#[local] Instance Vfexp : Valid_exp fexp := fexp_correct 53 1024 _.
#[local] Instance Mfexp : Monotone_exp fexp := fexp_monotone 53 1024.
Lemma prec_pos : forall n, (0 < n)%nat -> Prec_gt_0 (Z.of_nat n).
Proof. intros n H. unfold Prec_gt_0. lia. Qed.

Lemma bpow_powerRZ : forall (b : radix) e, bpow b e = powerRZ (IZR b) e.
Proof. intros. apply bpow_powerRZ. Qed.

Lemma decimal_format : forall n v, (0 < n)%nat -> (decimal n v <-> generic_format radix10 (FLX_exp (Z.of_nat n)) v).
Proof.
  intros n v H. pose proof (prec_pos n H). split.
  - intros [m [e [B ->]]]. apply generic_format_FLX; try assumption. exists (Float radix10 m e); [|exact B].
    unfold F2R. cbn [Fnum Fexp]. rewrite bpow_powerRZ. reflexivity.
  - intros F. apply FLX_format_generic in F; [|assumption]. destruct F as [[m e] E B]. exists m, e. split; [exact B|].
    rewrite E. unfold F2R. cbn [Fnum Fexp]. rewrite bpow_powerRZ. reflexivity.
Qed.
Lemma closest_significant : forall n x, (0 < n)%nat -> closest n x (significant (Z.of_nat n) x).
Proof.
  intros n x H. pose proof (prec_pos n H) as P. destruct (round_N_pt radix10 (FLX_exp (Z.of_nat n)) (fun z => negb (Z.even z)) x) as [F M].
  split; [apply decimal_format; assumption|]. intros w D. apply M. apply decimal_format; assumption.
Qed.
Lemma error_significant : forall n x, (0 < n)%nat -> Rabs (significant (Z.of_nat n) x - x) <= / 2 * powerRZ 10 (1 - Z.of_nat n) * Rabs x.
Proof.
  intros n x H. pose proof (prec_pos n H) as P.
  pose proof (relative_error_N_FLX radix10 (Z.of_nat n) P (fun z => negb (Z.even z)) x) as E.
  rewrite bpow_powerRZ in E. replace (- Z.of_nat n + 1)%Z with (1 - Z.of_nat n)%Z in E by lia. exact E.
Qed.

Lemma time_closest : forall t, closest 6 t (timeText t).
Proof. intros t. apply (closest_significant 6). lia. Qed.
Lemma table_closest : forall x, closest 6 x (tableText x).
Proof. intros t. apply (closest_significant 6). lia. Qed.
Lemma mor_closest : forall x, closest 17 x (morText x).
Proof. intros t. apply (closest_significant 17). lia. Qed.

Lemma six_error : forall x, Rabs (significant 6 x - x) <= 5 / 10 ^ 6 * Rabs x.
Proof.
  intros x. pose proof (error_significant 6 x ltac:(lia)) as E. change (Z.of_nat 6) with 6%Z in E.
  replace (/ 2 * powerRZ 10 (1 - 6)) with (5 / 10 ^ 6) in E; [exact E|]. change (powerRZ 10 (1 - 6)) with (/ 10 ^ 5). lra.
Qed.
Lemma mor_error : forall x, Rabs (morText x - x) <= / 2 * / 10 ^ 16 * Rabs x.
Proof.
  intros x. pose proof (error_significant 17 x ltac:(lia)) as E. change (Z.of_nat 17) with 17%Z in E. exact E.
Qed.

(** Doubles. *)
Lemma fexp_val : forall e, fexp e = Z.max (e - 53) (-1074).
Proof. reflexivity. Qed.
Lemma double_format : forall x, isDouble x -> generic_format radix2 fexp x.
Proof.
  intros x [m [e [B [Re ->]]]]. apply (generic_format_FLT radix2 (-1074) 53). exists (Float radix2 m e); cbn [Fnum Fexp].
  - unfold F2R. cbn [Fnum Fexp]. rewrite bpow_powerRZ. reflexivity.
  - exact B.
  - lia.
Qed.
Lemma ulp_big : forall z, 0 < z -> z * / 2 ^ 53 < ulp radix2 fexp z.
Proof.
  intros z Hz. rewrite ulp_neq_0 by lra. unfold cexp. rewrite fexp_val.
  apply Rlt_le_trans with (bpow radix2 (mag radix2 z - 53)).
  - unfold Zminus. rewrite bpow_plus. replace (bpow radix2 (- (53))) with (/ 2 ^ 53).
    + apply Rmult_lt_compat_r; [lra|]. pose proof (bpow_mag_gt radix2 z) as M. rewrite Rabs_pos_eq in M by lra. exact M.
    + rewrite bpow_opp. f_equal. rewrite bpow_powerRZ. reflexivity.
  - apply bpow_le. lia.
Qed.
Lemma apart_doubles : forall a b, generic_format radix2 fexp a -> generic_format radix2 fexp b -> 0 < a -> a < b -> a * / 2 ^ 53 < b - a.
Proof.
  intros a b Fa Fb Pa H. pose proof (succ_le_lt radix2 fexp a b Fa Fb H) as S. rewrite succ_eq_pos in S by lra.
  pose proof (ulp_big a Pa). lra.
Qed.
Lemma mor_pos : forall x, 0 < x -> generic_format radix2 fexp x -> stod (morText x) = x.
Proof.
  intros x Px Fx. set (y := morText x). pose proof (mor_error x) as E. fold y in E. rewrite (Rabs_pos_eq x) in E by lra.
  destruct (round_N_pt radix2 fexp (fun z => negb (Z.even z)) y) as [Fz M]. fold (stod y) in Fz, M. specialize (M x Fx).
  set (z := stod y) in *.
  assert (D : Rabs (z - x) <= / 10 ^ 16 * x).
  { replace (z - x) with ((z - y) + (y - x)) by ring. eapply Rle_trans; [apply Rabs_triang|].
    rewrite (Rabs_minus_sym x y) in M. lra. }
  assert (K : / 10 ^ 16 * x < x * / 2 ^ 53 * (1 - / 10 ^ 16)) by nra.
  destruct (Rabs_le_inv _ _ D) as [D1 D2].
  destruct (Rtotal_order z x) as [L|[L|L]]; [|exact L|]; exfalso.
  - assert (Pz : 0 < z) by nra. pose proof (apart_doubles z x Fz Fx Pz L). nra.
  - pose proof (apart_doubles x z Fx Fz Px L). nra.
Qed.
Lemma mor_opp : forall x, stod (morText (- x)) = - stod (morText x).
Proof. intros x. unfold stod, morText, scientific, significant. rewrite !round_NE_opp. reflexivity. Qed.
Lemma mor_exact : forall x, isDouble x -> stod (morText x) = x.
Proof.
  intros x D. apply double_format in D. destruct (Rtotal_order x 0) as [L|[-> | L]].
  - assert (O : stod (morText (- x)) = - x) by (apply mor_pos; [lra|apply generic_format_opp; exact D]).
    rewrite mor_opp in O. lra.
  - unfold stod, morText, scientific, significant. rewrite round_0 by auto with typeclass_instances. apply round_0. auto with typeclass_instances.
  - apply mor_pos; assumption.
Qed.

(** Times. *)
Lemma stod_le : forall x y, x <= y -> stod x <= stod y.
Proof. intros. apply round_le; auto with typeclass_instances. Qed.
Lemma six_le : forall x y, x <= y -> significant 6 x <= significant 6 y.
Proof.
  intros x y H. assert (P : Prec_gt_0 6) by reflexivity. apply round_le; auto with typeclass_instances.
Qed.
Lemma time_order : forall x y, x <= y -> getTime x <= getTime y.
Proof. intros. apply stod_le, six_le. assumption. Qed.
Lemma stod_0 : stod 0 = 0.
Proof. apply round_0. auto with typeclass_instances. Qed.
Lemma six_0 : significant 6 0 = 0.
Proof. assert (P : Prec_gt_0 6) by reflexivity. apply round_0. auto with typeclass_instances. Qed.
Lemma half_pow : forall n, / 2 ^ (S n) = / 2 * / 2 ^ n.
Proof. intros n. rewrite <- tech_pow_Rmult. apply Rinv_mult. Qed.
Lemma time_error : forall t, plainTime t -> Rabs (getTime t - t) <= 51 / 10 ^ 7 * Rabs t.
Proof.
  intros t [-> | H].
  - unfold getTime, timeText. rewrite six_0, stod_0. replace (0 - 0) with 0 by ring. rewrite Rabs_R0. lra.
  - unfold getTime, timeText. set (v := significant 6 t). pose proof (six_error t) as E. fold v in E.
    assert (Lo : (1 - 5 / 10 ^ 6) * Rabs t <= Rabs v).
    { pose proof (Rabs_triang_inv t v) as I. rewrite Rabs_minus_sym in E. lra. }
    assert (Hi : Rabs v <= (1 + 5 / 10 ^ 6) * Rabs t).
    { pose proof (Rabs_triang_inv v t) as I. lra. }
    assert (F : Rabs (stod v - v) <= / 2 * bpow radix2 (-53 + 1) * Rabs v).
    { unfold stod. apply (relative_error_N_FLT radix2 (-1074) 53 P53). apply Rle_trans with (/ 2 ^ 1001).
      - replace (/ 2 ^ 1001) with (bpow radix2 (-1001)); [apply bpow_le; lia|].
        change (-1001)%Z with (- (1001))%Z. rewrite bpow_opp. f_equal. rewrite bpow_powerRZ, pow_powerRZ. reflexivity.
      - rewrite (half_pow 1000).
        set (u := / 2 ^ 1000) in *. assert (0 < u) by (unfold u; apply Rinv_0_lt_compat, pow_lt; lra). lra. }
    replace (bpow radix2 (-53 + 1)) with (/ 2 ^ 52) in F by (change (-53 + 1)%Z with (-(52))%Z; rewrite bpow_opp; f_equal; rewrite bpow_powerRZ; reflexivity).
    replace (stod v - t) with ((stod v - v) + (v - t)) by ring. eapply Rle_trans; [apply Rabs_triang|].
    pose proof (Rabs_pos t). lra.
Qed.
Lemma time_distinct : forall x y, plainTime x -> plainTime y -> 102 / 10 ^ 7 * Rmax (Rabs x) (Rabs y) < y - x -> getTime x < getTime y.
Proof.
  intros x y Px Py H. pose proof (time_error x Px) as A. pose proof (time_error y Py) as B.
  pose proof (Rmax_l (Rabs x) (Rabs y)). pose proof (Rmax_r (Rabs x) (Rabs y)).
  destruct (Rabs_le_inv _ _ A). destruct (Rabs_le_inv _ _ B). lra.
Qed.
Lemma table_error : forall x, Rabs (tableText x - x) <= 5 / 10 ^ 6 * Rabs x.
Proof. exact six_error. Qed.

(** Positions. *)
Lemma position_error : forall x, Rabs (positionText x - x) <= 5 / 10 ^ 7.
Proof.
  intros x. unfold positionText, fixedPoint.
  pose proof (error_le_half_ulp radix10 (FIX_exp (-6)) (fun z => negb (Z.even z)) x) as E.
  assert (U : ulp radix10 (FIX_exp (-6)) x = / 10 ^ 6).
  { rewrite ulp_FIX. change (-6)%Z with (- (6))%Z. rewrite bpow_opp. f_equal. rewrite bpow_powerRZ. reflexivity. }
  rewrite U in E. replace (5 / 10 ^ 7) with (/ 2 * / 10 ^ 6) by lra. exact E.
Qed.

(** The spectrum. *)
Lemma sin_abs : forall u, Rabs (sin u) <= Rabs u.
Proof.
  assert (P : forall u, 0 <= u -> Rabs (sin u) <= u).
  { intros u H. destruct (Req_dec u 0) as [-> | N]; [rewrite sin_0, Rabs_R0; lra|].
    pose proof (sin_lt_x u ltac:(lra)) as S. apply Rabs_le. split; [|lra].
    destruct (Rle_dec u PI) as [h|h].
    - pose proof (sin_ge_0 u H h). lra.
    - pose proof (SIN_bound u). pose proof PI2_1. lra. }
  intros u. destruct (Rle_dec 0 u) as [h|h].
  - rewrite (Rabs_pos_eq u) by exact h. apply P. exact h.
  - rewrite <- (Rabs_Ropp (sin u)), <- sin_neg. rewrite (Rabs_left u) by lra. apply P. lra.
Qed.
Lemma cos_lip : forall a b, Rabs (cos a - cos b) <= Rabs (a - b).
Proof.
  intros a b. rewrite form2, !Rabs_mult. replace (Rabs (-2)) with 2 by (rewrite Rabs_left; lra).
  pose proof (sin_abs ((a - b) / 2)) as S. unfold Rdiv in S at 2. rewrite Rabs_mult, (Rabs_pos_eq (/ 2)) in S by lra.
  assert (T : Rabs (sin ((a + b) / 2)) <= 1) by (apply Rabs_le; apply SIN_bound).
  pose proof (Rabs_pos (sin ((a - b) / 2))). pose proof (Rabs_pos (sin ((a + b) / 2))). nra.
Qed.
Lemma sin_lip : forall a b, Rabs (sin a - sin b) <= Rabs (a - b).
Proof.
  intros a b. rewrite form4, !Rabs_mult. rewrite (Rabs_pos_eq 2) by lra.
  pose proof (sin_abs ((a - b) / 2)) as S. unfold Rdiv in S at 2. rewrite Rabs_mult, (Rabs_pos_eq (/ 2)) in S by lra.
  assert (T : Rabs (cos ((a + b) / 2)) <= 1) by (apply Rabs_le; apply COS_bound).
  pose proof (Rabs_pos (sin ((a - b) / 2))). pose proof (Rabs_pos (cos ((a + b) / 2))). nra.
Qed.

Lemma weight_time : forall f t, plainTime t ->
  Rabs (fst (weight f (getTime t / speedOfLight)) - fst (weight f (t / speedOfLight))) <= 2 * PI * Rabs f * (51 / 10 ^ 7) * Rabs t /\
  Rabs (snd (weight f (getTime t / speedOfLight)) - snd (weight f (t / speedOfLight))) <= 2 * PI * Rabs f * (51 / 10 ^ 7) * Rabs t.
Proof.
  intros f t H. unfold weight. cbn [fst snd].
  assert (A : Rabs (2 * PI * f * (getTime t / speedOfLight) - 2 * PI * f * (t / speedOfLight)) <= 2 * PI * Rabs f * (51 / 10 ^ 7) * Rabs t).
  { unfold speedOfLight. replace (2 * PI * f * (getTime t / 1) - 2 * PI * f * (t / 1)) with ((2 * PI) * f * (getTime t - t)) by field.
    rewrite !Rabs_mult. rewrite (Rabs_pos_eq 2), (Rabs_pos_eq PI) by (pose proof PI_RGT_0; lra).
    rewrite (Rmult_assoc _ (51 / 10 ^ 7)). apply Rmult_le_compat_l; [|apply time_error; exact H].
    pose proof PI_RGT_0. pose proof (Rabs_pos f). nra. }
  split.
  - eapply Rle_trans; [apply cos_lip|exact A].
  - match goal with |- Rabs (- ?a - - ?b) <= _ => replace (- a - - b) with (- (a - b)) by ring end. rewrite Rabs_Ropp. eapply Rle_trans; [apply sin_lip|exact A].
Qed.

Lemma fold_diff : forall (g : snap -> snap) (w : snap -> C) (v : snap -> R) (B : snap -> R) l acc acc',
  (forall s, In s l -> Rabs (fst (w (g s)) - fst (w s)) <= B s /\ Rabs (snd (w (g s)) - snd (w s)) <= B s) ->
  (forall s, v (g s) = v s) ->
  let F := fun a s => cadd a (cscale (v s) (w s)) in
  Rabs (fst (fold_left F (map g l) acc') - fst (fold_left F l acc)) <= Rabs (fst acc' - fst acc) + fold_right Rplus 0 (map (fun s => Rabs (v s) * B s) l) /\
  Rabs (snd (fold_left F (map g l) acc') - snd (fold_left F l acc)) <= Rabs (snd acc' - snd acc) + fold_right Rplus 0 (map (fun s => Rabs (v s) * B s) l).
Proof.
  intros g w v B. induction l as [|s l IH]; intros acc acc' H V F.
  - cbn. rewrite !Rplus_0_r. split; apply Rle_refl.
  - cbn [map fold_left fold_right]. destruct (H s (or_introl eq_refl)) as [H1 H2].
    destruct (IH (F acc s) (F acc' (g s)) (fun s' h => H s' (or_intror h)) V) as [I1 I2].
    assert (S1 : Rabs (fst (F acc' (g s)) - fst (F acc s)) <= Rabs (fst acc' - fst acc) + Rabs (v s) * B s).
    { unfold F, cadd, cscale. cbn [fst snd]. rewrite V.
      match goal with |- Rabs ?x <= _ => replace x with ((fst acc' - fst acc) + v s * (fst (w (g s)) - fst (w s))) by ring end.
      eapply Rle_trans; [apply Rabs_triang|]. rewrite Rabs_mult. apply Rplus_le_compat_l, Rmult_le_compat_l; [apply Rabs_pos|exact H1]. }
    assert (S2 : Rabs (snd (F acc' (g s)) - snd (F acc s)) <= Rabs (snd acc' - snd acc) + Rabs (v s) * B s).
    { unfold F, cadd, cscale. cbn [fst snd]. rewrite V.
      match goal with |- Rabs ?x <= _ => replace x with ((snd acc' - snd acc) + v s * (snd (w (g s)) - snd (w s))) by ring end.
      eapply Rle_trans; [apply Rabs_triang|]. rewrite Rabs_mult. apply Rplus_le_compat_l, Rmult_le_compat_l; [apply Rabs_pos|exact H2]. }
    split; [eapply Rle_trans; [exact I1|]|eapply Rle_trans; [exact I2|]]; lra.
Qed.

Lemma spectrum_error : forall snaps f c v, (forall s, In s snaps -> plainTime (sn_t s)) ->
  let bound := 2 * PI * Rabs f * (51 / 10 ^ 7) * mean (map (fun s => Rabs (sn_v s c v) * Rabs (sn_t s)) snaps) in
  Rabs (fst (freqField (map readSnap snaps) f c v) - fst (freqField snaps f c v)) <= bound /\
  Rabs (snd (freqField (map readSnap snaps) f c v) - snd (freqField snaps f c v)) <= bound.
Proof.
  intros snaps f c v H bound. destruct (Nat.eq_dec (length snaps) 0) as [L|L].
  { destruct snaps as [|s0 l]; [|discriminate]. cbn [map]. unfold bound, mean. cbn [map fold_right length INR]. replace (fst (freqField [] f c v) - fst (freqField [] f c v)) with 0 by ring.
    replace (snd (freqField [] f c v) - snd (freqField [] f c v)) with 0 by ring. rewrite Rabs_R0. replace (0 / 0) with 0 by (unfold Rdiv; ring). rewrite Rmult_0_r. split; lra. }
  assert (N : 0 < INR (length snaps)) by (apply lt_0_INR; lia). clear L.
  unfold freqField. rewrite map_length.
  destruct (fold_diff readSnap (fun s => weight f (sn_t s / speedOfLight)) (fun s => sn_v s c v) (fun s => 2 * PI * Rabs f * (51 / 10 ^ 7) * Rabs (sn_t s)) snaps c0 c0) as [D1 D2].
  - intros s I. apply weight_time, H, I.
  - reflexivity.
  - replace (fst c0 - fst c0) with 0 in D1 by ring. replace (snd c0 - snd c0) with 0 in D2 by ring. rewrite Rabs_R0, Rplus_0_l in D1, D2.
    assert (S : fold_right Rplus 0 (map (fun s => Rabs (sn_v s c v) * (2 * PI * Rabs f * (51 / 10 ^ 7) * Rabs (sn_t s))) snaps) = bound * INR (length snaps)).
    { transitivity (2 * PI * Rabs f * (51 / 10 ^ 7) * fold_right Rplus 0 (map (fun s => Rabs (sn_v s c v) * Rabs (sn_t s)) snaps)).
      - clear. induction snaps as [|s l IH]; cbn [map fold_right]; [ring|]. rewrite IH. ring.
      - unfold bound, mean. rewrite map_length. field. lra. }
    rewrite S in D1, D2. unfold cscale. cbn [fst snd].
    assert (G : forall a b, Rabs (a - b) <= bound * INR (length snaps) -> Rabs (/ INR (length snaps) * a - / INR (length snaps) * b) <= bound).
    { intros a b Q. rewrite <- Rmult_minus_distr_l, Rabs_mult. rewrite (Rabs_pos_eq (/ INR (length snaps))) by (left; apply Rinv_0_lt_compat; exact N).
      apply Rle_trans with (/ INR (length snaps) * (bound * INR (length snaps))).
      - apply Rmult_le_compat_l; [left; apply Rinv_0_lt_compat; exact N|exact Q].
      - right. field. lra. }
    split; apply G; assumption.
Qed.

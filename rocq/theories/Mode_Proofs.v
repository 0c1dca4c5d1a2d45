From Coq Require Import ZArith List Bool Reals Lia Lra.
From Verif Require Import Common Mode_Model Mode_Spec Source_Model.
Import ListNotations.
Local Open Scope R_scope.

(** ** Sizes *)

Lemma mapM_all : forall {A} (l : list A) n, (n <= length l)%nat -> mapM (zget l) (zseq n) = Ok (firstn n l).
Proof.
  intros A l n. revert l. unfold zseq.
  assert (G : forall n s (l : list A), (s + n <= length l)%nat -> mapM (zget l) (map Z.of_nat (seq s n)) = Ok (firstn n (skipn s l))).
  { induction n0 as [|k IH]; intros s l H; [reflexivity|]. cbn [seq map mapM].
    destruct (zget_in_range l (Z.of_nat s) ltac:(lia)) as (a & Ea & En). rewrite Ea. cbn [bind].
    rewrite (IH (S s) l) by lia. cbn [bind]. f_equal. rewrite Nat2Z.id in En.
    clear -En. revert l En. induction s as [|s IH]; intros [|b l] En; try discriminate En.
    - injection En as ->. reflexivity.
    - cbn [skipn]. cbn in En. rewrite <- (IH l En). reflexivity. }
  intros l H. rewrite (G n 0%nat l) by lia. reflexivity.
Qed.
Lemma mapM_short : forall {A} (l : list A) n, (length l < n)%nat -> mapM (zget l) (zseq n) = UB.
Proof.
  intros A l n H.
  assert (G : forall n s, (s <= length l < s + n)%nat -> mapM (zget l) (map Z.of_nat (seq s n)) = UB).
  { induction n0 as [|k IH]; intros s Hs; [lia|]. cbn [seq map mapM].
    destruct (Nat.eq_dec s (length l)) as [->|Ne].
    - rewrite zget_oob by lia. reflexivity.
    - destruct (zget_in_range l (Z.of_nat s) ltac:(lia)) as (a & Ea & En). rewrite Ea. cbn [bind].
      rewrite (IH (S s)) by lia. reflexivity. }
  apply (G n 0%nat). lia.
Qed.
Lemma new_ok : forall modes box, (length modes <= length box)%nat ->
  newCavity modes box = Ok (mkCav modes (firstn (length modes) box)).
Proof.
  intros modes box L. unfold newCavity. cbn [length Nat.eqb negb].
  rewrite (mapM_all modes) by lia. rewrite (mapM_all box) by lia. cbn [bind]. now rewrite firstn_all.
Qed.
Lemma new_short : forall modes box, (length box < length modes)%nat -> newCavity modes box = UB.
Proof.
  intros modes box L. unfold newCavity. cbn [length Nat.eqb negb].
  rewrite (mapM_all modes) by lia. rewrite (mapM_short box) by lia. reflexivity.
Qed.

(** ** Closed form *)

(** The wave number of direction [d]; for the proofs (models no code of the repository). *)
Definition kOf (c : cavity) (d : nat) : R := INR (nth d (cv_modes c) 0%nat) * PI / nth d (cv_box c) 0.
Fixpoint prodn (n : nat) (f : nat -> R) : R := match n with O => 1 | S k => prodn k f * f k end.
Fixpoint addn (n : nat) (f : nat -> R) : R := match n with O => 0 | S k => addn k f + f k end.
Definition wOf (c : cavity) : R := PI * sqrt (addn (length (cv_modes c)) (fun d => (INR (nth d (cv_modes c) 0%nat) / nth d (cv_box c) 0) ^ 2)).

Lemma zget_at : forall {A} (l : list A) k d, (k < length l)%nat -> zget l (Z.of_nat k) = Ok (nth k l d).
Proof.
  intros A l k d H. destruct (zget_in_range l (Z.of_nat k) ltac:(lia)) as (a & Ea & En). rewrite Ea. f_equal.
  rewrite Nat2Z.id in En. symmetry. now apply nth_error_nth.
Qed.
Lemma modeOf_at : forall c k, (k < length (cv_modes c))%nat -> modeOf c (Z.of_nat k) = Ok (INR (nth k (cv_modes c) 0%nat)).
Proof. intros c k H. unfold modeOf. now rewrite (zget_at _ _ 0%nat). Qed.
Lemma freq_at : forall c, length (cv_box c) = length (cv_modes c) -> cavityFreq c = Ok (wOf c).
Proof.
  intros c L. unfold cavityFreq, wOf.
  enough (G : forall n, (n <= length (cv_modes c))%nat ->
    foldM (fun a d => m <- modeOf c d ;; b <- zget (cv_box c) d ;; Ok (a + (m / b) ^ 2)) (zseq n) 0 =
    Ok (addn n (fun d => (INR (nth d (cv_modes c) 0%nat) / nth d (cv_box c) 0) ^ 2))) by (rewrite G by lia; reflexivity).
  induction n as [|n IH]; intros H; [reflexivity|]. rewrite zseq_S, foldM_app, IH by lia. cbn [bind foldM].
  rewrite modeOf_at by lia. cbn [bind]. rewrite (zget_at _ _ 0) by lia. reflexivity.
Qed.
Lemma phase_at : forall c pos k, length (cv_box c) = length (cv_modes c) -> (k < length (cv_modes c))%nat -> (k < length pos)%nat ->
  phaseOf c pos (Z.of_nat k) = Ok (kOf c k * nth k pos 0).
Proof.
  intros c pos k L H Hp. unfold phaseOf. rewrite modeOf_at by lia. cbn [bind]. rewrite (zget_at pos _ 0) by lia. cbn [bind].
  rewrite (zget_at _ _ 0) by lia. cbn [bind]. f_equal. unfold kOf, Rdiv. ring.
Qed.
Definition closed (c : cavity) (pos : list R) (t : R) : R :=
  cos (wOf c * t) * prodn (length (cv_modes c)) (fun d => sin (kOf c d * nth d pos 0)).
Lemma eval_at : forall c pos t, length (cv_box c) = length (cv_modes c) -> (length (cv_modes c) <= length pos)%nat ->
  cavityEval c pos t = Ok (closed c pos t).
Proof.
  intros c pos t L H. unfold cavityEval. rewrite (freq_at c L). cbn [bind]. unfold closed.
  enough (G : forall n, (n <= length (cv_modes c))%nat ->
    foldM (fun r d => a <- phaseOf c pos d ;; Ok (r * sin a)) (zseq n) (cos (wOf c * t)) =
    Ok (cos (wOf c * t) * prodn n (fun d => sin (kOf c d * nth d pos 0)))) by (rewrite G by lia; reflexivity).
  induction n as [|n IH]; intros Hn; [cbn; now rewrite Rmult_1_r|]. rewrite zseq_S, foldM_app, IH by lia. cbn [bind foldM].
  rewrite phase_at by lia. cbn [bind prodn]. f_equal. ring.
Qed.
Lemma eval_short : forall c pos t, length (cv_box c) = length (cv_modes c) -> (length pos < length (cv_modes c))%nat ->
  cavityEval c pos t = UB.
Proof.
  intros c pos t L H. unfold cavityEval. rewrite (freq_at c L). cbn [bind].
  set (f := fun r d => a <- phaseOf c pos d ;; Ok (r * sin a)).
  assert (G : forall n, (length pos < n <= length (cv_modes c))%nat -> foldM f (zseq n) (cos (wOf c * t)) = UB).
  { induction n as [|n IH]; intros Hn; [lia|]. rewrite zseq_S, foldM_app.
    destruct (Nat.eq_dec n (length pos)) as [->|Ne].
    - assert (E : forall k, (k <= length pos)%nat -> exists r, foldM f (zseq k) (cos (wOf c * t)) = Ok r).
      { induction k as [|k IHk]; intros Hk; [eexists; reflexivity|]. destruct (IHk ltac:(lia)) as (r & Er).
        rewrite zseq_S, foldM_app, Er. cbn [bind foldM]. unfold f at 1. rewrite phase_at by lia. cbn [bind]. eexists; reflexivity. }
      destruct (E (length pos) ltac:(lia)) as (r & ->). cbn [bind foldM]. unfold f at 1, phaseOf. rewrite modeOf_at by lia. cbn [bind].
      rewrite zget_oob by lia. reflexivity.
    - rewrite IH by lia. reflexivity. }
  apply G. lia.
Qed.

(** ** Walls, start and size *)

Lemma prodn_ext : forall n f g, (forall d, (d < n)%nat -> f d = g d) -> prodn n f = prodn n g.
Proof. induction n as [|n IH]; intros f g H; [reflexivity|]. cbn [prodn]. rewrite (H n) by lia. rewrite (IH f g); [reflexivity|]. intros d Hd. apply H. lia. Qed.
Lemma prodn_zero : forall n f d, (d < n)%nat -> f d = 0 -> prodn n f = 0.
Proof.
  induction n as [|n IH]; intros f d H E; [lia|]. cbn [prodn]. destruct (Nat.eq_dec d n) as [->|Ne]; [rewrite E; ring|].
  rewrite (IH f d) by (auto; lia). ring.
Qed.
Lemma prodn_le : forall n f, (forall d, (d < n)%nat -> Rabs (f d) <= 1) -> Rabs (prodn n f) <= 1.
Proof.
  induction n as [|n IH]; intros f H; cbn [prodn]; [rewrite Rabs_R1; lra|]. rewrite Rabs_mult.
  pose proof (IH f ltac:(intros; apply H; lia)). pose proof (H n ltac:(lia)). pose proof (Rabs_pos (prodn n f)). pose proof (Rabs_pos (f n)). nra.
Qed.
Lemma sin_le : forall x, Rabs (sin x) <= 1.
Proof. intros x. apply Rabs_le. pose proof (SIN_bound x). lra. Qed.
Lemma cos_le : forall x, Rabs (cos x) <= 1.
Proof. intros x. apply Rabs_le. pose proof (COS_bound x). lra. Qed.
Lemma closed_le : forall c pos t, Rabs (closed c pos t) <= 1.
Proof.
  intros c pos t. unfold closed. rewrite Rabs_mult.
  pose proof (cos_le (wOf c * t)). pose proof (prodn_le (length (cv_modes c)) (fun d => sin (kOf c d * nth d pos 0)) ltac:(intros; apply sin_le)).
  pose proof (Rabs_pos (cos (wOf c * t))). pose proof (Rabs_pos (prodn (length (cv_modes c)) (fun d => sin (kOf c d * nth d pos 0)))). nra.
Qed.
Lemma sin_nPI : forall n, sin (INR n * PI) = 0.
Proof. intros n. apply sin_eq_0_1. exists (Z.of_nat n). now rewrite <- INR_IZR_INZ. Qed.
Lemma closed_wall : forall c pos t, length (cv_box c) = length (cv_modes c) -> (forall b, In b (cv_box c) -> b <> 0) ->
  onWall (cv_box c) pos -> closed c pos t = 0.
Proof.
  intros c pos t L Nz (d & Hd & W). unfold closed. rewrite (prodn_zero _ _ d); [ring|lia|].
  destruct W as [-> | ->]; [rewrite Rmult_0_r; apply sin_0|].
  unfold kOf. replace (INR (nth d (cv_modes c) 0%nat) * PI / nth d (cv_box c) 0 * nth d (cv_box c) 0) with (INR (nth d (cv_modes c) 0%nat) * PI).
  - apply sin_nPI.
  - field. apply Nz, nth_In, Hd.
Qed.
Lemma nth_repeat1 : forall n d, (d < n)%nat -> nth d (repeat 1 n) 0 = 1.
Proof. induction n as [|n IH]; intros [|d] H; try lia; cbn; auto. apply IH. lia. Qed.
Lemma start_same : forall modes pos c, newCavity modes (repeat 1 (length modes)) = Ok c ->
  cavityEval c pos 0 = funcEval (FSin modes) pos.
Proof.
  intros modes pos c H. rewrite new_ok in H by (rewrite repeat_length; lia). injection H as <-.
  replace (firstn (length modes) (repeat 1 (length modes))) with (repeat 1 (length modes))
    by (symmetry; rewrite <- (repeat_length 1 (length modes)) at 1; apply firstn_all).
  set (c := mkCav modes (repeat 1 (length modes))). unfold cavityEval. rewrite (freq_at c) by (cbn; apply repeat_length). cbn [bind].
  rewrite Rmult_0_r, cos_0. unfold funcEval. cbn [cv_modes c]. apply foldM_ext_in. intros r d I. apply in_zseq in I.
  unfold phaseOf. replace d with (Z.of_nat (Z.to_nat d)) by lia. rewrite modeOf_at by (cbn; lia). cbn [bind]. rewrite !Nat2Z.id.
  destruct (zget pos (Z.of_nat (Z.to_nat d))) as [p| |]; cbn [bind]; [|reflexivity|reflexivity].
  rewrite (zget_at _ _ 0) by (cbn; rewrite repeat_length; lia). cbn [bind cv_box c cv_modes]. rewrite nth_repeat1 by lia.
  unfold Rdiv. rewrite Rinv_1, Rmult_1_r. reflexivity.
Qed.

(** ** Derivatives *)

Lemma nth_moved : forall pos d s j, (d < length pos)%nat -> nth j (moved pos d s) 0 = if Nat.eq_dec j d then s else nth j pos 0.
Proof.
  intros pos d s j H. unfold moved. destruct (Nat.eq_dec j d) as [->|Ne].
  - rewrite app_nth2 by (rewrite firstn_length; lia). rewrite firstn_length, Nat.min_l by lia. now rewrite Nat.sub_diag.
  - destruct (Nat.lt_ge_cases j d) as [Lt|Ge].
    + rewrite app_nth1 by (rewrite firstn_length; lia). rewrite <- (firstn_skipn d pos) at 2. rewrite app_nth1 by (rewrite firstn_length; lia). reflexivity.
    + rewrite app_nth2 by (rewrite firstn_length; lia). rewrite firstn_length, Nat.min_l by lia.
      destruct (j - d)%nat as [|k] eqn:E; [lia|]. cbn [nth].
      rewrite <- (firstn_skipn (S d) pos) at 2. rewrite app_nth2 by (rewrite firstn_length; lia). rewrite firstn_length, Nat.min_l by lia.
      replace (j - S d)%nat with k by lia. reflexivity.
Qed.
Lemma moved_length : forall pos d s, (d < length pos)%nat -> length (moved pos d s) = length pos.
Proof. intros pos d s H. unfold moved. rewrite app_length, firstn_length. cbn [length]. rewrite skipn_length. lia. Qed.
Lemma prodn_split : forall c pos d n, (d < n)%nat -> (d < length pos)%nat -> exists A, forall s,
  prodn n (fun j => sin (kOf c j * nth j (moved pos d s) 0)) = A * sin (kOf c d * s).
Proof.
  intros c pos d n H Hp. induction n as [|n IH]; [lia|]. destruct (Nat.eq_dec d n) as [->|Ne].
  - exists (prodn n (fun j => sin (kOf c j * nth j pos 0))). intros s. cbn [prodn]. rewrite nth_moved by auto.
    destruct (Nat.eq_dec n n) as [_|C]; [|contradiction]. f_equal. apply prodn_ext. intros j Hj. rewrite nth_moved by auto.
    destruct (Nat.eq_dec j n) as [->|_]; [lia|reflexivity].
  - destruct (IH ltac:(lia)) as (A & HA). exists (A * sin (kOf c n * nth n pos 0)). intros s. cbn [prodn]. rewrite HA, nth_moved by auto.
    destruct (Nat.eq_dec n d) as [->|_]; [lia|]. ring.
Qed.
Lemma moved_same : forall pos d n (f : nat -> R -> R), (d < length pos)%nat ->
  prodn n (fun j => f j (nth j (moved pos d (nth d pos 0)) 0)) = prodn n (fun j => f j (nth j pos 0)).
Proof. intros pos d n f H. apply prodn_ext. intros j _. rewrite nth_moved by auto. destruct (Nat.eq_dec j d) as [->|_]; reflexivity. Qed.

Lemma d_lin : forall k x, derivable_pt_lim (fun s => k * s) x k.
Proof.
  intros k x. pose proof (derivable_pt_lim_scal id k x 1 (derivable_pt_lim_id x)) as H. rewrite Rmult_1_r in H. exact H.
Qed.
Lemma d_sin : forall a k x, derivable_pt_lim (fun s => a * sin (k * s)) x (a * k * cos (k * x)).
Proof.
  intros a k x. replace (a * k * cos (k * x)) with (a * (cos (k * x) * k)) by ring.
  apply (derivable_pt_lim_scal (fun s => sin (k * s))).
  apply (derivable_pt_lim_comp (fun s => k * s) sin).
  - apply d_lin.
  - apply derivable_pt_lim_sin.
Qed.
Lemma d_cos : forall a k x, derivable_pt_lim (fun s => a * cos (k * s)) x (- (a * k * sin (k * x))).
Proof.
  intros a k x. replace (- (a * k * sin (k * x))) with (a * (- sin (k * x) * k)) by ring.
  apply (derivable_pt_lim_scal (fun s => cos (k * s))).
  apply (derivable_pt_lim_comp (fun s => k * s) cos).
  - apply d_lin.
  - apply derivable_pt_lim_cos.
Qed.
Lemma d_ext : forall f g x l, (forall s, f s = g s) -> derivable_pt_lim f x l -> derivable_pt_lim g x l.
Proof. intros f g x l E H eps He. destruct (H eps He) as (del & Hd). exists del. intros h Hh Hl. rewrite <- !E. now apply Hd. Qed.
Lemma second_cos : forall f a k x, (forall s, f s = a * cos (k * s)) -> second f x (- (k ^ 2 * f x)).
Proof.
  intros f a k x E. exists (fun y => - (a * k) * sin (k * y)). split.
  - intros y. apply (d_ext (fun s => a * cos (k * s))); [intros; symmetry; apply E|].
    replace (- (a * k) * sin (k * y)) with (- (a * k * sin (k * y))) by ring. apply d_cos.
  - replace (- (k ^ 2 * f x)) with (- (a * k) * k * cos (k * x)) by (rewrite E; ring). apply d_sin.
Qed.
Lemma second_sin : forall f a k x, (forall s, f s = a * sin (k * s)) -> second f x (- (k ^ 2 * f x)).
Proof.
  intros f a k x E. exists (fun y => a * k * cos (k * y)). split.
  - intros y. apply (d_ext (fun s => a * sin (k * s))); [intros; symmetry; apply E|]. apply d_sin.
  - replace (- (k ^ 2 * f x)) with (- (a * k * k * sin (k * x))) by (rewrite E; ring). apply d_cos.
Qed.

Lemma addn_nonneg : forall n f, (forall d, 0 <= f d) -> 0 <= addn n f.
Proof. induction n as [|n IH]; intros f H; cbn [addn]; [lra|]. pose proof (IH f H). pose proof (H n). lra. Qed.
Lemma addn_scal : forall n f g a, (forall d, g d = a * f d) -> addn n g = a * addn n f.
Proof. induction n as [|n IH]; intros f g a H; cbn [addn]; [ring|]. rewrite (IH f g a H), H. ring. Qed.
Lemma fold_plus : forall l b, fold_right Rplus b l = fold_right Rplus 0 l + b.
Proof. induction l as [|x l IH]; intros b; cbn [fold_right]; [ring|]. rewrite (IH b). ring. Qed.
Lemma addn_fold : forall n f, addn n f = fold_right Rplus 0 (map f (seq 0 n)).
Proof.
  induction n as [|n IH]; intros f; [reflexivity|]. cbn [addn]. rewrite seq_S, map_app, fold_right_app, IH. cbn [map fold_right Nat.add].
  rewrite Rplus_0_r. symmetry. apply fold_plus.
Qed.
Lemma w_square : forall c, (wOf c) ^ 2 = addn (length (cv_modes c)) (fun d => (kOf c d) ^ 2).
Proof.
  intros c. unfold wOf. rewrite Rpow_mult_distr.
  rewrite (pow2_sqrt _ (addn_nonneg _ (fun d => (INR (nth d (cv_modes c) 0%nat) / nth d (cv_box c) 0) ^ 2) ltac:(intros; apply pow2_ge_0))).
  symmetry. apply addn_scal. intros d. unfold kOf, Rdiv. ring.
Qed.

Lemma closed_wave : forall c pos t, (length (cv_modes c) <= length pos)%nat ->
  waveAt (length (cv_modes c)) (closed c) pos t.
Proof.
  intros c pos t H. set (n := length (cv_modes c)) in *.
  exists (- ((wOf c) ^ 2 * closed c pos t)), (fun d => - ((kOf c d) ^ 2 * closed c pos t)). split; [|split].
  - apply (second_cos (closed c pos) (prodn n (fun d => sin (kOf c d * nth d pos 0)))). intros s. unfold closed. fold n. ring.
  - intros d Hd. destruct (prodn_split c pos d n Hd ltac:(lia)) as (A & HA).
    pose proof (second_sin (fun s => closed c (moved pos d s) t) (cos (wOf c * t) * A) (kOf c d) (nth d pos 0)) as S.
    cbv beta in S. assert (E : closed c (moved pos d (nth d pos 0)) t = closed c pos t).
    { unfold closed. rewrite (moved_same pos d _ (fun j x => sin (kOf c j * x))) by lia. reflexivity. }
    rewrite E in S. apply S. intros s. unfold closed. fold n. rewrite HA. ring.
  - rewrite <- addn_fold. rewrite w_square. fold n.
    rewrite (addn_scal n (fun d => kOf c d ^ 2) (fun d => - (kOf c d ^ 2 * closed c pos t)) (- closed c pos t)) by (intros; ring). ring.
Qed.
Lemma second_ext : forall f g x l, (forall s, f s = g s) -> second f x l -> second g x l.
Proof. intros f g x l E (f' & H & H2). exists f'. split; [|exact H2]. intros y. apply (d_ext f); auto. Qed.
Lemma wave_ext : forall n E F pos t, (n <= length pos)%nat ->
  (forall q s, length q = length pos -> E q s = F q s) -> waveAt n E pos t -> waveAt n F pos t.
Proof.
  intros n E F pos t Hl X (ltt & lxx & A & B & C). exists ltt, lxx. split; [|split; [|exact C]].
  - apply (second_ext (E pos)); [|exact A]. intros s. now apply X.
  - intros d Hd. apply (second_ext (fun s => E (moved pos d s) t)); [|now apply B]. intros s. apply X. apply moved_length. lia.
Qed.
Lemma eval_wave : forall modes box c E pos t, length box = length modes ->
  newCavity modes box = Ok c -> (forall q s, length q = length modes -> cavityEval c q s = Ok (E q s)) ->
  length pos = length modes -> waveAt (length modes) E pos t.
Proof.
  intros modes box c E pos t Lb H HE Lp. rewrite new_ok in H by lia. injection H as <-. rewrite <- Lb, firstn_all in HE.
  rewrite Lb in HE.
  apply (wave_ext _ (closed (mkCav modes box))); [lia| |apply (closed_wave (mkCav modes box)); cbn; lia].
  intros q s Lq. rewrite Lp in Lq. specialize (HE q s Lq). rewrite eval_at in HE by (cbn; lia). now injection HE.
Qed.
Lemma eval_wall : forall modes box c pos t, length box = length modes -> (forall b, In b box -> b <> 0) ->
  newCavity modes box = Ok c -> length pos = length modes -> onWall box pos -> cavityEval c pos t = Ok 0.
Proof.
  intros modes box c pos t Lb Nz H Lp W. rewrite new_ok in H by lia. injection H as <-. rewrite <- Lb, firstn_all.
  rewrite eval_at by (cbn; lia). now rewrite (closed_wall (mkCav modes box)).
Qed.
Lemma eval_le : forall modes box c pos t, (length modes <= length box)%nat -> newCavity modes box = Ok c -> (length modes <= length pos)%nat ->
  exists v, cavityEval c pos t = Ok v /\ Rabs v <= 1.
Proof.
  intros modes box c pos t Lb H Lp. rewrite new_ok in H by lia. injection H as <-.
  eexists. split; [apply eval_at; cbn; auto; rewrite firstn_length; lia|apply closed_le].
Qed.
Lemma eval_few : forall modes box c pos t, (length modes <= length box)%nat -> newCavity modes box = Ok c -> (length pos < length modes)%nat ->
  cavityEval c pos t = UB.
Proof.
  intros modes box c pos t Lb H Lp. rewrite new_ok in H by lia. injection H as <-. apply eval_short; cbn; auto; rewrite firstn_length; lia.
Qed.

(** ** Two dimensions *)

Lemma k_ne : forall m b, (0 < m)%nat -> b <> 0 -> INR m * PI / b <> 0.
Proof.
  intros m b Hm Hb. pose proof PI_RGT_0. unfold Rdiv. apply Rmult_integral_contrapositive_currified.
  - apply Rmult_integral_contrapositive_currified; [apply not_0_INR; lia|lra].
  - now apply Rinv_neq_0_compat.
Qed.
Section Plane.
Variables (m0 m1 : nat) (b0 b1 : R).
Hypotheses (B0 : b0 <> 0) (B1 : b1 <> 0).
Let c := mkCav [m0; m1] [b0; b1].
Let k0 := INR m0 * PI / b0.
Let k1 := INR m1 * PI / b1.
Let w := wOf c.

Lemma plane_new : newCavity [m0; m1] [b0; b1] = Ok c.
Proof. reflexivity. Qed.
Lemma plane_w2 : w ^ 2 = k0 ^ 2 + k1 ^ 2.
Proof. unfold w. rewrite w_square. cbn [length cv_modes c addn]. unfold kOf. cbn [nth cv_modes cv_box c]. fold k0 k1. ring. Qed.
Lemma plane_w0 : (0 < m0 \/ 0 < m1)%nat -> w <> 0.
Proof.
  intros H E. pose proof plane_w2 as W. rewrite E in W. pose proof PI_RGT_0.
  assert (Z0 : k0 <> 0 \/ k1 <> 0).
  { destruct H as [H|H]; [left|right]; now apply k_ne. }
  destruct Z0 as [Z0|Z0]; pose proof (pow2_ge_0 k0); pose proof (pow2_ge_0 k1).
  - assert (0 < k0 ^ 2) by (rewrite <- Rsqr_pow2; now apply Rlt_0_sqr). lra.
  - assert (0 < k1 ^ 2) by (rewrite <- Rsqr_pow2; now apply Rlt_0_sqr). lra.
Qed.
Lemma plane_eval : forall x y t, cavityEval c [x; y] t = Ok (cos (w * t) * sin (k0 * x) * sin (k1 * y)).
Proof.
  intros x y t. rewrite eval_at by (cbn; lia). unfold closed. cbn [length cv_modes c prodn]. unfold kOf. cbn [nth cv_modes cv_box c]. fold w k0 k1. f_equal. ring.
Qed.
Lemma plane_phase0 : forall x y, phaseOf c [x; y] 0 = Ok (k0 * x).
Proof. intros x y. change 0%Z with (Z.of_nat 0). rewrite phase_at by (cbn; lia). reflexivity. Qed.
Lemma plane_phase1 : forall x y, phaseOf c [x; y] 1 = Ok (k1 * y).
Proof. intros x y. change 1%Z with (Z.of_nat 1). rewrite phase_at by (cbn; lia). reflexivity. Qed.
Lemma plane_dx : (0 < m0 \/ 0 < m1)%nat -> forall x y t, cavityDx c [x; y] t = Ok (k0 / w * cos (w * t) * cos (k0 * x) * sin (k1 * y)).
Proof.
  intros H x y t. unfold cavityDx. rewrite freq_at by reflexivity. cbn [bind]. change (modeOf c 0) with (Ok (INR m0)). change (zget (cv_box c) 0) with (Ok b0).
  cbn [bind]. rewrite plane_phase0, plane_phase1. cbn [bind]. fold w. do 4 f_equal. unfold k0. field. split; auto using plane_w0.
Qed.
Lemma plane_dy : (0 < m0 \/ 0 < m1)%nat -> forall x y t, cavityDy c [x; y] t = Ok (k1 / w * cos (w * t) * sin (k0 * x) * cos (k1 * y)).
Proof.
  intros H x y t. unfold cavityDy. rewrite freq_at by reflexivity. cbn [bind]. change (modeOf c 1) with (Ok (INR m1)). change (zget (cv_box c) 1) with (Ok b1).
  cbn [bind]. rewrite plane_phase0, plane_phase1. cbn [bind]. fold w. do 4 f_equal. unfold k1. field. split; auto using plane_w0.
Qed.
(** The companions carry the slopes of the field, divided by the frequency. *)
Lemma plane_slopes : (0 < m0 \/ 0 < m1)%nat -> exists w0, w0 <> 0 /\ w0 ^ 2 = k0 ^ 2 + k1 ^ 2 /\ forall Ez Dx Dy,
  (forall p t, length p = 2%nat -> cavityEval c p t = Ok (Ez p t)) ->
  (forall p t, length p = 2%nat -> cavityDx c p t = Ok (Dx p t)) ->
  (forall p t, length p = 2%nat -> cavityDy c p t = Ok (Dy p t)) ->
  forall x y t, derivable_pt_lim (fun s => Ez [s; y] t) x (w0 * Dx [x; y] t) /\
                derivable_pt_lim (fun s => Ez [x; s] t) y (w0 * Dy [x; y] t).
Proof.
  intros H. pose proof (plane_w0 H) as W. exists w. split; [exact W|]. split; [apply plane_w2|]. intros Ez Dx Dy HE HX HY x y t.
  assert (E : forall a b s, Ez [a; b] s = cos (w * s) * sin (k0 * a) * sin (k1 * b)).
  { intros a b s. specialize (HE [a; b] s eq_refl). rewrite plane_eval in HE. now injection HE. }
  assert (X : Dx [x; y] t = k0 / w * cos (w * t) * cos (k0 * x) * sin (k1 * y)).
  { specialize (HX [x; y] t eq_refl). rewrite plane_dx in HX by auto. now injection HX. }
  assert (Y : Dy [x; y] t = k1 / w * cos (w * t) * sin (k0 * x) * cos (k1 * y)).
  { specialize (HY [x; y] t eq_refl). rewrite plane_dy in HY by auto. now injection HY. }
  rewrite X, Y. split.
  - apply (d_ext (fun s => (cos (w * t) * sin (k1 * y)) * sin (k0 * s))); [intros s; rewrite E; ring|].
    replace (w * (k0 / w * cos (w * t) * cos (k0 * x) * sin (k1 * y))) with ((cos (w * t) * sin (k1 * y)) * k0 * cos (k0 * x)) by (field; exact W).
    apply d_sin.
  - apply (d_ext (fun s => (cos (w * t) * sin (k0 * x)) * sin (k1 * s))); [intros s; rewrite E; ring|].
    replace (w * (k1 / w * cos (w * t) * sin (k0 * x) * cos (k1 * y))) with ((cos (w * t) * sin (k0 * x)) * k1 * cos (k1 * y)) by (field; exact W).
    apply d_sin.
Qed.
(** There are magnetic fields, zero at the start, that complete the field to a solution. *)
Lemma plane_solution : (0 < m0 \/ 0 < m1)%nat -> forall Ez, (forall p t, length p = 2%nat -> cavityEval c p t = Ok (Ez p t)) ->
  exists Hx Hy, (forall p, Hx p 0 = 0 /\ Hy p 0 = 0) /\ forall x y t, maxwellAt Ez Hx Hy [x; y] t.
Proof.
  intros H Ez HE. pose proof (plane_w0 H) as W.
  assert (E : forall a b s, Ez [a; b] s = cos (w * s) * sin (k0 * a) * sin (k1 * b)).
  { intros a b s. specialize (HE [a; b] s eq_refl). rewrite plane_eval in HE. now injection HE. }
  exists (fun p t => - (k1 / w * sin (w * t) * sin (k0 * nth 0 p 0) * cos (k1 * nth 1 p 0))),
         (fun p t => k0 / w * sin (w * t) * cos (k0 * nth 0 p 0) * sin (k1 * nth 1 p 0)).
  split; [intros p; rewrite Rmult_0_r, sin_0; split; ring|].
  intros x y t. unfold maxwellAt, moved. cbn [firstn skipn app nth].
  exists (- (w * sin (w * t) * sin (k0 * x) * sin (k1 * y))), (- (k1 * cos (w * t) * sin (k0 * x) * cos (k1 * y))), (k0 * cos (w * t) * cos (k0 * x) * sin (k1 * y)),
    (k0 * cos (w * t) * cos (k0 * x) * sin (k1 * y)), (k1 * cos (w * t) * sin (k0 * x) * cos (k1 * y)),
    (k1 * k1 / w * sin (w * t) * sin (k0 * x) * sin (k1 * y)), (- (k0 * k0 / w * sin (w * t) * sin (k0 * x) * sin (k1 * y))).
  repeat split.
  - apply (d_ext (fun s => (sin (k0 * x) * sin (k1 * y)) * cos (w * s))); [intros s; rewrite E; ring|].
    replace (- (w * sin (w * t) * sin (k0 * x) * sin (k1 * y))) with (- ((sin (k0 * x) * sin (k1 * y)) * w * sin (w * t))) by ring. apply d_cos.
  - apply (d_ext (fun s => (- (k1 / w * sin (k0 * x) * cos (k1 * y))) * sin (w * s))); [intros s; ring|].
    replace (- (k1 * cos (w * t) * sin (k0 * x) * cos (k1 * y))) with ((- (k1 / w * sin (k0 * x) * cos (k1 * y))) * w * cos (w * t)) by (field; exact W). apply d_sin.
  - apply (d_ext (fun s => (k0 / w * cos (k0 * x) * sin (k1 * y)) * sin (w * s))); [intros s; ring|].
    replace (k0 * cos (w * t) * cos (k0 * x) * sin (k1 * y)) with ((k0 / w * cos (k0 * x) * sin (k1 * y)) * w * cos (w * t)) by (field; exact W). apply d_sin.
  - apply (d_ext (fun s => (cos (w * t) * sin (k1 * y)) * sin (k0 * s))); [intros s; rewrite E; ring|].
    replace (k0 * cos (w * t) * cos (k0 * x) * sin (k1 * y)) with ((cos (w * t) * sin (k1 * y)) * k0 * cos (k0 * x)) by ring. apply d_sin.
  - apply (d_ext (fun s => (cos (w * t) * sin (k0 * x)) * sin (k1 * s))); [intros s; rewrite E; ring|].
    replace (k1 * cos (w * t) * sin (k0 * x) * cos (k1 * y)) with ((cos (w * t) * sin (k0 * x)) * k1 * cos (k1 * y)) by ring. apply d_sin.
  - apply (d_ext (fun s => (- (k1 / w * sin (w * t) * sin (k0 * x))) * cos (k1 * s))); [intros s; ring|].
    replace (k1 * k1 / w * sin (w * t) * sin (k0 * x) * sin (k1 * y)) with (- ((- (k1 / w * sin (w * t) * sin (k0 * x))) * k1 * sin (k1 * y))) by (field; exact W). apply d_cos.
  - apply (d_ext (fun s => (k0 / w * sin (w * t) * sin (k1 * y)) * cos (k0 * s))); [intros s; ring|].
    replace (- (k0 * k0 / w * sin (w * t) * sin (k0 * x) * sin (k1 * y))) with (- ((k0 / w * sin (w * t) * sin (k1 * y)) * k0 * sin (k0 * x))) by (field; exact W). apply d_cos.
  - set (a := sin (w * t) * sin (k0 * x) * sin (k1 * y)).
    replace (- (w * sin (w * t) * sin (k0 * x) * sin (k1 * y))) with (- (w ^ 2 / w * a)) by (unfold a; field; exact W). rewrite plane_w2. unfold a. field. exact W.
Qed.
(** With the companions themselves as magnetic fields, of any sign and scale, it is not a solution. *)
Lemma plane_not : (0 < m0)%nat -> (0 < m1)%nat -> forall a b Ez Dx Dy,
  (forall p t, length p = 2%nat -> cavityEval c p t = Ok (Ez p t)) ->
  (forall p t, length p = 2%nat -> cavityDx c p t = Ok (Dx p t)) ->
  (forall p t, length p = 2%nat -> cavityDy c p t = Ok (Dy p t)) ->
  exists x y, ~ maxwellAt Ez (fun p t => a * Dy p t) (fun p t => b * Dx p t) [x; y] 0.
Proof.
  intros P0 P1 a b Ez Dx Dy HE HX HY. pose proof PI_RGT_0 as PP.
  assert (K0 : k0 <> 0) by now apply k_ne.
  assert (K1 : k1 <> 0) by now apply k_ne.
  exists (PI / 2 / k0), 0. intros (ez & hx & hy & ezx & ezy & hxy & hyx & _ & D1 & _ & _ & D2 & _ & _ & Q & _).
  unfold moved in D2. cbn [firstn skipn app nth] in D2.
  assert (A1 : derivable_pt_lim (fun t => a * Dy [PI / 2 / k0; 0] t) 0 (- (a * (k1 / w * sin (k0 * (PI / 2 / k0)) * cos (k1 * 0)) * w * sin (w * 0)))).
  { apply (d_ext (fun s => (a * (k1 / w * sin (k0 * (PI / 2 / k0)) * cos (k1 * 0))) * cos (w * s))); [|apply d_cos].
    intros s. specialize (HY [PI / 2 / k0; 0] s eq_refl). rewrite plane_dy in HY by auto. injection HY as <-. ring. }
  assert (A2 : derivable_pt_lim (fun s => Ez [PI / 2 / k0; s] 0) 0 ((cos (w * 0) * sin (k0 * (PI / 2 / k0))) * k1 * cos (k1 * 0))).
  { apply (d_ext (fun s => (cos (w * 0) * sin (k0 * (PI / 2 / k0))) * sin (k1 * s))); [|apply d_sin].
    intros s. specialize (HE [PI / 2 / k0; s] 0 eq_refl). rewrite plane_eval in HE. now injection HE. }
  pose proof (uniqueness_limite _ _ _ _ D1 A1) as U1. pose proof (uniqueness_limite _ _ _ _ D2 A2) as U2.
  replace (k0 * (PI / 2 / k0)) with (PI / 2) in * by (field; exact K0).
  rewrite !Rmult_0_r in U1, U2. rewrite sin_0 in U1. rewrite cos_0, sin_PI2 in U2. apply K1. lra.
Qed.
End Plane.

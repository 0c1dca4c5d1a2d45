(** Proofs for C57 and C71: the value of the automatic delays and of the dipole field. *)
From Coq Require Import String ZArith List Bool Reals Lia Lra.
From Coquelicot Require Import Coquelicot.
From Verif Require Import Common Source_Model Source_Spec SourceMgr_Proofs SourceWave_Proofs SourceBuild_Proofs.
Import ListNotations.
Local Open Scope R_scope.

Lemma rad_pos : forall p, length p = 3%nat -> p <> [0; 0; 0] -> rad p <> 0.
Proof.
  intros p Lp N E. destruct (three p Lp) as (x & y & z & ->). unfold rad in E. cbn [nth] in E. apply N.
  assert (x * x + y * y + z * z = 0) by (apply sqrt_eq_0; [nra|exact E]). assert (x = 0) by nra. assert (y = 0) by nra. assert (z = 0) by nra. subst. reflexivity.
Qed.
Lemma hertz_eval : forall w p t f d, dp_spread w <> 0 -> length p = 3%nat -> p <> [0; 0; 0] -> (0 <= f <= 1)%Z -> (0 <= d <= 2)%Z ->
  dipoleEval w p t f d = Ok (hertz (dp_len w) (q0 w) (q1 w) (q2 w) f d t p).
Proof.
  intros w p t f d Hs Lp N Hf Hd. pose proof (rad_pos p Lp N) as Hr. rewrite (dp_eval w Hs p t f d Lp Hf Hd Hr). f_equal.
  destruct (three p Lp) as (x & y & z & ->). unfold hertz. change (sqrt (dot3 [x; y; z] [x; y; z])) with (rad [x; y; z]).
  pose proof (rad_sq [x; y; z]) as Q. cbn [nth] in Q. set (r := rad [x; y; z]) in *. pose proof PI_neq0 as P0.
  unfold DP. fold r. unfold L, invFourPi, fa, fb, fc, ezAt, ezCross.
  assert (f = 0 \/ f = 1)%Z as [->| ->] by lia; assert (d = 0 \/ d = 1 \/ d = 2)%Z as [->|[->| ->]] by lia; cbn [Z.eqb Pos.eqb nth Z.to_nat Pos.to_nat Pos.iter_op Nat.add];
    set (a0 := q0 w (t - r)); set (a1 := q1 w (t - r)); set (a2 := q2 w (t - r)); clearbody a0 a1 a2; clearbody r; change (Pos.to_nat 1) with 1%nat; change (Pos.to_nat 2) with 2%nat; cbv iota; field; auto.
Qed.
Lemma pulse_q0 : forall w s, q0 w s = dipolePulse (dp_spread w) (dp_mean w) s.
Proof. intros w s. unfold q0, dipolePulse, wd. f_equal. f_equal. ring. Qed.
Lemma hertz_field : forall w, dp_spread w <> 0 -> exists q' q'', (forall s, derivable_pt_lim (dipolePulse (dp_spread w) (dp_mean w)) s (q' s)) /\ (forall s, derivable_pt_lim q' s (q'' s)) /\
  forall p t f d, length p = 3%nat -> p <> [0; 0; 0] -> (0 <= f <= 1)%Z -> (0 <= d <= 2)%Z ->
    dipoleEval w p t f d = Ok (hertz (dp_len w) (dipolePulse (dp_spread w) (dp_mean w)) q' q'' f d t p).
Proof.
  intros w Hs. exists (q1 w), (q2 w). split; [|split].
  - intros s. apply is_derive_Reals. apply (is_derive_ext (q0 w)); [intros u; apply pulse_q0|apply q0_d; exact Hs].
  - intros s. apply is_derive_Reals. apply q1_d. exact Hs.
  - intros p t f d Lp N Hf Hd. rewrite (hertz_eval w p t f d Hs Lp N Hf Hd). f_equal. unfold hertz. rewrite pulse_q0. reflexivity.
Qed.

Lemma nth_map_seq : forall (f : nat -> R) n d, (d < n)%nat -> nth d (map f (seq 0 n)) 0 = f d.
Proof. intros f n d H. rewrite (nth_indep _ 0 (f 0%nat)) by (rewrite map_length, seq_length; exact H). rewrite map_nth, seq_nth by exact H. reflexivity. Qed.
Lemma centroid_mean : forall b dim, be_verts b <> [] -> length (centroid b dim) = dim /\ isCentroid (be_verts b) (centroid b dim).
Proof.
  intros b dim N. assert (Ln : length (centroid b dim) = dim) by (unfold centroid; rewrite map_length, seq_length; reflexivity).
  split; [exact Ln|]. intros d Hd. rewrite Ln in Hd. unfold centroid.
  rewrite nth_map_seq by exact Hd. unfold total. field. apply not_0_INR. destruct (be_verts b); [contradiction|discriminate].
Qed.
(** The fold over the marked elements gives the least value. *)
Lemma min_least : forall {A} (has : A -> bool) (val : A -> R) l,
  leastOr0 (map val (filter has l)) (match fold_left (fun m b => if has b then minOpt m (val b) else m) l None with Some r => r | None => 0 end).
Proof.
  intros A has val.
  assert (K : forall l m, exists r, fold_left (fun m b => if has b then minOpt m (val b) else m) l (Some m) = Some r /\ r <= m /\ (r = m \/ In r (map val (filter has l))) /\ forall v, In v (map val (filter has l)) -> r <= v).
  { induction l as [|b l IH]; intros m; [exists m; repeat split; [lra|left; reflexivity|intros v []]|]. cbn [fold_left filter]. destruct (has b); [|apply IH]. cbn [minOpt map].
    destruct (IH (Rmin m (val b))) as (r & E & Lr & O & F). exists r. split; [exact E|]. pose proof (Rmin_l m (val b)). pose proof (Rmin_r m (val b)). split; [lra|]. split.
    - destruct O as [->|I]; [|right; right; exact I]. unfold Rmin. destruct (Rle_dec m (val b)); [left; reflexivity|right; left; reflexivity].
    - intros v [<-|I]; [lra|apply F; exact I]. }
  induction l as [|b l IH]; [left; split; reflexivity|]. cbn [fold_left filter]. destruct (has b); [|exact IH]. cbn [minOpt map].
  destruct (K l (val b)) as (r & E & Lr & O & F). rewrite E. right. split.
  - destruct O as [->|I]; [left; reflexivity|right; exact I].
  - intros v [<-|I]; [exact Lr|apply F; exact I].
Qed.
Lemma sel_has : forall bes tags, filter (fun b => if in_dec Z.eq_dec (be_attr b) tags then true else false) bes = filter (fun b => hasTag b tags) bes.
Proof.
  intros bes tags. apply filter_ext. intros b. destruct (in_dec Z.eq_dec (be_attr b) tags) as [I|I]; symmetry.
  - unfold hasTag. apply existsb_exists. exists (be_attr b). split; [exact I|apply Z.eqb_refl].
  - destruct (hasTag b tags) eqn:E; [|reflexivity]. exfalso. apply I. unfold hasTag in E. apply existsb_exists in E. destruct E as (x & Hx & Q). apply Z.eqb_eq in Q. rewrite Q. exact Hx.
Qed.
Lemma dipole_mean : forall bj sbj mesh s mag sp w, buildSource bj sbj mesh s = Ok [SDipole w] -> js_type s = "dipole"%string -> js_mag s = Some mag -> mg_mean1 mag = None -> mg_spread mag = Some sp ->
  match mesh, js_tags s with
  | Some (bes, dim), Some tags => exists r, leastOr0 (map (fun b => norml2 (centroid b dim)) (filter (fun b => if in_dec Z.eq_dec (be_attr b) tags then true else false) bes)) r /\
      dp_mean w = Rmax (sp * sqrt 2) (5 * sp * sqrt 2 - r)
  | _, _ => dp_mean w = 5 * sp * sqrt 2
  end.
Proof.
  intros bj sbj mesh s mag sp w B Ty Em Mn Es. unfold buildSource in B. rewrite Ty in B. cbn [String.eqb Ascii.eqb Bool.eqb] in B.
  rewrite Em in B. cbn [need bind] in B. destruct (mg_length mag) as [len|]; [|discriminate]. cbn [need bind] in B. rewrite Es in B. cbn [need bind] in B. unfold dipoleMean in B. rewrite Mn in B.
  destruct mesh as [[bes dim]|]; [|injection B as <-; unfold AUTO_DELAY_N_SIGMA; reflexivity].
  destruct (js_tags s) as [tags|]; [|injection B as <-; unfold AUTO_DELAY_N_SIGMA; reflexivity]. injection B as <-. cbn [dp_mean].
  exists (minRadius bes dim tags). split; [rewrite sel_has; apply min_least|]. unfold AUTO_DELAY_N_SIGMA, speedOfLight. f_equal. lra.
Qed.
Lemma plane_mean : forall bj sbj mesh s mag sp w, buildSource bj sbj mesh s = Ok [SPlane w] -> js_type s = "planewave"%string -> js_mag s = Some mag -> mg_mean mag = None -> mg_spread mag = Some sp ->
  exists k m pr n, js_prop s = Some pr /\ k = map (fun c => c / n) pr /\ 0 < n /\ dot3 k k = 1 /\
  match mesh, js_tags s with
  | Some (bes, dim), Some tags => exists r, leastOr0 (map (fun b => dotv (centroid b dim) k) (filter (fun b => if in_dec Z.eq_dec (be_attr b) tags then true else false) bes)) r /\ m = r - 5 * sp * sqrt 2
  | _, _ => m = 0
  end /\ forall p t f d v, planeEval w p t f d = Ok v -> exists g a, funcEval (match mg_freq mag with None => FGauss sp [m] 1 | Some fr => FModGauss sp [m] (fr / 299792458) end) [dotv p k - t] = Ok g /\ v = g * a /\ Rabs a <= 1.
Proof.
  intros bj sbj mesh s mag sp w B Ty Em Mn Es. unfold buildSource in B. rewrite Ty in B. cbn [String.eqb Ascii.eqb Bool.eqb] in B.
  rewrite Em in B. cbn [need bind] in B. rewrite Es in B. cbn [need bind] in B.
  destruct (planeMean mesh mag s sp) as [mean| |] eqn:PM; try discriminate. cbn [bind] in B.
  destruct (js_pol s) as [po|]; [|discriminate]. cbn [need bind] in B. destruct (assemble3DVector po) as [pp| |] eqn:Eo; try discriminate. cbn [bind] in B. destruct (asm3 _ _ Eo) as (-> & Lpo).
  destruct (js_prop s) as [pr|] eqn:Ep; [|discriminate]. cbn [need bind] in B. destruct (assemble3DVector pr) as [dd| |] eqn:Ea; try discriminate. cbn [bind] in B.
  destruct (asm3 _ _ Ea) as (-> & Lpr). unfold buildPlane in B.
  destruct (newPlanewave _ po pr 0) as [w'| |] eqn:W in B; try discriminate. cbn [bind] in B. injection B as ->.
  assert (Nd : norml2 pr <> 0). { unfold newPlanewave in W. destruct (Req_EM_T (norml2 po) 0); [discriminate|]. destruct (Req_EM_T (norml2 pr) 0); [discriminate|]. assumption. }
  pose proof (unit_of pr Lpr Nd) as U. set (k := map (fun c => c / norml2 pr) pr) in *.
  assert (Pn : 0 < norml2 pr). { pose proof (sqrt_pos (fold_right (fun a s => a * a + s) 0 pr)) as Q. unfold norml2 in *. lra. }
  assert (G : forall m, dotv mean pr / norml2 pr = m -> forall p t f d v, planeEval w p t f d = Ok v -> exists g a, funcEval (match mg_freq mag with None => FGauss sp [m] 1 | Some fr => FModGauss sp [m] (fr / 299792458) end) [dotv p k - t] = Ok g /\ v = g * a /\ Rabs a <= 1).
  { intros m Hm p t f d v Hv. destruct (plane_value _ po pr w p t f d v Lpo Lpr W Hv) as (g & a & Eg & -> & La). fold k in Eg. rewrite Hm in Eg. exists g, a. split; [exact Eg|split; [reflexivity|exact La]]. }
  unfold planeMean in PM. rewrite Mn in PM.
  assert (Z0 : dotv [0; 0; 0] pr / norml2 pr = 0).
  { destruct (three pr Lpr) as (a & b & c & Epr). rewrite Epr in *. unfold dotv. cbn [combine fold_right fst snd]. field. exact Nd. }
  destruct mesh as [[bes dim]|]; [|exists k, 0, pr, (norml2 pr); injection PM as <-; split; [reflexivity|split; [reflexivity|split; [exact Pn|split; [exact U|split; [reflexivity|apply G; exact Z0]]]]]].
  destruct (js_tags s) as [tags|]; [|exists k, 0, pr, (norml2 pr); injection PM as <-; split; [reflexivity|split; [reflexivity|split; [exact Pn|split; [exact U|split; [reflexivity|apply G; exact Z0]]]]]].
  cbn [need bind] in PM. rewrite Ep in PM. cbn [need bind] in PM. rewrite Ea in PM. cbn [bind] in PM. fold k in PM.
  set (m1 := minPhase bes dim tags k - AUTO_DELAY_N_SIGMA * sp * sqrt 2) in *.
  exists k, m1, pr, (norml2 pr). split; [reflexivity|]. split; [reflexivity|]. split; [exact Pn|]. split; [exact U|]. split.
  - exists (minPhase bes dim tags k). split; [|unfold m1, AUTO_DELAY_N_SIGMA; reflexivity]. rewrite sel_has. unfold minPhase.
    rewrite (map_ext (fun b => dotv (centroid b dim) k) (fun b => dotv (centroid b dim) k / speedOfLight)) by (intros b; unfold speedOfLight; lra). apply min_least.
  - apply G. injection PM as <-.
    assert (E : dotv (map (fun c => m1 * c) k) pr / norml2 pr = m1 * dot3 k k).
    { destruct (three pr Lpr) as (a & b & c & Epr). unfold k. rewrite Epr in *. unfold dotv, dot3. cbn [map combine fold_right nth fst snd]. field. exact Nd. }
    rewrite E, U. ring.
Qed.

(** Sources of the input file. *)
From Coq Require Import String ZArith List Bool Reals Lia Lra.
From Verif Require Import Common Source_Model Source_Spec SourceMgr_Proofs SourceWave_Proofs.
Import ListNotations.
Local Open Scope R_scope.

(** ** Highest frequency *)
Definition modulated (s : jsource) (f sp : R) : Prop := exists m, js_mag s = Some m /\ mg_freq m = Some f /\ mg_spread m = Some sp.
Definition plainGauss (s : jsource) (sp : R) : Prop :=
  exists m, js_mag s = Some m /\ mg_freq m = None /\ mg_spread m = Some sp /\ mg_type m = Some "gaussian"%string /\ 0 < sp.
Definition fst4 (st : R * bool * option R * bool) : R := fst (fst (fst st)).
Definition fm4 (st : R * bool * option R * bool) : bool := snd (fst (fst st)).
Definition min4 (st : R * bool * option R * bool) : option R := snd (fst st).
Definition good4 (st : R * bool * option R * bool) : Prop :=
  0 <= fst4 st /\ (fm4 st = true <-> 0 < fst4 st) /\
  match min4 st with None => snd st = false | Some m => 0 < m /\ snd st = true end.
Definition le4 (a b : R * bool * option R * bool) : Prop :=
  fst4 a <= fst4 b /\ (forall m, min4 a = Some m -> exists m', min4 b = Some m' /\ m' <= m).
Lemma le4_refl : forall a, le4 a a.
Proof. intros a. split; [lra|]. intros m H. exists m. split; [exact H|lra]. Qed.
Lemma le4_trans : forall a b c, le4 a b -> le4 b c -> le4 a c.
Proof. intros a b c (A & B) (C & D). split; [lra|]. intros m H. destruct (B m H) as (m1 & H1 & L1). destruct (D m1 H1) as (m2 & H2 & L2). exists m2. split; [exact H2|lra]. Qed.
Lemma step4 : forall st s, good4 st -> good4 (freqStep st s) /\ le4 st (freqStep st s).
Proof.
  intros [[[maxf fm] minS] fg] s G. unfold freqStep. destruct (js_mag s) as [m|]; [|split; [exact G|apply le4_refl]].
  destruct (mg_freq m) as [f|], (mg_spread m) as [sp|]; try (split; [exact G|apply le4_refl]).
  - cbv zeta. destruct (Rlt_dec maxf (f + speedOfLight_SI / (2 * sp))) as [L|L]; [|split; [exact G|apply le4_refl]].
    unfold good4, le4, fst4, fm4, min4 in *. cbn [fst snd] in *. destruct G as (G1 & G2 & G3). repeat split; try lra; try assumption.
    intros m0 H. exists m0. split; [exact H|lra].
  - destruct (mg_type m) as [ty|]; [|split; [exact G|apply le4_refl]]. destruct (String.eqb ty "gaussian"); [|split; [exact G|apply le4_refl]].
    destruct (Rlt_dec 0 sp) as [P|P]; [|split; [exact G|apply le4_refl]].
    unfold good4, le4, fst4, fm4, min4 in *. destruct minS as [m0|]; cbn [fst snd] in *; destruct G as (G1 & G2 & G3).
    + destruct (Rlt_dec sp m0); cbn [fst snd]; repeat split; try lra; try tauto.
      * intros m1 H. injection H as <-. exists sp. split; [reflexivity|lra].
      * intros m1 H. exists m1. split; [exact H|lra].
    + repeat split; try lra; try tauto. intros m1 H. discriminate.
Qed.
Lemma fold4 : forall l st, good4 st -> good4 (fold_left freqStep l st) /\ le4 st (fold_left freqStep l st).
Proof.
  induction l as [|s l IH]; intros st G; [split; [exact G|apply le4_refl]|]. cbn [fold_left]. destruct (step4 st s G) as (G1 & L1). destruct (IH _ G1) as (G2 & L2).
  split; [exact G2|]. apply (le4_trans _ _ _ L1 L2).
Qed.
Lemma fold_split : forall l s st, In s l -> good4 st -> exists st1 st2, good4 st1 /\ st2 = freqStep st1 s /\ le4 st2 (fold_left freqStep l st).
Proof.
  induction l as [|a l IH]; intros s st I G; [contradiction|]. cbn [fold_left]. destruct (step4 st a G) as (G1 & L1). destruct I as [->|I].
  - exists st, (freqStep st s). split; [exact G|]. split; [reflexivity|]. apply (proj2 (fold4 l _ G1)).
  - apply (IH s _ I G1).
Qed.
Definition st0 : R * bool * option R * bool := (0, false, None, false).
Lemma good0 : good4 st0.
Proof. unfold good4, fst4, fm4, min4, st0; cbn. repeat split; try lra. Qed.
Lemma mod_edge : forall st s f sp, modulated s f sp -> edgeOf f sp <= fst4 (freqStep st s).
Proof.
  intros [[[maxf fm] minS] fg] s f sp (m & Em & Ef & Es). unfold freqStep. rewrite Em, Ef, Es. cbv zeta. unfold edgeOf, speedOfLight_SI.
  destruct (Rlt_dec maxf (f + 299792458 / (2 * sp))); unfold fst4; cbn [fst]; lra.
Qed.
Lemma gauss_min : forall st s sp, plainGauss s sp -> exists m, min4 (freqStep st s) = Some m /\ m <= sp.
Proof.
  intros [[[maxf fm] minS] fg] s sp (m & Em & Ef & Es & Et & P). unfold freqStep. rewrite Em, Ef, Es, Et. cbn [String.eqb Ascii.eqb Bool.eqb].
  destruct (Rlt_dec 0 sp); [|lra]. unfold min4. destruct minS as [m0|]; [destruct (Rlt_dec sp m0)|]; cbn [fst snd]; eexists; split; try reflexivity; lra.
Qed.
Lemma freq_pos : forall l, 0 < maxSourceFrequency l.
Proof.
  intros l. unfold maxSourceFrequency. destruct (fold4 l st0 good0) as (G & _). unfold st0 in G. destruct (fold_left freqStep l (0, false, None, false)) as [[[maxf fm] minS] fg].
  unfold good4, fst4, fm4, min4 in G. cbn [fst snd] in G. destruct G as (G1 & G2 & G3). destruct fm; [apply G2; reflexivity|]. destruct fg; [|lra].
  destruct minS as [m|]; [|discriminate]. unfold speedOfLight_SI. apply Rdiv_lt_0_compat; lra.
Qed.
Lemma freq_mod : forall l s f sp, In s l -> modulated s f sp -> edgeOf f sp <= maxSourceFrequency l.
Proof.
  intros l s f sp I M. pose proof (freq_pos l) as P. destruct (Rle_dec (edgeOf f sp) 0); [lra|].
  destruct (fold_split l s st0 I good0) as (st1 & st2 & G1 & -> & L1 & _). pose proof (mod_edge st1 s f sp M) as E.
  unfold maxSourceFrequency in *. destruct (fold4 l st0 good0) as (G & _). unfold st0 in *. destruct (fold_left freqStep l (0, false, None, false)) as [[[maxf fm] minS] fg].
  unfold good4, fst4, fm4, min4 in *. cbn [fst snd] in *. destruct G as (Ga & Gb & _). rewrite (proj2 Gb) by lra. lra.
Qed.
Lemma max_only : forall l st, (forall s, In s l -> forall f sp, modulated s f sp -> edgeOf f sp <= fst4 st) -> fst4 (fold_left freqStep l st) = fst4 st.
Proof.
  induction l as [|a l IH]; intros st H; [reflexivity|]. cbn [fold_left].
  assert (E : fst4 (freqStep st a) = fst4 st).
  { destruct st as [[[maxf fm] minS] fg]. unfold freqStep. destruct (js_mag a) as [m|] eqn:Em; [|reflexivity]. destruct (mg_freq m) as [f|] eqn:Ef, (mg_spread m) as [sp|] eqn:Es; try reflexivity.
    - cbv zeta. assert (L : edgeOf f sp <= maxf) by (apply (H a (or_introl eq_refl) f sp); exists m; auto). unfold edgeOf, speedOfLight_SI in *. destruct (Rlt_dec maxf (f + 299792458 / (2 * sp))); [lra|reflexivity].
    - destruct (mg_type m) as [ty|]; [|reflexivity]. destruct (String.eqb ty "gaussian"); [|reflexivity]. destruct (Rlt_dec 0 sp); [|reflexivity]. destruct minS as [m0|]; [destruct (Rlt_dec sp m0)|]; reflexivity. }
  rewrite IH; [exact E|]. intros s I f sp M. rewrite E. apply (H s (or_intror I) f sp M).
Qed.
Lemma freq_gauss : forall l s sp, In s l -> plainGauss s sp -> (forall q f w, In q l -> modulated q f w -> edgeOf f w <= 0) -> edgeOf 0 sp <= maxSourceFrequency l.
Proof.
  intros l s sp I M N. destruct (fold_split l s st0 I good0) as (st1 & st2 & G1 & -> & _ & L2).
  destruct (gauss_min st1 s sp M) as (m & Em & Lm). destruct (L2 m Em) as (m' & Em' & Lm').
  pose proof (max_only l st0 (fun q Iq f w Mq => N q f w Iq Mq)) as Z0. destruct (fold4 l st0 good0) as (G & _).
  unfold maxSourceFrequency. unfold st0 in *. destruct (fold_left freqStep l (0, false, None, false)) as [[[maxf fm] minS] fg].
  unfold good4, fst4, fm4, min4 in *. cbn [fst snd] in *. destruct G as (Ga & Gb & Gc). subst minS. destruct Gc as (Gp & ->).
  destruct fm; [exfalso; pose proof (proj1 Gb eq_refl); lra|]. unfold edgeOf, speedOfLight_SI. rewrite Rplus_0_l.
  unfold Rdiv. apply Rmult_le_compat_l; [lra|]. apply Rinv_le_contravar; lra.
Qed.

(** ** Automatic delay *)
Lemma min_fold : forall {A} (has : A -> bool) (val : A -> R) l m0 a, In a l -> has a = true ->
  exists r, fold_left (fun m b => if has b then minOpt m (val b) else m) l m0 = Some r /\ r <= val a.
Proof.
  intros A has val l.
  assert (K : forall l m, exists r, fold_left (fun m b => if has b then minOpt m (val b) else m) l (Some m) = Some r /\ r <= m).
  { induction l0 as [|b l0 IH]; intros m; [exists m; split; [reflexivity|lra]|]. cbn [fold_left]. destruct (has b); [|apply IH]. cbn [minOpt].
    destruct (IH (Rmin m (val b))) as (r & E & L). exists r. split; [exact E|]. pose proof (Rmin_l m (val b)). lra. }
  induction l as [|b l IH]; intros m0 a I H; [contradiction|]. cbn [fold_left]. destruct I as [->|I].
  - rewrite H. destruct m0 as [m|]; cbn [minOpt]; [destruct (K l (Rmin m (val a))) as (r & E & L)|destruct (K l (val a)) as (r & E & L)]; exists r; (split; [exact E|]); try lra.
    pose proof (Rmin_r m (val a)). lra.
  - apply IH; assumption.
Qed.
Lemma min_phase : forall bes dim tags dhat b, In b bes -> hasTag b tags = true -> minPhase bes dim tags dhat <= dotv (centroid b dim) dhat.
Proof.
  intros bes dim tags dhat b I H. unfold minPhase.
  destruct (min_fold (fun b => hasTag b tags) (fun b => dotv (centroid b dim) dhat / speedOfLight) bes None b I H) as (r & E & L). rewrite E.
  unfold speedOfLight in L. lra.
Qed.
Lemma min_radius : forall bes dim tags b, In b bes -> hasTag b tags = true -> minRadius bes dim tags <= norml2 (centroid b dim).
Proof.
  intros bes dim tags b I H. unfold minRadius.
  destruct (min_fold (fun b => hasTag b tags) (fun b => norml2 (centroid b dim)) bes None b I H) as (r & E & L). rewrite E. exact L.
Qed.
Lemma comp_le : forall a b c, a * a + b * b + c * c = 1 -> Rabs a <= 1.
Proof. intros a b c H. rewrite <- (Rabs_pos_eq 1) by lra. apply Rsqr_le_abs_0. unfold Rsqr. nra. Qed.
Lemma cross_le : forall a b c x y z, a * a + b * b + c * c = 1 -> x * x + y * y + z * z = 1 -> Rabs (a * y - b * x) <= 1.
Proof.
  intros a b c x y z H K. rewrite <- (Rabs_pos_eq 1) by lra. apply Rsqr_le_abs_0. unfold Rsqr.
  assert (E : (a * y - b * x) * (a * y - b * x) = (a * a + b * b) * (x * x + y * y) - (a * x + b * y) * (a * x + b * y)) by ring. rewrite E.
  pose proof (Rle_0_sqr a). pose proof (Rle_0_sqr b). pose proof (Rle_0_sqr c). pose proof (Rle_0_sqr x). pose proof (Rle_0_sqr y). pose proof (Rle_0_sqr z).
  pose proof (Rle_0_sqr (a * x + b * y)). unfold Rsqr in *.
  assert ((a * a + b * b) * (x * x + y * y) <= 1 * 1) by (apply Rmult_le_compat; lra). lra.
Qed.
(** A component of a plane wave is a pulse times a factor of at most one. *)
Lemma plane_value : forall f pol dir w p t fi d v, length pol = 3%nat -> length dir = 3%nat -> newPlanewave f pol dir 0 = Ok w ->
  planeEval w p t fi d = Ok v -> exists g a, funcEval f [dotv p (map (fun c => c / norml2 dir) dir) - t] = Ok g /\ v = g * a /\ Rabs a <= 1.
Proof.
  intros f pol dir w p t fi d v Lp Ld W H. unfold newPlanewave in W. destruct (Req_EM_T (norml2 pol) 0) as [|Np]; [discriminate|]. destruct (Req_EM_T (norml2 dir) 0) as [|Nd]; [discriminate|].
  injection W as <-. pose proof (unit_of pol Lp Np) as Up. pose proof (unit_of dir Ld Nd) as Ud.
  destruct (three pol Lp) as (p0 & p1 & p2 & Ep). destruct (three dir Ld) as (k0 & k1 & k2 & Ek).
  set (kh := map (fun c => c / norml2 dir) dir) in *. set (ph := map (fun c => c / norml2 pol) pol) in *.
  assert (Lk : exists a b c, kh = [a; b; c]) by (unfold kh; rewrite Ek; cbn [map]; eauto). destruct Lk as (ka & kb & kc & Ekh).
  assert (Lh : exists a b c, ph = [a; b; c]) by (unfold ph; rewrite Ep; cbn [map]; eauto). destruct Lh as (pa & pb & pc & Eph).
  unfold planeEval in H. cbn [pw_ft pw_pol pw_prop pw_fn] in H. rewrite Ekh, Eph in *. unfold dot3 in Up, Ud. cbn [nth] in Up, Ud.
  assert (A : forall a, (if (fi =? 0)%Z then zget [pa; pb; pc] d
             else if (0 =? 0)%Z then c <- crossProduct [ka; kb; kc] [pa; pb; pc] ;; zget c d
             else c <- crossProduct [pa; pb; pc] [ka; kb; kc] ;; zget c d) = Ok a -> Rabs a <= 1).
  { intros a Ha. change (0 =? 0)%Z with true in Ha. cbn [crossProduct bind] in Ha.
    assert (Z3 : forall x y z : R, zget [x; y; z] d = Ok a -> a = x \/ a = y \/ a = z).
    { intros x y z Hz. unfold zget in Hz. destruct (Z.ltb_spec d 0); [discriminate|]. destruct (Z.to_nat d) as [|[|[|n]]]; cbn in Hz; try (injection Hz as <-; auto). destruct n; discriminate. }
    destruct (fi =? 0)%Z; destruct (Z3 _ _ _ Ha) as [->|[->| ->]].
    - apply (comp_le pa pb pc). lra.
    - apply (comp_le pb pa pc). lra.
    - apply (comp_le pc pa pb). lra.
    - apply (cross_le kb kc ka pb pc pa); lra.
    - apply (cross_le kc ka kb pc pa pb); lra.
    - apply (cross_le ka kb kc pa pb pc); lra. }
  destruct (if (fi =? 0)%Z then _ else _) as [a| |] eqn:Ea; try discriminate. cbn [bind] in H. specialize (A a eq_refl).
  assert (D : forall q, (match p with [a] => Ok [a; 0; 0] | [a; b] => Ok [a; b; 0] | [a; b; c] => Ok p | _ => UB end) = Ok q -> dotv q [ka; kb; kc] = dotv p [ka; kb; kc]).
  { intros q Hq. destruct p as [|x [|y [|z [|u p]]]]; try discriminate; injection Hq as <-; unfold dotv; cbn; ring. }
  destruct (match p with [a] => Ok [a; 0; 0] | [a; b] => Ok [a; b; 0] | [a; b; c] => Ok p | _ => UB end) as [q| |]; try discriminate. cbn [bind] in H.
  rewrite (D q eq_refl) in H. unfold speedOfLight in H. replace (dotv p [ka; kb; kc] / 1) with (dotv p [ka; kb; kc]) in H by lra.
  destruct (funcEval f [dotv p [ka; kb; kc] - t]) as [g| |] eqn:Eg; try discriminate. cbn [bind] in H. injection H as <-. exists g, a. auto.
Qed.
Lemma pulse_low : forall f sp m x g h, (f = FGauss sp [m] 1 \/ exists fr, f = FModGauss sp [m] fr) -> 0 < sp -> 0 <= h -> m + h <= x -> funcEval f [x] = Ok g -> Rabs g <= exp (- (h / sp) ^ 2 / 2).
Proof.
  intros f sp m x g h Hf Hsp Hh L H.
  assert (E : exp (- ((x - m) * (x - m)) / (2 * sp ^ 2)) <= exp (- (h / sp) ^ 2 / 2)).
  { assert (X : - ((x - m) * (x - m)) / (2 * sp ^ 2) <= - (h / sp) ^ 2 / 2).
    { replace (- (h / sp) ^ 2 / 2) with (- (h * h) / (2 * sp ^ 2)) by (field; lra). unfold Rdiv. apply Rmult_le_compat_r; [left; apply Rinv_0_lt_compat; nra|nra]. }
    destruct X as [X|X]; [left; apply exp_increasing; exact X|right; f_equal; exact X]. }
  destruct Hf as [->|(fr & ->)].
  - cbn -[exp Rdiv Rmult pow] in H. injection H as <-. rewrite Rabs_pos_eq by (left; apply exp_pos). eapply Rle_trans; [right|exact E]. f_equal. cbn [pow]. field. lra.
  - cbn -[exp Rdiv Rmult pow cos PI] in H. injection H as <-. rewrite Rabs_mult. pose proof (COS_bound (2 * PI * fr * (x - m))) as C.
    assert (C' : Rabs (cos (2 * PI * fr * (x - m))) <= 1) by (apply Rabs_le; lra).
    assert (Eq : - (x - m) * (x - m) / (2 * sp * sp) = - ((x - m) * (x - m)) / (2 * sp ^ 2)) by (field; lra). rewrite Eq, (Rabs_pos_eq (exp _)) by (left; apply exp_pos).
    pose proof (exp_pos (- ((x - m) * (x - m)) / (2 * sp ^ 2))). pose proof (Rabs_pos (cos (2 * PI * fr * (x - m)))). nra.
Qed.
Lemma five : forall sp h, 0 < sp -> 5 * sp * sqrt 2 <= h -> exp (- (h / sp) ^ 2 / 2) <= exp (-25).
Proof.
  intros sp h P H. assert (X : - (h / sp) ^ 2 / 2 <= -25).
  { assert (Q : 5 * sqrt 2 <= h / sp). { apply (Rmult_le_reg_r sp); [exact P|]. replace (h / sp * sp) with h by (field; lra). lra. }
    pose proof (sqrt_def 2 ltac:(lra)) as S. pose proof (sqrt_pos 2). assert (50 <= (h / sp) ^ 2); [|lra]. replace 50 with ((5 * sqrt 2) ^ 2) by (cbn; nra). apply pow_incr. lra. }
  destruct X as [X|X]; [left; apply exp_increasing; exact X|right; f_equal; exact X].
Qed.
Lemma asm3 : forall l r, assemble3DVector l = Ok r -> r = l /\ length l = 3%nat.
Proof. intros [|a [|b [|c [|d l]]]] r H; try discriminate. injection H as <-. split; reflexivity. Qed.

Section Delay.
Variable bj sbj : list R -> R.
Variable bes : list belem.
Variable dim : nat.
(** A plane wave of the input without a mean. *)
Lemma auto_delay : forall s mag sp tags w srcs, buildSource bj sbj (Some (bes, dim)) s = Ok srcs -> srcs = [SPlane w] -> js_type s = "planewave"%string ->
  js_mag s = Some mag -> mg_mean mag = None -> mg_spread mag = Some sp -> 0 < sp -> js_tags s = Some tags ->
  exists k, length k = 3%nat /\ dot3 k k = 1 /\ (exists pr n, js_prop s = Some pr /\ k = map (fun c => c / n) pr /\ 0 < n) /\
  forall b h p fi d v, In b bes -> hasTag b tags = true -> 0 <= h <= 5 * sp * sqrt 2 -> dotv (centroid b dim) k - dotv p k <= h ->
    planeEval w p 0 fi d = Ok v -> Rabs v <= exp (- ((5 * sp * sqrt 2 - h) / sp) ^ 2 / 2).
Proof.
  intros s mag sp tags w srcs B -> Ty Em Mn Es Psp Et. unfold buildSource in B. rewrite Ty in B. cbn [String.eqb Ascii.eqb Bool.eqb] in B.
  rewrite Em in B. cbn [need bind] in B. rewrite Es in B. cbn [need bind] in B. unfold planeMean in B. rewrite Mn, Et in B.
  destruct (js_prop s) as [pr|] eqn:Ep; [|discriminate]. cbn [need bind] in B. destruct (assemble3DVector pr) as [dd| |] eqn:Ea; try discriminate. cbn [bind] in B.
  destruct (asm3 _ _ Ea) as (-> & Lpr).
  destruct (js_pol s) as [po|]; [|discriminate]. cbn [need bind] in B. destruct (assemble3DVector po) as [pp| |] eqn:Eo; try discriminate. cbn [bind] in B. destruct (asm3 _ _ Eo) as (-> & Lpo).
  set (k := map (fun c => c / norml2 pr) pr) in *. set (m1 := minPhase bes dim tags k - AUTO_DELAY_N_SIGMA * sp * sqrt 2) in *.
  unfold buildPlane in B.
  destruct (newPlanewave _ po pr 0) as [w'| |] eqn:W in B; try discriminate. cbn [bind] in B. injection B as ->.
  assert (Nd : norml2 pr <> 0). { unfold newPlanewave in W. destruct (Req_EM_T (norml2 po) 0); [discriminate|]. destruct (Req_EM_T (norml2 pr) 0); [discriminate|]. assumption. }
  pose proof (unit_of pr Lpr Nd) as U. fold k in U.
  assert (Pn : 0 < norml2 pr). { pose proof (sqrt_pos (fold_right (fun a s => a * a + s) 0 pr)) as Q. unfold norml2 in *. lra. }
  assert (M : dotv (map (fun c => m1 * c) k) pr / norml2 pr = m1).
  { assert (E : dotv (map (fun c => m1 * c) k) pr / norml2 pr = m1 * dot3 k k).
    { destruct (three pr Lpr) as (a & b & c & Epr). unfold k. rewrite Epr in *. cbn [map combine dotv fold_right dot3 nth fst snd]. unfold dotv, dot3. cbn [map combine fold_right nth fst snd]. field. exact Nd. }
    rewrite E, U. ring. }
  exists k. split; [unfold k; rewrite map_length; exact Lpr|]. split; [exact U|]. split; [exists pr, (norml2 pr); auto|].
  intros b h p fi d v Ib Hb Hh Hp Hv.
  destruct (plane_value _ po pr w p 0 fi d v Lpo Lpr W Hv) as (g & a & Eg & -> & La). fold k in Eg. rewrite Rminus_0_r in Eg.
  assert (LG : Rabs g <= exp (- ((5 * sp * sqrt 2 - h) / sp) ^ 2 / 2)).
  { apply (pulse_low (match mg_freq mag with None => FGauss sp [m1] 1 | Some f => FModGauss sp [m1] (f / speedOfLight_SI) end) sp m1 (dotv p k)).
    - destruct (mg_freq mag) as [fr|]; [right; eauto|left; reflexivity].
    - exact Psp.
    - lra.
    - pose proof (min_phase bes dim tags k b Ib Hb). unfold m1, AUTO_DELAY_N_SIGMA. lra.
    - rewrite M in Eg. exact Eg. }
  rewrite Rabs_mult. pose proof (Rabs_pos g). pose proof (Rabs_pos a). nra.
Qed.
(** A dipole of the input without a mean. *)
Lemma dipole_delay : forall s mag sp tags w srcs, buildSource bj sbj (Some (bes, dim)) s = Ok srcs -> srcs = [SDipole w] -> js_type s = "dipole"%string ->
  js_mag s = Some mag -> mg_mean1 mag = None -> mg_spread mag = Some sp -> 0 < sp -> js_tags s = Some tags ->
  dp_spread w = sp /\ forall b, In b bes -> hasTag b tags = true -> exp (- ((0 - dp_mean w - norml2 (centroid b dim)) / (sp * sqrt 2)) ^ 2) <= exp (-25).
Proof.
  intros s mag sp tags w srcs B -> Ty Em Mn Es Psp Et. unfold buildSource in B. rewrite Ty in B. cbn [String.eqb Ascii.eqb Bool.eqb] in B.
  rewrite Em in B. cbn [need bind] in B. destruct (mg_length mag) as [len|]; [|discriminate]. cbn [need bind] in B. rewrite Es in B. cbn [need bind] in B. unfold dipoleMean in B. rewrite Mn, Et in B. injection B as <-.
  split; [reflexivity|]. intros b Ib Hb. cbn [dp_mean]. set (m := Rmax _ _).
  pose proof (min_radius bes dim tags b Ib Hb) as L. pose proof (Rmax_r (sp * sqrt 2) (AUTO_DELAY_N_SIGMA * sp * sqrt 2 - minRadius bes dim tags / speedOfLight)) as Lm. fold m in Lm. unfold AUTO_DELAY_N_SIGMA, speedOfLight in Lm.
  assert (S2 : 0 < sqrt 2) by (apply sqrt_lt_R0; lra). assert (W0 : 0 < sp * sqrt 2) by (apply Rmult_lt_0_compat; assumption).
  set (r := norml2 (centroid b dim)) in *.
  assert (X : 5 <= (m + r) / (sp * sqrt 2)). { apply (Rmult_le_reg_r (sp * sqrt 2)); [exact W0|]. replace ((m + r) / (sp * sqrt 2) * (sp * sqrt 2)) with (m + r) by (field; lra). lra. }
  assert (Y : - ((0 - m - r) / (sp * sqrt 2)) ^ 2 <= -25). { replace ((0 - m - r) / (sp * sqrt 2)) with (- ((m + r) / (sp * sqrt 2))) by (field; lra). cbn. nra. }
  destruct Y as [Y|Y]; [left; apply exp_increasing; exact Y|right; f_equal; exact Y].
Qed.
End Delay.

(** ** The sources that are built *)
Definition knownMag (ty : string) : bool := (String.eqb ty "gaussian" || String.eqb ty "resonant" || String.eqb ty "besselj6_2D" || String.eqb ty "besselj6_3D")%string.
Definition dropped (s : jsource) : Prop := js_type s = "initial"%string /\ exists m ty, js_mag s = Some m /\ mg_type m = Some ty /\ knownMag ty = false.
Lemma build_one : forall bj sbj mesh s r, buildSource bj sbj mesh s = Ok r -> ~ dropped s -> exists a, r = [a].
Proof.
  intros bj sbj mesh s r B N. unfold buildSource in B.
  destruct (String.eqb (js_type s) "initial") eqn:Ei.
  - destruct (js_mag s) as [mg|] eqn:Em; [|discriminate]. cbn [need bind] in B. destruct (mg_type mg) as [ty|] eqn:Et; [|discriminate]. cbn [need bind] in B.
    repeat match type of B with
    | bind ?x _ = Ok _ => let E := fresh "E" in destruct x eqn:E; try discriminate; cbn [bind] in B
    | (if ?c then _ else _) = Ok _ => let E := fresh "E" in destruct c eqn:E
    | Ok _ = Ok _ => injection B as <-
    end; try discriminate; eauto.
    exfalso. apply N. split; [apply String.eqb_eq; exact Ei|]. exists mg, ty. split; [exact Em|]. split; [exact Et|].
    unfold knownMag. repeat match goal with H : String.eqb _ _ = false |- _ => rewrite H end. reflexivity.
  - repeat match type of B with
    | bind ?x _ = Ok _ => let E := fresh "E" in destruct x eqn:E; try discriminate; cbn [bind] in B
    | (if ?c then _ else _) = Ok _ => let E := fresh "E" in destruct c eqn:E
    | Ok _ = Ok _ => injection B as <-
    end; try discriminate; eauto.
Qed.
Lemma build_dropped : forall bj sbj mesh s, dropped s -> buildSource bj sbj mesh s = Ok [].
Proof.
  intros bj sbj mesh s (Ty & m & ty & Em & Et & K). unfold buildSource. rewrite Ty, Em. cbn [String.eqb Ascii.eqb Bool.eqb need bind]. rewrite Et. cbn [need bind].
  unfold knownMag in K. rewrite !orb_false_iff in K. destruct K as (((-> & ->) & ->) & ->). reflexivity.
Qed.
Lemma build_all : forall bj sbj mesh l r0 r, foldM (fun r s => a <- buildSource bj sbj mesh s ;; Ok (r ++ a)%list) l r0 = Ok r ->
  exists parts, mapM (buildSource bj sbj mesh) l = Ok parts /\ r = (r0 ++ concat parts)%list.
Proof.
  intros bj sbj mesh l. induction l as [|s l IH]; intros r0 r H.
  - injection H as <-. exists []. split; [reflexivity|]. cbn. rewrite app_nil_r. reflexivity.
  - cbn [foldM] in H. destruct (buildSource bj sbj mesh s) as [a| |] eqn:E; try discriminate. cbn [bind] in H. destruct (IH _ _ H) as (parts & M & ->).
    exists (a :: parts). split; [cbn [mapM]; rewrite E; cbn [bind]; rewrite M; reflexivity|]. cbn [concat]. rewrite app_assoc. reflexivity.
Qed.
Lemma build_each : forall bj sbj mesh l parts, mapM (buildSource bj sbj mesh) l = Ok parts -> Forall (fun s => ~ dropped s) l ->
  exists r, parts = map (fun a => [a]) r /\ Forall2 (fun s a => buildSource bj sbj mesh s = Ok [a]) l r.
Proof.
  intros bj sbj mesh l. induction l as [|s l IH]; intros parts M F.
  - injection M as <-. exists []. split; [reflexivity|constructor].
  - cbn [mapM] in M. destruct (buildSource bj sbj mesh s) as [a| |] eqn:E; try discriminate. cbn [bind] in M. destruct (mapM (buildSource bj sbj mesh) l) as [ps| |] eqn:E2; try discriminate. injection M as <-.
    apply Forall_cons_iff in F. destruct F as (F1 & F2). destruct (build_one _ _ _ _ _ E F1) as (x & ->). destruct (IH ps eq_refl F2) as (r & -> & F3). exists (x :: r). split; [reflexivity|]. constructor; assumption.
Qed.
Lemma build_complete : forall bj sbj mesh l r, buildSources bj sbj mesh l = Ok r -> Forall (fun s => ~ dropped s) l ->
  Forall2 (fun s a => buildSource bj sbj mesh s = Ok [a]) l r.
Proof.
  intros bj sbj mesh l r H F. destruct (build_all _ _ _ _ _ _ H) as (parts & M & ->). destruct (build_each _ _ _ _ _ M F) as (q & -> & F2). cbn [app].
  replace (concat (map (fun a => [a]) q)) with q; [exact F2|]. clear. induction q as [|a q IH]; [reflexivity|]. cbn. congruence.
Qed.
(** A Gaussian initial field of the input is the ideal one. *)
Lemma gauss_value : forall sp n q, (1 <= n <= 3)%Z -> length q = Z.to_nat n -> funcEval (FGauss sp (zerosR n) n) q = Ok (exp (- fold_right (fun a s => a ^ 2 + s) 0 q / (2 * sp ^ 2))).
Proof.
  intros sp n q Hn L. assert (n = 1 \/ n = 2 \/ n = 3)%Z as [->|[->| ->]] by lia.
  - destruct q as [|a [|b q]]; try discriminate. change (zerosR 1) with [0]. unfold funcEval. change ((1 <=? 1) && (1 <=? 3))%Z with true. unfold gaussArg.
    change (zseq (Z.to_nat 1)) with [0]%Z. cbn -[exp Rdiv pow Rplus Rminus Rmult IZR].
    repeat match goal with |- context [Pos.to_nat ?p] => let v := eval compute in (Pos.to_nat p) in change (Pos.to_nat p) with v end. cbn -[exp Rdiv pow Rplus Rminus Rmult IZR].
    match goal with |- Ok (exp ?x) = Ok (exp ?y) => replace x with y; [reflexivity|] end. unfold Rdiv. ring.
  - destruct q as [|a [|b [|c q]]]; try discriminate. change (zerosR 2) with [0; 0]. unfold funcEval. change ((1 <=? 2) && (2 <=? 3))%Z with true. unfold gaussArg.
    change (zseq (Z.to_nat 2)) with [0; 1]%Z. cbn -[exp Rdiv pow Rplus Rminus Rmult IZR].
    repeat match goal with |- context [Pos.to_nat ?p] => let v := eval compute in (Pos.to_nat p) in change (Pos.to_nat p) with v end. cbn -[exp Rdiv pow Rplus Rminus Rmult IZR].
    match goal with |- Ok (exp ?x) = Ok (exp ?y) => replace x with y; [reflexivity|] end. unfold Rdiv. ring.
  - destruct q as [|a [|b [|c [|d q]]]]; try discriminate. change (zerosR 3) with [0; 0; 0]. unfold funcEval. change ((1 <=? 3) && (3 <=? 3))%Z with true. unfold gaussArg.
    change (zseq (Z.to_nat 3)) with [0; 1; 2]%Z. cbn -[exp Rdiv pow Rplus Rminus Rmult IZR].
    repeat match goal with |- context [Pos.to_nat ?p] => let v := eval compute in (Pos.to_nat p) in change (Pos.to_nat p) with v end. cbn -[exp Rdiv pow Rplus Rminus Rmult IZR].
    match goal with |- Ok (exp ?x) = Ok (exp ?y) => replace x with y; [reflexivity|] end. unfold Rdiv. ring.
Qed.
Lemma field_type : forall fn ft, assignFieldType fn = Ok ft ->
  ((fn = "electric" /\ ft = 0%Z) \/ (fn = "magnetic" /\ ft = 1%Z))%string.
Proof.
  intros fn ft H. unfold assignFieldType in H. destruct (String.eqb_spec fn "electric") as [->|].
  - injection H as <-. auto.
  - destruct (String.eqb_spec fn "magnetic") as [->|]; [|discriminate]. injection H as <-. auto.
Qed.
Lemma sin_value : forall modes q, length q = length modes ->
  funcEval (FSin modes) q = Ok (fold_right (fun p r => sin (INR (fst p) * PI * snd p) * r) 1 (combine modes q)).
Proof.
  intros modes q L. unfold funcEval.
  enough (forall k, (k <= length modes)%nat ->
    foldM (fun r d => p <- zget q d ;; Ok (r * sin (INR (nth (Z.to_nat d) modes 0%nat) * PI * p))) (zseq k) 1
    = Ok (fold_right (fun p r => sin (INR (fst p) * PI * snd p) * r) 1 (combine (firstn k modes) (firstn k q)))) as K.
  { rewrite K by lia. rewrite firstn_all. rewrite <- L, firstn_all. reflexivity. }
  induction k as [|k IH]; intros Hk; [reflexivity|].
  rewrite zseq_S, foldM_app, IH by lia. cbn [bind foldM].
  destruct (zget_in_range q (Z.of_nat k) ltac:(lia)) as (a & Ea & En). rewrite Ea. cbn [bind]. rewrite Nat2Z.id in *.
  assert (exists m, nth_error modes k = Some m) as (m & Em).
  { destruct (nth_error modes k) eqn:E; eauto. apply nth_error_None in E. lia. }
  rewrite (nth_error_nth _ _ _ Em).
  assert (forall A (l : list A) j x, nth_error l j = Some x -> firstn (S j) l = firstn j l ++ [x]) as F.
  { clear. intros A l. induction l as [|b l IH]; intros [|j] x H; try discriminate H; cbn in *.
    - now injection H as ->.
    - now rewrite (IH j x H). }
  rewrite (F _ _ _ _ Em), (F _ _ _ _ En). f_equal.
  assert (length (firstn k modes) = length (firstn k q)) as LL by (rewrite !firstn_length; lia).
  revert LL. generalize (firstn k modes) (firstn k q). induction l as [|x l IHl]; intros [|y l'] LL; try discriminate LL; cbn [combine fold_right app fst snd].
  - ring.
  - rewrite <- (IHl l') by (injection LL; auto). ring.
Qed.
Lemma built_modes : forall bj sbj mesh s mag srcs, buildSource bj sbj mesh s = Ok srcs -> js_type s = "initial"%string -> js_mag s = Some mag -> mg_type mag = Some "resonant"%string ->
  exists i modes pol ft fn, srcs = [SInit i] /\ mg_modes mag = Some modes /\ js_pol s = Some pol /\ js_field s = Some fn /\
    ((fn = "electric" /\ ft = 0%Z) \/ (fn = "magnetic" /\ ft = 1%Z))%string /\
    realises (length modes) (SInit i) (Some (mkIdeal ft pol (repeat 0 (length modes))
      (fun q => fold_right (fun p r => sin (INR (fst p) * PI * snd p) * r) 1 (combine modes q)))).
Proof.
  intros bj sbj mesh s mag srcs B Ty Em Et. unfold buildSource in B. rewrite Ty, Em in B. cbn [String.eqb Ascii.eqb Bool.eqb need bind] in B. rewrite Et in B. cbn [String.eqb Ascii.eqb Bool.eqb need bind] in B.
  destruct (js_field s) as [fn|]; [|discriminate]. cbn [need bind] in B. destruct (assignFieldType fn) as [ft| |] eqn:Ef; try discriminate. cbn [bind] in B.
  destruct (js_pol s) as [pol|]; [|discriminate]. cbn [need bind] in B. destruct (assemble3DVector pol) as [pp| |] eqn:Ea; try discriminate. cbn [bind] in B. destruct (asm3 _ _ Ea) as (-> & L3).
  destruct (mg_modes mag) as [m|]; [|discriminate]. cbn [need bind] in B. injection B as <-.
  exists (mkIF (FSin m) ft pol (repeat 0 (length m))), m, pol, ft, fn. split; [reflexivity|]. split; [reflexivity|]. split; [reflexivity|]. split; [reflexivity|].
  split; [now apply field_type|]. repeat split; cbn [id_center id_pol id_ft id_phi]; try assumption; try reflexivity.
  - now rewrite repeat_length.
  - intros q Lq. now apply sin_value.
Qed.
Lemma built_gauss : forall bj sbj mesh s mag srcs, buildSource bj sbj mesh s = Ok srcs -> js_type s = "initial"%string -> js_mag s = Some mag -> mg_type mag = Some "gaussian"%string ->
  exists i sp c pol dim ft fn, srcs = [SInit i] /\ mg_spread mag = Some sp /\ js_center s = Some c /\ js_pol s = Some pol /\ js_dim s = Some dim /\ js_field s = Some fn /\ ((fn = "electric" /\ ft = 0%Z) \/ (fn = "magnetic" /\ ft = 1%Z))%string /\
    ((1 <= dim <= 3)%Z -> (Z.to_nat dim <= length c)%nat ->
     realises (Z.to_nat dim) (SInit i) (Some (mkIdeal ft pol c (fun q => exp (- fold_right (fun a s => a ^ 2 + s) 0 q / (2 * sp ^ 2)))))).
Proof.
  intros bj sbj mesh s mag srcs B Ty Em Et. unfold buildSource in B. rewrite Ty, Em in B. cbn [String.eqb Ascii.eqb Bool.eqb need bind] in B. rewrite Et in B. cbn [String.eqb Ascii.eqb Bool.eqb need bind] in B.
  destruct (js_field s) as [fn|]; [|discriminate]. cbn [need bind] in B. destruct (assignFieldType fn) as [ft| |] eqn:Ef; try discriminate. cbn [bind] in B.
  destruct (mg_spread mag) as [sp|]; [|discriminate]. cbn [need bind] in B. destruct (js_center s) as [c|]; [|discriminate]. cbn [need bind] in B.
  destruct (js_pol s) as [pol|]; [|discriminate]. cbn [need bind] in B. destruct (assemble3DVector pol) as [pp| |] eqn:Ea; try discriminate. cbn [bind] in B. destruct (asm3 _ _ Ea) as (-> & L3).
  destruct (js_dim s) as [dim|]; [|discriminate]. cbn [need bind] in B. injection B as <-.
  exists (mkIF (FGauss sp (zerosR dim) dim) ft pol c), sp, c, pol, dim, ft, fn. split; [reflexivity|]. do 5 (split; [reflexivity|]). split; [now apply field_type|]. intros. repeat split; try assumption; cbn [id_center id_pol id_ft id_phi]; try assumption.
  intros q Lq. apply gauss_value; assumption.
Qed.
Lemma build_kind : forall bj sbj mesh s a, buildSource bj sbj mesh s = Ok [a] ->
  match a with SInit _ => js_type s = "initial"%string | SPlane w => js_type s = "planewave"%string /\ pw_ft w = 0%Z | SDipole w => js_type s = "dipole"%string /\ exists m, js_mag s = Some m /\ mg_length m = Some (dp_len w) /\ mg_spread m = Some (dp_spread w) end.
Proof.
  intros bj sbj mesh s a B. unfold buildSource in B. destruct (String.eqb (js_type s) "initial") eqn:E1; [|destruct (String.eqb (js_type s) "planewave") eqn:E2; [|destruct (String.eqb (js_type s) "dipole") eqn:E3; [|discriminate]]].
  - apply String.eqb_eq in E1. repeat match type of B with
    | bind ?x _ = Ok _ => let E := fresh "E" in destruct x eqn:E; try discriminate; cbn [bind] in B
    | (if ?c then _ else _) = Ok _ => let E := fresh "E" in destruct c eqn:E
    | Ok _ = Ok _ => injection B as <-
    end; try discriminate; exact E1.
  - apply String.eqb_eq in E2. destruct (js_mag s) as [mag|]; [|discriminate]. cbn [need bind] in B. destruct (mg_spread mag) as [sp|]; [|discriminate]. cbn [need bind] in B.
    repeat match type of B with bind ?x _ = Ok _ => let E := fresh "E" in destruct x eqn:E; try discriminate; cbn [bind] in B end. injection B as <-.
    match goal with H : buildPlane _ _ _ _ _ _ = Ok _ |- _ => unfold buildPlane, newPlanewave in H end.
    repeat match goal with H : context [Req_EM_T ?x 0] |- _ => destruct (Req_EM_T x 0); try discriminate end. cbn [bind] in *.
    match goal with H : Ok (SPlane _) = Ok _ |- _ => injection H as <- end. split; [exact E2|reflexivity].
  - apply String.eqb_eq in E3. destruct (js_mag s) as [mag|]; [|discriminate]. cbn [need bind] in B. destruct (mg_length mag) as [len|] eqn:El; [|discriminate]. cbn [need bind] in B.
    destruct (mg_spread mag) as [sp|] eqn:Es; [|discriminate]. cbn [need bind] in B. injection B as <-. split; [exact E3|]. exists mag. cbn [dp_len dp_spread]. auto.
Qed.
Lemma delay_centroid : forall bj sbj bes dim s mag sp tags w srcs, buildSource bj sbj (Some (bes, dim)) s = Ok srcs -> srcs = [SPlane w] -> js_type s = "planewave"%string ->
  js_mag s = Some mag -> mg_mean mag = None -> mg_spread mag = Some sp -> 0 < sp -> js_tags s = Some tags ->
  forall b fi d v, In b bes -> hasTag b tags = true -> planeEval w (centroid b dim) 0 fi d = Ok v -> Rabs v <= exp (-25).
Proof.
  intros bj sbj bes dim s mag sp tags w srcs B Es Ty Em Mn Ep P Et b fi d v Ib Hb Hv.
  destruct (auto_delay bj sbj bes dim s mag sp tags w srcs B Es Ty Em Mn Ep P Et) as (k & _ & _ & _ & H).
  assert (S2 : 0 < sqrt 2) by (apply sqrt_lt_R0; lra). assert (0 < sp * sqrt 2) by (apply Rmult_lt_0_compat; assumption).
  eapply Rle_trans; [apply (H b 0 (centroid b dim) fi d v Ib Hb); [lra|lra|exact Hv]|]. rewrite Rminus_0_r. apply five; [exact P|lra].
Qed.

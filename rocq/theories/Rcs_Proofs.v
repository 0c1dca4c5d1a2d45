From Coq Require Import ZArith List Bool Reals Lra Lia Permutation.
From Verif Require Import Common Rcs_Model Rcs_Spec.
Import ListNotations.
Local Open Scope R_scope.

Lemma C_ext : forall a b : C, fst a = fst b -> snd a = snd b -> a = b.
Proof. intros [? ?] [? ?]; cbn; intros; congruence. Qed.
Lemma amp_ext : forall a b : amp, a_Nth a = a_Nth b -> a_Nph a = a_Nph b -> a_Lth a = a_Lth b -> a_Lph a = a_Lph b -> a = b.
Proof. intros [? ? ? ?] [? ? ? ?]; cbn; intros; congruence. Qed.
Ltac cring :=
  lazymatch goal with
  | |- @eq amp _ _ => apply amp_ext; apply C_ext
  | |- @eq _ _ _ => apply C_ext
  end;
  unfold ampAdd, amp0, cadd, csub, cscale, cplus, cminus, creal, cmul, c0; cbn [fst snd a_Nth a_Nph a_Lth a_Lph]; ring.

Lemma cadd_assoc : forall a b c : C, cadd a (cadd b c) = cadd (cadd a b) c. Proof. intros; cring. Qed.
Lemma cadd_comm : forall a b : C, cadd a b = cadd b a. Proof. intros; cring. Qed.
Lemma cadd_0_r : forall a : C, cadd a c0 = a. Proof. intros; cring. Qed.
Lemma cadd_0_l : forall a : C, cadd c0 a = a. Proof. intros; cring. Qed.

Lemma fold_cadd : forall (X : Type) (g : X -> C) l a, fold_left (fun acc x => cadd acc (g x)) l a = cadd a (csum (map g l)).
Proof.
  induction l as [|x l IH]; intros a.
  - cbn. now rewrite cadd_0_r.
  - cbn [fold_left map csum]. rewrite IH. cring.
Qed.

Lemma csum_app : forall l m, csum (l ++ m) = cplus (csum l) (csum m).
Proof. induction l; intros; cbn [app csum]. cring. rewrite IHl. cring. Qed.
Lemma csum_perm : forall l m, Permutation l m -> csum l = csum m.
Proof.
  induction 1; cbn [csum]; auto.
  - now rewrite IHPermutation.
  - cring.
  - congruence.
Qed.
Lemma csum_ext : forall (X : Type) (g h : X -> C) l, (forall x, In x l -> g x = h x) -> csum (map g l) = csum (map h l).
Proof. intros. f_equal. now apply map_ext_in. Qed.
Lemma csum_plus : forall (X : Type) (g h : X -> C) l, csum (map (fun x => cplus (g x) (h x)) l) = cplus (csum (map g l)) (csum (map h l)).
Proof. induction l; cbn [map csum]. cring. rewrite IHl. cring. Qed.
Lemma csum_creal : forall (X : Type) (x : R) (g : X -> C) l, csum (map (fun v => creal x (g v)) l) = creal x (csum (map g l)).
Proof. induction l; cbn [map csum]. cring. rewrite IHl. cring. Qed.

(** * The DFT *)
Lemma inner_v : forall g c fi n a c' fi' v',
  fold_left (fun a v => add3 a c fi v (g v)) (seq 0 n) a c' fi' v' =
  if (Nat.eqb c' c && Nat.eqb fi' fi && Nat.ltb v' n)%bool then cadd (a c' fi' v') (g v') else a c' fi' v'.
Proof.
  induction n as [|n IH]; intros a c' fi' v'.
  - cbn. now rewrite andb_false_r.
  - rewrite seq_S, fold_left_app. cbn [fold_left]. unfold add3 at 1. rewrite IH. cbn [Nat.add].
    destruct (Nat.eqb_spec c' c); destruct (Nat.eqb_spec fi' fi); cbn [andb]; auto.
    destruct (Nat.eqb_spec v' n); destruct (Nat.ltb_spec v' n); destruct (Nat.ltb_spec v' (S n)); try lia; auto.
    subst. reflexivity.
Qed.
Lemma inner_c : forall (g : nat -> nat -> C) fi n m a c' fi' v',
  fold_left (fun a c => fold_left (fun a v => add3 a c fi v (g c v)) (seq 0 n) a) (seq 0 m) a c' fi' v' =
  if (Nat.ltb c' m && Nat.eqb fi' fi && Nat.ltb v' n)%bool then cadd (a c' fi' v') (g c' v') else a c' fi' v'.
Proof.
  induction m as [|m IH]; intros a c' fi' v'.
  - reflexivity.
  - rewrite seq_S, fold_left_app. cbn [fold_left]. rewrite inner_v, IH. cbn [Nat.add].
    destruct (Nat.eqb_spec c' m); destruct (Nat.ltb_spec c' m); destruct (Nat.ltb_spec c' (S m)); try lia; cbn [andb]; auto.
    subst. destruct (_ && _)%bool; auto.
Qed.
Lemma inner_f : forall (g : nat -> nat -> nat -> C) n m q a c' fi' v',
  fold_left (fun a fi => fold_left (fun a c => fold_left (fun a v => add3 a c fi v (g fi c v)) (seq 0 n) a) (seq 0 m) a) (seq 0 q) a c' fi' v' =
  if (Nat.ltb c' m && Nat.ltb fi' q && Nat.ltb v' n)%bool then cadd (a c' fi' v') (g fi' c' v') else a c' fi' v'.
Proof.
  induction q as [|q IH]; intros a c' fi' v'.
  - cbn. now rewrite andb_false_r.
  - rewrite seq_S, fold_left_app. cbn [fold_left]. rewrite inner_c, IH. cbn [Nat.add].
    destruct (Nat.ltb_spec c' m); cbn [andb]; auto.
    destruct (Nat.eqb_spec fi' q); destruct (Nat.ltb_spec fi' q); destruct (Nat.ltb_spec fi' (S q)); try lia; cbn [andb]; auto.
    subst. destruct (_ <? _)%nat; auto.
Qed.
Lemma dft_sum : forall snaps normFreqs n a c fi v, (c < 6)%nat -> (fi < List.length normFreqs)%nat -> (v < n)%nat ->
  fold_left (fun a s =>
    fold_left (fun a fi =>
      fold_left (fun a c =>
        fold_left (fun a v => add3 a c fi v (cscale (sn_v s c v) (weight (nth fi normFreqs 0) (sn_t s / speedOfLight))))
          (seq 0 n) a)
        (seq 0 6) a)
      (seq 0 (List.length normFreqs)) a) snaps a c fi v =
  cadd (a c fi v) (csum (map (fun s => creal (sn_v s c v) (cis_neg (2 * PI * nth fi normFreqs 0 * sn_t s))) snaps)).
Proof.
  induction snaps as [|s l IH]; intros normFreqs n a c fi v Hc Hf Hv.
  - cbn. now rewrite cadd_0_r.
  - cbn [fold_left]. rewrite IH by assumption.
    rewrite (inner_f (fun fi c v => cscale (sn_v s c v) (weight (nth fi normFreqs 0) (sn_t s / speedOfLight)))).
    apply Nat.ltb_lt in Hc, Hf, Hv. rewrite Hc, Hf, Hv. cbn [andb map csum]. rewrite <- cadd_assoc. f_equal.
    unfold weight, speedOfLight, cis_neg, cscale, cadd, creal, cplus. replace (sn_t s / 1) with (sn_t s) by field. reflexivity.
Qed.
Lemma dft_spectrum : forall snaps normFreqs n c fi v, (c < 6)%nat -> (fi < List.length normFreqs)%nat -> (v < n)%nat ->
  dft snaps normFreqs n c fi v = spectrum snaps (nth fi normFreqs 0) c v.
Proof.
  intros. unfold dft, dftLoops, spectrum. rewrite dft_sum by assumption. rewrite cadd_0_l. reflexivity.
Qed.

(** * The surface integrals *)
Lemma integral_sum : forall n lf field, integral n lf field = csum (map (fun v => cmul (lf v) (field v)) (seq 0 n)).
Proof.
  intros. unfold integral.
  change (fold_left (fun acc v => cadd acc (cmul (lf v) (field v))) (seq 0 n) c0 = csum (map (fun v => cmul (lf v) (field v)) (seq 0 n))).
  rewrite fold_cadd. apply cadd_0_l.
Qed.

(** The code's amplitudes carry the opposite sign (its index pattern gives -n x H and
    n x E); the intensity does not see it. *)
Definition ampOf (r : rank) (snaps : list snap) (f : R) (a : angle) : amp :=
  mkAmp (creal (-1) (alongTheta a (Nint r snaps f a))) (creal (-1) (alongPhi a (Nint r snaps f a)))
        (creal (-1) (alongTheta a (Lint r snaps f a))) (creal (-1) (alongPhi a (Lint r snaps f a))).

Lemma csum_minus : forall (X : Type) (g h : X -> C) l, csum (map (fun x => cminus (g x) (h x)) l) = cminus (csum (map g l)) (csum (map h l)).
Proof. induction l; cbn [map csum]. cring. rewrite IHl. cring. Qed.

Lemma amplitudes_value : forall r snaps normFreqs fi ang, snaps <> [] -> (fi < List.length normFreqs)%nat ->
  amplitudes r snaps (dft snaps normFreqs (r_ndofs r)) fi (nth fi normFreqs 0) ang = Some (ampOf r snaps (nth fi normFreqs 0) ang).
Proof.
  intros r snaps normFreqs fi ang Hs Hf.
  assert (E : amplitudes r snaps (dft snaps normFreqs (r_ndofs r)) fi (nth fi normFreqs 0) ang =
     let NL := dirLoop r (dft snaps normFreqs (r_ndofs r)) fi (nth fi normFreqs 0) ang in
    Some (mkAmp (dot3 (thetaHat ang) (fst NL)) (dot3 (phiHat ang) (fst NL))
                (dot3 (thetaHat ang) (snd NL)) (dot3 (phiHat ang) (snd NL)))).
  { unfold amplitudes. destruct snaps; [congruence|reflexivity]. }
  rewrite E. clear E.
  set (freq := nth fi normFreqs 0).
  assert (I : forall d c, (c < 6)%nat ->
    integral (r_ndofs r) (r_lf r freq ang d) (dft snaps normFreqs (r_ndofs r) c fi) =
    csum (map (fun v => cmul (r_lf r freq ang d v) (spectrum snaps freq c v)) (seq 0 (r_ndofs r)))).
  { intros d c Hc. rewrite integral_sum. apply csum_ext. intros v Hv. apply in_seq in Hv.
    rewrite dft_spectrum; [reflexivity|assumption|assumption|lia]. }
  cbv zeta. unfold dirLoop. cbn [seq fold_left fst snd].
  change ((0 + 1) mod 3)%nat with 1%nat. change ((0 + 2) mod 3)%nat with 2%nat.
  change ((1 + 1) mod 3)%nat with 2%nat. change ((1 + 2) mod 3)%nat with 0%nat.
  change ((2 + 1) mod 3)%nat with 0%nat. change ((2 + 2) mod 3)%nat with 1%nat.
  rewrite !I by lia. unfold ampOf, Nint, Lint, alongTheta, alongPhi, dot3, thetaHat, phiHat, cross, vset.
  cbn [Nat.eqb]. rewrite !csum_minus. cbn [Nat.add].
  f_equal. cring.
Qed.

(** * Loops over requested keys *)
Definition keysOf (normFreqs : list R) (angles : list angle) : list key :=
  flat_map (fun fi => map (fun a => (a, nth fi normFreqs 0)) angles) (seq 0 (List.length normFreqs)).

Lemma nested_loop : forall (X : Type) (h : X -> nat -> angle -> X) (hk : X -> key -> X) normFreqs angles m,
  (forall m fi a, (fi < List.length normFreqs)%nat -> h m fi a = hk m (a, nth fi normFreqs 0)) ->
  fold_left (fun m fi => fold_left (fun m a => h m fi a) angles m) (seq 0 (List.length normFreqs)) m =
  fold_left hk (keysOf normFreqs angles) m.
Proof.
  intros X h hk nf angles m H. unfold keysOf.
  assert (G : forall l m, (forall i, In i l -> (i < List.length nf)%nat) ->
    fold_left (fun m fi => fold_left (fun m a => h m fi a) angles m) l m =
    fold_left hk (flat_map (fun fi => map (fun a => (a, nth fi nf 0)) angles) l) m).
  { induction l as [|i l IH]; intros m' Hl; [reflexivity|]. cbn [flat_map fold_left]. rewrite fold_left_app, <- IH by (intros; apply Hl; now right).
    f_equal. assert (Hi : (i < List.length nf)%nat) by (apply Hl; now left). clear IH Hl. revert m'.
    induction angles as [|a al IHa]; intros m'; [reflexivity|]. cbn [map fold_left]. rewrite IHa. now rewrite H. }
  apply G. intros i Hi. apply in_seq in Hi. lia.
Qed.

Lemma count_map_inj : forall (al : list angle) a g, count_occ key_dec (map (fun x => (x, g)) al) (a, g) = count_occ angle_dec al a.
Proof.
  induction al as [|b al IH]; intros; [reflexivity|]. cbn [map count_occ].
  destruct (key_dec (b, g) (a, g)) as [E|E]; destruct (angle_dec b a) as [F|F]; rewrite ?IH; auto; congruence.
Qed.
Lemma count_map_other : forall (al : list angle) a f g, g <> f -> count_occ key_dec (map (fun x => (x, g)) al) (a, f) = 0%nat.
Proof.
  induction al as [|b al IH]; intros; [reflexivity|]. cbn [map count_occ].
  destruct (key_dec (b, g) (a, f)) as [E|E]; [congruence|auto].
Qed.
Lemma keys_count : forall nf al a f, count_occ key_dec (keysOf nf al) (a, f) = timesAsked al nf a f.
Proof.
  intros. unfold keysOf, timesAsked.
  assert (E : flat_map (fun fi => map (fun a => (a, nth fi nf 0)) al) (seq 0 (List.length nf)) = flat_map (fun g => map (fun a => (a, g)) al) nf).
  { assert (G : map (fun i => nth i nf 0) (seq 0 (List.length nf)) = nf).
    { clear. induction nf as [|x nf IH]; [reflexivity|]. cbn [List.length seq map nth]. f_equal.
      rewrite <- seq_shift, map_map. exact IH. }
    transitivity (flat_map (fun g => map (fun a => (a, g)) al) (map (fun i => nth i nf 0) (seq 0 (List.length nf)))).
    2:{ now rewrite G. }
    generalize (seq 0 (List.length nf)). induction l as [|i l IH]; [reflexivity|]. cbn [map flat_map]. now rewrite IH. }
  rewrite E. clear E. induction nf as [|g nf IH]; [cbn; lia|]. cbn [flat_map]. rewrite count_occ_app. etransitivity; [apply f_equal; exact IH|]. cbn [count_occ].
  destruct (Req_EM_T g f) as [->|N].
  - pose proof (count_map_inj al a f) as H. unfold key in *. rewrite H. lia.
  - pose proof (count_map_other al a f g N) as H. unfold key in *. rewrite H. lia.
Qed.

(** Accumulating and assigning over a list of keys. *)
Fixpoint ampTimes (n : nat) (a : amp) : amp := match n with O => amp0 | S n => ampAdd a (ampTimes n a) end.
Lemma accumulate_keys : forall (A : key -> amp) l m k x, m k = Some x ->
  fold_left (fun m k => kset m k (oadd (m k) (Some (A k)))) l m k = Some (ampAdd x (ampTimes (count_occ key_dec l k) (A k))).
Proof.
  induction l as [|j l IH]; intros m k x Hm; cbn [fold_left count_occ].
  - rewrite Hm. f_equal. cbn [ampTimes]. cring.
  - destruct (key_dec j k) as [->|N].
    + erewrite IH. 2:{ unfold kset. destruct (key_dec k k); [|congruence]. rewrite Hm. reflexivity. }
      f_equal. cbn [ampTimes]. generalize (ampTimes (count_occ key_dec l k) (A k)). intros. cring.
    + apply IH. unfold kset. destruct (key_dec k j); [congruence|assumption].
Qed.
Lemma assign_keys : forall (V : Type) (g : key -> V) l m k, In k l -> fold_left (fun m k => kset m k (g k)) l m k = g k.
Proof.
  intros V g. induction l as [|j l IH] using rev_ind; intros m k H; [destruct H|].
  rewrite fold_left_app. cbn [fold_left]. unfold kset at 1. destruct (key_dec k j) as [->|N]; [reflexivity|].
  apply IH. apply in_app_or in H. destruct H as [H|[H|[]]]; [assumption|congruence].
Qed.

(** * The loop over ranks *)
Definition ampScale (x : R) (a : amp) : amp :=
  mkAmp (creal x (a_Nth a)) (creal x (a_Nph a)) (creal x (a_Lth a)) (creal x (a_Lph a)).
Ltac aring :=
  lazymatch goal with
  | |- @eq amp _ _ => apply amp_ext; apply C_ext
  | |- @eq _ _ _ => apply C_ext
  end;
  unfold ampScale, ampAdd, amp0, cadd, csub, cscale, cplus, cminus, creal, cmul, c0; cbn [fst snd a_Nth a_Nph a_Lth a_Lph]; ring.
Lemma ampTimes_scale : forall n a, ampTimes n a = ampScale (INR n) a.
Proof.
  induction n as [|n IH]; intros a.
  - cbn [ampTimes INR]. aring.
  - cbn [ampTimes]. rewrite IH, S_INR. aring.
Qed.
Fixpoint ampSum (l : list amp) : amp := match l with [] => amp0 | a :: m => ampAdd a (ampSum m) end.
Lemma ampSum_scale : forall x l, ampSum (map (ampScale x) l) = ampScale x (ampSum l).
Proof. induction l as [|a l IH]; cbn [map ampSum]. aring. rewrite IH. aring. Qed.
Lemma ampSum_app : forall l m, ampSum (l ++ m) = ampAdd (ampSum l) (ampSum m).
Proof. induction l as [|a l IH]; intros; cbn [app ampSum]. aring. rewrite IH. aring. Qed.

Lemma filter_kept : forall maxTime r, kept maxTime r <> [] -> filterSnaps maxTime (r_snaps r) = Ok (kept maxTime r).
Proof.
  intros [m|] r H; unfold filterSnaps, kept in *.
  - assert (E : filter (fun s => if Rgt_dec (sn_t s) m then false else true) (r_snaps r) = filter (before (Some m)) (r_snaps r)).
    { apply filter_ext. intros s. unfold before. destruct (Rgt_dec _ _), (Rle_dec _ _); auto; lra. }
    rewrite E. destruct (filter _ _); [congruence|reflexivity].
  - f_equal. clear H. induction (r_snaps r) as [|s l IH]; [reflexivity|]. cbn [filter before]. now rewrite <- IH.
Qed.

Lemma angles_fine : forall dim angles, (dim = 2%Z -> forall a, In a angles -> Rabs (fst a - PI / 2) <= / 10 ^ 8) -> anglesOk dim angles = true.
Proof.
  intros dim angles H. unfold anglesOk. destruct (Z.eqb_spec dim 2); [|reflexivity]. apply forallb_forall. intros a Ha.
  specialize (H e a Ha). destruct (Rgt_dec _ _); [|reflexivity]. lra.
Qed.

Section Ranks.
Variables (maxTime : option R) (w : pwave) (nf : list R) (angles : list angle) (dim : Z).
Hypothesis plane : dim = 2%Z -> forall a, In a angles -> Rabs (fst a - PI / 2) <= / 10 ^ 8.

Lemma rankStep_value : forall st r, r_dim r = dim -> kept maxTime r <> [] ->
  exists st', rankStep maxTime (Ok w) nf angles st r = Ok st' /\
    (forall k x, p_sum st k = Some x ->
       p_sum st' k = Some (ampAdd x (ampScale (INR (timesAsked angles nf (fst k) (snd k))) (ampOf r (kept maxTime r) (snd k) (fst k))))) /\
    p_power st' = (if p_first st then incidentPower w (map sn_t (kept maxTime r)) nf else p_power st) /\ p_dim st' = dim /\ p_first st' = false.
Proof.
  intros st r Hd K.
  unfold rankStep. rewrite (filter_kept _ _ K). cbn [bind].
  rewrite Hd, angles_fine by assumption. cbn [negb].
  assert (T : map (fun s => sn_t s / speedOfLight) (kept maxTime r) = map sn_t (kept maxTime r)).
  { apply map_ext. intros. unfold speedOfLight. field. }
  rewrite T.
  replace (if p_first st then Ok (incidentPower w (map sn_t (kept maxTime r)) nf) else Ok (p_power st))
    with (Ok (if p_first st then incidentPower w (map sn_t (kept maxTime r)) nf else p_power st)) by (now destruct (p_first st)).
  cbn [bind]. eexists. split; [reflexivity|].
  cbn [p_sum p_power p_dim p_first]. split; [|repeat split].
  intros k x Hx.
  rewrite (nested_loop _ _ (fun m k => kset m k (oadd (m k) (Some (ampOf r (kept maxTime r) (snd k) (fst k)))))).
  - rewrite (accumulate_keys (fun k => ampOf r (kept maxTime r) (snd k) (fst k)) _ _ _ _ Hx).
    rewrite ampTimes_scale. destruct k as [a f]. cbn [fst snd]. now rewrite keys_count.
  - intros m fi a Hfi. rewrite amplitudes_value by assumption. reflexivity.
Qed.

Lemma ranks_value : forall ranks st, (forall r, In r ranks -> r_dim r = dim /\ kept maxTime r <> []) ->
  exists st', foldM (rankStep maxTime (Ok w) nf angles) ranks st = Ok st' /\
    (forall k x, p_sum st k = Some x ->
       p_sum st' k = Some (ampAdd x (ampScale (INR (timesAsked angles nf (fst k) (snd k)))
                       (ampSum (map (fun r => ampOf r (kept maxTime r) (snd k) (fst k)) ranks))))) /\
    (ranks <> [] -> p_power st' = (if p_first st then incidentPower w (firstTimes maxTime ranks) nf else p_power st) /\ p_dim st' = dim) /\
    (p_first st = false -> p_power st' = p_power st).
Proof.
  induction ranks as [|r l IH]; intros st H.
  - exists st. cbn [foldM]. split; [reflexivity|]. split; [|split; [congruence|auto]].
    intros k x Hx. rewrite Hx. f_equal. cbn [map ampSum]. aring.
  - destruct (H r (or_introl eq_refl)) as [Hd Ht].
    destruct (rankStep_value st r Hd Ht) as (st1 & E1 & S1 & P1 & D1 & F1).
    destruct (IH st1 (fun r' Hr => H r' (or_intror Hr))) as (st2 & E2 & S2 & P2 & Q2).
    exists st2. cbn [foldM]. rewrite E1. cbn [bind]. split; [exact E2|]. split; [|split].
    + intros k x Hx. rewrite (S2 _ _ (S1 _ _ Hx)). f_equal. cbn [map ampSum].
      generalize (ampSum (map (fun r0 => ampOf r0 (kept maxTime r0) (snd k) (fst k)) l)). intros. aring.
    + intros _. rewrite (Q2 F1), P1. split; [reflexivity|].
      destruct l as [|r' l']; [cbn in E2; congruence|]. apply P2. discriminate.
    + intros F. rewrite (Q2 F1), P1, F. reflexivity.
Qed.

Lemma envelope_pulse : forall ts, envelope w ts = map (pulse w) ts.
Proof.
  intros ts. unfold envelope, gaussianVector, pulse. destruct (Req_EM_T (pw_freq w) 0) as [E|E].
  - apply map_ext. intros t. rewrite E. replace (2 * PI * 0 * (t - Rabs (pw_mean w))) with 0 by ring. rewrite cos_0, Rmult_1_r.
    f_equal. f_equal; [|ring]. ring.
  - induction ts as [|t l IH]; [reflexivity|]. cbn [map combine fst snd]. f_equal; [|exact IH].
    f_equal. f_equal. f_equal; [|f_equal]; ring.
Qed.
Lemma power_value : forall times fi, times <> [] -> (fi < List.length nf)%nat ->
  nth fi (incidentPower w times nf) None = Some (pulsePower w times (nth fi nf 0)).
Proof.
  intros times fi times_some Hfi. unfold incidentPower.
  match goal with |- nth fi (map ?g nf) None = _ => rewrite (nth_indep _ None (g 0)) by (now rewrite map_length); rewrite (map_nth g) end.
  destruct times as [|t0 ts] eqn:E; [congruence|]. rewrite <- E in *. f_equal. unfold pulsePower, freeSpaceImpedance, speedOfLight.
  rewrite fold_cadd, cadd_0_l, envelope_pulse.
  assert (G : forall l, map (fun p : R * R => cscale (snd p) (weight (nth fi nf 0) (fst p))) (combine l (map (pulse w) l)) =
                map (fun t => creal (pulse w t) (cis_neg (2 * PI * nth fi nf 0 * t))) l).
  { induction l as [|t l IH]; [reflexivity|]. cbn [map combine fst snd]. now rewrite IH. }
  rewrite G. generalize (/ INR (List.length times)). intros. unfold cnorm, cmod2, cscale, creal. cbn [fst snd]. field.
Qed.
End Ranks.

Lemma tot_amp : forall (l : list rank) maxTime f a,
  ampSum (map (fun r => ampOf r (kept maxTime r) f a) l) =
  mkAmp (creal (-1) (csum (map (fun r => alongTheta a (Nint r (kept maxTime r) f a)) l)))
        (creal (-1) (csum (map (fun r => alongPhi a (Nint r (kept maxTime r) f a)) l)))
        (creal (-1) (csum (map (fun r => alongTheta a (Lint r (kept maxTime r) f a)) l)))
        (creal (-1) (csum (map (fun r => alongPhi a (Lint r (kept maxTime r) f a)) l))).
Proof.
  induction l as [|r l IH]; intros; cbn [map ampSum csum].
  - aring.
  - rewrite IH. unfold ampOf. aring.
Qed.

Lemma section_value : forall dim maxTime w times ranks f a m,
  omul (factor dim f (Some (pulsePower w times f)))
       (Some (potRad dim f (ampScale (INR m) (ampSum (map (fun r => ampOf r (kept maxTime r) f a) ranks))))) =
  option_map (fun x => INR m ^ 2 * x) (crossSection dim maxTime w times ranks f a).
Proof.
  intros. rewrite tot_amp. unfold crossSection, factor, rdiv, potRad, intensity, freeSpaceImpedance, speedOfLight. cbv zeta.
  cbn [ampScale a_Nth a_Nph a_Lth a_Lph].
  set (P := pulsePower w times f).
  generalize (csum (map (fun r => alongTheta a (Nint r (kept maxTime r) f a)) ranks)).
  generalize (csum (map (fun r => alongPhi a (Nint r (kept maxTime r) f a)) ranks)).
  generalize (csum (map (fun r => alongTheta a (Lint r (kept maxTime r) f a)) ranks)).
  generalize (csum (map (fun r => alongPhi a (Lint r (kept maxTime r) f a)) ranks)).
  intros [a1 a2] [b1 b2] [c1 c2] [d1 d2].
  unfold cnorm, cmod2, cadd, csub, cplus, cminus, creal, cscale. cbn [fst snd].
  pose proof PI_neq0 as Hpi.
  destruct (dim =? 2)%Z.
  - destruct (Req_EM_T (2 * PI * f * P) 0) as [E|E]; cbn [omul option_map]; [reflexivity|].
    f_equal. assert (f <> 0) by (intros ->; apply E; ring). assert (P <> 0) by (intros ->; apply E; ring). field. auto.
  - destruct (Req_EM_T P 0) as [E|E]; cbn [omul option_map]; [reflexivity|]. f_equal. field. auto.
Qed.

Lemma in_keys : forall nf angles a f, In a angles -> In f nf -> In (a, f) (keysOf nf angles).
Proof.
  intros nf angles a f Ha Hf. apply (count_occ_In key_dec). rewrite keys_count. unfold timesAsked.
  apply (count_occ_In angle_dec) in Ha. apply (count_occ_In Req_EM_T) in Hf. nia.
Qed.

(** The value of every requested entry. *)
Definition nfs (freqs : list R) : list R := map (fun f => f / speedOfLight_SI) freqs.
Theorem results_value : forall dim maxTime w ranks freqs angles, usable dim maxTime ranks angles ->
  exists far rcs, computeResults maxTime (Ok w) ranks freqs angles = Ok (far, rcs) /\
    forall a f, In a angles -> In f (nfs freqs) ->
      far (a, f) = Some (INR (timesAsked angles (nfs freqs) a f) ^ 2 * radiated dim maxTime ranks f a) /\
      rcs (a, f) = option_map (fun x => INR (timesAsked angles (nfs freqs) a f) ^ 2 * x)
                     (crossSection dim maxTime w (firstTimes maxTime ranks) ranks f a).
Proof.
  intros dim maxTime w ranks freqs angles (Hr & Hall & Hpl).
  unfold nfs. set (nf := map (fun f => f / speedOfLight_SI) freqs).
  destruct (ranks_value maxTime w nf angles dim Hpl ranks (mkP (fun _ => Some amp0) [] 0%Z true) Hall) as (st & E & S & P & _).
  specialize (P Hr). cbn [p_first] in P. destruct P as [P D].
  assert (Ht : firstTimes maxTime ranks <> []).
  { destruct ranks as [|r l]; [congruence|]. cbn [firstTimes]. destruct (Hall r (or_introl eq_refl)) as [_ K].
    destruct (kept maxTime r); [congruence|discriminate]. }
  unfold computeResults. fold nf.
  assert (Eq : forall X (x y : X), match ranks with [] => x | _ => y end = y) by (destruct ranks; [congruence|reflexivity]).
  rewrite Eq. rewrite E. cbn [bind].
  eexists. eexists. split; [reflexivity|].
  intros a f Ha Hf.
  set (far := farField nf angles st (fun _ => Some 0)).
  assert (F : far (a, f) = option_map (potRad dim f) (p_sum st (a, f))).
  { unfold far, farField.
    rewrite (nested_loop _ _ (fun m k => kset m k (option_map (potRad (p_dim st) (snd k)) (p_sum st k)))) by reflexivity.
    rewrite (assign_keys _ (fun k => option_map (potRad (p_dim st) (snd k)) (p_sum st k))) by (now apply in_keys).
    cbn [snd]. now rewrite D. }
  rewrite (S (a, f) amp0 eq_refl) in F. cbn [fst snd option_map] in F.
  assert (F' : far (a, f) = Some (potRad dim f (ampScale (INR (timesAsked angles nf a f)) (ampSum (map (fun r => ampOf r (kept maxTime r) f a) ranks))))).
  { rewrite F. f_equal. f_equal. generalize (ampSum (map (fun r => ampOf r (kept maxTime r) f a) ranks)). intros. aring. }
  split.
  - rewrite F'. f_equal. rewrite tot_amp. unfold potRad, radiated, intensity, freeSpaceImpedance, speedOfLight.
    cbv zeta. cbn [ampScale a_Nth a_Nph a_Lth a_Lph].
    unfold cnorm, cmod2, cadd, csub, cplus, cminus, creal, cscale. cbn [fst snd].
    pose proof PI_neq0. destruct (dim =? 2)%Z; field; auto.
  - unfold rcsData.
    rewrite (nested_loop _ _ (fun m k => kset m k (omul (factor dim (snd k) (Some (pulsePower w (firstTimes maxTime ranks) (snd k)))) (far k)))).
    2:{ intros m fi x Hfi. rewrite P, power_value by assumption. cbn [snd]. now rewrite D. }
    rewrite (assign_keys _ (fun k => omul (factor dim (snd k) (Some (pulsePower w (firstTimes maxTime ranks) (snd k)))) (far k))) by (now apply in_keys).
    cbn [snd]. rewrite F'. apply section_value.
Qed.

(** * Consequences *)
Lemma sameRun_usable : forall dim maxTime times ranks angles, sameRun dim maxTime times ranks angles ->
  usable dim maxTime ranks angles /\ firstTimes maxTime ranks = times.
Proof.
  intros dim maxTime times ranks angles (Hr & Ht & Hall & Hpl). split.
  - split; [assumption|]. split; [|assumption]. intros r H. destruct (Hall r H) as [D T]. split; [assumption|].
    intros K. rewrite K in T. cbn in T. congruence.
  - destruct ranks as [|r l]; [congruence|]. cbn [firstTimes]. apply (Hall r). now left.
Qed.

Lemma cmod2_nonneg : forall z, 0 <= cmod2 z.
Proof. intros. unfold cmod2. nra. Qed.
Lemma intensity_nonneg : forall m r f a, 0 <= intensity m r f a.
Proof. intros. unfold intensity. cbv zeta. apply Rplus_le_le_0_compat; apply cmod2_nonneg. Qed.
Lemma section_nonneg : forall dim m w ts ranks f a x, (dim <> 2%Z \/ 0 <= f) -> crossSection dim m w ts ranks f a = Some x -> 0 <= x.
Proof.
  intros dim m w ts ranks f a x H E. unfold crossSection in E. cbv zeta in E.
  pose proof (intensity_nonneg m ranks f a) as HS. pose proof PI_RGT_0 as Hpi.
  assert (HP : 0 <= pulsePower w ts f). { unfold pulsePower. pose proof (cmod2_nonneg (creal (/ INR (List.length ts)) (csum (map (fun t => creal (pulse w t) (cis_neg (2 * PI * f * t))) ts)))). lra. }
  revert E. generalize dependent (pulsePower w ts f). intros P HP E.
  destruct (Z.eqb_spec dim 2) as [->|N].
  - destruct H as [H|H]; [congruence|]. destruct (Req_EM_T _ _) as [|E0]; [discriminate|]. injection E as <-.
    assert (P <> 0) by (intros ->; apply E0; ring).
    apply Rmult_le_pos; [|assumption]. apply Rle_mult_inv_pos; nra.
  - destruct (Req_EM_T _ _) as [|E0]; [discriminate|]. injection E as <-.
    apply Rmult_le_pos; [|assumption]. apply Rle_mult_inv_pos; [|apply Rmult_lt_0_compat; lra]. apply pow2_ge_0.
Qed.
Lemma radiated_nonneg : forall dim m ranks f a, 0 <= radiated dim m ranks f a.
Proof.
  intros. unfold radiated. pose proof PI_RGT_0. apply Rmult_le_pos; [|apply intensity_nonneg]. apply Rmult_le_pos.
  - pose proof (pow2_ge_0 (2 * PI * f)). lra.
  - destruct (dim =? 2)%Z; [lra|]. left. apply Rinv_0_lt_compat. apply pow_lt. lra.
Qed.

Lemma results_nonneg : forall dim maxTime w ranks freqs angles, usable dim maxTime ranks angles -> (dim = 2%Z -> forall f, In f freqs -> 0 <= f) ->
  exists far rcs, computeResults maxTime (Ok w) ranks freqs angles = Ok (far, rcs) /\
    forall a f, In a angles -> In f (nfs freqs) ->
      (exists x, far (a, f) = Some x /\ 0 <= x) /\ (forall x, rcs (a, f) = Some x -> 0 <= x).
Proof.
  intros dim maxTime w ranks freqs angles U Hf. destruct (results_value dim maxTime w ranks freqs angles U) as (far & rcs & E & V).
  exists far, rcs. split; [exact E|]. intros a f Ha Hin. destruct (V a f Ha Hin) as [V1 V2]. split.
  - eexists. split; [exact V1|]. apply Rmult_le_pos; [apply pow2_ge_0 | apply radiated_nonneg].
  - intros x Hx. rewrite V2 in Hx. destruct (crossSection _ _ _ _ _ _ _) as [y|] eqn:Y; [|discriminate]. injection Hx as <-.
    apply Rmult_le_pos; [apply pow2_ge_0|]. eapply section_nonneg; [|exact Y].
    destruct (Z.eq_dec dim 2) as [D|D]; [right|now left]. apply in_map_iff in Hin. destruct Hin as (g & <- & Hg).
    specialize (Hf D g Hg). unfold speedOfLight_SI. apply Rle_mult_inv_pos; lra.
Qed.

Lemma intensity_perm : forall m ranks ranks' f a, Permutation ranks ranks' -> intensity m ranks f a = intensity m ranks' f a.
Proof.
  intros. unfold intensity. cbv zeta.
  assert (E : forall g : rank -> C, csum (map g ranks) = csum (map g ranks')) by (intros; apply csum_perm; now apply Permutation_map).
  now rewrite !E.
Qed.
Lemma section_perm : forall dim m w ts ranks ranks' f a, Permutation ranks ranks' ->
  crossSection dim m w ts ranks f a = crossSection dim m w ts ranks' f a.
Proof. intros. unfold crossSection. cbv zeta. now rewrite (intensity_perm m ranks ranks'). Qed.

Lemma results_order : forall dim maxTime times w ranks ranks' freqs angles, sameRun dim maxTime times ranks angles -> Permutation ranks ranks' ->
  exists far rcs far' rcs', computeResults maxTime (Ok w) ranks freqs angles = Ok (far, rcs) /\
    computeResults maxTime (Ok w) ranks' freqs angles = Ok (far', rcs') /\
    forall a f, In a angles -> In f (nfs freqs) -> far (a, f) = far' (a, f) /\ rcs (a, f) = rcs' (a, f).
Proof.
  intros dim maxTime times w ranks ranks' freqs angles Hs Hp.
  assert (Hs' : sameRun dim maxTime times ranks' angles).
  { destruct Hs as (H1 & H2 & H3 & H4). split; [|split; [assumption|split; [|assumption]]].
    - intros ->. apply Permutation_sym, Permutation_nil in Hp. congruence.
    - intros r Hr. apply H3. now apply (Permutation_in r (Permutation_sym Hp)). }
  destruct (sameRun_usable _ _ _ _ _ Hs) as [U T]. destruct (sameRun_usable _ _ _ _ _ Hs') as [U' T'].
  destruct (results_value dim maxTime w ranks freqs angles U) as (far & rcs & E & V).
  destruct (results_value dim maxTime w ranks' freqs angles U') as (far' & rcs' & E' & V').
  exists far, rcs, far', rcs'. split; [exact E|]. split; [exact E'|]. intros a f Ha Hf.
  destruct (V a f Ha Hf) as [V1 V2]. destruct (V' a f Ha Hf) as [V1' V2']. rewrite V1, V2, V1', V2', T, T'. split.
  - unfold radiated. now rewrite (intensity_perm maxTime ranks ranks').
  - now rewrite (section_perm dim maxTime w times ranks ranks').
Qed.

(** ** Joining the points of two ranks *)
Lemma kept_join : forall m r1 r2, map sn_t (r_snaps r1) = map sn_t (r_snaps r2) ->
  kept m (join r1 r2) = map (fun p => joinSnap (r_ndofs r1) (fst p) (snd p)) (combine (kept m r1) (kept m r2)) /\
  map sn_t (kept m r1) = map sn_t (kept m r2).
Proof.
  intros m r1 r2 H. unfold kept, join. cbn [r_snaps]. generalize dependent (r_snaps r2). induction (r_snaps r1) as [|s l IH]; intros [|t l2] H; try discriminate.
  - split; reflexivity.
  - cbn [map] in H. injection H as H0 H. destruct (IH l2 H) as [IH1 IH2]. cbn [combine map filter fst snd].
    assert (B : before m (joinSnap (r_ndofs r1) s t) = before m s) by reflexivity.
    assert (B' : before m t = before m s) by (unfold before; now rewrite H0).
    rewrite B, B'. destruct (before m s); cbn [combine map fst snd]; rewrite ?IH1, ?IH2, ?H0; auto.
Qed.
Lemma spectrum_join : forall n l1 l2 f c v, map sn_t l1 = map sn_t l2 ->
  spectrum (map (fun p => joinSnap n (fst p) (snd p)) (combine l1 l2)) f c v =
  if (v <? n)%nat then spectrum l1 f c v else spectrum l2 f c (v - n).
Proof.
  intros n l1 l2 f c v H. unfold spectrum.
  assert (L : List.length l1 = List.length l2) by (rewrite <- (map_length sn_t l1), H; apply map_length).
  rewrite map_length, combine_length, <- L, Nat.min_id.
  assert (G : csum (map (fun s => creal (sn_v s c v) (cis_neg (2 * PI * f * sn_t s))) (map (fun p => joinSnap n (fst p) (snd p)) (combine l1 l2))) =
    if (v <? n)%nat then csum (map (fun s => creal (sn_v s c v) (cis_neg (2 * PI * f * sn_t s))) l1)
    else csum (map (fun s => creal (sn_v s c (v - n)) (cis_neg (2 * PI * f * sn_t s))) l2)).
  { clear L. revert l2 H. induction l1 as [|s l IH]; intros [|t l2] H; try discriminate.
    - now destruct (v <? n)%nat.
    - cbn [map] in H. injection H as H0 H. cbn [combine map csum fst snd]. rewrite IH by assumption. cbn [joinSnap sn_v sn_t].
      destruct (v <? n)%nat; [reflexivity|]. now rewrite H0. }
  rewrite G. destruct (v <? n)%nat; [reflexivity|]. now rewrite L.
Qed.
Lemma seq_split : forall (g : nat -> C) n1 n2, csum (map g (seq 0 (n1 + n2))) = cplus (csum (map g (seq 0 n1))) (csum (map (fun v => g (n1 + v)%nat) (seq 0 n2))).
Proof.
  intros. rewrite seq_app, map_app, csum_app. f_equal. f_equal. cbn [Nat.add].
  assert (G : forall m k, map g (seq (n1 + k) m) = map (fun v => g (n1 + v)%nat) (seq k m)).
  { induction m; intros; [reflexivity|]. cbn [seq map]. f_equal. rewrite <- Nat.add_succ_r. apply IHm. }
  rewrite <- G. now rewrite Nat.add_0_r.
Qed.
Lemma cross_ext : forall u u' w w' i, (forall d, u d = u' d) -> (forall d, w d = w' d) -> cross u w i = cross u' w' i.
Proof. intros u u' w w' i Hu Hw. unfold cross. rewrite !Hu, !Hw. reflexivity. Qed.

Section Join.
Variables (m : option R) (r1 r2 : rank) (f : R) (a : angle).
Hypothesis T : map sn_t (r_snaps r1) = map sn_t (r_snaps r2).
Let s1 := kept m r1.
Let s2 := kept m r2.
Lemma join_parts : forall off i,
  csum (map (fun v => cross (fun d => r_lf (join r1 r2) f a d v) (fun c => spectrum (kept m (join r1 r2)) f (off + c) v) i) (seq 0 (r_ndofs (join r1 r2)))) =
  cplus (csum (map (fun v => cross (fun d => r_lf r1 f a d v) (fun c => spectrum s1 f (off + c) v) i) (seq 0 (r_ndofs r1))))
        (csum (map (fun v => cross (fun d => r_lf r2 f a d v) (fun c => spectrum s2 f (off + c) v) i) (seq 0 (r_ndofs r2)))).
Proof.
  intros off i. destruct (kept_join m r1 r2 T) as [K KT]. rewrite K. cbn [join r_ndofs r_lf]. rewrite seq_split. f_equal; apply csum_ext; intros v Hv; apply in_seq in Hv; apply cross_ext; intros d.
  - destruct (Nat.ltb_spec v (r_ndofs r1)); [reflexivity|lia].
  - rewrite spectrum_join by assumption. destruct (Nat.ltb_spec v (r_ndofs r1)); [reflexivity|lia].
  - destruct (Nat.ltb_spec (r_ndofs r1 + v) (r_ndofs r1)); [lia|]. f_equal. lia.
  - rewrite spectrum_join by assumption. destruct (Nat.ltb_spec (r_ndofs r1 + v) (r_ndofs r1)); [lia|].
    unfold s2. f_equal. lia.
Qed.
Lemma join_N : forall i, Nint (join r1 r2) (kept m (join r1 r2)) f a i = cplus (Nint r1 s1 f a i) (Nint r2 s2 f a i).
Proof. intros. unfold Nint. apply (join_parts 3). Qed.
Lemma join_L : forall i, Lint (join r1 r2) (kept m (join r1 r2)) f a i = cplus (Lint r1 s1 f a i) (Lint r2 s2 f a i).
Proof.
  intros. unfold Lint. pose proof (join_parts 0 i) as J. cbn [Nat.add] in J. rewrite J. cring.
Qed.
End Join.

Lemma intensity_join : forall m l1 r1 r2 l2 f a, map sn_t (r_snaps r1) = map sn_t (r_snaps r2) ->
  intensity m (l1 ++ join r1 r2 :: l2) f a = intensity m (l1 ++ r1 :: r2 :: l2) f a.
Proof.
  intros m l1 r1 r2 l2 f a T. unfold intensity. cbv zeta. rewrite !map_app, !csum_app. cbn [map csum].
  assert (E1 : alongTheta a (Nint (join r1 r2) (kept m (join r1 r2)) f a) = cplus (alongTheta a (Nint r1 (kept m r1) f a)) (alongTheta a (Nint r2 (kept m r2) f a))).
  { unfold alongTheta. rewrite !join_N by assumption. cring. }
  assert (E2 : alongPhi a (Nint (join r1 r2) (kept m (join r1 r2)) f a) = cplus (alongPhi a (Nint r1 (kept m r1) f a)) (alongPhi a (Nint r2 (kept m r2) f a))).
  { unfold alongPhi. rewrite !join_N by assumption. cring. }
  assert (E3 : alongTheta a (Lint (join r1 r2) (kept m (join r1 r2)) f a) = cplus (alongTheta a (Lint r1 (kept m r1) f a)) (alongTheta a (Lint r2 (kept m r2) f a))).
  { unfold alongTheta. rewrite !join_L by assumption. cring. }
  assert (E4 : alongPhi a (Lint (join r1 r2) (kept m (join r1 r2)) f a) = cplus (alongPhi a (Lint r1 (kept m r1) f a)) (alongPhi a (Lint r2 (kept m r2) f a))).
  { unfold alongPhi. rewrite !join_L by assumption. cring. }
  rewrite E1, E2, E3, E4.
  assert (A : forall x y z u : C, cplus x (cplus (cplus y z) u) = cplus x (cplus y (cplus z u))) by (intros; cring).
  now rewrite !A.
Qed.

Lemma results_join : forall dim maxTime times w l1 r1 r2 l2 freqs angles,
  sameRun dim maxTime times (l1 ++ r1 :: r2 :: l2) angles -> map sn_t (r_snaps r1) = map sn_t (r_snaps r2) ->
  exists far rcs far' rcs', computeResults maxTime (Ok w) (l1 ++ r1 :: r2 :: l2) freqs angles = Ok (far, rcs) /\
    computeResults maxTime (Ok w) (l1 ++ join r1 r2 :: l2) freqs angles = Ok (far', rcs') /\
    forall a f, In a angles -> In f (nfs freqs) -> far (a, f) = far' (a, f) /\ rcs (a, f) = rcs' (a, f).
Proof.
  intros dim maxTime times w l1 r1 r2 l2 freqs angles Hs HT.
  destruct (sameRun_usable _ _ _ _ _ Hs) as [U T].
  assert (Hs' : sameRun dim maxTime times (l1 ++ join r1 r2 :: l2) angles).
  { destruct Hs as (H1 & H2 & H3 & H4). split; [|split; [assumption|split; [|assumption]]].
    - destruct l1; discriminate.
    - intros r Hr. apply in_app_or in Hr. destruct Hr as [Hr|[<-|Hr]].
      + apply H3. apply in_or_app. now left.
      + destruct (H3 r1) as [D1 T1]; [apply in_or_app; right; now left|]. split; [exact D1|].
        destruct (kept_join maxTime r1 r2 HT) as [K KT]. rewrite K, <- T1, map_map. cbn [joinSnap sn_t].
        assert (G : forall x y : list snap, List.length x = List.length y -> map (fun p : snap * snap => sn_t (fst p)) (combine x y) = map sn_t x).
        { induction x as [|s x IHx]; intros [|y0 y] HL; try discriminate; [reflexivity|]. cbn. f_equal. apply IHx. now injection HL. }
        apply G. rewrite <- (map_length sn_t (kept maxTime r1)), KT. apply map_length.
      + apply H3. apply in_or_app. right. right. now right. }
  destruct (sameRun_usable _ _ _ _ _ Hs') as [U' T'].
  destruct (results_value dim maxTime w _ freqs angles U) as (far & rcs & E & V).
  destruct (results_value dim maxTime w _ freqs angles U') as (far' & rcs' & E' & V').
  exists far, rcs, far', rcs'. split; [exact E|]. split; [exact E'|]. intros a f Ha Hf.
  destruct (V a f Ha Hf) as [V1 V2]. destruct (V' a f Ha Hf) as [V1' V2']. rewrite V1, V2, V1', V2', T, T'. split.
  - unfold radiated. now rewrite intensity_join.
  - unfold crossSection. cbv zeta. now rewrite intensity_join.
Qed.

(** ** Other requested angles and frequencies *)
Lemma results_alone : forall dim maxTime w ranks freqs angles, usable dim maxTime ranks angles -> NoDup angles -> NoDup freqs ->
  exists far rcs, computeResults maxTime (Ok w) ranks freqs angles = Ok (far, rcs) /\
    forall a f, In a angles -> In f freqs ->
      exists far1 rcs1, computeResults maxTime (Ok w) ranks [f] [a] = Ok (far1, rcs1) /\
        far (a, f / speedOfLight_SI) = far1 (a, f / speedOfLight_SI) /\ rcs (a, f / speedOfLight_SI) = rcs1 (a, f / speedOfLight_SI).
Proof.
  intros dim maxTime w ranks freqs angles U Na Nf.
  destruct (results_value dim maxTime w ranks freqs angles U) as (far & rcs & E & V).
  exists far, rcs. split; [exact E|]. intros a f Ha Hf.
  assert (U1 : usable dim maxTime ranks [a]).
  { destruct U as (H1 & H2 & H3). split; [assumption|]. split; [assumption|]. intros D b [<-|[]]. now apply H3. }
  destruct (results_value dim maxTime w ranks [f] [a] U1) as (far1 & rcs1 & E1 & V1).
  exists far1, rcs1. split; [exact E1|].
  assert (Hn : In (f / speedOfLight_SI) (nfs freqs)) by (unfold nfs; apply in_map_iff; eauto).
  destruct (V a (f / speedOfLight_SI) Ha Hn) as [A B]. destruct (V1 a (f / speedOfLight_SI) (or_introl eq_refl) (or_introl eq_refl)) as [A1 B1].
  assert (C1 : timesAsked angles (nfs freqs) a (f / speedOfLight_SI) = 1%nat).
  { unfold timesAsked. rewrite (NoDup_count_occ' angle_dec angles) in Na. rewrite (Na a Ha).
    assert (N : NoDup (nfs freqs)).
    { unfold nfs. apply FinFun.Injective_map_NoDup; [|assumption]. intros x y Hxy. unfold speedOfLight_SI in Hxy. lra. }
    rewrite (NoDup_count_occ' Req_EM_T (nfs freqs)) in N. now rewrite (N _ Hn). }
  assert (C2 : timesAsked [a] (nfs [f]) a (f / speedOfLight_SI) = 1%nat).
  { unfold timesAsked, nfs. cbn [map count_occ]. destruct (angle_dec a a); [|congruence]. destruct (Req_EM_T _ _); [reflexivity|congruence]. }
  rewrite A, B, A1, B1, C1, C2. auto.
Qed.

(** An entry asked for several times is multiplied by the square of that number. *)
Lemma results_repeated : forall dim maxTime w ranks freqs angles, usable dim maxTime ranks angles ->
  exists far rcs, computeResults maxTime (Ok w) ranks freqs angles = Ok (far, rcs) /\
    forall a f, In a angles -> In f freqs ->
      exists far1 rcs1, computeResults maxTime (Ok w) ranks [f] [a] = Ok (far1, rcs1) /\
        far (a, f / speedOfLight_SI) =
          option_map (fun x => INR (timesAsked angles freqs a f) ^ 2 * x) (far1 (a, f / speedOfLight_SI)) /\
        rcs (a, f / speedOfLight_SI) =
          option_map (fun x => INR (timesAsked angles freqs a f) ^ 2 * x) (rcs1 (a, f / speedOfLight_SI)).
Proof.
  intros dim maxTime w ranks freqs angles U.
  destruct (results_value dim maxTime w ranks freqs angles U) as (far & rcs & E & V).
  exists far, rcs. split; [exact E|]. intros a f Ha Hf.
  assert (U1 : usable dim maxTime ranks [a]).
  { destruct U as (H1 & H2 & H3). split; [assumption|]. split; [assumption|]. intros D b [<-|[]]. now apply H3. }
  destruct (results_value dim maxTime w ranks [f] [a] U1) as (far1 & rcs1 & E1 & V1).
  exists far1, rcs1. split; [exact E1|].
  assert (Hn : In (f / speedOfLight_SI) (nfs freqs)) by (unfold nfs; apply in_map_iff; eauto).
  destruct (V a (f / speedOfLight_SI) Ha Hn) as [A B]. destruct (V1 a (f / speedOfLight_SI) (or_introl eq_refl) (or_introl eq_refl)) as [A1 B1].
  assert (C2 : timesAsked [a] (nfs [f]) a (f / speedOfLight_SI) = 1%nat).
  { unfold timesAsked, nfs. cbn [map count_occ]. destruct (angle_dec a a); [|congruence]. destruct (Req_EM_T _ _); [reflexivity|congruence]. }
  assert (C1 : timesAsked angles (nfs freqs) a (f / speedOfLight_SI) = timesAsked angles freqs a f).
  { unfold timesAsked. f_equal. unfold nfs. clear. induction freqs as [|g l IH]; [reflexivity|]. cbn [map count_occ].
    destruct (Req_EM_T (g / speedOfLight_SI) (f / speedOfLight_SI)) as [H|H]; destruct (Req_EM_T g f) as [H'|H']; rewrite ?IH; auto.
    - exfalso. apply H'. unfold speedOfLight_SI in H. lra.
    - subst. congruence. }
  rewrite A, B, A1, B1, C1, C2. cbn [option_map]. destruct (crossSection _ _ _ _ _ _ _); cbn [option_map]; split; f_equal; simpl INR; ring.
Qed.

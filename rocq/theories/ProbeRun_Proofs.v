(** Probes served during a whole run of the solver; movies. *)
From Coq Require Import ZArith List Bool Reals Lra Lia Psatz Znumtheory Sorted.
From Flocq Require Import Core.Raux.
From Verif Require Import Common Time_Model Time_Proofs Probe_Model Probe_Spec Probe_Proofs.
Import ListNotations.
Local Open Scope R_scope.

Section Run.
Variable X : Type.
Variable ode : X -> R -> R -> X.

(** A solver as left by the constructor: time 0, one call. *)
Definition started (dt final : R) (x0 : X) : solver X := mkSolver 0 dt final x0 [(0, x0)].

Lemma run_calls : forall dt final x0, 0 < dt -> 0 <= final ->
  exists n r tr s', final = INR n * dt + r /\ 0 <= r < dt /\
    runR X ode (started dt final x0) tr s' /\
    (forall tr2 s2, runR X ode (started dt final x0) tr2 s2 -> tr2 = tr /\ s2 = s') /\
    map fst (s_calls s') = map (fun k => INR k * dt) (seq 0 (S n)) ++ (if Rle_dec (/ 100000000 * dt) r then [final] else []) /\
    length tr = (n + (if Rle_dec (/ 100000000 * dt) r then 1 else 0))%nat /\
    length (s_calls s') = S (length tr) /\
    s_time s' = (if Rle_dec (/ 100000000 * dt) r then final else INR n * dt) /\
    exists before, s_calls s' = before ++ [(s_time s', s_fields s')].
Proof.
  intros dt final x0 Hd Hf.
  destruct (run_exact X ode (started dt final x0) Hd Hf) as (n & r & tr & s' & E & Hr & H1 & H2 & H3 & H4 & H5).
  cbn [started s_final s_time s_dt s_calls] in *.
  exists n, r, tr, s'. split; [lra|]. split; [auto|]. split; [auto|]. split; [auto|].
  assert (Hlen : length tr = (n + (if Rle_dec (/ 100000000 * dt) r then 1 else 0))%nat).
  { rewrite <- (map_length s_time tr), H3, app_length. unfold grid. rewrite map_length, seq_length.
    destruct Rle_dec; reflexivity. }
  split.
  { rewrite H5. cbn [map app fst]. rewrite map_map. cbn [fst].
    change (map (fun x : solver X => s_time x) tr) with (map s_time tr). rewrite H3. unfold grid.
    change (seq 0 (S n)) with (0%nat :: seq 1 n). cbn [map].
    rewrite <- app_comm_cons. f_equal; [cbn; ring|]. f_equal. apply map_ext. intros; ring. }
  split; [auto|]. split; [rewrite H5; cbn [length app]; now rewrite map_length|].
  split; [rewrite H4; destruct Rle_dec; lra|].
  pose proof (runs_last _ _ _ _ _ _ H1) as Hl.
  destruct tr as [|u tr] using rev_ind.
  - exists []. rewrite H5. cbn. cbn in Hl. subst s'. reflexivity.
  - rewrite last_last in Hl. subst u. rewrite map_app in H5. cbn [map] in H5.
    exists ([(0, x0)] ++ map (fun u => (s_time u, s_fields u)) tr). rewrite H5, app_assoc. reflexivity.
Qed.

(** With a step of at most one unit, the last call is within 1e-8 of the final time. *)
Lemma run_last_near : forall dt final x0 tr s', 0 < dt -> 0 <= final ->
  runR X ode (started dt final x0) tr s' -> s_time s' <= final /\ Rabs (s_time s' - final) < / 100000000 * dt.
Proof.
  intros dt final x0 tr s' Hd Hf Hr.
  destruct (run_summary X ode (started dt final x0) Hd Hf) as (tr2 & s2 & H1 & H2 & _).
  destruct (runs_det _ _ _ _ _ _ _ _ Hr H1) as [<- <-]. cbn in H2.
  split; [lra|]. rewrite Rabs_left1; lra.
Qed.

(** The number of steps against ceil(final/dt). *)
Lemma ceil_total : forall dt n r, 0 < dt -> 0 <= r < dt ->
  Zceil ((INR n * dt + r) / dt) = (Z.of_nat n + (if Req_EM_T r 0 then 0 else 1))%Z.
Proof.
  intros dt n r Hd Hr. apply Zceil_imp. rewrite minus_IZR, plus_IZR, <- INR_IZR_INZ.
  assert (E : (INR n * dt + r) / dt = INR n + r / dt) by (field; lra).
  assert (0 <= r / dt) by (apply Rmult_le_pos; [lra|left; now apply Rinv_0_lt_compat]).
  assert (r / dt < 1) by (apply Rmult_lt_reg_r with dt; [auto|]; unfold Rdiv; rewrite Rmult_assoc, Rinv_l; lra).
  rewrite E. destruct (Req_EM_T r 0) as [Er|Er].
  - rewrite Er. unfold Rdiv. rewrite Rmult_0_l. split; lra.
  - assert (0 < r / dt) by (apply Rmult_lt_0_compat; [lra|now apply Rinv_0_lt_compat]). split; lra.
Qed.

Lemma late_calls : forall dt n r, / 100000000 <= dt -> 0 <= r < dt -> forall fin, fin = INR n * dt + r ->
  forall (calls : list (R * X)) tail, map fst calls = map (fun k => INR k * dt) (seq 0 (S n)) ++ tail -> (length tail <= 1)%nat ->
  (length (filter (fun c => if Rlt_dec (Rabs (fst c - fin)) (/ 100000000) then true else false) calls) <= 2)%nat.
Proof.
  intros dt n r Hd Hr fin Ef calls tail Hm Ht.
  assert (G : forall (f : R -> bool) (l : list (R * X)), length (filter (fun c => f (fst c)) l) = length (filter f (map fst l))).
  { intros f. induction l as [|a l IH]; [reflexivity|]. cbn [filter map]. destruct (f (fst a)); cbn [length]; auto. }
  rewrite (G (fun t => if Rlt_dec (Rabs (t - fin)) (/ 100000000) then true else false)), Hm.
  rewrite seq_S, map_app, !filter_app, !app_length.
  assert (E1 : filter (fun t => if Rlt_dec (Rabs (t - fin)) (/ 100000000) then true else false) (map (fun k => INR k * dt) (seq 0 n)) = []).
  { match goal with |- ?l = [] => destruct l as [|t l'] eqn:El; [reflexivity|] end. exfalso.
    assert (Hin : In t (t :: l')) by (left; auto). rewrite <- El in Hin. apply filter_In in Hin. destruct Hin as [Hin Hn].
    apply in_map_iff in Hin. destruct Hin as (k & <- & Hk). apply in_seq in Hk.
    destruct Rlt_dec as [Hlt|]; [|discriminate].
    assert (INR k + 1 <= INR n) by (rewrite <- S_INR; apply le_INR; lia).
    rewrite Rabs_left1 in Hlt; [nra|nra]. }
  rewrite E1. cbn [length map].
  assert (length (filter (fun t => if Rlt_dec (Rabs (t - fin)) (/ 100000000) then true else false) tail) <= length tail)%nat.
  { clear. induction tail as [|a l IH]; [cbn; lia|]. cbn [filter]. destruct (Rlt_dec _ _); cbn [length]; lia. }
  assert (length (filter (fun t => if Rlt_dec (Rabs (t - fin)) (/ 100000000) then true else false) [(INR (0 + n) * dt)%R]) <= 1)%nat.
  { cbn [filter]. destruct (Rlt_dec _ _); cbn; lia. }
  lia.
Qed.

(** Integer facts about total/saves. *)
Lemma saves_lower : forall total s K q, (0 < s -> q = Z.max 1 (Z.quot total s) -> 0 <= K <= total ->
  K = total \/ K = total - 1 -> 
  Z.min s K <= K / q + (if Zdivide_dec q K then 0 else 1))%Z /\ (0 < s -> K = total -> 0 <= K -> q = Z.max 1 (Z.quot total s) -> Z.min s K <= K / q)%Z.
Proof.
  intros total s K q.
  assert (Base : (0 < s -> 0 <= total -> q = Z.max 1 (Z.quot total s) -> (q = 1 /\ total < s) \/ (1 <= q /\ q * s <= total < (q + 1) * s))%Z).
  { intros Hs Ht Hq. rewrite Z.quot_div_nonneg in Hq by lia.
    pose proof (Z.mul_div_le total s Hs). pose proof (Z.mul_succ_div_gt total s Hs).
    assert (0 <= total / s)%Z by (apply Z.div_pos; lia).
    destruct (Z.eq_dec (total / s) 0) as [E|E].
    - left. rewrite E in *. split; lia.
    - right. rewrite Z.max_r in Hq by lia. rewrite <- Hq in *. split; lia. }
  split.
  - intros Hs Hq HK Hor.
    destruct (Base Hs ltac:(lia) Hq) as [(-> & Hlt)|(Hq1 & Hb)].
    + rewrite Z.div_1_r. destruct Zdivide_dec; lia.
    + destruct Hor as [ -> | -> ].
      * assert (s <= total / q)%Z by (apply Z.div_le_lower_bound; lia). destruct Zdivide_dec; lia.
      * destruct (Z.eq_dec q 1) as [ -> |Hne].
        -- rewrite Z.div_1_r. destruct Zdivide_dec; lia.
        -- destruct Zdivide_dec as [d|d].
           ++ destruct d as [m Hm]. assert (s <= m)%Z by nia. assert (total - 1 >= s * q)%Z by nia.
              assert (s <= (total - 1) / q)%Z by (apply Z.div_le_lower_bound; nia). lia.
           ++ assert (s - 1 <= (total - 1) / q)%Z by (apply Z.div_le_lower_bound; nia). lia.
  - intros Hs -> HK Hq.
    destruct (Base Hs HK Hq) as [(-> & Hlt)|(Hq1 & Hb)].
    + rewrite Z.div_1_r. lia.
    + assert (s <= total / q)%Z by (apply Z.div_le_lower_bound; lia). lia.
Qed.

Lemma saves_upper : forall total s K q, (0 < s -> 0 <= K <= total -> q = Z.max 1 (Z.quot total s) -> K / q <= 2 * s - 1)%Z.
Proof.
  intros total s K q Hs HK Hq.
  rewrite Z.quot_div_nonneg in Hq by lia.
  pose proof (Z.mul_succ_div_gt total s Hs).
  assert (0 <= total / s)%Z by (apply Z.div_pos; lia).
  assert (1 <= q)%Z by lia.
  assert (K < 2 * s * q)%Z.
  { destruct (Z.eq_dec (total / s) 0) as [E|E]; [rewrite E in *; nia|].
    rewrite Z.max_r in Hq by lia. rewrite <- Hq in *. nia. }
  assert (K / q < 2 * s)%Z by (apply Z.div_lt_upper_bound; lia). lia.
Qed.

(** The whole chain for one probe that asks for [s] saves. *)
Lemma saves_run : forall dt final x0 k s ms g0, 0 < dt <= 1 -> 0 <= final -> (0 < s)%Z ->
  remote (mkProbe k 1 s) = false -> usable (mkProbe k 1 s) ->
  forall ps1 ps2 steps, (forall p, In p (ps1 ++ ps2) -> usable p \/ (0 < p_saves p)%Z /\ usable (mkProbe (p_kind p) 1 0)) ->
  newManager X final dt (ps1 ++ mkProbe k steps s :: ps2) ms = Ok g0 ->
  exists tr s' g out q,
    runR X ode (started dt final x0) tr s' /\ serve X g0 (s_calls s') = Ok g /\
    nth_error (g_probes g) (length ps1) = Some out /\
    q = Z.max 1 (Z.quot (Zceil (final / dt)) s) /\ p_steps (ps_probe out) = q /\
    (Z.min s (Z.of_nat (length tr)) + 1 <= Z.of_nat (length (ps_out out)))%Z /\
    (exists c l, ps_out out = l ++ [mkRecord c (label k (s_time s')) (s_fields s')]) /\
    (/ 100000000 <= dt -> (Z.of_nat (length (ps_out out)) <= 2 * s + 2)%Z) /\
    (forall m, Z.of_nat (length tr) = (m * s)%Z ->
       (forall c, In c (removelast (s_calls s')) -> / 100000000 <= Rabs (fst c - final)) ->
       length tr = Z.to_nat (Zceil (final / dt)) ->
       (0 < m)%Z -> Z.of_nat (length (ps_out out)) = (s + 1)%Z).
Proof.
  intros dt final x0 k s ms g0 Hd Hf Hs Hrem Huse ps1 ps2 steps Hps Hg.
  destruct (run_calls dt final x0) as (n & r & tr & s' & E & Hr & H1 & H2 & H3 & Hlen & Hcl & Ht & before & Hb); auto; [lra|].
  unfold newManager, recalculateExportSteps in Hg. destruct Rle_dec; [lra|].
  unfold ceil_int in Hg. destruct (_ && _) eqn:Ec; cbn [bind] in Hg; [|discriminate]. 
  set (total := Zceil (final / dt)) in *.
  injection Hg as <-. 
  set (pl := map (recalcProbe total) (ps1 ++ mkProbe k steps s :: ps2)).
  set (q := Z.max 1 (Z.quot total s)).
  assert (Hpl : nth_error pl (length ps1) = Some (mkProbe k q s)).
  { unfold pl. rewrite map_app. cbn [map]. rewrite nth_error_app2; rewrite map_length; [|lia].
    rewrite Nat.sub_diag. cbn [nth_error]. unfold recalcProbe. cbn [p_saves p_kind].
    rewrite (proj2 (Z.ltb_lt _ _)) by auto. reflexivity. }
  assert (Hus : forall p, In p pl -> usable p).
  { intros p Hp. unfold pl in Hp. apply in_map_iff in Hp. destruct Hp as (p0 & <- & Hp0).
    assert (Hc : usable p0 \/ (0 < p_saves p0)%Z /\ usable (mkProbe (p_kind p0) 1 0)).
    { apply in_app_or in Hp0. destruct Hp0 as [Hp0|[<-|Hp0]].
      - apply Hps. apply in_or_app; auto.
      - right. cbn. split; auto.
      - apply Hps. apply in_or_app; auto. }
    unfold recalcProbe. destruct (Z.ltb_spec 0 (p_saves p0)).
    - destruct Hc as [[_ Hc]|[_ [_ Hc]]]; (split; [cbn; lia|exact Hc]).
    - destruct Hc as [Hc|[Hc _]]; [auto|lia]. }
  destruct (schedule X final pl ms (s_calls s') Hus) as (g & Hg & _ & _ & Hout).
  destruct (Hout _ _ Hpl) as (out & Ho1 & Ho2 & Ho3).
  exists tr, s', g, out, q.
  assert (Hrem' : remote (mkProbe k q s) = false) by exact Hrem.
  rewrite Hrem' in Ho3. cbn [p_kind p_steps] in Ho3.
  assert (Hcount : length (ps_out out) = records X final q (s_calls s')) by (rewrite Ho3, map_length; reflexivity).
  assert (Hq1 : (1 <= q)%Z) by (unfold q; lia).
  assert (Hlb : length before = length tr).
  { rewrite Hb, app_length in Hcl. cbn [length] in Hcl. lia. }
  destruct (run_last_near dt final x0 tr s' ltac:(lra) Hf H1) as [Hle Hnear].
  assert (Hnear' : Rabs (s_time s' - final) < / 100000000) by nra.
  assert (HK : (Z.of_nat (length tr) = total \/ Z.of_nat (length tr) = total - 1)%Z /\ (0 <= Z.of_nat (length tr) <= total)%Z).
  { unfold total. rewrite E, ceil_total by lra. rewrite Hlen.
    destruct Rle_dec, (Req_EM_T r 0); try lia. subst r. nra. }
  destruct HK as [HK HK2].
  split; [auto|]. split; [exact Hg|]. split; [auto|]. split; [auto|]. split; [rewrite Ho2; reflexivity|].
  split; [|split; [|split]].
  - rewrite Hcount, Hb.
    pose proof (records_ge_last X final q before (s_time s') (s_fields s') ltac:(lia) Hnear') as Hge. cbn zeta in Hge.
    rewrite Hlb in Hge. destruct (saves_lower total s (Z.of_nat (length tr)) q) as [Hlow _].
    specialize (Hlow Hs eq_refl HK2 HK). lia.
  - exists (Z.of_nat (length before)), (map (stamp k) (filter (wanted final q) (indexed before))).
    rewrite Ho3, Hb, indexed_app1, filter_app, map_app. f_equal. cbn [filter].
    unfold wanted. cbn [fst snd]. destruct Rlt_dec; [reflexivity|lra].
  - intros Hdt. rewrite Hcount.
    pose proof (records_le X final q (s_calls s') (length tr) ltac:(lia) Hcl) as Hle2.
    pose proof (late_calls dt n r Hdt Hr final E (s_calls s') _ H3) as Hlate.
    specialize (Hlate ltac:(destruct Rle_dec; cbn; lia)).
    pose proof (saves_upper total s (Z.of_nat (length tr)) q Hs HK2 eq_refl). lia.
  - intros m Hm Hfar Htot Hm0. rewrite Hcount, Hb.
    assert (Hfar' : forall c, In c before -> / 100000000 <= Rabs (fst c - final)).
    { intros c Hc. apply Hfar. rewrite Hb, removelast_last. exact Hc. }
    pose proof (records_exact X final q before (s_time s') (s_fields s') ltac:(lia) Hfar' Hnear') as Hex.
    cbn zeta in Hex. rewrite Hex, Hlb.
    assert (Htot' : total = (m * s)%Z) by (rewrite <- Hm; lia).
    assert (Hqm : q = m).
    { unfold q. rewrite Htot', Z.quot_mul by lia. lia. }
    rewrite Hqm, Hm. destruct (Zdivide_dec m (m * s)) as [|nd]; [|exfalso; apply nd; exists s; lia].
    rewrite (Z.mul_comm m s), Z.div_mul by lia. lia.
Qed.
End Run.

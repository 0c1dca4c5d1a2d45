(** Statements about probes during whole runs, in the form used by Probe_Props. *)
From Coq Require Import ZArith List Bool Reals Lra Lia Psatz Znumtheory Sorted.
From Flocq Require Import Core.Raux.
From Verif Require Import Common Time_Model Time_Proofs Probe_Model Probe_Spec Probe_Proofs ProbeRun_Proofs ProbeMor_Proofs.
Import ListNotations.
Local Open Scope R_scope.

Section A.
Variable X : Type.
Variable ode : X -> R -> R -> X.

(** Output and movie of every probe. *)
Lemma schedule_movie : forall F ps ms calls, (forall p, In p ps -> usable p) ->
  exists g, serve X (fresh X F ps ms) calls = Ok g /\ g_cycle g = Z.of_nat (length calls) /\
    length (g_probes g) = length ps /\
    forall i p, nth_error ps i = Some p -> exists s, nth_error (g_probes g) i = Some s /\
      ps_probe s = p /\
      ps_out s = (if remote p then [] else map (stamp (p_kind p)) (filter (wanted F (p_steps p)) (indexed calls))) /\
      ps_movie s = (if remote p then [] else if has_movie p then play X (map snd (filter (wanted F (p_steps p)) (indexed calls))) else []).
Proof.
  intros F ps ms calls Hu. unfold fresh. rewrite (serve_ok X calls 0).
  2:{ intros s Hs. apply in_map_iff in Hs. destruct Hs as (p & <- & Hp). cbn. auto. }
  eexists. split; [reflexivity|]. cbn [g_cycle g_probes]. split; [reflexivity|].
  split; [now rewrite !map_length|].
  intros i p Hp. rewrite map_map. exists (evolve X F 0 calls (mkPstate p [] [])). split; [|split; [|split]].
  - rewrite nth_error_map, Hp. reflexivity.
  - apply evolve_probe.
  - rewrite evolve_out. reflexivity.
  - rewrite evolve_movie. cbn [ps_probe ps_movie]. destruct (remote p); [reflexivity|]. destruct (has_movie p); [|reflexivity].
    unfold play. change (indexed_from 0 calls) with (indexed calls).
    generalize (filter (wanted F (p_steps p)) (indexed calls)), (@nil (R * X)).
    induction l as [|a l IH]; intros m; [reflexivity|]. cbn [fold_left map]. apply IH.
Qed.

(** The manager and the solver share the final time: the last state is exported. *)
Lemma last_exported : forall dt final x0 ps ms, 0 < dt <= 1 -> 0 <= final ->
  (forall p, In p ps -> usable p) ->
  exists tr s' g, runR X ode (started X dt final x0) tr s' /\
    serve X (fresh X final ps ms) (s_calls s') = Ok g /\
    forall i p, nth_error ps i = Some p -> remote p = false ->
    exists o l first, nth_error (g_probes g) i = Some o /\
      ps_out o = l ++ [mkRecord (Z.of_nat (length tr)) (label (p_kind p) (s_time s')) (s_fields s')] /\
      ps_out o = mkRecord 0 (label (p_kind p) 0) x0 :: first.
Proof.
  intros dt final x0 ps ms Hd Hf Hu.
  destruct (run_calls X ode dt final x0) as (n & r & tr & s' & E & Hr & H1 & H2 & H3 & Hlen & Hcl & Ht & before & Hb); auto; [lra|].
  destruct (schedule X final ps ms (s_calls s') Hu) as (g & Hg & _ & _ & Hout).
  destruct (run_last_near X ode dt final x0 tr s' ltac:(lra) Hf H1) as [Hle Hnear].
  exists tr, s', g. split; [auto|]. split; [auto|]. intros i p Hp Hrem.
  destruct (Hout i p Hp) as (o & Ho1 & Ho2 & Ho3). rewrite Hrem in Ho3.
  assert (Hlb : length before = length tr).
  { rewrite Hb, app_length in Hcl. cbn [length] in Hcl. lia. }
  destruct (run_exact X ode (started X dt final x0)) as (n' & r' & tr' & s'' & _ & _ & G1 & _ & _ & _ & G5); try (cbn; lra).
  destruct (H2 _ _ G1) as [-> ->]. cbn [started s_calls app] in G5.
  exists o, (map (stamp (p_kind p)) (filter (wanted final (p_steps p)) (indexed before))),
    (map (stamp (p_kind p)) (filter (wanted final (p_steps p)) (indexed_from 1 (map (fun u => (s_time u, s_fields u)) tr)))).
  split; [auto|]. split.
  - rewrite Ho3, Hb, indexed_app1, filter_app, map_app. f_equal. cbn [filter].
    unfold wanted. cbn [fst snd]. destruct Rlt_dec; [cbn; rewrite Hlb; reflexivity|nra].
  - rewrite Ho3, G5. unfold indexed. cbn [length seq combine filter].
    assert (Hw : wanted final (p_steps p) (0%nat, (0, x0)) = true).
    { unfold wanted. destruct Rlt_dec; [reflexivity|]. cbn [fst]. destruct (Zdivide_dec (p_steps p) (Z.of_nat 0)) as [|nd]; [reflexivity|].
      exfalso. apply nd. exists 0%Z. reflexivity. }
    rewrite Hw. reflexivity.
Qed.

(** A run of [n] unit steps: the calls are at 0, 1, ..., n (scaled by [dt]). *)
Lemma unit_run : forall dt final x0 n r, 0 < dt -> final = INR n * dt + r -> 0 <= r < / 100000000 * dt ->
  exists tr s', runR X ode (started X dt final x0) tr s' /\
    map fst (s_calls s') = map (fun k => INR k * dt) (seq 0 (S n)) /\ s_time s' = INR n * dt /\ length tr = n.
Proof.
  intros dt final x0 n r Hd E Hr.
  destruct (run_exact_n X ode n (started X dt final x0) r) as (tr & s' & H1 & H2 & H3 & H4 & _); try (cbn; lra).
  cbn [started s_final s_time s_dt s_calls] in *. destruct Rle_dec; [lra|].
  exists tr, s'. split; [auto|]. split; [|split; [rewrite H3; ring|]].
  - rewrite H4. cbn [app map fst]. rewrite map_map. cbn [fst].
    change (map (fun x : solver X => s_time x) tr) with (map s_time tr). rewrite H2, app_nil_r. unfold grid.
    change (seq 0 (S n)) with (0%nat :: seq 1 n). cbn [map]. f_equal; [cbn; ring|]. apply map_ext. intros; ring.
  - rewrite <- (map_length s_time tr), H2, app_nil_r. unfold grid. now rewrite map_length, seq_length.
Qed.

Definition near2 : probe := mkProbe Near 2 0.

Lemma four_calls : forall (calls : list (R * X)) a b c d, map fst calls = [a; b; c; d] ->
  exists x0 x1 x2 x3, calls = [(a, x0); (b, x1); (c, x2); (d, x3)].
Proof.
  intros calls a b c d H. destruct calls as [|[? ?] [|[? ?] [|[? ?] [|[? ?] [|? ?]]]]]; try discriminate.
  cbn in H. injection H as -> -> -> ->. do 4 eexists. reflexivity.
Qed.

Lemma missed_last : forall F t3 (x0 x1 x2 x3 : X) t1 t2,
  / 100000000 <= Rabs (t3 - F) ->
  exists g o, serve X (fresh X F [near2] []) [(0, x0); (t1, x1); (t2, x2); (t3, x3)] = Ok g /\
    nth_error (g_probes g) 0 = Some o /\ forall r, In r (ps_out o) -> r_cycle r <> 3%Z.
Proof.
  intros F t3 x0 x1 x2 x3 t1 t2 H3.
  destruct (schedule X F [near2] [] [(0, x0); (t1, x1); (t2, x2); (t3, x3)]) as (g & Hg & _ & _ & Ho).
  { intros p [<-|[]]. split; [cbn; lia|exact I]. }
  destruct (Ho 0%nat near2 eq_refl) as (o & H1 & H2 & H4). exists g, o. split; [auto|]. split; [auto|].
  intros r Hr. rewrite H4 in Hr. cbn [remote near2 p_kind p_steps] in Hr.
  apply in_map_iff in Hr. destruct Hr as ((k & t & x) & <- & Hin). apply filter_In in Hin. destruct Hin as [Hin Hw].
  cbn [stamp r_cycle fst]. intros Hc.
  assert (k = 3%nat) by lia. subst k.
  cbn in Hin. repeat (destruct Hin as [Hin|Hin]; [injection Hin; intros; subst; try lia|]); try tauto.
  unfold wanted in Hw. cbn [fst snd] in Hw. destruct Rlt_dec; [lra|].
  destruct (Zdivide_dec 2 (Z.of_nat 3)) as [[q Hq]|]; [lia|discriminate].
Qed.

(** Step longer than one unit: the last state is missed. *)
Lemma last_missed_big_step : forall x0 : X, exists dt final tr s' g o, 0 < dt /\ 0 < final /\
  runR X ode (started X dt final x0) tr s' /\ length tr = 3%nat /\
  serve X (fresh X final [near2] []) (s_calls s') = Ok g /\
  nth_error (g_probes g) 0 = Some o /\ forall r, In r (ps_out o) -> r_cycle r <> 3%Z.
Proof.
  intros x0. destruct (unit_run 2 (6 + 15 / 1000000000) x0 3 (15 / 1000000000)) as (tr & s' & H1 & H2 & H3 & H4); simpl; try lra.
  destruct (four_calls _ _ _ _ _ H2) as (y0 & y1 & y2 & y3 & E).
  exists 2, (6 + 15 / 1000000000), tr, s'. rewrite E.
  replace (INR 0 * 2) with 0 by (simpl; ring).
  destruct (missed_last (6 + 15 / 1000000000) (INR 3 * 2) y0 y1 y2 y3 (INR 1 * 2) (INR 2 * 2)) as (g & o & G1 & G2 & G3).
  { replace (INR 3 * 2 - (6 + 15 / 1000000000)) with (- (15 / 1000000000)) by (simpl; lra). rewrite Rabs_Ropp, Rabs_pos_eq; lra. }
  exists g, o. repeat split; auto; lra.
Qed.

(** setFinalTime changes the solver but not the probe manager. *)
Lemma last_missed_set_final : forall x0 : X, exists tr s' g o,
  runR X ode (setFinalTime X 3 (started X 1 10 x0)) tr s' /\ s_time s' = 3 /\ length tr = 3%nat /\
  serve X (fresh X 10 [near2] []) (s_calls s') = Ok g /\
  nth_error (g_probes g) 0 = Some o /\ forall r, In r (ps_out o) -> r_cycle r <> 3%Z.
Proof.
  intros x0. destruct (unit_run 1 3 x0 3 0) as (tr & s' & H1 & H2 & H3 & H4); simpl; try lra.
  destruct (four_calls _ _ _ _ _ H2) as (y0 & y1 & y2 & y3 & E).
  exists tr, s'. rewrite E. replace (INR 0 * 1) with 0 by (simpl; ring).
  destruct (missed_last 10 (INR 3 * 1) y0 y1 y2 y3 (INR 1 * 1) (INR 2 * 1)) as (g & o & G1 & G2 & G3).
  { replace (INR 3 * 1 - 10) with (- 7) by (simpl; lra). rewrite Rabs_left; lra. }
  exists g, o. split; [exact H1|]. split; [rewrite H3; simpl; ring|]. repeat split; auto.
Qed.

(** MOR probes inside the manager. *)
Lemma mor_in_manager : forall F ps ms calls, (forall p, In p ps -> usable p) ->
  exists g, serve X (fresh X F ps ms) calls = Ok g /\
    g_mors g = map (fun m => evolveMor X calls (mkMstate m None [])) ms.
Proof.
  intros F ps ms calls Hu. unfold fresh. rewrite (serve_ok X calls 0).
  2:{ intros s Hs. apply in_map_iff in Hs. destruct Hs as (p & <- & Hp). cbn. auto. }
  eexists. split; [reflexivity|]. cbn [g_mors]. now rewrite map_map.
Qed.

Lemma mor_files : forall F ps ms calls, (forall p, In p ps -> usable p) ->
  exists g, serve X (fresh X F ps ms) calls = Ok g /\
  forall i p, nth_error ms i = Some p -> exists o, nth_error (g_mors g) i = Some o /\
    let out := ms_out o in
    map (fun e => fst (fst e)) out = map Z.of_nat (seq 0 (length out)) /\
    (Z.of_nat (length out) <= Z.max 0 (m_saves p))%Z /\
    subseq (map (fun e => (snd (fst e), snd e)) out) calls /\
    forall k t x, In (k, t, x) out ->
      m_start p - / 1000000000000 <= t <= m_final p + / 1000000000000 /\ nominal_time p k - slack p <= t.
Proof.
  intros F ps ms calls Hu. destruct (mor_in_manager F ps ms calls Hu) as (g & Hg & Hm).
  exists g. split; [auto|]. intros i p Hp. rewrite Hm, nth_error_map, Hp. cbn [option_map].
  eexists. split; [reflexivity|]. cbv zeta.
  destruct (minv_all X p calls) as (_ & H1 & _ & H2 & H3 & H4).
  split; [exact H2|]. split; [exact H1|]. split; [exact H3|].
  intros k t x Hin. destruct (H4 k t x Hin) as (_ & ? & ?). auto.
Qed.

Lemma mor_lateness : forall p h calls, (2 <= m_saves p)%Z -> m_start p < m_final p -> 0 <= h <= spacing p ->
  paced h calls -> match calls with [] => True | c :: _ => fst c <= m_start p end ->
  forall k t x, In (k, t, x) (ms_out (evolveMor X calls (mkMstate p None []))) ->
    nominal p k - spacing p * / 1000000 <= t /\ (t < nominal p k + h \/ (k = 0%Z /\ t <= m_start p)).
Proof.
  intros p h calls Hs Hab Hh Hp Hst k t x Hin. split.
  - destruct (minv_all X p calls) as (_ & _ & _ & _ & _ & H). destruct (H k t x Hin) as (_ & _ & H2).
    rewrite slack_paced in H2 by auto. unfold nominal_time in H2. rewrite (proj2 (Z.ltb_lt _ _)) in H2 by lia. exact H2.
  - destruct (lateness X p Hs Hab h Hh calls Hp Hst) as [H _]. eapply H; exact Hin.
Qed.

Lemma mor_complete : forall p h l1 t x l2, (2 <= m_saves p)%Z -> m_start p < m_final p ->
  0 <= h <= spacing p * (1 - / 1000000) ->
  paced h (l1 ++ (t, x) :: l2) -> match l1 ++ (t, x) :: l2 with [] => True | c :: _ => fst c <= m_start p end ->
  m_final p - spacing p * / 1000000 <= t <= m_final p + / 1000000000000 ->
  Z.of_nat (length (ms_out (evolveMor X (l1 ++ (t, x) :: l2) (mkMstate p None [])))) = m_saves p.
Proof.
  intros p h l1 t x l2 Hs Hab Hh Hp Hst Ht.
  assert (E : slack p = spacing p * / 1000000) by (apply slack_paced; auto).
  eapply (complete X p Hs Hab h); eauto; rewrite E; [lra|exact Ht].
Qed.

Lemma run_paced : forall dt final x0 tr s', 0 < dt -> 0 <= final ->
  runR X ode (started X dt final x0) tr s' -> paced dt (s_calls s').
Proof.
  intros dt final x0 tr s' Hd Hf Hr.
  destruct (run_calls X ode dt final x0 Hd Hf) as (n & r & tr2 & s2 & E & Hr2 & H1 & H2 & H3 & _).
  destruct (H2 _ _ Hr) as [-> ->].
  intros l1 c1 c2 l2 Ec. rewrite Ec, map_app in H3. cbn [map] in H3.
  set (g := map (fun k => INR k * dt) (seq 0 (S n))) in *.
  set (k := length (map fst l1)).
  assert (N1 : nth_error (map fst l1 ++ fst c1 :: fst c2 :: map fst l2) k = Some (fst c1)).
  { rewrite nth_error_app2 by auto. unfold k. rewrite Nat.sub_diag. reflexivity. }
  assert (N2 : nth_error (map fst l1 ++ fst c1 :: fst c2 :: map fst l2) (S k) = Some (fst c2)).
  { rewrite nth_error_app2 by (unfold k; lia). unfold k. rewrite Nat.sub_succ_l, Nat.sub_diag by auto. reflexivity. }
  rewrite H3 in N1, N2.
  assert (Lg : length g = S n) by (unfold g; now rewrite map_length, seq_length).
  assert (Ng : forall j, (j < S n)%nat -> nth_error g j = Some (INR j * dt)).
  { intros j Hj. unfold g. rewrite nth_error_map. rewrite (nth_error_nth' _ 0%nat) by (rewrite seq_length; lia).
    cbn [option_map]. rewrite seq_nth by lia. reflexivity. }
  destruct (Nat.lt_ge_cases (S k) (S n)) as [Hlt|Hge].
  - rewrite nth_error_app1 in N1, N2 by lia. rewrite Ng in N1, N2 by lia.
    assert (E1 : fst c1 = INR k * dt) by congruence. assert (E2 : fst c2 = INR (S k) * dt) by congruence.
    rewrite E1, E2, S_INR. lra.
  - assert (Hk : S k = S n).
    { assert (Hl : (S k < length (g ++ (if Rle_dec (/ 100000000 * dt) r then [final] else [])))%nat) by (apply nth_error_Some; congruence).
        rewrite app_length in Hl. destruct Rle_dec; cbn [length] in Hl; lia. }
    rewrite nth_error_app1 in N1 by lia. rewrite Ng in N1 by lia. injection N1 as <-.
    rewrite nth_error_app2 in N2 by lia. replace (S k - length g)%nat with 0%nat in N2 by lia.
    destruct Rle_dec; [|discriminate]. cbn in N2. injection N2 as <-.
    replace k with n by lia. lra.
Qed.

(** A run whose window ends at the final time writes all the snapshots. *)
Lemma mor_complete_run : forall p dt x0, (2 <= m_saves p)%Z -> 0 <= m_start p < m_final p ->
  0 < dt <= spacing p * (1 - / 1000000) ->
  exists tr s', runR X ode (started X dt (m_final p) x0) tr s' /\
    Z.of_nat (length (ms_out (evolveMor X (s_calls s') (mkMstate p None [])))) = m_saves p.
Proof.
  intros p dt x0 Hs Hab Hd.
  destruct (run_calls X ode dt (m_final p) x0) as (n & r & tr & s' & E & Hr & H1 & H2 & H3 & Hlen & Hcl & Ht & before & Hb); try lra.
  exists tr, s'. split; [auto|].
  pose proof (run_paced dt (m_final p) x0 tr s' ltac:(lra) ltac:(lra) H1) as Hp.
  destruct (run_last_near X ode dt (m_final p) x0 tr s' ltac:(lra) ltac:(lra) H1) as [Hle Hnear].
  rewrite Rabs_left1 in Hnear by lra.
  rewrite Hb in *. eapply (mor_complete p dt before); auto; try lra.
  - destruct (run_exact X ode (started X dt (m_final p) x0)) as (n' & r' & tr' & s'' & _ & _ & G1 & _ & _ & _ & G5); try (cbn; lra).
    destruct (H2 _ _ G1) as [-> ->]. cbn [started s_calls app] in G5. rewrite G5 in Hb. rewrite <- Hb. cbn. lra.
Qed.

Lemma mor_incomplete : forall x0 : X, exists p dt, (2 <= m_saves p)%Z /\ 0 = m_start p /\ m_final p = 1 /\
  0 < dt <= spacing p * (1 - / 1000000) /\
  exists tr s', runR X ode (started X dt 2 x0) tr s' /\ s_time s' >= m_final p /\
    (Z.of_nat (length (ms_out (evolveMor X (s_calls s') (mkMstate p None [])))) < m_saves p)%Z.
Proof.
  intros x0. exists (mkMor 0 1 2), (2 / 3). cbn [m_saves m_start m_final]. split; [lia|]. split; [auto|]. split; [auto|].
  split; [unfold spacing; cbn [m_saves m_start m_final]; simpl; lra|].
  destruct (unit_run (2 / 3) 2 x0 3 0) as (tr & s' & H1 & H2 & H3 & H4); simpl; try lra.
  exists tr, s'. split; [auto|]. split; [rewrite H3; simpl; lra|].
  destruct (four_calls _ _ _ _ _ H2) as (y0 & y1 & y2 & y3 & E). rewrite E.
  unfold evolveMor. cbn [fold_left fst snd].
  set (P := mkMor 0 1 2).
  assert (D : c_dt (mor_init P) = 1) by (unfold P, mor_init; cbn [c_dt m_saves m_start m_final]; simpl; lra).
  assert (U1 : forall t x o, t <= 2/3 -> - tiny <= t -> 0 <= t -> ms_out (updateMor X t x (mkMstate P None o)) = o ++ [(0%Z, t, x)] /\
     ms_ctx (updateMor X t x (mkMstate P None o)) = Some (mkCtx 1 1 1) /\ ms_probe (updateMor X t x (mkMstate P None o)) = P).
  { intros t x o Ht Ht2 Ht3. unfold updateMor. cbn [ms_probe ms_ctx P m_saves m_start m_final Z.leb Z.compare].
    assert (0 < tiny) by (unfold tiny; lra).
    destruct Rlt_dec; [lra|]. destruct Rlt_dec; [lra|]. cbn [mor_init c_count m_saves Z.leb Z.compare c_dt c_next m_start m_final Z.ltb].
    match goal with |- context [Rlt_dec t ?a] => destruct (Rlt_dec t a) as [Hc|Hc] end.
    - exfalso. revert Hc. match goal with |- context [Rlt_dec 0 ?a] => destruct (Rlt_dec 0 a) end; simpl; intros; lra.
    - cbn [ms_out ms_ctx ms_probe]. split; [reflexivity|]. split; [|reflexivity]. f_equal.
      cbn [P m_saves m_start m_final]. change (1 <? 2)%Z with true. cbv iota.
      change (2 - 1)%Z with 1%Z. change (0 + 1)%Z with 1%Z. f_equal; lra. }
  assert (U2 : forall t x m, ms_probe m = P -> ms_ctx m = Some (mkCtx 1 1 1) -> (t <= 2/3 \/ 4/3 <= t) ->
     ms_out (updateMor X t x m) = ms_out m /\ ms_ctx (updateMor X t x m) = Some (mkCtx 1 1 1) /\ ms_probe (updateMor X t x m) = P).
  { intros t x [mp mc mo] Hp Hc Ht. cbn in Hp, Hc. subst mp mc. unfold updateMor.
    cbn [ms_probe ms_ctx P m_saves m_start m_final Z.leb Z.compare c_count c_dt c_next ms_out].
    assert (tiny < / 100) by (unfold tiny; lra).
    destruct Rlt_dec; [auto|]. destruct Rlt_dec; [auto|]. cbn [Z.compare Pos.compare Pos.compare_cont].
    destruct (Rlt_dec 0 1); [|lra]. destruct (Rlt_dec t (1 - 1 * / 1000000)); [auto|]. lra. }
  destruct (U1 (INR 0 * (2 / 3)) y0 []) as (A1 & A2 & A3); try (simpl; unfold tiny; lra).
  set (m1 := updateMor X (INR 0 * (2 / 3)) y0 (mkMstate P None [])) in *.
  destruct (U2 (INR 1 * (2 / 3)) y1 m1) as (B1 & B2 & B3); auto; [simpl; lra|].
  set (m2 := updateMor X (INR 1 * (2 / 3)) y1 m1) in *.
  destruct (U2 (INR 2 * (2 / 3)) y2 m2) as (C1 & C2 & C3); auto; [simpl; lra|].
  set (m3 := updateMor X (INR 2 * (2 / 3)) y2 m2) in *.
  destruct (U2 (INR 3 * (2 / 3)) y3 m3) as (D1 & D2 & D3); auto; [simpl; lra|].
  rewrite D1, C1, B1, A1. cbn. lia.
Qed.
End A.

(** ** Intervals *)
Lemma interval_used : forall sk kd pk p total, buildProbe sk kd pk = Ok p ->
  p_steps (recalcProbe total p) =
    match k_saves pk with
    | Some s => if (0 <? s)%Z then Z.max 1 (Z.quot total s) else match k_steps pk with Some n => n | None => 1%Z end
    | None => match k_steps pk with Some n => n | None => 1%Z end
    end.
Proof.
  intros sk kd pk p total H. unfold buildProbe in H.
  destruct (calculate_interval sk pk) as [n| |] eqn:E; try discriminate. cbn in H. injection H as <-.
  unfold recalcProbe. cbn [p_saves p_kind p_steps]. unfold calculate_interval in E.
  destruct (k_saves pk) as [s|].
  - destruct (Z.ltb_spec 0 s); [reflexivity|]. cbn [p_steps].
    destruct (k_steps pk); [congruence|]. rewrite (proj2 (Z.leb_le _ _)) in E by lia. congruence.
  - cbn. destruct (k_steps pk); congruence.
Qed.

(** The interval found when reading the file is the one the solver finds again
    when it uses the same two times. *)
Lemma interval_stable : forall tf dt kd pk p, 0 < dt -> k_steps pk = None ->
  buildProbe (Some (mkSolverKeys (Some tf) (Some dt))) kd pk = Ok p ->
  forall total, ceil_int (tf / dt) = Ok total -> recalcProbe total p = p.
Proof.
  intros tf dt kd pk p Hd Hk H total Ht. unfold buildProbe, calculate_interval in H. rewrite Hk in H.
  unfold recalcProbe. destruct (k_saves pk) as [s|].
  - destruct (Z.leb_spec s 0).
    + cbn in H. injection H as <-. cbn [p_saves]. destruct (Z.ltb_spec 0 s); [lia|reflexivity].
    + cbn [k_final k_step] in H. destruct Rle_dec; [lra|]. rewrite Ht in H. cbn [bind] in H. injection H as <-.
      cbn [p_saves p_kind]. destruct (Z.ltb_spec 0 s); [reflexivity|lia].
  - cbn in H. injection H as <-. reflexivity.
Qed.

Lemma interval_stable_ex : exists p,
  buildProbe (Some (mkSolverKeys (Some 2) (Some (/ 100)))) Exporter (mkProbeKeys None (Some 7%Z)) = Ok p /\ p_steps p = 28%Z.
Proof.
  unfold buildProbe, calculate_interval. cbn [k_steps k_saves k_final k_step]. change (7 <=? 0)%Z with false. cbv iota.
  destruct Rle_dec; [lra|].
  assert (E : ceil_int (2 / / 100) = Ok 200%Z).
  { unfold ceil_int. replace (2 / / 100) with (IZR 200) by field. rewrite Zceil_IZR. reflexivity. }
  rewrite E. cbn. eexists. split; reflexivity.
Qed.

Lemma steps_overridden : exists p, buildProbe None Exporter (mkProbeKeys (Some 5%Z) (Some 10%Z)) = Ok p /\
  p_steps p = 5%Z /\ p_steps (recalcProbe 100 p) = 10%Z.
Proof. eexists. split; [reflexivity|]. split; reflexivity. Qed.

Lemma interval_ub : forall sk pk, calculate_interval sk pk = UB <->
  k_steps pk = None /\ exists s, k_saves pk = Some s /\ (0 < s)%Z /\
    match sk with
    | None => True
    | Some k => k_final k = None \/ k_step k = None \/
        exists tf dt, k_final k = Some tf /\ k_step k = Some dt /\ 0 < dt /\
          ~ (-2147483648 <= Zceil (tf / dt) <= 2147483647)%Z
    end.
Proof.
  intros sk pk. unfold calculate_interval.
  destruct (k_steps pk); [split; [discriminate|intros [? _]; discriminate]|].
  destruct (k_saves pk) as [s|]; [|split; [discriminate|intros (_ & s & ? & _); discriminate]].
  destruct (Z.leb_spec s 0) as [Hs|Hs].
  { split; [discriminate|]. intros (_ & s' & E & ? & _). injection E as <-. lia. }
  destruct sk as [k|]; [|split; auto; intros _; split; auto; exists s; auto].
  destruct (k_final k) as [tf|]; [|split; auto; intros _; split; auto; exists s; auto].
  destruct (k_step k) as [dt|]; [|split; auto; intros _; split; auto; exists s; auto].
  destruct Rle_dec as [Hd|Hd].
  { split; [discriminate|]. intros (_ & s' & _ & _ & [H|[H|(a & b & E1 & E2 & Hb & _)]]); try discriminate. injection E2 as <-. lra. }
  unfold ceil_int. destruct (_ && _) eqn:Ec; cbn.
  - split; [discriminate|]. intros (_ & s' & _ & _ & [H|[H|(a & b & E1 & E2 & Hb & Hn)]]); try discriminate.
    injection E1 as <-. injection E2 as <-. apply andb_true_iff in Ec. destruct Ec as [E1 E2].
    apply Z.leb_le in E1. apply Z.leb_le in E2. exfalso. apply Hn. lia.
  - split; auto. intros _. split; auto. exists s. split; auto. split; auto. right; right. exists tf, dt.
    split; auto. split; auto. split; [lra|]. intros [H1 H2]. apply Z.leb_le in H1. apply Z.leb_le in H2.
    rewrite H1, H2 in Ec. discriminate.
Qed.

Lemma saves_without_step_ub : calculate_interval (Some (mkSolverKeys (Some 2) None)) (mkProbeKeys None (Some 10%Z)) = UB.
Proof. reflexivity. Qed.

Lemma movies : forall (X : Type) F ps ms calls, (forall p, In p ps -> usable p) ->
  exists g, serve X (fresh X F ps ms) calls = Ok g /\
    forall i p, nth_error ps i = Some p -> has_movie p = true -> remote p = false ->
    exists s, nth_error (g_probes g) i = Some s /\
      StronglySorted Rlt (map fst (ps_movie s)) /\
      forall t v, In (t, v) (ps_movie s) <-> first_at t (map snd (filter (wanted F (p_steps p)) (indexed calls))) = Some v.
Proof.
  intros X F ps ms calls Hu. destruct (schedule_movie X F ps ms calls Hu) as (g & Hg & _ & _ & H).
  exists g. split; [auto|]. intros i p Hp Hm Hr. destruct (H i p Hp) as (s & H1 & _ & _ & H2).
  rewrite Hm, Hr in H2. exists s. split; [auto|]. rewrite H2. apply movie_main.
Qed.

Lemma records_exact_len : forall (X : Type) F n (calls : list (R * X)) t x, (0 < n)%Z ->
  (forall c, In c calls -> / 100000000 <= Rabs (fst c - F)) -> Rabs (t - F) < / 100000000 ->
  let K := Z.of_nat (length calls) in
  Z.of_nat (length (filter (wanted F n) (indexed (calls ++ [(t, x)])))) = (K / n + 1 + (if Zdivide_dec n K then 0 else 1))%Z.
Proof. intros X F n calls t x. exact (records_exact X F n calls t x). Qed.

Lemma final_unchanged : forall (X : Type) (ode : X -> R -> R -> X) dt F T x0 ps ms, 0 < dt <= 1 -> 0 <= T -> F = T ->
  (forall p, In p ps -> usable p) ->
  exists tr s' g, runR X ode (setFinalTime X T (started X dt F x0)) tr s' /\
    serve X (fresh X F ps ms) (s_calls s') = Ok g /\
    forall i p, nth_error ps i = Some p -> remote p = false ->
    exists o l, nth_error (g_probes g) i = Some o /\
      ps_out o = l ++ [mkRecord (Z.of_nat (length tr)) (label (p_kind p) (s_time s')) (s_fields s')].
Proof.
  intros X ode dt F T x0 ps ms Hd Ht -> Hu. destruct (last_exported X ode dt T x0 ps ms Hd Ht Hu) as (tr & s' & g & H1 & H2 & H3).
  exists tr, s', g. split; [exact H1|]. split; [exact H2|]. intros i p Hp Hr. destruct (H3 i p Hp Hr) as (o & l & _ & ? & ? & _). eauto.
Qed.

(** Every state is exported with interval one, whatever the final time. *)
Lemma every_state : forall (X : Type) F p ms (calls : list (R * X)), usable p -> p_steps p = 1%Z -> remote p = false ->
  exists g o, serve X (fresh X F [p] ms) calls = Ok g /\ g_probes g = [o] /\
    ps_out o = map (stamp (p_kind p)) (indexed calls).
Proof.
  intros X F p ms calls Hu H1 Hr. destruct (schedule X F [p] ms calls) as (g & Hg & _ & Hl & H).
  { intros q [<-|[]]; auto. }
  destruct (H 0%nat p eq_refl) as (o & Ho & _ & E). destruct (g_probes g) as [|o' [|]] eqn:Eg; try discriminate.
  cbn in Ho. injection Ho as ->. exists g, o. split; [auto|]. split; [exact Eg|].
  rewrite E, Hr, H1. f_equal.
  generalize (indexed calls). intros l. induction l as [|c l IH]; [reflexivity|]. cbn [filter].
  assert (W : wanted F 1 c = true).
  { unfold wanted. destruct Rlt_dec; [reflexivity|]. destruct (Zdivide_dec 1 (Z.of_nat (fst c))) as [|nd]; [reflexivity|].
    exfalso. apply nd. apply Z.divide_1_l. }
  rewrite W, IH. reflexivity.
Qed.

(** Examples *)
Definition ex_probes : list probe := [mkProbe Exporter 2 0; mkProbe (Point 3) 3 0; mkProbe (Field (-2)) 1 0; mkProbe Rcs 4 7].
Lemma ex_usable : forall p, In p ex_probes -> usable p.
Proof. intros p [<-|[<-|[<-|[<-|[]]]]]; (split; [cbn; lia|]); cbn; auto; lia. Qed.

Definition ex_mor : morprobe := mkMor 0 1 3.
Lemma ex_mor_ok : (2 <= m_saves ex_mor)%Z /\ 0 <= m_start ex_mor < m_final ex_mor /\
  0 < 3 / 10 <= spacing ex_mor * (1 - / 1000000).
Proof. unfold spacing. cbn. split; [lia|]. split; lra. Qed.

Lemma ex_mor_output : exists tr s', runR unit (fun x _ _ => x) (started unit (3 / 10) 1 tt) tr s' /\
  Z.of_nat (length (ms_out (evolveMor unit (s_calls s') (mkMstate ex_mor None [])))) = 3%Z.
Proof. destruct ex_mor_ok as (A & B & C). exact (mor_complete_run unit (fun x _ _ => x) ex_mor (3 / 10) tt A B C). Qed.

Lemma ex_saves : exists g0, newManager unit 1 (1 / 100) [mkProbe Near 1 10] [] = Ok g0.
Proof.
  unfold newManager, recalculateExportSteps. destruct Rle_dec; [lra|]. unfold ceil_int.
  replace (1 / (1 / 100)) with (IZR 100) by lra. rewrite Zceil_IZR. cbn. eexists; reflexivity.
Qed.

Lemma ex_records : Z.of_nat (length (filter (wanted 10 3) (indexed ([(0, tt); (1, tt); (2, tt); (3, tt)] ++ [(10, tt)])))) = 3%Z.
Proof.
  rewrite (records_exact_len unit 10 3); [|lia| |].
  - cbn. destruct (Zdivide_dec 3 4) as [[q Hq]|]; [lia|reflexivity].
  - intros c Hc. repeat destruct Hc as [<-|Hc]; try tauto; cbn; rewrite Rabs_left; lra.
  - replace (10 - 10) with 0 by ring. rewrite Rabs_R0. lra.
Qed.

(** The same from the constructors of the solver and of the probe manager. *)
Lemma built_exports : forall (X : Type) (ode : X -> R -> R -> X) estimate rank o x0 s ps ms g0,
  construct X estimate rank o x0 = Ok s -> 0 < s_dt s <= 1 -> 0 <= o_final_time o ->
  newManager X (o_final_time o) (s_dt s) ps ms = Ok g0 ->
  (forall p, In p ps -> usable p \/ (0 < p_saves p)%Z /\ usable (mkProbe (p_kind p) 1 0)) ->
  exists tr s' g, runR X ode s tr s' /\ serve X g0 (s_calls s') = Ok g /\
    forall i p, nth_error ps i = Some p -> remote p = false ->
    exists out l first, nth_error (g_probes g) i = Some out /\
      ps_out out = l ++ [mkRecord (Z.of_nat (length tr)) (label (p_kind p) (s_time s')) (s_fields s')] /\
      ps_out out = mkRecord 0 (label (p_kind p) 0) x0 :: first.
Proof.
  intros X ode estimate rank o x0 s ps ms g0 Hc Hd Hf Hg Hps.
  assert (Hs : s = started X (s_dt s) (o_final_time o) x0).
  { unfold construct in Hc. destruct (if (rank =? 0)%Z then checkOptionsAreValid o else Ok tt); cbn [bind] in Hc; try discriminate. injection Hc as <-. reflexivity. }
  unfold newManager, recalculateExportSteps in Hg. destruct Rle_dec; [lra|]. unfold ceil_int in Hg.
  destruct (_ && _); cbn [bind] in Hg; [|discriminate]. injection Hg as <-.
  set (total := Zceil (o_final_time o / s_dt s)).
  assert (Hus : forall p, In p (map (recalcProbe total) ps) -> usable p).
  { intros p Hp. apply in_map_iff in Hp. destruct Hp as (p0 & <- & Hp0). pose proof (Hps p0 Hp0) as Hc0.
    unfold recalcProbe. destruct (Z.ltb_spec 0 (p_saves p0)).
    - destruct Hc0 as [[_ Hc0]|[_ [_ Hc0]]]; (split; [cbn; lia|exact Hc0]).
    - destruct Hc0 as [Hc0|[Hc0 _]]; [auto|lia]. }
  destruct (last_exported X ode (s_dt s) (o_final_time o) x0 (map (recalcProbe total) ps) ms Hd Hf Hus) as (tr & s' & g & H1 & H2 & H3).
  exists tr, s', g. rewrite <- Hs in H1. split; [exact H1|]. split; [exact H2|].
  intros i p Hp Hr. assert (Hk : p_kind (recalcProbe total p) = p_kind p) by (unfold recalcProbe; destruct (0 <? p_saves p)%Z; reflexivity).
  rewrite <- Hk. apply H3; [rewrite nth_error_map, Hp; reflexivity|]. unfold remote in *. rewrite Hk. exact Hr.
Qed.
Lemma ex_built : forall (X : Type) (x0 : X), exists s g0, construct X (fun _ => 1) 0 (mkOptions 2 (/ 10) 1 1) x0 = Ok s /\ 0 < s_dt s <= 1 /\
  newManager X 1 (s_dt s) [mkProbe Exporter 3 0; mkProbe (Point 4) 0 5] [] = Ok g0.
Proof.
  intros X x0. unfold construct, checkOptionsAreValid. cbn [o_order o_time_step o_final_time o_cfl Z.eqb Z.ltb Z.compare].
  destruct (Rlt_dec 1 0); [lra|]. destruct (Rle_dec 1 0); [lra|]. cbn [bind]. destruct (Req_EM_T (/ 10) 0); [lra|].
  eexists _, _. split; [reflexivity|]. cbn [s_dt]. split; [lra|]. unfold newManager, recalculateExportSteps. destruct (Rle_dec (/ 10) 0); [lra|].
  unfold ceil_int. replace (1 / / 10) with (IZR 10) by lra. rewrite Zceil_IZR. reflexivity.
Qed.

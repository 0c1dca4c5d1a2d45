(** Property theorems C04 to C10 and C59 to C61: probes.

    [fresh X F ps ms] is the probe manager as constructed with final time [F],
    cycle-driven probes [ps] and MOR probes [ms], with no output yet;
    [started X dt final x0] is the solver as constructed: time 0 and one call of
    the probes with the initial fields [x0]. *)
From Coq Require Import ZArith List Bool Reals Znumtheory Sorted.
From Flocq Require Import Core.Raux.
From Verif Require Import Common Time_Model Probe_Model Probe_Spec Probe_Proofs ProbeRun_Proofs ProbeMor_Proofs ProbeFinal_Proofs.
Import ListNotations.
Local Open Scope R_scope.

(** C04.  For any list of probes and any sequence of calls: the output of each
    probe is exactly the wanted calls, in order, once each, with their own cycle,
    time and fields.  Remote field and point probes write nothing. *)
Theorem C04_export_schedule :
  forall (X : Type) F ps ms calls, (forall p, In p ps -> usable p) ->
  exists g, serve X (fresh X F ps ms) calls = Ok g /\ g_cycle g = Z.of_nat (length calls) /\
    length (g_probes g) = length ps /\
    forall i p, nth_error ps i = Some p -> exists s, nth_error (g_probes g) i = Some s /\
      ps_probe s = p /\
      ps_out s = (if remote p then [] else map (stamp (p_kind p)) (filter (wanted F (p_steps p)) (indexed calls))).
Proof. exact schedule. Qed.
Print Assumptions C04_export_schedule.

(** Exact number of records when only the last call is near the final time. *)
Theorem C04_record_count :
  forall (X : Type) F n (calls : list (R * X)) t x, (0 < n)%Z ->
  (forall c, In c calls -> / 100000000 <= Rabs (fst c - F)) -> Rabs (t - F) < / 100000000 ->
  let K := Z.of_nat (length calls) in
  Z.of_nat (length (filter (wanted F n) (indexed (calls ++ [(t, x)])))) = (K / n + 1 + (if Zdivide_dec n K then 0 else 1))%Z.
Proof. exact records_exact_len. Qed.
Print Assumptions C04_record_count.

(** A whole run with a step of at most one time unit: the first record is the
    initial state and the last one is the final state. *)
Theorem C04_first_and_last_state_exported_partial :
  forall (X : Type) (ode : X -> R -> R -> X) dt final x0 ps ms, 0 < dt <= 1 -> 0 <= final ->
  (forall p, In p ps -> usable p) ->
  exists tr s' g, runR X ode (started X dt final x0) tr s' /\
    serve X (fresh X final ps ms) (s_calls s') = Ok g /\
    forall i p, nth_error ps i = Some p -> remote p = false ->
    exists o l first, nth_error (g_probes g) i = Some o /\
      ps_out o = l ++ [mkRecord (Z.of_nat (length tr)) (label (p_kind p) (s_time s')) (s_fields s')] /\
      ps_out o = mkRecord 0 (label (p_kind p) 0) x0 :: first.
Proof. exact last_exported. Qed.
Print Assumptions C04_first_and_last_state_exported_partial.

(** The same from the constructors: whatever options the solver was built with, if
    the step is at most one time unit. *)
Theorem C04_built_solver_exports :
  forall (X : Type) (ode : X -> R -> R -> X) estimate rank o x0 s ps ms g0,
  construct X estimate rank o x0 = Ok s -> 0 < s_dt s <= 1 -> 0 <= o_final_time o ->
  newManager X (o_final_time o) (s_dt s) ps ms = Ok g0 ->
  (forall p, In p ps -> usable p \/ (0 < p_saves p)%Z /\ usable (mkProbe (p_kind p) 1 0)) ->
  exists tr s' g, runR X ode s tr s' /\ serve X g0 (s_calls s') = Ok g /\
    forall i p, nth_error ps i = Some p -> remote p = false ->
    exists out l first, nth_error (g_probes g) i = Some out /\
      ps_out out = l ++ [mkRecord (Z.of_nat (length tr)) (label (p_kind p) (s_time s')) (s_fields s')] /\
      ps_out out = mkRecord 0 (label (p_kind p) 0) x0 :: first.
Proof. exact built_exports. Qed.
Print Assumptions C04_built_solver_exports.

Example C04_built_solver : forall (X : Type) (x0 : X), exists s g0,
  construct X (fun _ => 1) 0 (mkOptions 2 (/ 10) 1 1) x0 = Ok s /\ 0 < s_dt s <= 1 /\
  newManager X 1 (s_dt s) [mkProbe Exporter 3 0; mkProbe (Point 4) 0 5] [] = Ok g0.
Proof. exact ex_built. Qed.

(** Finding: with a step longer than one time unit the final state can be missed
    (the loop's margin is relative to the step, the probes' margin is absolute). *)
Theorem C04_last_state_exported_refuted :
  forall (X : Type) (ode : X -> R -> R -> X) (x0 : X), exists dt final tr s' g o, 0 < dt /\ 0 < final /\
  runR X ode (started X dt final x0) tr s' /\ length tr = 3%nat /\
  serve X (fresh X final [near2] []) (s_calls s') = Ok g /\
  nth_error (g_probes g) 0 = Some o /\ forall r, In r (ps_out o) -> r_cycle r <> 3%Z.
Proof. exact last_missed_big_step. Qed.
Print Assumptions C04_last_state_exported_refuted.

Example C04_probes_usable : forall p, In p ex_probes -> usable p.
Proof. exact ex_usable. Qed.
Example C04_count_case : Z.of_nat (length (filter (wanted 10 3) (indexed ([(0, tt); (1, tt); (2, tt); (3, tt)] ++ [(10, tt)])))) = 3%Z.
Proof. exact ex_records. Qed.

(** C05.  A probe asked for [s] saves, among any others, in a whole run: its
    interval is max(1, ceil(final/dt)/s); it gets at least min(s, steps)+1 records,
    the last one being the final state; at most 2s+2 records when the step is at
    least 1e-8; and exactly s+1 when s divides the number of steps. *)
Theorem C05_saves_respected :
  forall (X : Type) (ode : X -> R -> R -> X) dt final x0 k s ms g0, 0 < dt <= 1 -> 0 <= final -> (0 < s)%Z ->
  remote (mkProbe k 1 s) = false -> usable (mkProbe k 1 s) ->
  forall ps1 ps2 steps, (forall p, In p (ps1 ++ ps2) -> usable p \/ (0 < p_saves p)%Z /\ usable (mkProbe (p_kind p) 1 0)) ->
  newManager X final dt (ps1 ++ mkProbe k steps s :: ps2) ms = Ok g0 ->
  exists tr s' g out q,
    runR X ode (started X dt final x0) tr s' /\ serve X g0 (s_calls s') = Ok g /\
    nth_error (g_probes g) (length ps1) = Some out /\
    q = Z.max 1 (Z.quot (Zceil (final / dt)) s) /\ p_steps (ps_probe out) = q /\
    (Z.min s (Z.of_nat (length tr)) + 1 <= Z.of_nat (length (ps_out out)))%Z /\
    (exists c l, ps_out out = l ++ [mkRecord c (label k (s_time s')) (s_fields s')]) /\
    (/ 100000000 <= dt -> (Z.of_nat (length (ps_out out)) <= 2 * s + 2)%Z) /\
    (forall m, Z.of_nat (length tr) = (m * s)%Z ->
       (forall c, In c (removelast (s_calls s')) -> / 100000000 <= Rabs (fst c - final)) ->
       length tr = Z.to_nat (Zceil (final / dt)) ->
       (0 < m)%Z -> Z.of_nat (length (ps_out out)) = (s + 1)%Z).
Proof. exact saves_run. Qed.
Print Assumptions C05_saves_respected.

Example C05_manager_built : exists g0, newManager unit 1 (1 / 100) [mkProbe Near 1 10] [] = Ok g0.
Proof. exact ex_saves. Qed.

(** C06.  The interval in force once the solver has been built, for every probe
    read from the input: [saves] > 0 wins over [steps]. *)
Theorem C06_interval_in_force_partial :
  forall sk kd pk p total, buildProbe sk kd pk = Ok p ->
  p_steps (recalcProbe total p) =
    match k_saves pk with
    | Some s => if (0 <? s)%Z then Z.max 1 (Z.quot total s) else match k_steps pk with Some n => n | None => 1%Z end
    | None => match k_steps pk with Some n => n | None => 1%Z end
    end.
Proof. exact interval_used. Qed.
Print Assumptions C06_interval_in_force_partial.

(** Finding: an explicit interval is honoured when the file is read and then
    replaced when [saves] is also given. *)
Theorem C06_explicit_steps_kept_refuted :
  exists p, buildProbe None Exporter (mkProbeKeys (Some 5%Z) (Some 10%Z)) = Ok p /\
  p_steps p = 5%Z /\ p_steps (recalcProbe 100 p) = 10%Z.
Proof. exact steps_overridden. Qed.
Print Assumptions C06_explicit_steps_kept_refuted.

(** C07.  The movie of a field or point probe is sorted by time, and holds at [t]
    the first exported value at [t], for exactly the exported times. *)
Theorem C07_movie :
  forall (X : Type) F ps ms calls, (forall p, In p ps -> usable p) ->
  exists g, serve X (fresh X F ps ms) calls = Ok g /\
    forall i p, nth_error ps i = Some p -> has_movie p = true -> remote p = false ->
    exists s, nth_error (g_probes g) i = Some s /\
      StronglySorted Rlt (map fst (ps_movie s)) /\
      forall t v, In (t, v) (ps_movie s) <-> first_at t (map snd (filter (wanted F (p_steps p)) (indexed calls))) = Some v.
Proof. exact movies. Qed.
Print Assumptions C07_movie.

(** The frame queries return the extreme value, at its earliest time. *)
Theorem C07_frames :
  forall m, StronglySorted Rlt (map fst m) -> m <> [] ->
  (exists t v, findFrameWithMax m = (t, Some v) /\ In (t, v) m /\
     (forall t' v', In (t', v') m -> v' <= v /\ (v' = v -> t <= t'))) /\
  (exists t v, findFrameWithMin m = (t, Some v) /\ In (t, v) m /\
     (forall t' v', In (t', v') m -> v <= v' /\ (v' = v -> t <= t'))).
Proof. exact frames. Qed.
Print Assumptions C07_frames.

(** C08.  MOR snapshots: numbered 0, 1, 2, ... without gaps, at most [saves] of
    them, a subsequence of the calls, inside the window, and the k-th one not
    before its nominal time (less the slack of 1e-6 spacings). *)
Theorem C08_mor_snapshots :
  forall (X : Type) F ps ms calls, (forall p, In p ps -> usable p) ->
  exists g, serve X (fresh X F ps ms) calls = Ok g /\
  forall i p, nth_error ms i = Some p -> exists o, nth_error (g_mors g) i = Some o /\
    let out := ms_out o in
    map (fun e => fst (fst e)) out = map Z.of_nat (seq 0 (length out)) /\
    (Z.of_nat (length out) <= Z.max 0 (m_saves p))%Z /\
    subseq (map (fun e => (snd (fst e), snd e)) out) calls /\
    forall k t x, In (k, t, x) out ->
      m_start p - / 1000000000000 <= t <= m_final p + / 1000000000000 /\ nominal_time p k - slack p <= t.
Proof. exact mor_files. Qed.
Print Assumptions C08_mor_snapshots.

(** If the step does not exceed the spacing, each snapshot is taken less than one
    step after its nominal time. *)
Theorem C08_mor_lateness :
  forall (X : Type) p h (calls : list (R * X)), (2 <= m_saves p)%Z -> m_start p < m_final p -> 0 <= h <= spacing p ->
  paced h calls -> match calls with [] => True | c :: _ => fst c <= m_start p end ->
  forall k t x, In (k, t, x) (ms_out (evolveMor X calls (mkMstate p None []))) ->
    nominal p k - spacing p * / 1000000 <= t /\ (t < nominal p k + h \/ (k = 0%Z /\ t <= m_start p)).
Proof. exact mor_lateness. Qed.
Print Assumptions C08_mor_lateness.

Example C08_window : (2 <= m_saves ex_mor)%Z /\ 0 <= m_start ex_mor < m_final ex_mor /\
  0 < 3 / 10 <= spacing ex_mor * (1 - / 1000000).
Proof. exact ex_mor_ok. Qed.

(** C09.  All snapshots are written when the window ends at the final time. *)
Theorem C09_mor_complete_partial :
  forall (X : Type) (ode : X -> R -> R -> X) p dt x0, (2 <= m_saves p)%Z -> 0 <= m_start p < m_final p ->
  0 < dt <= spacing p * (1 - / 1000000) ->
  exists tr s', runR X ode (started X dt (m_final p) x0) tr s' /\
    Z.of_nat (length (ms_out (evolveMor X (s_calls s') (mkMstate p None [])))) = m_saves p.
Proof. exact mor_complete_run. Qed.
Print Assumptions C09_mor_complete_partial.

(** More generally, when some call falls at the end of the window. *)
Theorem C09_mor_complete_calls_partial :
  forall (X : Type) p h l1 t (x : X) l2, (2 <= m_saves p)%Z -> m_start p < m_final p ->
  0 <= h <= spacing p * (1 - / 1000000) ->
  paced h (l1 ++ (t, x) :: l2) -> match l1 ++ (t, x) :: l2 with [] => True | c :: _ => fst c <= m_start p end ->
  m_final p - spacing p * / 1000000 <= t <= m_final p + / 1000000000000 ->
  Z.of_nat (length (ms_out (evolveMor X (l1 ++ (t, x) :: l2) (mkMstate p None [])))) = m_saves p.
Proof. exact mor_complete. Qed.
Print Assumptions C09_mor_complete_calls_partial.

(** Finding: when the window ends inside the run, the last snapshot is lost
    unless a step lands on the end of the window. *)
Theorem C09_mor_complete_refuted :
  forall (X : Type) (ode : X -> R -> R -> X) (x0 : X), exists p dt, (2 <= m_saves p)%Z /\ 0 = m_start p /\ m_final p = 1 /\
  0 < dt <= spacing p * (1 - / 1000000) /\
  exists tr s', runR X ode (started X dt 2 x0) tr s' /\ s_time s' >= m_final p /\
    (Z.of_nat (length (ms_out (evolveMor X (s_calls s') (mkMstate p None [])))) < m_saves p)%Z.
Proof. exact mor_incomplete. Qed.
Print Assumptions C09_mor_complete_refuted.

Example C09_case : exists tr s', runR unit (fun x _ _ => x) (started unit (3 / 10) 1 tt) tr s' /\
  Z.of_nat (length (ms_out (evolveMor unit (s_calls s') (mkMstate ex_mor None [])))) = 3%Z.
Proof. exact ex_mor_output. Qed.

(** C10.  Finding: after setFinalTime the run ends at the new final time but its
    last state may be missing from the probes, which keep the old one. *)
Theorem C10_set_final_time_refuted :
  forall (X : Type) (ode : X -> R -> R -> X) (x0 : X), exists tr s' g o,
  runR X ode (setFinalTime X 3 (started X 1 10 x0)) tr s' /\ s_time s' = 3 /\ length tr = 3%nat /\
  serve X (fresh X 10 [near2] []) (s_calls s') = Ok g /\
  nth_error (g_probes g) 0 = Some o /\ forall r, In r (ps_out o) -> r_cycle r <> 3%Z.
Proof. exact last_missed_set_final. Qed.
Print Assumptions C10_set_final_time_refuted.

(** What holds: no loss when the value does not change, ... *)
Theorem C10_same_final_time_partial :
  forall (X : Type) (ode : X -> R -> R -> X) dt F T x0 ps ms, 0 < dt <= 1 -> 0 <= T -> F = T ->
  (forall p, In p ps -> usable p) ->
  exists tr s' g, runR X ode (setFinalTime X T (started X dt F x0)) tr s' /\
    serve X (fresh X F ps ms) (s_calls s') = Ok g /\
    forall i p, nth_error ps i = Some p -> remote p = false ->
    exists o l, nth_error (g_probes g) i = Some o /\
      ps_out o = l ++ [mkRecord (Z.of_nat (length tr)) (label (p_kind p) (s_time s')) (s_fields s')].
Proof. exact final_unchanged. Qed.
Print Assumptions C10_same_final_time_partial.

(** ... or when the probe has interval one. *)
Theorem C10_interval_one_partial :
  forall (X : Type) F p ms (calls : list (R * X)), usable p -> p_steps p = 1%Z -> remote p = false ->
  exists g o, serve X (fresh X F [p] ms) calls = Ok g /\ g_probes g = [o] /\
    ps_out o = map (stamp (p_kind p)) (indexed calls).
Proof. exact every_state. Qed.
Print Assumptions C10_interval_one_partial.

(** C05.  With an explicit time step, the interval a probe gets when the file is
    read already is the one the solver computes. *)
Theorem C05_parsed_interval_stable : forall tf dt kd pk p, 0 < dt -> k_steps pk = None ->
  buildProbe (Some (mkSolverKeys (Some tf) (Some dt))) kd pk = Ok p ->
  forall total, ceil_int (tf / dt) = Ok total -> recalcProbe total p = p.
Proof. exact interval_stable. Qed.
Print Assumptions C05_parsed_interval_stable.
(** Two time units in steps of 0.01 with 7 saves: every 28 steps. *)
Example C05_parsed_interval_met : exists p,
  buildProbe (Some (mkSolverKeys (Some 2) (Some (/ 100)))) Exporter (mkProbeKeys None (Some 7%Z)) = Ok p /\ p_steps p = 28%Z.
Proof. exact interval_stable_ex. Qed.

(** C59.  When reading the interval of a probe is undefined: exactly when [saves]
    is asked for without [steps], and the solver options lack one of the two
    optional times or the number of steps overflows int. *)
Theorem C59_interval_undefined_iff_partial :
  forall sk pk, calculate_interval sk pk = UB <->
  k_steps pk = None /\ exists s, k_saves pk = Some s /\ (0 < s)%Z /\
    match sk with
    | None => True
    | Some k => k_final k = None \/ k_step k = None \/
        exists tf dt, k_final k = Some tf /\ k_step k = Some dt /\ 0 < dt /\
          ~ (-2147483648 <= Zceil (tf / dt) <= 2147483647)%Z
    end.
Proof. exact interval_ub. Qed.
Print Assumptions C59_interval_undefined_iff_partial.

Theorem C59_saves_with_automatic_step_refuted :
  calculate_interval (Some (mkSolverKeys (Some 2) None)) (mkProbeKeys None (Some 10%Z)) = UB.
Proof. exact saves_without_step_ub. Qed.
Print Assumptions C59_saves_with_automatic_step_refuted.

(** C60.  Time labels are within 0.0005 of the time and never go back. *)
Theorem C60_label_close_partial : forall k t, 0 <= t -> Rabs (label k t - t) <= / 2000.
Proof. exact label_close. Qed.
Print Assumptions C60_label_close_partial.
Theorem C60_label_monotone_partial : forall k t t', 0 <= t <= t' -> label k t <= label k t'.
Proof. exact label_monotone. Qed.
Print Assumptions C60_label_monotone_partial.
(** Finding: exporter labels do not identify the state. *)
Theorem C60_label_injective_refuted :
  label Exporter (/ 10000) = label Exporter (2 / 10000) /\ (/ 10000 <> 2 / 10000).
Proof. exact label_collides. Qed.
Print Assumptions C60_label_injective_refuted.

(** C61.  Finding: a zero interval, or a point no rank holds, is undefined at the
    first call of the probes instead of being rejected. *)
Theorem C61_unusable_probe_rejected_refuted :
  forall (X : Type) F ps1 p ps2 ms t (x : X) calls,
  (forall q, In q ps1 -> usable q) -> ~ usable p ->
  (/ 100000000 <= Rabs (t - F))%R ->
  (match p_kind p with Field e | Point e => (-2 <= e)%Z | _ => True end) ->
  serve X (fresh X F (ps1 ++ p :: ps2) ms) ((t, x) :: calls) = UB.
Proof. exact unusable_ub. Qed.
Print Assumptions C61_unusable_probe_rejected_refuted.

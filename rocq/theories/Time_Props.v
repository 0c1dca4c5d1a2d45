(** Property theorems C01, C02, C03, C58. *)
From Coq Require Import ZArith List Reals Lra.
From Flocq Require Import Core.Core.
From Flocq.IEEE754 Require Import BinarySingleNaN.
From Verif Require Import Common Time_Model Time_Proofs TimeIeee_Proofs.
Import ListNotations.
Local Open Scope R_scope.

(** C01.  Exact arithmetic, any integrator [ode].  [tr] lists the solver states
    after each step.  The run is unique, stops, ends less than 1e-8 steps before
    the final time and never after it; the steps have the configured length
    except possibly the last one, which then lands on the final time; and the
    probes are called once per step with the state of that step. *)
Theorem C01_run_stops_at_final_time :
  forall (X : Type) (ode : X -> R -> R -> X) (s : solver X),
  0 < s_dt s -> s_time s <= s_final s ->
  exists tr s', runR X ode s tr s' /\
    (forall tr2 s2, runR X ode s tr2 s2 -> tr2 = tr /\ s2 = s') /\
    s' = last tr s /\
    s_final s - / 100000000 * s_dt s < s_time s' <= s_final s /\
    (forall u, In u tr -> s_time s < s_time u <= s_final s) /\
    (s_final s - s_time s >= / 100000000 * s_dt s -> tr <> []) /\
    (forall tr1 u tr2, tr = tr1 ++ u :: tr2 ->
       let before := last tr1 s in
       0 < s_time u - s_time before <= s_dt s /\
       (tr2 <> [] -> s_time u - s_time before = s_dt s) /\
       (s_time u - s_time before < s_dt s -> s_time u = s_final s /\ tr2 = [])) /\
    s_calls s' = s_calls s ++ map (fun u => (s_time u, s_fields u)) tr.
Proof. exact run_full. Qed.
Print Assumptions C01_run_stops_at_final_time.

(** The times visited, exactly: with [final - time = n*dt + r], the run visits
    n full steps and then the final time, unless [r < 1e-8*dt]: then it stops
    at [time + n*dt]. *)
Theorem C01_visited_times :
  forall (X : Type) (ode : X -> R -> R -> X) (s : solver X),
  0 < s_dt s -> s_time s <= s_final s ->
  exists n r tr s',
    s_final s = s_time s + INR n * s_dt s + r /\ 0 <= r < s_dt s /\
    runR X ode s tr s' /\
    (forall tr2 s2, runR X ode s tr2 s2 -> tr2 = tr /\ s2 = s') /\
    map s_time tr = map (fun k => s_time s + INR k * s_dt s) (seq 1 n)
                    ++ (if Rle_dec (/ 100000000 * s_dt s) r then [s_final s] else []) /\
    s_time s' = (if Rle_dec (/ 100000000 * s_dt s) r then s_final s else s_time s + INR n * s_dt s) /\
    s_calls s' = s_calls s ++ map (fun u => (s_time u, s_fields u)) tr.
Proof. exact run_exact. Qed.
Print Assumptions C01_visited_times.

(** Finding: "the run ends exactly at the final time" is false, even in exact
    arithmetic. *)
Theorem C01_exact_end_refuted :
  forall (X : Type) (ode : X -> R -> R -> X) (x : X),
  exists s : solver X, 0 < s_dt s /\ s_time s = 0 /\ s_fields s = x /\ 0 < s_final s /\
  exists tr s', runR X ode s tr s' /\ s_time s' <> s_final s.
Proof. exact run_not_exact. Qed.
Print Assumptions C01_exact_end_refuted.

Example C01_hypotheses_met : 0 < s_dt (mkSolver 0 (3/10) 1 tt []) /\ s_time (mkSolver 0 (3/10) 1 tt []) <= s_final (mkSolver 0 (3/10) 1 tt []).
Proof. exact ex_solver_ok. Qed.

(** C02.  Binary64, round to nearest even.  Every state reached from time 0 by any
    number of steps is finite, not past the final time, times never decrease, a
    shortened step lands on the final time exactly and a full step adds the
    (rounded) configured step. *)
Theorem C02_no_overshoot_and_exact_landing :
  forall final dt : double,
  is_finite final = true -> is_finite dt = true -> 0 < B2R dt -> 0 <= B2R final ->
  forall k, let t := Nat.iter k (stepF final dt) dzero in
  let t' := Nat.iter (S k) (stepF final dt) dzero in
    is_finite t = true /\ 0 <= B2R t <= B2R final /\ B2R t <= B2R t' /\
    (shortened final dt t = true -> B2R t' = B2R final) /\
    (shortened final dt t = false ->
       B2R t + B2R dt <= B2R final /\
       B2R t' = round radix2 (SpecFloat.fexp 53 1024) ZnearestE (B2R t + B2R dt)).
Proof. exact ieee_steps. Qed.
Print Assumptions C02_no_overshoot_and_exact_landing.

(** The loop stops exactly when the guard is false at the final time itself,
    i.e. when rounding does not absorb the margin 1e-8*dt.  When it stops, it is
    at a time not past the final time where the guard is false. *)
Theorem C02_terminates_iff_margin_survives :
  forall final dt : double,
  is_finite final = true -> is_finite dt = true -> 0 < B2R dt -> 0 <= B2R final ->
  (terminatesF final dt dzero <-> guardF final dt final = false) /\
  (guardF final dt final = true <->
     B2R final <= round radix2 (SpecFloat.fexp 53 1024) ZnearestE
       (B2R final - round radix2 (SpecFloat.fexp 53 1024) ZnearestE (B2R d1em8 * B2R dt))) /\
  (forall tr t, runF final dt dzero tr t ->
     is_finite t = true /\ B2R t <= B2R final /\ guardF final dt t = false /\
     (forall u, In u tr -> is_finite u = true /\ 0 <= B2R u <= B2R final)).
Proof. exact ieee_terminates. Qed.
Print Assumptions C02_terminates_iff_margin_survives.

(** In numbers of steps: a run of at most 2^25 steps stops; one of at least 2^29
    steps never does (a bound far from the subnormal range excludes underflow). *)
Theorem C02_few_steps_stop :
  forall final dt : double,
  is_finite final = true -> is_finite dt = true -> 0 < B2R dt -> 0 <= B2R final ->
  bpow radix2 (-900) <= B2R dt -> B2R final <= bpow radix2 25 * B2R dt -> 0 < B2R final ->
  terminatesF final dt dzero.
Proof. exact few_steps_stop. Qed.
Print Assumptions C02_few_steps_stop.

Theorem C02_many_steps_never_stop :
  forall final dt : double,
  is_finite final = true -> is_finite dt = true -> 0 < B2R dt -> 0 <= B2R final ->
  bpow radix2 (-900) <= B2R final -> bpow radix2 29 * B2R dt <= B2R final ->
  ~ terminatesF final dt dzero.
Proof. exact many_steps_never_stop. Qed.
Print Assumptions C02_many_steps_never_stop.

(** Finding: final time 1, step 2^-40, both valid, and the loop never stops. *)
Theorem C02_termination_refuted :
  exists final dt : double, is_finite final = true /\ is_finite dt = true /\ 0 < B2R dt /\ B2R final = 1 /\
  ~ terminatesF final dt dzero.
Proof. exact ieee_hang. Qed.
Print Assumptions C02_termination_refuted.

Example C02_hypotheses_met :
  is_finite d_one = true /\ is_finite d_2m10 = true /\ 0 < B2R d_2m10 /\ 0 <= B2R d_one /\
  terminatesF d_one d_2m10 dzero.
Proof. exact ex_ieee_ok. Qed.

(** C03.  Options the constructor accepts on rank 0 give a run that stops exactly
    when the resulting time step is positive.  The check does not look at the
    time step. *)
Theorem C03_accepted_options_stop_iff_step_positive_partial :
  forall (X : Type) (ode : X -> R -> R -> X) (estimate : options -> R) o x0 s,
  construct X estimate 0 o x0 = Ok s ->
  (terminates _ guardR (stepR X ode) s <-> 0 < s_dt s) /\
  s_dt s = (if Req_EM_T (o_time_step o) 0 then estimate o else o_time_step o).
Proof. exact accepted_terminates_iff. Qed.
Print Assumptions C03_accepted_options_stop_iff_step_positive_partial.

Theorem C03_options_accepted_iff :
  forall o, checkOptionsAreValid o = Ok tt <->
    (0 <= o_order o)%Z /\ 0 <= o_final_time o /\ 0 < o_cfl o.
Proof. exact options_accept. Qed.
Print Assumptions C03_options_accepted_iff.

(** Finding: a negative time step is accepted and the run never stops. *)
Theorem C03_accepted_options_stop_refuted :
  forall (X : Type) (ode : X -> R -> R -> X) (estimate : options -> R) (x0 : X),
  exists o s, construct X estimate 0 o x0 = Ok s /\ ~ terminates _ guardR (stepR X ode) s.
Proof. exact accepted_not_terminating. Qed.
Print Assumptions C03_accepted_options_stop_refuted.

Example C03_hypotheses_met : forall x : nat, exists s, construct nat (fun _ => 1) 0 (mkOptions 2 0 2 1) x = Ok s.
Proof. exact ex_construct. Qed.

(** C58.  Rank 0 rejects exactly the invalid options; every other rank accepts
    everything, so an invalid input is refused on one process only. *)
Theorem C58_rank0_rejects_invalid_options_partial :
  forall (X : Type) (estimate : options -> R) o x0,
  (construct X estimate 0 o x0 = Throw <-> ((o_order o < 0)%Z \/ o_final_time o < 0 \/ o_cfl o <= 0)) /\
  (forall r, (r <> 0)%Z -> exists s, construct X estimate r o x0 = Ok s).
Proof. exact rank0_rejects. Qed.
Print Assumptions C58_rank0_rejects_invalid_options_partial.

Theorem C58_all_ranks_reject_refuted :
  forall (X : Type) (estimate : options -> R) (x0 : X),
  exists o s, construct X estimate 0 o x0 = Throw /\ construct X estimate 1 o x0 = Ok s.
Proof. exact other_rank_accepts. Qed.
Print Assumptions C58_all_ranks_reject_refuted.

Example C58_both_outcomes :
  construct nat (fun _ => 1) 0 (mkOptions 2 0 (-1) 1) 3%nat = Throw /\
  exists s, construct nat (fun _ => 1) 0 (mkOptions 2 0 2 1) 3%nat = Ok s.
Proof. exact ex_both. Qed.

Example C02_step_counts_met : bpow radix2 (-900) <= B2R d_one /\ bpow radix2 29 * B2R d_2m40 <= B2R d_one /\
  bpow radix2 (-900) <= B2R d_2m10 /\ B2R d_one <= bpow radix2 25 * B2R d_2m10.
Proof. exact ex_many. Qed.

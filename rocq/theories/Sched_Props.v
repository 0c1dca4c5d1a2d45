(** Property theorems C25. *)
From Coq Require Import ZArith List Reals.
From Verif Require Import Common Evol_Model Evol_Spec EvolHist_Proofs EvolEx_Proofs Sched_Model Sched_Proofs SchedEx_Proofs.
Import ListNotations.
Local Open Scope Z_scope.

(** C25.  Any number of threads taking the tasks in any order and interleaving
    sub-step by sub-step: a finished parallel region leaves in the shared array
    what each task alone makes of its own state. *)
Theorem C25_any_schedule :
  forall inv W jobs base dt, (0 < dt)%R -> (forall tag, sane (W tag)) ->
  forall mem0 thr c, length mem0 = length jobs -> Forall (ready W) thr ->
  steps inv W jobs base dt (initial jobs thr mem0) c -> finished c ->
  mapM (fun p => serial inv W base dt (fst p) (snd p)) (combine jobs mem0) = Ok (c_mem c).
Proof. exact any_schedule. Qed.
Print Assumptions C25_any_schedule.

(** No execution gets stuck before the end... *)
Theorem C25_no_deadlock :
  forall inv W jobs base dt, (0 < dt)%R -> (forall tag, sane (W tag)) ->
  forall mem0 thr c, length mem0 = length jobs -> Forall (ready W) thr -> thr <> [] ->
  (forall j s, In (j, s) (combine jobs mem0) -> exists s', serial inv W base dt j s = Ok s') ->
  steps inv W jobs base dt (initial jobs thr mem0) c -> ~ finished c -> exists c', step inv W jobs base dt c c'.
Proof. exact progress. Qed.
Print Assumptions C25_no_deadlock.

(** ... and none goes on for ever: [todo] bounds the number of steps. *)
Theorem C25_terminates :
  forall inv W jobs base dt, (0 < dt)%R -> (forall tag, sane (W tag)) ->
  forall mem0 thr n b, length mem0 = length jobs -> Forall (ready W) thr ->
  (forall j, In j jobs -> exists m, nsteps (w_rec (W (j_tag j))) dt = Ok m) ->
  stepsN inv W jobs base dt n (initial jobs thr mem0) b -> Z.of_nat n <= todo W jobs dt (initial jobs thr mem0).
Proof. exact terminates. Qed.
Print Assumptions C25_terminates.

(** The parallel branch of Mult leaves the layer fields of the serial branch. *)
Theorem C25_parallel_mult :
  forall inv ndofs W base dt, (0 < dt)%R -> (forall tag, sane (W tag)) ->
  forall input gs gs' thr c,
  (forall i g, nth_error gs i = Some g -> W i = g_w g) ->
  Forall (fun g => cache_ok (w_A (g_w g)) (d_cache (g_d g))) gs ->
  mapM (fun g => '(ss, d) <- overStates (subMult inv ndofs input dt base (g_w g)) (g_states g) (g_d g) ;; Ok (mkG (g_w g) d ss)) gs = Ok gs' ->
  Forall (ready W) thr ->
  steps inv W (multJobs ndofs input 0 gs) base dt (initial (multJobs ndofs input 0 gs) thr (flat_map g_states gs)) c -> finished c ->
  c_mem c = flat_map g_states gs'.
Proof. exact parallel_mult. Qed.
Print Assumptions C25_parallel_mult.

(** So does the parallel branch of finalizeSGBCStep. *)
Theorem C25_parallel_finalize :
  forall inv ndofs W base dt, (0 < dt)%R -> (forall tag, sane (W tag)) ->
  forall fields ps gs' thr c,
  (forall i g cp, nth_error ps i = Some (g, cp) -> W i = g_w g) ->
  Forall (fun p => cache_ok (w_A (g_w (fst p))) (d_cache (g_d (fst p))) /\ length (g_states (fst p)) = length (snd p)) ps ->
  mapM (fun p => let '(g, cp) := p in
               '(ss, d) <- overPairs (finState inv ndofs dt base fields (g_w g)) (combine (g_states g) cp) (g_d g) ;;
               Ok (mkG (g_w g) d ss)) ps = Ok gs' ->
  Forall (ready W) thr ->
  steps inv W (finJobs ndofs fields 0 ps) base dt (initial (finJobs ndofs fields 0 ps) thr (flat_map (fun p => g_states (fst p)) ps)) c -> finished c ->
  c_mem c = flat_map g_states gs'.
Proof. exact parallel_finalize. Qed.
Print Assumptions C25_parallel_finalize.

(** Two threads, three layer states: a complete execution exists. *)
Example C25_hypotheses_met :
  Forall (ready (fun _ => exW)) exThr /\ sane exW /\
  exists c, steps exInv (fun _ => exW) exJobs 0 1 (initial exJobs exThr [exS; exS; exS]) c /\ finished c.
Proof. exact (conj exThr_ready (conj exW_sane ex_complete)). Qed.

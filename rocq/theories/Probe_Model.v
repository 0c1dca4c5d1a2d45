(** Model of the probes: src/solver/ProbesManager.cpp, src/components/Probes.h,
    src/components/RCSSurfaceExporter.cpp 155-164 and the probe part of
    src/driver/driver.cpp 707-864. *)
From Coq Require Import ZArith List Bool Reals.
From Flocq Require Import Core.Raux.
From Verif Require Import Common Time_Model.
Import ListNotations.
Local Open Scope Z_scope.

(** ** Input file (driver.cpp 717-733 and 740-743, 753-756 and alike) *)

(** The keys of [case_data["solver_options"]] read by [calculate_interval]. *)
Record solver_keys := mkSolverKeys { k_final : option R; k_step : option R }.
(** The keys of one probe object. Used in [calculate_interval], driver.cpp 717-733. *)
Record probe_keys := mkProbeKeys { k_steps : option Z; k_saves : option Z }.

(** static_cast<int>(std::ceil(x)): undefined outside the range of int.
    Used in [calculate_interval], driver.cpp 717-733. *)
Definition ceil_int (x : R) : res Z :=
  let z := Zceil x in
  if (-2147483648 <=? z) && (z <=? 2147483647) then Ok z else UB.

(** [calculate_interval], driver.cpp 717-733.  The JSON object is const, so
    reading a missing key through operator[] is undefined. *)
Definition calculate_interval (sk : option solver_keys) (pk : probe_keys) : res Z :=
  match k_steps pk with
  | Some n => Ok n
  | None =>
    match k_saves pk with
    | None => Ok 1
    | Some s =>
      if s <=? 0 then Ok 1 else
      match sk with
      | None => UB
      | Some k =>
        match k_final k, k_step k with
        | Some tf, Some dt =>
            if Rle_dec dt 0 then Ok 1
            else n <- ceil_int (tf / dt)%R ;; Ok (Z.max 1 (Z.quot n s))
        | _, _ => UB
        end
      end
    end
  end.

(** ** The probe objects *)

(** The six cycle-driven kinds.  Field and point probes carry the element that
    holds the point on this rank, from FindPoints (mfem): -2 when another rank
    holds it, -1 when no rank does. Used in [buildProbe], driver.cpp 735-838. *)
Inductive kind := Exporter | Field (elem : Z) | Point (elem : Z) | Near | Domain | Rcs.

(** Used in [buildProbe], driver.cpp 735-838. *)
Record probe := mkProbe { p_kind : kind; p_steps : Z; p_saves : Z }.

(** buildProbes, driver.cpp 735-838: interval from [calculate_interval], [saves]
    copied when present (default 0, Probes.h 11, 18, 25, 32, 126, 155).  The
    position is resolved later, so the kind is an argument. *)
Definition buildProbe (sk : option solver_keys) (kd : kind) (pk : probe_keys) : res probe :=
  n <- calculate_interval sk pk ;;
  Ok (mkProbe kd n (match k_saves pk with Some s => s | None => 0 end)).

(** recalculateExportSteps, ProbesManager.cpp 578-607: early return, [totalSteps]
    from finalTime_, then the loops with [stepsFromSaves]. *)
Definition recalcProbe (total : Z) (p : probe) : probe :=
  if 0 <? p_saves p then mkProbe (p_kind p) (Z.max 1 (Z.quot total (p_saves p))) (p_saves p) else p.
(** Used in [newManager], Solver.cpp 122. *)
Definition recalculateExportSteps (final dt : R) (ps : list probe) : res (list probe) :=
  if Rle_dec dt 0 then Ok ps
  else total <- ceil_int (final / dt)%R ;; Ok (map (recalcProbe total) ps).

Section Machine.
Variable X : Type.                      (* all degrees of freedom *)

(** One export: cycle, time label, fields. Used in [updateProbe], ProbesManager.cpp 318-342. *)
Record record := mkRecord { r_cycle : Z; r_time : R; r_state : X }.

(** std::map<Time, V>::emplace (Types.h 23-24, Probes.h 95, 148): the map is kept
    sorted by key; an existing key keeps its value. *)
Fixpoint emplace {V : Type} (t : R) (v : V) (m : list (R * V)) : list (R * V) :=
  match m with
  | [] => [(t, v)]
  | (t', v') :: rest =>
      if Rlt_dec t t' then (t, v) :: m
      else if Rlt_dec t' t then (t', v') :: emplace t v rest
      else m
  end.

(** State of a cycle-driven probe: its parameters, what it has written so far
    (files or data collection entries) and its movie.  A record holds the whole
    field state; the code stores the value of one or six components at a point,
    which is a function of it. Used in [updateProbe], ProbesManager.cpp 318-342. *)
Record pstate := mkPstate { ps_probe : probe; ps_out : list record; ps_movie : list (R * X) }.

(** The test at the top of every updateProbe (320-324, ProbesManager.cpp 346-350, 377-381, 427-431,
    459-463) and of RCSSurfaceExporter::write (157-160). *)
Definition due (final : R) (cycle steps : Z) (time : R) : res bool :=
  if Rlt_dec (Rabs (time - final)) (/ 100000000) then Ok true
  else if steps =? 0 then UB
  else Ok (Z.rem cycle steps =? 0).

(** std::round(x): half away from zero. Used in [updateProbe], ProbesManager.cpp 318-342. *)
Definition round_away (x : R) : Z := Ztrunc (x + (if Rle_dec 0 x then / 2 else - / 2))%R.

(** The time label: rounded to 1e-3 for the exporter (331), exact otherwise.
    Used in [updateProbe], ProbesManager.cpp 318-342. *)
Definition label (k : kind) (t : R) : R :=
  match k with Exporter => (IZR (round_away (t * 1000)) / 1000)%R | _ => t end.

(** updateProbe for the six kinds: ProbesManager.cpp 318-342, 344-373, 375-409, 425-455, 457-496,
    557-563.  Reading a value in element -1 is undefined. *)
Definition updateProbe (final : R) (cycle : Z) (t : R) (x : X) (s : pstate) : res pstate :=
  d <- due final cycle (p_steps (ps_probe s)) t ;;
  if (d : bool) then
    let k := p_kind (ps_probe s) in
    let out := ps_out s ++ [mkRecord cycle (label k t) x] in
    match k with
    | Field e | Point e =>
        if e =? -2 then Ok s
        else if e <? 0 then UB
        else Ok (mkPstate (ps_probe s) out (emplace t x (ps_movie s)))
    | _ => Ok (mkPstate (ps_probe s) out (ps_movie s))
    end
  else Ok s.

(** MOR probes, Probes.h 161-166, MORStateContext ProbesManager.h 125-131. *)
Record morprobe := mkMor { m_start : R; m_final : R; m_saves : Z }.
(** Used in [updateMor], ProbesManager.cpp 609-658. *)
Record morctx := mkCtx { c_count : Z; c_next : R; c_dt : R }.
(** State of a MOR probe: context ([None] before initialisation) and the files
    x_0, x_1, ... written, as (number, time, fields).
    Used in [updateMor], ProbesManager.cpp 609-658. *)
Record mstate := mkMstate { ms_probe : morprobe; ms_ctx : option morctx; ms_out : list (Z * R * X) }.

(** Used in [updateMor], ProbesManager.cpp 609-658. *)
Definition mor_init (p : morprobe) : morctx :=
  mkCtx 0 (m_start p)
    (if 1 <? m_saves p then ((m_final p - m_start p) / IZR (m_saves p - 1))%R else 0%R).

(** Used in [updateMor], ProbesManager.cpp 609-658. *)
Definition tiny : R := (/ 1000000000000)%R.       (* 1e-12 *)

(** updateProbe(MORStateProbe&), ProbesManager.cpp 609-658. *)
Definition updateMor (t : R) (x : X) (s : mstate) : mstate :=
  let p := ms_probe s in
  if m_saves p <=? 0 then s
  else if Rlt_dec t (m_start p - tiny) then s
  else if Rlt_dec (m_final p + tiny) t then s
  else
    let c := match ms_ctx s with Some c => c | None => mor_init p end in
    if m_saves p <=? c_count c then mkMstate p (Some c) (ms_out s)
    else
      let tol := if Rlt_dec 0 (c_dt c) then (c_dt c * / 1000000)%R else tiny in
      if Rlt_dec t (c_next c - tol) then mkMstate p (Some c) (ms_out s)
      else
        let n := c_count c + 1 in
        let next := if 1 <? m_saves p then (m_start p + IZR n * c_dt c)%R else (m_final p + 1)%R in
        mkMstate p (Some (mkCtx n next (c_dt c))) (ms_out s ++ [(c_count c, t, x)]).

(** ProbesManager (cycle_, finalTime_, probes, contexts). Used in [newManager], Solver.cpp 122. *)
Record manager := mkManager { g_cycle : Z; g_final : R; g_probes : list pstate; g_mors : list mstate }.

(** Constructor 95-126 (finalTime_ = opts.final_time) followed by the call of
    recalculateExportSteps in Solver.cpp 122; [g_probes] is in the order of the
    loops of updateProbes. *)
Definition newManager (final dt : R) (ps : list probe) (ms : list morprobe) : res manager :=
  ps' <- recalculateExportSteps final dt ps ;;
  Ok (mkManager 0 final (map (fun p => mkPstate p [] []) ps') (map (fun m => mkMstate m None []) ms)).

(** updateProbes, ProbesManager.cpp 498-529. *)
Definition updateProbes (g : manager) (call : R * X) : res manager :=
  let '(t, x) := call in
  ps <- mapM (updateProbe (g_final g) (g_cycle g) t x) (g_probes g) ;;
  Ok (mkManager (g_cycle g + 1) (g_final g) ps (map (updateMor t x) (g_mors g))).

(** The probe manager after the calls the solver made ([s_calls], Time_Model).
    ProbesManager.cpp 498-529 and Solver.cpp 127, 550. *)
Definition serve (g : manager) (calls : list (R * X)) : res manager := foldM updateProbes calls g.
End Machine.
Arguments mkRecord {X}.
Arguments r_cycle {X}.
Arguments r_time {X}.
Arguments r_state {X}.
Arguments mkPstate {X}.
Arguments ps_probe {X}.
Arguments ps_out {X}.
Arguments ps_movie {X}.
Arguments mkMstate {X}.
Arguments ms_probe {X}.
Arguments ms_ctx {X}.
Arguments ms_out {X}.
Arguments mkManager {X}.
Arguments g_cycle {X}.
Arguments g_final {X}.
Arguments g_probes {X}.
Arguments g_mors {X}.

(** findFrameWithMax / findFrameWithMin, Probes.h 99-119: start at (0, -inf/+inf)
    ([None]), replaced when strictly better. *)
Definition findFrameWithMax (m : list (R * R)) : R * option R :=
  fold_left (fun res (f : R * R) =>
    match snd res with
    | None => (fst f, Some (snd f))
    | Some v => if Rlt_dec v (snd f) then (fst f, Some (snd f)) else res
    end) m (0%R, None).
(** Probes.h 110-119. *)
Definition findFrameWithMin (m : list (R * R)) : R * option R :=
  fold_left (fun res (f : R * R) =>
    match snd res with
    | None => (fst f, Some (snd f))
    | Some v => if Rlt_dec (snd f) v then (fst f, Some (snd f)) else res
    end) m (0%R, None).

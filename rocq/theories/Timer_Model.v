(** Model of the timing reports that each evaluation of the right-hand side may print
    (src/evolution/GlobalEvolution.cpp 1003-1087, built with SHOW_TIMER_INFORMATION), with the
    collective calls (MPI_Allreduce, MPI_Gather) it makes when several processes run.

    The measured durations are any numbers.  The exchanges of the evaluation itself are those of
    Msg_Model and come before.  What MPI does in a collective call is transcribed from its standard:
    the k-th call of a process meets the k-th of all the others, MPI_Allreduce returns when all have
    entered it, MPI_Gather returns at process 0 when all have entered it and at any time elsewhere. *)
From Coq Require Import ZArith List Bool Reals.
From Verif Require Import Common.
Import ListNotations.
Local Open Scope R_scope.

(** The static variables acc_total, acc_sgbc, acc_exchange, acc_applyA and acc_tfsf, acc_count and
    lastPrintTime of a process, GlobalEvolution.cpp 1010-1012.  They are those of the function: all the
    solvers of the process share them. *)
Record timer := mkTimer { tm_acc : list R; tm_count : Z; tm_last : R }.
(** Their values when the process starts, GlobalEvolution.cpp 1010-1012. *)
Definition timer0 : timer := mkTimer [0; 0; 0; 0; 0] 0 (-1).
(** GlobalEvolution.cpp 1016-1021; [d] are the five durations in seconds. *)
Definition tick (d : list R) (s : timer) : timer :=
  mkTimer (map (fun p => fst p + snd p * 1000) (combine (tm_acc s) d)) (tm_count s + 1) (tm_last s).
(** want_print, GlobalEvolution.cpp 1013-1025. *)
Definition wants (now : R) (s : timer) : bool :=
  (50 <=? tm_count s)%Z && ((if Rlt_dec (tm_last s) 0 then true else false) || (if Rle_dec (tm_last s + 5 / 100) now then true else false)).
(** local_avg, GlobalEvolution.cpp 1040-1046. *)
Definition averages (s : timer) : list R := map (fun a => a / IZR (tm_count s)) (tm_acc s).
(** GlobalEvolution.cpp 1082-1084. *)
Definition rested (now : R) : timer := mkTimer [0; 0; 0; 0; 0] 0 now.

(** The last column of a row, GlobalEvolution.cpp 1063-1070. *)
Inductive neck := Compute | MPIwait | Layers.
(** GlobalEvolution.cpp 1068-1070. *)
Definition bottleneck (row : list R) : neck :=
  let total := nth 0 row 0 in let sgbc := nth 1 row 0 in let exchange := nth 2 row 0 in
  if Rlt_dec (7 / 10 * total) exchange then MPIwait else if Rlt_dec (5 / 10 * total) sgbc then Layers else Compute.
(** A report: time, number of calls, and for every process the averages and the bottleneck.
    GlobalEvolution.cpp 1057-1080. *)
Record report := mkReport { r_time : R; r_calls : Z; r_rows : list (list R * neck) }.
(** What process 0 prints, GlobalEvolution.cpp 1057-1080. *)
Definition printed (now : R) (s : timer) (all : list (list R)) : report :=
  mkReport now (tm_count s) (map (fun row => (row, bottleneck row)) all).

(** What a process does next about its timers: it has ended with its variables and what it has printed,
    or it calls MPI_Allreduce with MPI_MAX, or MPI_Gather to process 0.
    GlobalEvolution.cpp 1029-1055. *)
Inductive coll := End (s : timer) (out : list report) | Allreduce (v : Z) (k : Z -> coll) | Gather (v : list R) (k : list (list R) -> coll).
(** The timer block in the evaluations of a run of process [i] of [P]: [calls] are the times and the
    durations.  GlobalEvolution.cpp 1009-1086. *)
Fixpoint timed (P i : nat) (calls : list (R * list R)) (s : timer) (out : list report) : coll :=
  match calls with
  | [] => End s out
  | (now, d) :: l =>
      let s := tick d s in
      if (1 <? P)%nat then
        Allreduce (if wants now s then 1 else 0)%Z (fun g =>
          if negb (g =? 0)%Z then
            Gather (averages s) (fun all => timed P i l (rested now) (if (i =? 0)%nat then out ++ [printed now s all] else out))
          else timed P i l s out)
      else if wants now s then timed P i l (rested now) (if (i =? 0)%nat then out ++ [printed now s [averages s]] else out)
      else timed P i l s out
  end.

(** A call that a process has entered.  GlobalEvolution.cpp 1031, 1050. *)
Inductive entry := ERed (v : Z) | EGat (v : list R).
(** A process with the collective calls it has entered; the one it is in is the last.
    GlobalEvolution.cpp 1029-1055. *)
Record cproc := mkCP { c_act : coll; c_in : list entry }.
(** Used in [cmove], GlobalEvolution.cpp 1029-1055. *)
Definition entering (a : coll) (l : list entry) : cproc :=
  mkCP a (match a with Allreduce v _ => l ++ [ERed v] | Gather v _ => l ++ [EGat v] | End _ _ => l end).
(** The values of call number [n] if all the [P] processes have entered it as the same call.
    GlobalEvolution.cpp 1031, 1050. *)
Definition allRed (P : nat) (w : nat -> cproc) (n : nat) (vs : list Z) : Prop :=
  length vs = P /\ forall j, (j < P)%nat -> nth_error (c_in (w j)) n = Some (ERed (nth j vs 0%Z)).
(** Used in [cmove], GlobalEvolution.cpp 1050-1052. *)
Definition allGat (P : nat) (w : nat -> cproc) (n : nat) (vs : list (list R)) : Prop :=
  length vs = P /\ forall j, (j < P)%nat -> nth_error (c_in (w j)) n = Some (EGat (nth j vs [])).
(** One process leaves a collective call, GlobalEvolution.cpp 1029-1055. *)
Inductive cmove (P : nat) (w w' : nat -> cproc) : Prop :=
| LeaveReduce i v k vs : (i < P)%nat -> c_act (w i) = Allreduce v k -> allRed P w (length (c_in (w i)) - 1) vs ->
    w' i = entering (k (fold_right Z.max 0%Z vs)) (c_in (w i)) -> (forall j, j <> i -> w' j = w j) -> cmove P w w'
| LeaveRoot v k vs : (0 < P)%nat -> c_act (w 0%nat) = Gather v k -> allGat P w (length (c_in (w 0%nat)) - 1) vs ->
    w' 0%nat = entering (k vs) (c_in (w 0%nat)) -> (forall j, j <> 0%nat -> w' j = w j) -> cmove P w w'
| LeaveOther i v k : (0 < i < P)%nat -> c_act (w i) = Gather v k ->
    w' i = entering (k []) (c_in (w i)) -> (forall j, j <> i -> w' j = w j) -> cmove P w w'.
(** A run of [n] such moves, in any order.  GlobalEvolution.cpp 1029-1055. *)
Inductive cmoves (P : nat) : nat -> (nat -> cproc) -> (nat -> cproc) -> Prop :=
| C0 w : cmoves P 0 w w
| CS n w w' w'' : cmoves P n w w' -> cmove P w' w'' -> cmoves P (S n) w w''.
(** The processes at the start.  GlobalEvolution.cpp 1009-1086. *)
Definition cstart (progs : nat -> coll) : nat -> cproc := fun i => entering (progs i) [].

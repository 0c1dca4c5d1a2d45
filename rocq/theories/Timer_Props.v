(** Timing reports. *)
From Coq Require Import ZArith List Bool Reals.
From Verif Require Import Common Timer_Model Timer_Spec Timer_Proofs TimerEx_Proofs.
Import ListNotations.
Local Open Scope R_scope.

(** In processes that have just started, the timing reports never block the run, whatever the measured
    durations and in whatever order the processes go on; process 0 prints exactly the reports that are
    due, with a row for every process, and the others print nothing. *)
Theorem C112_reports : forall P l, (1 <= P)%nat -> measured P l -> exists fin out, reports P None l out /\
  forall n w, cmoves P n (cstart (fun i => timed P i (seenBy i l) timer0 [])) w ->
  (n <= P * (2 * length l))%nat /\ ((forall w', ~ cmove P w w') -> forall i, (i < P)%nat -> c_act (w i) = End (fin i) (if (i =? 0)%nat then out else [])).
Proof. exact timing_reports. Qed.
Print Assumptions C112_reports.

Example C112_reports_example : measured 2 two /\ exists out, reports 2 None two out /\ out <> [].
Proof. exact two_example. Qed.

(** The due reports are fixed by the times and the durations. *)
Theorem C112_reports_unique : forall P last l out, reports P last l out -> forall out', reports P last l out' -> out = out'.
Proof. exact reports_unique. Qed.
Print Assumptions C112_reports_unique.

(** Whatever earlier runs have left in the variables of each process, the run is not blocked and what is
    printed does not depend on the order in which the processes go on. *)
Theorem C112_never_blocks : forall P l ss, (1 <= P)%nat -> exists fin out,
  forall n w, cmoves P n (cstart (fun i => timed P i (seenBy i l) (ss i) [])) w ->
  (n <= P * (2 * length l))%nat /\ ((forall w', ~ cmove P w w') -> forall i, (i < P)%nat -> c_act (w i) = End (fin i) (if (i =? 0)%nat then out else [])).
Proof. exact same_reports. Qed.
Print Assumptions C112_never_blocks.

(** Such runs do reach a state in which nothing moves. *)
Example C112_can_end : forall P l ss, (1 <= P)%nat -> exists n w, cmoves P n (cstart (fun i => timed P i (seenBy i l) (ss i) [])) w /\ forall w', ~ cmove P w w'.
Proof. exact can_end. Qed.

(** A second solver in the same process does not print the reports that are due in its run. *)
Theorem C112_second_run_refuted : ~ forall l1 l2 s1 o1 s2 o2, measured 1 l1 -> measured 1 l2 ->
  timed 1 0 (seenBy 0 l1) timer0 [] = End s1 o1 -> timed 1 0 (seenBy 0 l2) s1 [] = End s2 o2 -> reports 1 None l2 o2.
Proof. exact second_refuted. Qed.
Print Assumptions C112_second_run_refuted.

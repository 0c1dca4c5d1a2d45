(** Timing reports: when they are due and what they say. *)
From Coq Require Import ZArith List Bool Reals.
From Verif Require Import Common Timer_Model.
Import ListNotations.
Local Open Scope R_scope.

(** The evaluations of a run: time, and for each process the five durations in seconds. *)
Definition evals := list (R * list (list R)).
(** The evaluations as process [i] sees them. *)
Definition seenBy (i : nat) (l : evals) : list (R * list R) := map (fun c => (fst c, nth i (snd c) [])) l.
(** Evaluation number [n] after the last report (at time [last], if there was one) is due for the next
    one: it is at least the fiftieth, and 0.05 after that report. *)
Definition due (last : option R) (l : evals) (n : nat) : Prop :=
  (50 <= n + 1)%nat /\ match last with None => True | Some t => t + 5 / 100 <= fst (nth n l (0, [])) end.
(** Duration [k] of process [i], in milliseconds, over the first [n] evaluations, and its mean. *)
Fixpoint sumUp (i k : nat) (l : evals) : R := match l with [] => 0 | c :: r => nth k (nth i (snd c) []) 0 + sumUp i k r end.
Definition mean (i k : nat) (l : evals) : R := 1000 * sumUp i k l / INR (length l).
(** The bottleneck of a row (total, thin layers, exchange, ...): the exchange if it takes more than 7 tenths of
    the total, else the layers if they take more than half. *)
Definition named (row : list R) (b : neck) : Prop :=
  match b with
  | MPIwait => 7 * nth 0 row 0 < 10 * nth 2 row 0
  | Layers => 10 * nth 2 row 0 <= 7 * nth 0 row 0 /\ nth 0 row 0 < 2 * nth 1 row 0
  | Compute => 10 * nth 2 row 0 <= 7 * nth 0 row 0 /\ 2 * nth 1 row 0 <= nth 0 row 0
  end.
(** The report of evaluation [n]: its time, the number of evaluations, and a row with the five means
    for every process, in order. *)
Definition tells (P : nat) (l : evals) (n : nat) (r : report) : Prop :=
  r_time r = fst (nth n l (0, [])) /\ r_calls r = Z.of_nat (n + 1) /\
  map fst (r_rows r) = map (fun i => map (fun k => mean i k (firstn (n + 1) l)) (seq 0 5)) (seq 0 P) /\
  Forall (fun p => named (fst p) (snd p)) (r_rows r).
(** The reports of a run: each at the first evaluation that is due. *)
Inductive reports (P : nat) : option R -> evals -> list report -> Prop :=
| NoMore last l : (forall n, (n < length l)%nat -> ~ due last l n) -> reports P last l []
| Next last l n r out : (n < length l)%nat -> due last l n -> (forall m, (m < n)%nat -> ~ due last l m) -> tells P l n r ->
    reports P (Some (fst (nth n l (0, [])))) (skipn (n + 1) l) out -> reports P last l (r :: out).
(** Five durations for each process, times that are not negative. *)
Definition measured (P : nat) (l : evals) : Prop :=
  Forall (fun c => 0 <= fst c /\ length (snd c) = P /\ Forall (fun d => length d = 5%nat) (snd c)) l.

(** Decimal numbers and doubles, without the rounding functions. *)
From Coq Require Import ZArith List Reals.
Import ListNotations.
Local Open Scope R_scope.

(** A decimal number of at most [n] significant digits. *)
Definition decimal (n : nat) (v : R) : Prop := exists m e : Z, (Z.abs m < 10 ^ Z.of_nat n)%Z /\ v = IZR m * powerRZ 10 e.
(** No decimal number of [n] digits is closer to [x] than [v]. *)
Definition closest (n : nat) (x v : R) : Prop := decimal n v /\ forall w, decimal n w -> Rabs (v - x) <= Rabs (w - x).
(** A finite double. *)
Definition isDouble (x : R) : Prop := exists m e : Z, (Z.abs m < 2 ^ 53)%Z /\ (-1074 <= e <= 971)%Z /\ x = IZR m * powerRZ 2 e.
(** A mean over a list. *)
Definition mean (l : list R) : R := fold_right Rplus 0 l / INR (length l).
(** A time that is zero or not extremely small. *)
Definition plainTime (t : R) : Prop := t = 0 \/ / 2 ^ 1000 <= Rabs t.

(** What the element numbering helpers promise, in terms of distances and counts. *)
From Coq Require Import ZArith List Reals.
From Verif Require Import Common.
Import ListNotations.

(** Squared distance as a sum over coordinates. *)
Definition sq (a b : list R) : R := fold_right Rplus 0%R (map (fun xy => Rsqr (fst xy - snd xy)) (combine a b)).
(** Two centres are within the tolerance. *)
Definition within (eps : R) (a b : list R) : Prop := (sq a b <= Rsqr eps)%R.
(** [j] is the last index of [l] whose centre is within [eps] of [c]. *)
Definition lastWithin (eps : R) (c : list R) (l : list (list R)) (j : nat) : Prop :=
  (exists d, nth_error l j = Some d /\ within eps c d) /\
  forall k d, j < k -> nth_error l k = Some d -> ~ within eps c d.
(** Element [g] of the whole mesh is element [j] of the process [rank]. *)
Definition isLocal (rank : nat) (part : list nat) (g j : nat) : Prop :=
  nth_error part g = Some rank /\ j = count_occ Nat.eq_dec (firstn g part) rank.
(** No two centres are within [eps]. *)
Definition apart (eps : R) (centres : list (list R)) : Prop :=
  forall i j a b, nth_error centres i = Some a -> nth_error centres j = Some b -> i <> j -> ~ within eps a b.

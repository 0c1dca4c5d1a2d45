(** What sharing of matrices should mean. *)
From Coq Require Import ZArith List Bool Reals.
From Flocq Require Import Core.Raux IEEE754.Binary IEEE754.Bits.
From Verif Require Import Store_Model.
Import ListNotations.

(** Same value: equal numbers (zeros of either sign), or the same infinity. *)
Definition sameVal (x y : binary64) : Prop :=
  match x, y with
  | B754_infinity _ _ s, B754_infinity _ _ s' => s = s'
  | B754_nan _ _ _ _ _, _ | _, B754_nan _ _ _ _ _ => False
  | B754_infinity _ _ _, _ | _, B754_infinity _ _ _ => False
  | _, _ => B2R 53 1024 x = B2R 53 1024 y
  end.
Definition sameMat (a b : dmat) : Prop :=
  d_rows a = d_rows b /\ d_cols a = d_cols b /\
  forall i j, (i < d_rows a)%nat -> (j < d_cols a)%nat -> sameVal (d_at a i j) (d_at b i j).
Definition noNan (a : dmat) : Prop :=
  forall i j, (i < d_rows a)%nat -> (j < d_cols a)%nat -> is_nan 53 1024 (d_at a i j) = false.
(** Strict weak ordering on a class of matrices. *)
Definition strictWeak (P : dmat -> Prop) (lt : dmat -> dmat -> bool) : Prop :=
  (forall a, P a -> lt a a = false) /\
  (forall a b c, P a -> P b -> P c -> lt a b = true -> lt b c = true -> lt a c = true) /\
  (forall a b c, P a -> P b -> P c -> lt a b = false -> lt b a = false -> lt b c = false -> lt c b = false ->
     lt a c = false /\ lt c a = false).

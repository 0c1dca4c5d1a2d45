(** Collections as values: each name has a list of values; [None] marks what was moved away. *)
From Coq Require Import ZArith List Bool.
From Verif Require Import Common.
Import ListNotations.
Local Open Scope Z_scope.

Section Spec.
Variable A : Type.
Inductive act := AAdd (c : Z) (v : A) | ACopy (c c' : Z) | AMove (c c' : Z) | AMut (c k : Z) (v : A).
Definition bank := Z -> list (option A).
Definition put (b : bank) (c : Z) (l : list (option A)) : bank := fun j => if j =? c then l else b j.
Definition full (l : list (option A)) : Prop := ~ In None l.
(** What is allowed: no copy or move of a collection onto itself, no copy of what was moved
    away, writes only to what is there. *)
Definition legal (b : bank) (a : act) : Prop :=
  match a with
  | AAdd _ _ => True
  | ACopy c c' => c <> c' /\ full (b c')
  | AMove c c' => c <> c'
  | AMut c k _ => 0 <= k /\ exists v, nth_error (b c) (Z.to_nat k) = Some (Some v)
  end.
Definition after (b : bank) (a : act) : bank :=
  match a with
  | AAdd c v => put b c (b c ++ [Some v])
  | ACopy c c' => put b c (b c')
  | AMove c c' => put (put b c' (map (fun _ => None) (b c'))) c (b c')
  | AMut c k v => put b c (firstn (Z.to_nat k) (b c) ++ [Some v] ++ skipn (S (Z.to_nat k)) (b c))
  end.
Inductive history : bank -> list act -> bank -> Prop :=
| h_nil : forall b, history b [] b
| h_cons : forall b a l b', legal b a -> history (after b a) l b' -> history b (a :: l) b'.
End Spec.
Arguments AAdd {A}. Arguments ACopy {A}. Arguments AMove {A}. Arguments AMut {A}.

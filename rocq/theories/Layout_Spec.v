(** The intended layout: six blocks one after the other, Ex Ey Ez Hx Hy Hz. *)
From Coq Require Import ZArith List Bool.
From Verif Require Import Common Layout_Model.
Import ListNotations.
Local Open Scope Z_scope.

Definition order : list (fld * Z) := [(FE, 0); (FE, 1); (FE, 2); (FH, 0); (FH, 1); (FH, 2)].
Definition isDir (d : Z) : Prop := 0 <= d < 3.
Definition fld_eqb (a b : fld) : bool := match a, b with FE, FE => true | FH, FH => true | _, _ => false end.

(** State vector holding the six components [B]. *)
Definition stateOf {A} (B : fld -> Z -> list A) : list A := flat_map (fun c => B (fst c) (snd c)) order.
Definition sized {A} (n : nat) (B : fld -> Z -> list A) : Prop := forall f d, isDir d -> length (B f d) = n.
(** Same components except entry [i] of (f, d). *)
Definition change1 {A} (B : fld -> Z -> list A) (f : fld) (d : Z) (i : nat) (a : A) : fld -> Z -> list A :=
  fun f' d' => if fld_eqb f f' && (d =? d') then firstn i (B f d) ++ a :: skipn (S i) (B f d) else B f' d'.
Definition covers (w : win) (j : Z) : Prop := w_base w <= j < w_base w + w_len w.

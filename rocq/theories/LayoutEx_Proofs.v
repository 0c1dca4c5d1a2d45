From Coq Require Import ZArith List Bool Lia.
From Verif Require Import Common Layout_Model Layout_Spec Layout_Proofs.
Import ListNotations.
Local Open Scope Z_scope.

Lemma read_field : forall {A} (B : fld -> Z -> list A) n f d i, sized n B -> isDir d -> (i < n)%nat ->
  readW (fieldWin (Z.of_nat n) f d) (stateOf B) (Z.of_nat i) = zget (B f d) (Z.of_nat i).
Proof. intros A B n f d i Hs Hd Hi. apply (read_placed B n); try assumption. apply fieldWin_placed. Qed.
Lemma write_field : forall {A} (B : fld -> Z -> list A) n f d i a, sized n B -> isDir d -> (i < n)%nat ->
  writeW (fieldWin (Z.of_nat n) f d) (stateOf B) (Z.of_nat i) a = Ok (stateOf (change1 B f d i a)).
Proof. intros A B n f d i a Hs Hd Hi. apply (write_placed B n); try assumption. apply fieldWin_placed. Qed.

Definition exB18 (f : fld) (d : Z) : list Z := let k := 10 * (3 * fnum f + d) in [k; k + 1].
Lemma ex18_sized : sized 2 exB18.
Proof. intros f d _. reflexivity. Qed.
Lemma ex18_write : writeW (fieldWin 2 FH 1) (stateOf exB18) 1 99 = Ok [0; 1; 10; 11; 20; 21; 30; 31; 40; 99; 50; 51].
Proof. reflexivity. Qed.
Lemma ex18_read : readW (globalWin 2 FH) (stateOf exB18) 3 = Ok 41.
Proof. reflexivity. Qed.

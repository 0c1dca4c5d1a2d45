(** Specification vocabulary for the accuracy of the time integrators. *)
From Coq Require Import ZArith List Bool Reals.
From Verif Require Import Common Face_Model Form_Model Nodal_Spec Global_Spec.
Import ListNotations.
Local Open Scope R_scope.

(** The difference of two states and its size: the root of its energy. *)
Definition difference (x y : list R) : list R := map (fun p => fst p - snd p) (combine x y).
Definition size (N : nat) (Mass : Z -> mat) (x : list R) : R := sqrt (fieldEnergy N Mass x).
(** Formal order of the integrators, by the number of the option. *)
Definition order (type : Z) : nat := nth (Z.to_nat type) [4; 1; 2; 2; 3; 2; 4]%nat 0%nat.
(** What the binary64 constants of SDIRK33 leave. *)
Definition constantError (type : Z) (z : R) : R := if (type =? 4)%Z then / 10 ^ 16 * z else 0.

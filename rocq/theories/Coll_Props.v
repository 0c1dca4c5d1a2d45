(** C31: collections of sources are values. *)
From Coq Require Import ZArith List Bool.
From Verif Require Import Common Coll_Model Coll_Spec Coll_Proofs.
Import ListNotations.
Local Open Scope Z_scope.

(** Every legal history of additions, copies, moves and writes gives, for each collection,
    the values an independent list would hold, in order. *)
Theorem C31_values_partial : forall (A : Type) (l : list (act A)) b, history A (fun _ => []) l b ->
  exists s, execAll A (map (toOp A) l) = Ok s /\
  forall c, (forall vs, b c = map Some vs -> values A s c = Ok vs) /\ (In None (b c) -> values A s c = UB).
Proof. exact coll_run. Qed.
Print Assumptions C31_values_partial.
Example C31_values_ex : (exists b, history Z (fun _ => []) exActs b /\ forall c, b c = exBank c) /\
  exists s, execAll Z (map (toOp Z) exActs) = Ok s /\ values Z s 1 = Ok [99; 20] /\ values Z s 2 = Ok [10; 20; 30] /\ values Z s 0 = UB.
Proof. exact (conj ex_history ex_run). Qed.

(** A copy equals the original, and later changes to either leave the other alone. *)
Theorem C31_copy_partial : forall (A : Type) (l : list (act A)) b c c' m b' vs, history A (fun _ => []) l b -> c <> c' -> b c' = map Some vs ->
  history A (after A b (ACopy c c')) m b' ->
  exists s, execAll A (map (toOp A) (l ++ [ACopy c c'] ++ m)) = Ok s /\
    ((forall a, In a m -> touches A c a = false) -> values A s c = Ok vs) /\ ((forall a, In a m -> touches A c' a = false) -> values A s c' = Ok vs).
Proof. exact copy_independent. Qed.
Print Assumptions C31_copy_partial.

(** Assigning a collection to itself empties it. *)
Theorem C31_self_refuted : exists s, execAll Z [OAdd 0 10; OCopy 0 0] = Ok s /\ values Z s 0 = Ok [].
Proof. exact ex_self. Qed.
Print Assumptions C31_self_refuted.

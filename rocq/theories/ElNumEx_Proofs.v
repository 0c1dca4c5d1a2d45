From Coq Require Import ZArith List Bool Arith Lia Reals Lra.
From Verif Require Import Common ElNum_Model ElNum_Spec ElNum_Proofs.
Import ListNotations.

(** Four unit segments in a row, alternately on two processes. *)
Definition row : list (list R) := [[/ 2]; [3 / 2]; [5 / 2]; [7 / 2]]%R.
Definition rowPart : list nat := [0; 1; 0; 1].
(** Two segments shorter than the tolerance. *)
Definition fine : list (list R) := [[0]; [/ 1000000]]%R.

Ltac noWithin := unfold within, sq, Rsqr; cbn [combine map fold_right fst snd]; lra.

Lemma row_apart : apart (/ 100000) row.
Proof.
  intros i j a b Qi Qj N W.
  destruct i as [|[|[|[|i]]]]; destruct j as [|[|[|[|j]]]]; cbn [nth_error row] in Qi, Qj;
    try (destruct i; discriminate); try (destruct j; discriminate); try congruence;
    injection Qi as <-; injection Qj as <-; revert W; noWithin.
Qed.
Lemma ex_map :
  length rowPart = length row /\ apart (/ 100000) row /\
  mapOnRank 1 rowPart row 3 = Some 1 /\ mapOnRank 0 rowPart row 3 = None /\ mapOnRank 0 rowPart row 2 = Some 1.
Proof.
  split; [reflexivity|]. split; [exact row_apart|].
  assert (M : forall r g j, mapOnRank r rowPart row g = Some j <-> isLocal r rowPart g j) by (intros; apply map_on_rank; [reflexivity|exact row_apart]).
  repeat split.
  - apply M. split; reflexivity.
  - destruct (mapOnRank 0 rowPart row 3) as [j|] eqn:Q; [|reflexivity]. apply M in Q. destruct Q as [Q _]. discriminate.
  - apply M. split; reflexivity.
Qed.
Lemma ex_last :
  globalToLocal (elem2Center fine) (elem2Center fine) 0 = Some 1 /\ lastWithin (/ 100000) [0%R] fine 1 /\ ~ lastWithin (/ 100000) [0%R] row 0.
Proof.
  assert (L : lastWithin (/ 100000) [0%R] fine 1).
  { split.
    - exists [(/ 1000000)%R]. split; [reflexivity|]. noWithin.
    - intros [|[|k]] d K Q; try lia. destruct k; discriminate. }
  repeat split.
  - apply global_to_local. exists [0%R]. split; [reflexivity|exact L].
  - exact (proj1 L).
  - exact (proj2 L).
  - intros [[d [Q W]] _]. injection Q as <-. revert W. noWithin.
Qed.

(** With elements shorter than the tolerance, two elements of one process share a number, and an element
    of another process is found here. *)
Lemma fine_shares : ~ forall rank part centres, length part = length centres ->
  (forall g h j, mapOnRank rank part centres g = Some j -> mapOnRank rank part centres h = Some j -> g = h).
Proof.
  intros H. enough (0 = 1) by discriminate. apply (H 0 [0; 0] fine eq_refl 0 1 1).
  - exact (proj1 ex_last).
  - apply global_to_local. exists [(/ 1000000)%R]. split; [reflexivity|]. split.
    + exists [(/ 1000000)%R]. split; [reflexivity|]. noWithin.
    + intros [|[|k]] d K Q; try lia. destruct k; discriminate.
Qed.
Lemma fine_steals : ~ forall rank part centres, length part = length centres ->
  (forall g j, mapOnRank rank part centres g = Some j -> nth_error part g = Some rank).
Proof.
  intros H. enough (Some 1 = Some 0) by discriminate. apply (H 0 [0; 1] fine eq_refl 1 0).
  apply global_to_local. exists [(/ 1000000)%R]. split; [reflexivity|]. split.
  - exists [0%R]. split; [reflexivity|]. noWithin.
  - intros [|k] d K Q; try lia. destruct k; discriminate.
Qed.
Lemma fine_both : ~ (forall rank part centres, length part = length centres -> forall g j, mapOnRank rank part centres g = Some j -> nth_error part g = Some rank) /\
  ~ (forall rank part centres, length part = length centres -> forall g h j, mapOnRank rank part centres g = Some j -> mapOnRank rank part centres h = Some j -> g = h).
Proof. split; [exact fine_steals|exact fine_shares]. Qed.

Lemma ex_types : ensureSameType [3; 3; 3]%Z = Ok tt /\ ensureSameType [3; 3; 4]%Z = Throw.
Proof. split; reflexivity. Qed.
Lemma empty_mesh : ~ forall types, ensureSameType types <> UB.
Proof. intros H. exact (H [] eq_refl). Qed.

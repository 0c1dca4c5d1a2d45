(** C114: element numbers of the partitions and the check of the element types. *)
From Coq Require Import ZArith List Reals.
From Verif Require Import Common ElNum_Model ElNum_Spec ElNum_Proofs ElNumEx_Proofs.
Import ListNotations.

(** A mesh with elements passes the check exactly when all its elements have one type, and is refused with
    an exception exactly when two of them differ. *)
Theorem C114_types : forall types, types <> [] ->
  (ensureSameType types = Ok tt <-> forall a b, In a types -> In b types -> a = b) /\
  (ensureSameType types = Throw <-> exists a b, In a types /\ In b types /\ a <> b).
Proof. exact check_types. Qed.
Print Assumptions C114_types.

Example C114_types_example : ensureSameType [3; 3; 3]%Z = Ok tt /\ ensureSameType [3; 3; 4]%Z = Throw.
Proof. exact ex_types. Qed.

(** A mesh without elements is not refused: an element that does not exist is read. *)
Theorem C114_empty_refuted : ~ forall types, ensureSameType types <> UB.
Proof. exact empty_mesh. Qed.
Print Assumptions C114_empty_refuted.

(** For all lists of centres, an element of the whole mesh is mapped to the last local element whose
    centre is within 1e-5, and to nothing when there is none. *)
Theorem C114_nearest : forall serial local g j,
  globalToLocal (elem2Center serial) (elem2Center local) g = Some j <->
  exists c, nth_error serial g = Some c /\ lastWithin (/ 100000) c local j.
Proof. exact global_to_local. Qed.
Print Assumptions C114_nearest.

Example C114_nearest_example :
  globalToLocal (elem2Center fine) (elem2Center fine) 0 = Some 1 /\ lastWithin (/ 100000) [0%R] fine 1 /\ ~ lastWithin (/ 100000) [0%R] row 0.
Proof. exact ex_last. Qed.

(** When the centres are more than 1e-5 apart, for every partition and on every process, an element is
    mapped exactly when the process owns it, and to its number among the elements of the process. *)
Theorem C114_partition : forall rank part centres, length part = length centres -> apart (/ 100000) centres ->
  forall g j, mapOnRank rank part centres g = Some j <-> isLocal rank part g j.
Proof. exact map_on_rank. Qed.
Print Assumptions C114_partition.

Example C114_partition_example :
  length rowPart = length row /\ apart (/ 100000) row /\
  mapOnRank 1 rowPart row 3 = Some 1 /\ mapOnRank 0 rowPart row 3 = None /\ mapOnRank 0 rowPart row 2 = Some 1.
Proof. exact ex_map. Qed.

(** Then every element has exactly one process and one number there. *)
Theorem C114_one_rank : forall part centres, length part = length centres -> apart (/ 100000) centres ->
  forall g, g < length centres ->
  exists rank j, mapOnRank rank part centres g = Some j /\ (forall r k, mapOnRank r part centres g = Some k -> r = rank /\ k = j).
Proof. exact one_rank. Qed.
Print Assumptions C114_one_rank.

(** And no two elements share a number on a process. *)
Theorem C114_no_sharing : forall rank part centres, length part = length centres -> apart (/ 100000) centres ->
  forall g h j, mapOnRank rank part centres g = Some j -> mapOnRank rank part centres h = Some j -> g = h.
Proof. exact no_sharing. Qed.
Print Assumptions C114_no_sharing.

(** Both fail for meshes with elements finer than the tolerance. *)
Theorem C114_fine_refuted :
  ~ (forall rank part centres, length part = length centres -> forall g j, mapOnRank rank part centres g = Some j -> nth_error part g = Some rank) /\
  ~ (forall rank part centres, length part = length centres -> forall g h j, mapOnRank rank part centres g = Some j -> mapOnRank rank part centres h = Some j -> g = h).
Proof. exact fine_both. Qed.
Print Assumptions C114_fine_refuted.

(** C18: where each field component lives in the state vector. *)
From Coq Require Import ZArith List Bool.
From Verif Require Import Common Layout_Model Layout_Spec Layout_Proofs LayoutEx_Proofs.
Import ListNotations.
Local Open Scope Z_scope.

(** Reading and writing through the view of a component. *)
Theorem C18_read : forall {A} (B : fld -> Z -> list A) n f d i, sized n B -> isDir d -> (i < n)%nat ->
  readW (fieldWin (Z.of_nat n) f d) (stateOf B) (Z.of_nat i) = zget (B f d) (Z.of_nat i).
Proof. exact @read_field. Qed.
Print Assumptions C18_read.
Theorem C18_write : forall {A} (B : fld -> Z -> list A) n f d i a, sized n B -> isDir d -> (i < n)%nat ->
  writeW (fieldWin (Z.of_nat n) f d) (stateOf B) (Z.of_nat i) a = Ok (stateOf (change1 B f d i a)).
Proof. exact @write_field. Qed.
Print Assumptions C18_write.
Theorem C18_outside : forall {A} n f d (x : list A) i, ~ (0 <= i < n) -> readW (fieldWin n f d) x i = UB.
Proof. exact @read_outside. Qed.
Print Assumptions C18_outside.
(** Every entry of the state belongs to exactly one component. *)
Theorem C18_cover : forall n j, 0 <= j < 6 * n ->
  exists f d, isDir d /\ covers (fieldWin n f d) j /\ forall f' d', isDir d' -> covers (fieldWin n f' d') j -> f' = f /\ d' = d.
Proof. exact windows_cover. Qed.
Print Assumptions C18_cover.
(** The three-component views hold the components one after the other. *)
Theorem C18_vector_views : forall {A} n f d (x : list A) i, isDir d -> 0 <= i < n ->
  readW (globalWin n f) x (d * n + i) = readW (fieldWin n f d) x i.
Proof. exact @globalWin_as_components. Qed.
Print Assumptions C18_vector_views.
(** The assembled operator, the other two operators and the source injector agree. *)
Theorem C18_offsets : forall lb nb f d loc,
  rowStart (fieldOffsets lb nb f d loc) = w_base (fieldWin lb f d) /\
  rowEnd (fieldOffsets lb nb f d loc) = w_base (fieldWin lb f d) + w_len (fieldWin lb f d) /\
  colStart (fieldOffsets lb nb f d loc) = w_base (fieldWin (lb + nb) f d) /\
  colEnd (fieldOffsets lb nb f d false) = w_base (fieldWin (lb + nb) f d) + w_len (fieldWin (lb + nb) f d) /\
  colEnd (fieldOffsets lb nb f d true) = colStart (fieldOffsets lb nb f d true) + lb.
Proof. exact offsets_same_layout. Qed.
Print Assumptions C18_offsets.
Theorem C18_other_operators : forall n f d, hesthavenWin n f d = fieldWin n f d /\ maxwellWin n f d = fieldWin n f d.
Proof. exact other_windows. Qed.
Print Assumptions C18_other_operators.
Theorem C18_sources : forall {A} (B : fld -> Z -> list A) n, sized n B ->
  buildSingleVectorTFSFFunc B = Ok (map Some (stateOf B)).
Proof. exact @tfsf_layout. Qed.
Print Assumptions C18_sources.
Theorem C18_copies : forall {A} (B : fld -> Z -> list A) n f d, sized n B -> isDir d ->
  loadOld (Z.of_nat n) (stateOf B) f d = Ok (map Some (B f d)).
Proof. exact @loadOld_ok. Qed.
Print Assumptions C18_copies.

Example C18_ex_sized : sized 2 exB18.
Proof. exact ex18_sized. Qed.
Example C18_ex_write : writeW (fieldWin 2 FH 1) (stateOf exB18) 1 99 = Ok [0; 1; 10; 11; 20; 21; 30; 31; 40; 99; 50; 51].
Proof. exact ex18_write. Qed.
Example C18_ex_read : readW (globalWin 2 FH) (stateOf exB18) 3 = Ok 41.
Proof. exact ex18_read. Qed.

(** C120: the total-field side of a line or surface. *)
From Coq Require Import ZArith List Bool Reals.
From Verif Require Import Common Sub_Model Side_Model Side_Spec Side_Proofs Sub_Spec SubEx_Proofs SideEx_Proofs.
Import ListNotations.
Local Open Scope R_scope.

(** In the element-wise evolution the total field is to the right of the boundary segments: an element left of
    the segment with its neighbour to the right has the scattered field, and the other way round. *)
Theorem C120_right : forall m be e1 e2 u v c1 c2, m_dim m = 2%Z -> segment m be e1 e2 u v -> centre m e1 c1 -> centre m e2 c2 ->
  (leftOf u v c1 -> rightOf u v c2 -> elementwiseElem1IsTF m be = Ok false) /\
  (rightOf u v c1 -> leftOf u v c2 -> elementwiseElem1IsTF m be = Ok true).
Proof. exact right_is_total. Qed.
Print Assumptions C120_right.
Example C120_segment_met : m_dim strip = 2%Z /\ segment strip 1 1 2 (2, 1, 0) (2, 0, 0) /\ centre strip 1 (3 / 2, 1 / 2, 0) /\ centre strip 2 (5 / 2, 1 / 2, 0) /\
  rightOf (2, 1, 0) (2, 0, 0) (3 / 2, 1 / 2, 0) /\ leftOf (2, 1, 0) (2, 0, 0) (5 / 2, 1 / 2, 0).
Proof. exact (conj eq_refl strip_segment). Qed.

(** Both evolutions take the same side if the boundary segment runs as the face of the mesh does, and opposite
    sides if it runs the other way. *)
Theorem C120_agree_partial : forall m be same o, m_dim m = 2%Z -> faceRuns m be same -> faceOrientation m be = Ok o -> o <> 0 ->
  exists k, elem1IsTF2D m be = Ok k /\ elementwiseElem1IsTF m be = Ok (if same then k else negb k).
Proof. exact both_sides. Qed.
Print Assumptions C120_agree_partial.
Example C120_runs_met : faceRuns strip 0 true /\ faceRuns strip 1 false /\ exists o, faceOrientation strip 1 = Ok o /\ o = 1.
Proof. exact (conj (proj1 strip_runs) (conj (proj2 strip_runs) strip_orientation)). Qed.

(** So they do not always take the same side. *)
Theorem C120_agree_refuted : exists m be o, m_dim m = 2%Z /\ faceOrientation m be = Ok o /\ o <> 0 /\
  elem1IsTF2D m be = Ok false /\ elementwiseElem1IsTF m be = Ok true.
Proof. exact strip_sides. Qed.
Print Assumptions C120_agree_refuted.

(** In space the element-wise evolution puts the total field on the side from which the corners of the face of the
    mesh run counterclockwise. *)
Theorem C120_space : forall m be e1 e2 u v w c1 c2, m_dim m = 3%Z -> facet m be e1 e2 u v w -> centre3 m e1 c1 -> centre3 m e2 c2 ->
  (height u v w c1 < 0 < height u v w c2 -> elementwiseElem1IsTF m be = Ok false) /\
  (height u v w c2 < 0 < height u v w c1 -> elementwiseElem1IsTF m be = Ok true).
Proof. exact space_side. Qed.
Print Assumptions C120_space.
Example C120_space_met : m_dim stack = 3%Z /\ facet stack 5 0 1 (0, 0, 1) (1, 0, 1) (0, 1, 1) /\ centre3 stack 0 (1 / 2, 1 / 2, 1 / 2) /\ centre3 stack 1 (1 / 2, 1 / 2, 3 / 2) /\
  height (0, 0, 1) (1, 0, 1) (0, 1, 1) (1 / 2, 1 / 2, 1 / 2) < 0 < height (0, 0, 1) (1, 0, 1) (0, 1, 1) (1 / 2, 1 / 2, 3 / 2).
Proof. exact stack_facet. Qed.

(** Nor in space: on a cube with another cube on top, the global evolution takes the marked cube as total field, the
    element-wise evolution the other one. *)
Theorem C120_space_refuted : exists m marker c be, wfMesh m /\ wfGeo m /\ covers m marker /\ m_dim m = 3%Z /\ tfsfCenter m marker = Ok c /\
  elem1IsTF3D m c be = Ok true /\ elementwiseElem1IsTF m be = Ok false.
Proof. exact stack_sides. Qed.
Print Assumptions C120_space_refuted.

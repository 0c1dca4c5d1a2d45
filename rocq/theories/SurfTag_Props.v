(** C119: the surface in the file is the one with the tags of the probe. *)
From Coq Require Import ZArith List Bool Reals.
From Verif Require Import Common Sub_Model SurfGeo_Model SurfGeo_Spec SurfTag_Model SurfTag_Spec SurfTag_Proofs SurfGeoEx_Proofs SurfTagEx_Proofs.
Import ListNotations.
Local Open Scope Z_scope.

(** If the boundary of the sub-mesh does not have the attribute 201 by itself, the file describes the quadrature
    points of the faces that lie on boundary elements with a tag of the probe, and no others. *)
Theorem C119_surface_partial : forall dim m maxAttr tags f, goodFamily m maxAttr f -> goodTags maxAttr tags ->
  ~ In 201 (fa_attr f) -> (exists i, onTagged m tags f i) ->
  exists sel, length sel = length (fa_attr f) /\ (forall i, nth_error sel i = Some true <-> onTagged m tags f i) /\
    let pts := pick sel (fa_rule f) in
    (Forall (regular dim) pts -> exists A, exportSurface dim m maxAttr tags f = Ok (length pts, A) /\ describes dim pts (a_pos A) (a_nor A) (a_wei A)).
Proof. exact surface_ok. Qed.
Print Assumptions C119_surface_partial.
Example C119_hypotheses_met : goodFamily (exMesh 7) 7 (exFam 7) /\ goodTags 7 [5] /\ ~ In 201 (fa_attr (exFam 7)) /\
  (exists i, onTagged (exMesh 7) [5] (exFam 7) i) /\ Forall (regular 2) (pick [true; true; false] (fa_rule (exFam 7))).
Proof. exact ex_hypotheses. Qed.

(** Missing: a face that has the attribute 201 in the mesh is written although the probe does not ask for it. *)
Theorem C119_attribute_refuted : exists dim m maxAttr tags f sel A, goodFamily m maxAttr f /\ goodTags maxAttr tags /\
  (forall i, nth_error sel i = Some true <-> onTagged m tags f i) /\ length (pick sel (fa_rule f)) = 2%nat /\
  exportSurface dim m maxAttr tags f = Ok (3%nat, A).
Proof. exact ex_inherited. Qed.
Print Assumptions C119_attribute_refuted.

(** A tag that is no attribute of the mesh is not refused: outside the range of the attributes the behaviour is
    undefined. *)
Theorem C119_tag_refuted : forall m maxAttr tags f t, In t tags -> ~ 1 <= t <= maxAttr -> childElements m maxAttr tags f = UB.
Proof. exact tag_outside. Qed.
Print Assumptions C119_tag_refuted.

(** C118: the geometry section of a far-field surface file. *)
From Coq Require Import ZArith List Bool Reals.
From Verif Require Import Common Face_Model SurfGeo_Model SurfGeo_Spec SurfGeo_Proofs SurfGeoEx_Proofs Codec_Model Codec_Spec.
Import ListNotations.
Local Open Scope R_scope.

(** The number of points in the header is the number of quadrature points of the surface. *)
Theorem C118_count : forall els, hasSurface els -> totalQuadPts els = Ok (length (surfacePoints els)).
Proof. exact count_ok. Qed.
Print Assumptions C118_count.

(** The arrays have the positions of these points, normals of length one that point across the face as the cross
    product of its tangents does, and weights that times the normal are the vector area of the point. *)
Theorem C118_geometry : forall dim els, hasSurface els -> Forall (regular dim) (surfacePoints els) ->
  exists A, writeGeometry dim els = Ok A /\ describes dim (surfacePoints els) (a_pos A) (a_nor A) (a_wei A).
Proof. exact geometry_ok. Qed.
Print Assumptions C118_geometry.

(** The reader of the far-field tool gives back the header and these arrays, whatever the encoding of the numbers
    as 64-bit patterns and whatever the snapshots. *)
Theorem C118_read : forall dim els A N (bits : R -> Z) dofs basis snaps, hasSurface els -> Forall (regular dim) (surfacePoints els) ->
  totalQuadPts els = Ok N -> writeGeometry dim els = Ok A -> (forall x, isDouble (bits x)) ->
  isInt32 (Z.of_nat dim) -> isInt32 (Z.of_nat (length els)) -> isInt32 basis -> (0 <= dofs)%Z -> isInt32 dofs ->
  isInt32 (Z.of_nat N * Z.of_nat dim) -> isInt32 (Z.of_nat N * 3) ->
  let g := mkGeo (Z.of_nat dim) dofs (Z.of_nat (length els)) (Z.of_nat N) basis
             (map bits (a_pos A)) (map bits (a_nor A)) (map bits (a_wei A)) in
  Forall (goodSnapshot dofs) snaps -> readRankData (fileOf g snaps) = Ok (g, snaps).
Proof. exact read_back. Qed.
Print Assumptions C118_read.

(** Two edges with three points, an element of another boundary and one without transformation. *)
Example C118_hypotheses_met : hasSurface exEls /\ Forall (regular 2) (surfacePoints exEls) /\ totalQuadPts exEls = Ok 3%nat.
Proof. exact ex_met. Qed.
Example C118_space_met : hasSurface exEls3 /\ Forall (regular 3) (surfacePoints exEls3) /\ length (surfacePoints exEls3) = 1%nat.
Proof. exact ex_met3. Qed.

(** The sub-mesh has to have an attribute from 201 on, otherwise the behaviour is undefined. A process without
    marked faces does not come here, as its sub-mesher throws (C76). *)
Theorem C118_unmarked : forall dim els, (forall e, In e els -> (be_attr e < 201)%Z) ->
  totalQuadPts els = UB /\ writeGeometry dim els = UB.
Proof. exact unmarked. Qed.
Print Assumptions C118_unmarked.

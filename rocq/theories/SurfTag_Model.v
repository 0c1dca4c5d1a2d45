(** Model of how a far-field surface gets from the tags of a probe to the file: buildSurfaceMarker of
    src/solver/ProbesManager.cpp 531-539, setBoundaryAttributesInChild of src/components/SubMesher.cpp 310-326 (in
    Sub_Model.v) and the geometry section of the file (in SurfGeo_Model.v), in the order of the constructor of
    RCSSurfaceExporter, RCSSurfaceExporter.cpp 10-69. *)
From Coq Require Import ZArith List Bool.
From Verif Require Import Common Sub_Model SurfGeo_Model.
Import ListNotations.
Local Open Scope Z_scope.

(** buildSurfaceMarker, ProbesManager.cpp 531-539; [maxAttr] is bdr_attributes.Max(). *)
Definition buildSurfaceMarker (maxAttr : Z) (tags : list Z) : res (list Z) :=
  foldM (fun m t => zset m (t - 1) 1) tags (repeat 0 (Z.to_nat maxAttr)).

(** The arrays MFEM gives for parent and child, SubMesher.cpp 312-314: boundary element of each face of parent and
    child (-1 if none), parent face of each child face, and the attributes and quadrature rules of the boundary
    elements of the child. Attributes of the child are those of the parent where the parent has a boundary
    element, and new ones elsewhere (SubMesh::CreateFromDomain). *)
Record family := mkFam { fa_f2b : list Z; fa_cf2b : list Z; fa_map : list Z; fa_attr : list Z; fa_rule : list (option (list bpoint)) }.

(** The boundary elements of the child after setBoundaryAttributesInChild, SubMesher.cpp 310-326, 352, 793. *)
Definition childElements (m : mesh) (maxAttr : Z) (tags : list Z) (f : family) : res (list belem) :=
  marker <- buildSurfaceMarker maxAttr tags ;;
  a <- setChild m marker (fa_f2b f) (fa_cf2b f) (fa_map f) ntff (fa_attr f) ;;
  Ok (map (fun p => mkBE (fst p) (snd p)) (combine a (fa_rule f))).
(** Number of points and arrays of the file, RCSSurfaceExporter.cpp 10-69, 80-138. *)
Definition exportSurface (dim : nat) (m : mesh) (maxAttr : Z) (tags : list Z) (f : family) : res (nat * arrays) :=
  els <- childElements m maxAttr tags f ;; n <- totalQuadPts els ;; A <- writeGeometry dim els ;; Ok (n, A).

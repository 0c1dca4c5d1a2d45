(** Model of the geometry section of the far-field surface file: the count of quadrature points in the constructor
    and writeGeometry of src/components/RCSSurfaceExporter.cpp 43-65, 82-138, with getNearToFarFieldMarker of
    src/components/FarField.cpp 112-118.

    A double is a real number. MFEM gives, for each boundary element, its attribute and, for each point of the
    quadrature rule of its face, the weight of the rule, the position and the Jacobian; the rule is the same in
    both loops (the same call with the same arguments). *)
From Coq Require Import ZArith List Bool Reals.
From Verif Require Import Common Face_Model.
Import ListNotations.

(** One quadrature point of a face, RCSSurfaceExporter.cpp 101-106 and 114-117. *)
Record bpoint := mkBP { bp_ip : R; bp_pos : list R; bp_geo : geo }.
(** One boundary element; [None] when GetBdrFaceTransformations gives no transformation,
    RCSSurfaceExporter.cpp 92-95. *)
Record belem := mkBE { be_attr : Z; be_rule : option (list bpoint) }.

(** BdrCond::NearToFarField, Types.h 52. *)
Definition ntff : Z := 201.

(** mesh->bdr_attributes.Max(), RCSSurfaceExporter.cpp 45, 83: the array has the attributes of the boundary
    elements; Max reads the first entry, which an empty array does not have. *)
Definition maxAttribute (els : list belem) : res Z :=
  match els with
  | [] => UB
  | e :: t => Ok (fold_left (fun m e => Z.max m (be_attr e)) t (be_attr e))
  end.
(** getNearToFarFieldMarker, FarField.cpp 112-118. *)
Definition getNearToFarFieldMarker (att_size : Z) : res (list Z) :=
  zset (repeat 0%Z (Z.to_nat att_size)) (ntff - 1) 1%Z.

(** The points one turn of either loop goes through: none if the marker is not 1 or there is no
    transformation, RCSSurfaceExporter.cpp 48-55 and 89-98. *)
Definition pointsOf (marker : list Z) (e : belem) : res (list bpoint) :=
  m <- zget marker (be_attr e - 1) ;;
  if negb (m =? 1)%Z then Ok [] else Ok (match be_rule e with Some ps => ps | None => [] end).

(** totalQuadPts, RCSSurfaceExporter.cpp 47-55. Simplified: the count is not limited to the range of int. *)
Definition totalQuadPts (els : list belem) : res nat :=
  size <- maxAttribute els ;; marker <- getNearToFarFieldMarker size ;;
  foldM (fun n e => ps <- pointsOf marker e ;; Ok (n + length ps)%nat) els 0%nat.

(** The three arrays, RCSSurfaceExporter.cpp 85-87. *)
Record arrays := mkArr { a_pos : list R; a_nor : list R; a_wei : list R }.

(** The normal padded with zeros to three components, RCSSurfaceExporter.cpp 114-125. CalcOrtho is not defined
    on the Jacobian of a point. *)
Definition outward (g : geo) : res (list R) :=
  match g with
  | G1 _ => UB
  | _ => let ortho := calculateNormal g in
      foldM (fun out d => o <- zget ortho d ;; zset out d (o / weightOf g)%R) (zseq (length ortho)) [0%R; 0%R; 0%R]
  end.
(** One point, RCSSurfaceExporter.cpp 100-128. *)
Definition writePoint (dim : nat) (A : arrays) (p : bpoint) : res arrays :=
  xs <- mapM (zget (bp_pos p)) (zseq dim) ;;
  ns <- outward (bp_geo p) ;;
  Ok (mkArr (a_pos A ++ xs) (a_nor A ++ ns) (a_wei A ++ [(bp_ip p * weightOf (bp_geo p))%R])).
(** writeGeometry, RCSSurfaceExporter.cpp 80-138, up to the writing of the bytes (which is in Codec_Model.v). *)
Definition writeGeometry (dim : nat) (els : list belem) : res arrays :=
  size <- maxAttribute els ;; marker <- getNearToFarFieldMarker size ;;
  foldM (fun A e => ps <- pointsOf marker e ;; foldM (writePoint dim) ps A) els (mkArr [] [] []).

(** Model of the selection of elements and faces by the sub-meshers,
    src/components/SubMesher.cpp. Coordinates are real numbers. *)
From Coq Require Import ZArith List Bool Reals.
From Verif Require Import Common Conn_Model.
Import ListNotations.
Local Open Scope Z_scope.

(** What mfem::Mesh tells: a boundary element has an attribute, vertices and a face; a face
    has vertices (in the order of the element that created it) and the one or two elements
    beside it; an element has vertices and faces (edges in two dimensions), in local order.
    Simplified: coordinates always have three components, as GetVertex gives.
    Used in [baryElem], SubMesher.cpp 16-42. *)
Definition point := (R * R * R)%type.
(** Used in [faceTrans], SubMesher.cpp 8-14. *)
Record bdrEl := mkBdr { b_attr : Z; b_verts : list Z; b_face : Z }.
(** Used in [faceTrans], SubMesher.cpp 8-14. *)
Record mesh := mkMesh { m_dim : Z; m_coord : list point; m_everts : list (list Z); m_efaces : list (list Z);
  m_fverts : list (list Z); m_fels : list (Z * Z); m_bdr : list bdrEl }.
(** Used in [onePoint], SubMesher.cpp 500-524. *)
Definition numElems (m : mesh) : Z := Z.of_nat (length (m_everts m)).

(** SubMeshingMarkers, Types.h 39-45. *)
Definition TotalFieldMarker := 1000.
(** Types.h 39-45. *)
Definition ScatteredFieldMarker := 2000.
(** Types.h 39-45. *)
Definition GlobalSubMeshMarker := 3000.
(** Types.h 39-45. *)
Definition NearToFarFieldMarker := 4000.
(** SubMesher.cpp 6. *)
Definition NotFound := -1.

(** getFaceElementTransformation, SubMesher.cpp 8-14: (Elem1No, Elem2No).
    Simplified: one of the two calls succeeds. *)
Definition faceTrans (m : mesh) (be : Z) : res (Z * Z) :=
  b <- zget (m_bdr m) be ;; zget (m_fels m) (b_face b).

Local Open Scope R_scope.
(** Used in [baryElem], SubMesher.cpp 16-42. *)
Definition padd3 (a b : point) : point := let '(x, y, z) := a in let '(u, v, w) := b in (x + u, y + v, z + w).
(** Used in [baryVector], SubMesher.cpp 269-279. *)
Definition psub (a b : point) : point := let '(x, y, z) := a in let '(u, v, w) := b in (x - u, y - v, z - w).
(** Used in [baryElem], SubMesher.cpp 16-42. *)
Definition pscal (k : R) (a : point) : point := let '(x, y, z) := a in (k * x, k * y, k * z).
(** Used in [faceOrientation], SubMesher.cpp 582-597. *)
Definition pdot (a b : point) : R := let '(x, y, z) := a in let '(u, v, w) := b in x * u + y * v + z * w.
(** crossProduct, src/math/Calculus.h. Used in [normal3D], SubMesher.cpp 252-267. *)
Definition pcross (a b : point) : point :=
  let '(x, y, z) := a in let '(u, v, w) := b in (y * w - z * v, z * u - x * w, x * v - y * u).
(** Used in [faceOrientation], SubMesher.cpp 582-597. *)
Definition pz (a : point) : R := let '(_, _, z) := a in z.
(** Used in [faceOrientation], SubMesher.cpp 582-597. *)
Definition flat (a : point) : point := let '(x, y, _) := a in (x, y, 0).
(** Used in [baryElem], SubMesher.cpp 16-42. *)
Definition mean (ps : list point) : point := pscal (/ INR (length ps)) (fold_left padd3 ps (0, 0, 0)).
(** getBarycenterOfElement, SubMesher.cpp 16-42. *)
Definition baryElem (m : mesh) (e : Z) : res point :=
  vs <- zget (m_everts m) e ;; ps <- mapM (zget (m_coord m)) vs ;; Ok (mean ps).
(** getBarycenterOfFaceElement, SubMesher.cpp 44-69. *)
Definition baryFace (m : mesh) (f : Z) : res point :=
  vs <- zget (m_fverts m) f ;; ps <- mapM (zget (m_coord m)) vs ;; Ok (mean ps).
(** calculateBarycenters, SubMesher.cpp 269-279, and buildElem1ToElem2BarycenterVector, 281-290. *)
Definition baryVector (m : mesh) (be : Z) : res point :=
  b <- zget (m_bdr m) be ;; ' (e1, e2) <- faceTrans m be ;;
  b1 <- baryElem m e1 ;; b2 <- (if (0 <=? e2)%Z then baryElem m e2 else baryFace m (b_face b)) ;; Ok (psub b2 b1).
(** Used in [tangent2D], SubMesher.cpp 239-250. *)
Definition faceVertex (m : mesh) (be i : Z) : res point :=
  b <- zget (m_bdr m) be ;; vs <- zget (m_fverts m) (b_face b) ;; v <- zget vs i ;; zget (m_coord m) v.
(** buildTangent2D, SubMesher.cpp 239-250. *)
Definition tangent2D (m : mesh) (be : Z) : res point := v0 <- faceVertex m be 0 ;; v1 <- faceVertex m be 1 ;; Ok (psub v1 v0).
(** buildNormal3D, SubMesher.cpp 252-267: a face of four vertices is a SQUARE. *)
Definition normal3D (m : mesh) (be : Z) : res point :=
  b <- zget (m_bdr m) be ;; vs <- zget (m_fverts m) (b_face b) ;;
  v0 <- faceVertex m be 0 ;; v1 <- faceVertex m be 1 ;; v2 <- faceVertex m be (if (length vs =? 4)%nat then 3 else 2) ;;
  Ok (pcross (psub v1 v0) (psub v2 v0)).
(** buildFaceOrientation, SubMesher.cpp 582-597, with buildCrossCoefficient, 569-580. *)
Definition faceOrientation (m : mesh) (be : Z) : res R :=
  if (m_dim m =? 2)%Z then b <- baryVector m be ;; t <- tangent2D m be ;; Ok (pz (pcross (flat b) (flat t)))
  else if (m_dim m =? 3)%Z then b <- baryVector m be ;; n <- normal3D m be ;; Ok (pdot b n)
  else Throw.

(** The centre of the marked surface, 3D, SubMesher.cpp 684-701: mean of the vertices, each counted once. *)
Fixpoint listSet (acc vs : list Z) : list Z :=
  match vs with [] => acc | v :: t => if existsb (Z.eqb v) acc then listSet acc t else listSet (acc ++ [v]) t end.
Local Open Scope Z_scope.
(** [marker[m.GetBdrAttribute(be) - 1] == 1]. Used in [faces1], SubMesher.cpp 549-567. *)
Definition isMarked (m : mesh) (marker : list Z) (be : Z) : res bool :=
  b <- zget (m_bdr m) be ;; k <- zget marker (b_attr b - 1) ;; Ok (k =? 1).
(** Used in [faces1], SubMesher.cpp 549-567. *)
Definition numBdr (m : mesh) : list Z := zseq (length (m_bdr m)).
(** Used in [tfsfSubMesher], SubMesher.cpp 359-395. *)
Definition tfsfCenter (m : mesh) (marker : list Z) : res point :=
  vs <- foldM (fun acc be => k <- isMarked m marker be ;; if k : bool then b <- zget (m_bdr m) be ;; Ok (listSet acc (b_verts b)) else Ok acc) (numBdr m) [] ;;
  ps <- mapM (zget (m_coord m)) vs ;; Ok (if (length ps =? 0)%nat then (0, 0, 0)%R else mean ps).
(** Used in [tfsfSubMesher], SubMesher.cpp 359-395. *)
Definition distSq (a b : point) : R := pdot (psub a b) (psub a b).
(** 2D, 631 and 647, and 3D, SubMesher.cpp 712-739: is the first element of the face in the total field? *)
Definition elem1IsTF2D (m : mesh) (be : Z) : res bool := o <- faceOrientation m be ;; Ok (if Rle_dec 0 o then false else true).
(** Used in [tfsfSubMesher], SubMesher.cpp 359-395. *)
Definition elem1IsTF3D (m : mesh) (c : point) (be : Z) : res bool :=
  b <- zget (m_bdr m) be ;; ' (e1, e2) <- faceTrans m be ;;
  b1 <- baryElem m e1 ;; b2 <- (if 0 <=? e2 then baryElem m e2 else baryFace m (b_face b)) ;;
  Ok (if Rlt_dec (distSq b1 c) (distSq b2 c) then true else false).

(** The loops over the local faces, e.g. SubMesher.cpp 641-650: the first whose sorted vertices are those of
    the boundary element; a default-constructed pair, of first component 0, when there is none. *)
Fixpoint matchFace (m : mesh) (bv fs : list Z) (k : Z) : res Z :=
  match fs with
  | [] => Ok 0
  | f :: t => fv <- zget (m_fverts m) f ;;
      if list_eq_dec Z.eq_dec (sortBy Z.leb fv) (sortBy Z.leb bv) then Ok k else matchFace m bv t (k + 1)
  end.
(** Whether the loop finds one. Used in [oneFace], SubMesher.cpp 629-673. *)
Fixpoint hasFace (m : mesh) (bv fs : list Z) : res bool :=
  match fs with
  | [] => Ok false
  | f :: t => fv <- zget (m_fverts m) f ;; if list_eq_dec Z.eq_dec (sortBy Z.leb fv) (sortBy Z.leb bv) then Ok true else hasFace m bv t
  end.
(** The pair the loop leaves: the local face and [flag], or (0, false).
    Used in [oneFace], SubMesher.cpp 629-673. *)
Definition infoOf (m : mesh) (be e : Z) (flag : bool) : res (Z * bool) :=
  b <- zget (m_bdr m) be ;; fs <- zget (m_efaces m) e ;; h <- hasFace m (b_verts b) fs ;; f <- matchFace m (b_verts b) fs 0 ;;
  Ok (f, if h : bool then flag else false).

(** Attributes of the elements and the two lists. Used in [store], SubMesher.cpp 421-441. *)
Record tfsf := mkT { t_attr : list Z; t_tf : list (Z * Z); t_sf : list (Z * Z) }.
(** setAttributeForTagging, SubMesher.cpp 399-419. *)
Definition tag (at_ : list Z) (e1 e2 : Z) (el1_is_tf : bool) : res (list Z) :=
  let a1 := if el1_is_tf then TotalFieldMarker else ScatteredFieldMarker in
  let a2 := if el1_is_tf then ScatteredFieldMarker else TotalFieldMarker in
  at1 <- zset at_ e1 a1 ;; if 0 <=? e2 then zset at1 e2 a2 else Ok at1.
(** storeElementToFaceInformation, SubMesher.cpp 421-441. *)
Definition store (s : tfsf) (e1 e2 f1 f2 : Z) (el1_is_tf : bool) : tfsf :=
  if negb (f2 =? NotFound) then
    if el1_is_tf then mkT (t_attr s) (t_tf s ++ [(e1, f1)]) (t_sf s ++ [(e2, f2)])
    else mkT (t_attr s) (t_tf s ++ [(e2, f2)]) (t_sf s ++ [(e1, f1)])
  else if el1_is_tf then mkT (t_attr s) (t_tf s ++ [(e1, f1)]) (t_sf s)
  else mkT (t_attr s) (t_tf s) (t_sf s ++ [(e1, f1)]).
(** prepareSubMeshInfo, SubMesher.cpp 443-447. *)
Definition prepare (s : tfsf) (e1 e2 f1 f2 : Z) (el1_is_tf : bool) : res tfsf :=
  at_ <- tag (t_attr s) e1 e2 el1_is_tf ;; Ok (store (mkT at_ (t_tf s) (t_sf s)) e1 e2 f1 f2 el1_is_tf).
(** One marked boundary element, 2D SubMesher.cpp 629-673 and 3D 704-771. In the case without second element
    the inner [set_v2] shadows the outer one, whose face stays 0 (not NotFound). *)
Definition oneFace (m : mesh) (dec : Z -> res bool) (s : tfsf) (be : Z) : res tfsf :=
  d <- dec be ;; ' (e1, e2) <- faceTrans m be ;; ' (f1, tf1) <- infoOf m be e1 d ;;
  ' (f2, _) <- (if 0 <=? e2 then infoOf m be e2 (negb d) else Ok (0, false)) ;; prepare s e1 e2 f1 f2 tf1.
(** Used in [tfsfSubMesher], SubMesher.cpp 359-395. *)
Definition faces23 (m : mesh) (marker : list Z) (dec : Z -> res bool) (s : tfsf) : res tfsf :=
  foldM (fun s be => k <- isMarked m marker be ;; if k : bool then oneFace m dec s be else Ok s) (numBdr m) s.

(** One dimension. *)
(** assignIndividualTFSFAttsOnePoint1D, SubMesher.cpp 500-524. *)
Definition onePoint (m : mesh) (s : tfsf) (be : Z) : res tfsf :=
  ' (e1, e2) <- faceTrans m be ;;
  if e1 =? 0 then prepare s e1 e2 0 NotFound true
  else if e1 =? numElems m - 1 then prepare s e1 e2 1 NotFound true
  else prepare s e1 e2 1 0 false.
(** twoPointAssignator, SubMesher.cpp 470-498; [second] is [flag]. *)
Definition twoPoint (m : mesh) (second : bool) (s : tfsf) (be : Z) : res tfsf :=
  ' (e1, e2) <- faceTrans m be ;;
  if second then (if (e1 =? numElems m - 1) && (e2 <? 0) then prepare s e1 e2 1 NotFound true else prepare s e1 e2 1 0 true)
  else (if (e1 =? 0) && (e2 <? 0) then prepare s e1 e2 0 NotFound true else prepare s e1 e2 1 0 false).
(** setIndividualTFSFAttributesForSubMeshing1D, SubMesher.cpp 549-567, with 526-547. *)
Definition faces1 (m : mesh) (marker : list Z) (s : tfsf) : res tfsf :=
  n <- foldM (fun n be => k <- isMarked m marker be ;; Ok (if k : bool then n + 1 else n)) (numBdr m) 0 ;;
  if n =? 1 then foldM (fun s be => k <- isMarked m marker be ;; if k : bool then onePoint m s be else Ok s) (numBdr m) s
  else if n =? 2 then
    ' (_, s) <- foldM (fun (fs : bool * tfsf) be => k <- isMarked m marker be ;;
                       if k : bool then s' <- twoPoint m (fst fs) (snd fs) be ;; Ok (true, s') else Ok fs) (numBdr m) (false, s) ;; Ok s
  else Throw.
(** cleanInvalidSubMeshEntries, SubMesher.cpp 301-307. *)
Definition clean (l : list (Z * Z)) : list (Z * Z) := filter (fun p => negb (fst p =? -1)) l.
(** TotalFieldScatteredFieldSubMesher, SubMesher.cpp 359-395: attributes and cleaned lists. *)
Definition tfsfSubMesher (m : mesh) (marker attrs : list Z) : res tfsf :=
  let s0 := mkT attrs [] [] in
  s <- (if m_dim m =? 1 then faces1 m marker s0
        else if m_dim m =? 2 then faces23 m marker (elem1IsTF2D m) s0
        else c <- tfsfCenter m marker ;; faces23 m marker (elem1IsTF3D m c) s0) ;;
  Ok (mkT (t_attr s) (clean (t_tf s)) (clean (t_sf s))).
(** SubMesh::CreateFromDomain: the elements of that attribute.
    Used in [tfMesh], SubMesher.cpp 387-393. *)
Definition domain (attrs : list Z) (k : Z) : list Z :=
  filter (fun e => match nth_error attrs (Z.to_nat e) with Some a => a =? k | None => false end) (zseq (length attrs)).
(** SubMesher.cpp 387-393: the sub-meshes are created when the lists are not empty. *)
Definition tfMesh (s : tfsf) : option (list Z) := match t_tf s with [] => None | _ => Some (domain (t_attr s) TotalFieldMarker) end.
(** SubMesher.cpp 391-393. *)
Definition sfMesh (s : tfsf) : option (list Z) := match t_sf s with [] => None | _ => Some (domain (t_attr s) ScatteredFieldMarker) end.

(** setGlobalTFSFAttributesForSubMeshing, SubMesher.cpp 450-468. *)
Definition globalAttrs (m : mesh) (marker attrs : list Z) : res (list Z) :=
  foldM (fun a be => k <- isMarked m marker be ;; if k : bool then
      ' (e1, e2) <- faceTrans m be ;; a <- zset a e1 GlobalSubMeshMarker ;; if 0 <=? e2 then zset a e2 GlobalSubMeshMarker else Ok a
    else Ok a) (numBdr m) attrs.

(** ** Far field *)
(** NearToFarFieldSubMesher::setAttributeForTagging and storeElementToFaceInformation, SubMesher.cpp 886-906. *)
Definition ntffPrepare (s : list Z * list (Z * Z)) (e1 e2 f : Z) (el_is_ntff : bool) : res (list Z * list (Z * Z)) :=
  at_ <- (if el_is_ntff && (0 <=? e2) then zset (fst s) e2 NearToFarFieldMarker
          else if negb el_is_ntff then zset (fst s) e1 NearToFarFieldMarker else Ok (fst s)) ;;
  Ok (at_, if negb (f =? NotFound) then (if el_is_ntff && (0 <=? e2) then snd s ++ [(e2, f)] else snd s ++ [(e1, f)]) else snd s).
(** setSurfaceAttributesForSubMesh2D, SubMesher.cpp 800-830: the face is looked for in the first element. *)
Definition ntff2D (m : mesh) (s : list Z * list (Z * Z)) (be : Z) : res (list Z * list (Z * Z)) :=
  o <- faceOrientation m be ;; ' (e1, e2) <- faceTrans m be ;;
  ' (f, k) <- infoOf m be e1 (if Rle_dec 0 o then false else true) ;; ntffPrepare s e1 e2 f k.
(** setSurfaceAttributesForSubMesh3D, SubMesher.cpp 832-878: the face is looked for in the second element. *)
Definition ntff3D (m : mesh) (s : list Z * list (Z * Z)) (be : Z) : res (list Z * list (Z * Z)) :=
  o <- faceOrientation m be ;; ' (e1, e2) <- faceTrans m be ;;
  ' (f, k) <- (if 0 <=? e2 then infoOf m be e2 (if Rle_dec 0 o then false else true) else infoOf m be e1 false) ;;
  ntffPrepare s e1 e2 f k.
(** NearToFarFieldSubMesher, SubMesher.cpp 776-798: attributes and pairs. *)
Definition ntffSubMesher (m : mesh) (marker attrs : list Z) : res (list Z * list (Z * Z)) :=
  if (m_dim m =? 2) || (m_dim m =? 3) then
    s <- foldM (fun s be => k <- isMarked m marker be ;; if k : bool then (if m_dim m =? 2 then ntff2D m s be else ntff3D m s be) else Ok s)
               (numBdr m) (attrs, []) ;;
    match snd s with [] => Throw | _ => Ok s end
  else Throw.

(** ** Boundary attributes of a sub-mesh *)
(** Array<int>::Find. Used in [setChild], SubMesher.cpp 310-326. *)
Fixpoint findFrom (l : list Z) (v k : Z) : Z := match l with [] => -1 | x :: t => if x =? v then k else findFrom t v (k + 1) end.
(** Used in [setChild], SubMesher.cpp 310-326. *)
Definition findZ (l : list Z) (v : Z) : Z := findFrom l v 0.
(** setBoundaryAttributesInChild, SubMesher.cpp 310-326: [f2b] and [cf2b] are the boundary element of each face
    of parent and child, [fmap] the parent face of each child face, [code] the condition. *)
Definition setChild (m : mesh) (marker f2b cf2b fmap : list Z) (code : Z) (cattr : list Z) : res (list Z) :=
  foldM (fun a be => k <- isMarked m marker be ;; if k : bool then
      let pf := findZ f2b be in if pf <? 0 then Ok a else
      let cf := findZ fmap pf in if cf <? 0 then Ok a else
      cb <- zget cf2b cf ;; if cb <? 0 then Ok a else zset a cb code
    else Ok a) (numBdr m) cattr.

(** ** Transfer between meshes, SubMesher.cpp 922-936 *)
Definition transfer (op : R -> R -> R) (map_ : list Z) (src dst : list R) : res (list R) :=
  foldM (fun d i => k <- zget map_ i ;; x <- zget src i ;; y <- zget d k ;; zset d k (op y x)) (zseq (length map_)) dst.
(** SubMesher.cpp 922-936. *)
Definition transferAdd := transfer Rplus.
(** SubMesher.cpp 922-936. *)
Definition transferSub := transfer Rminus.

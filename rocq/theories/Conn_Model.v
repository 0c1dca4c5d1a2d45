(** Model of the face connectivity of the nodal operator,
    src/evolution/HesthavenEvolutionMethods.cpp.

    The mesh is given by the tables MFEM provides: dofs and faces of each element,
    elements, shape functions and quadrature of each face, boundary elements.
    [double] is modelled by R. *)
From Coq Require Import ZArith List Bool Reals.
From Verif Require Import Common Face_Model Nodal_Model Setup_Model.
Import ListNotations.
Local Open Scope Z_scope.

(** A face: FaceElementTransformations::Elem1No, Elem2No (-1 on the boundary), and the
    shape functions of both sides at the integration points.  The integrator does not use
    the metric, so a face of a sub-mesh has the same data as in the parent mesh.
    Used in [interiorFaceSubMesh], HesthavenEvolutionMethods.cpp 308-319. *)
Record cface := mkCF { cf_e1 : Z; cf_e2 : Z; cf_geo : face }.
(** [cm_elface]: ElementToEdgeTable or ElementToFaceTable.  [cm_bdr]: face and attribute of
    each boundary element.  [cm_ori]: calculateCrossBaryVertexSign or buildFaceOrientation
    of each boundary element.
    Used in [interiorFluxMatrix], HesthavenEvolutionMethods.cpp 324-331. *)
Record cmesh := mkCM { cm_N : Z; cm_dofs : list (list Z); cm_attr : list Z; cm_elface : list (list Z);
                       cm_face : list cface; cm_bdr : list (Z * Z); cm_ori : list R }.
(** Mesh::GetNE. Used in [connectivities], HesthavenEvolutionMethods.cpp 500-534. *)
Definition cm_ne (m : cmesh) : nat := length (cm_dofs m).

(** hesthavenMeshingTag, components/Types.h 71. *)
Definition meshingTag : Z := 777.

(** Mesh::FaceIsInterior. Used in [faceBlock], HesthavenEvolutionMethods.cpp 721-785. *)
Definition faceIsInterior (m : cmesh) (f : Z) : res bool := F <- zget (cm_face m) f ;; Ok (0 <=? cf_e2 F).

(** SubMesh::CreateFromDomain with the attribute [meshingTag]: the elements kept, in order.
    Used in [interiorFaceSubMesh], HesthavenEvolutionMethods.cpp 308-319. *)
Definition subElements (attrs : list Z) : list Z :=
  filter (fun e => match zget attrs e with Ok a => a =? meshingTag | _ => false end) (zseq (length attrs)).

(** restoreOriginalAttributesAfterSubMeshing, HesthavenEvolutionMethods.cpp 110-113 (one element); [orig] is the result of
    mapOriginalAttributes 91-100. *)
Definition restore1 (orig : list Z) (e : Z) (attrs : list Z) : res (list Z) :=
  a <- zget orig e ;; zset attrs e a.
(** restoreOriginalAttributesAfterSubMeshing, HesthavenEvolutionMethods.cpp 102-108 (both elements): the second one only
    [if (faceTrans->Elem2No)], that is, if its number is not zero. *)
Definition restore2 (orig : list Z) (e1 e2 : Z) (attrs : list Z) : res (list Z) :=
  a <- restore1 orig e1 attrs ;; if e2 =? 0 then Ok a else restore1 orig e2 a.

(** assembleInteriorFaceSubMesh, HesthavenEvolutionMethods.cpp 308-319: elements of the sub-mesh and attributes after. *)
Definition interiorFaceSubMesh (orig attrs : list Z) (F : cface) : res (list Z * list Z) :=
  a1 <- zset attrs (cf_e1 F) meshingTag ;;
  a2 <- zset a1 (cf_e2 F) meshingTag ;;
  let sub := subElements a2 in
  a3 <- restore1 orig (cf_e1 F) a2 ;;
  a4 <- restore1 orig (cf_e2 F) a3 ;;
  Ok (sub, a4).
(** The sub-mesh of one element, HesthavenEvolutionMethods.cpp 754-756. *)
Definition oneElementSubMesh (orig attrs : list Z) (e : Z) : res (list Z * list Z) :=
  a1 <- zset attrs e meshingTag ;;
  a2 <- restore1 orig e a1 ;;
  Ok (subElements a1, a2).

(** Dofs of an element; of the elements of a sub-mesh, numbered one element after the
    other. Used in [interiorFluxMatrix], HesthavenEvolutionMethods.cpp 324-331. *)
Definition ndofOf (m : cmesh) (e : Z) : nat := match zget (cm_dofs m) e with Ok d => length d | _ => 0%nat end.
(** Used in [interiorFluxMatrix], HesthavenEvolutionMethods.cpp 324-331. *)
Fixpoint locate (m : cmesh) (sub : list Z) (r : nat) : option (Z * nat) :=
  match sub with
  | [] => None
  | e :: t => if (r <? ndofOf m e)%nat then Some (e, r) else locate m t (r - ndofOf m e)
  end.
(** Used in [nodePairs], HesthavenEvolutionMethods.cpp 387-405. *)
Definition subDofs (m : cmesh) (sub : list Z) : nat := fold_right (fun e n => (ndofOf m e + n)%nat) 0%nat sub.

(** Where the face matrix is added by BilinearForm::Assemble.
    Used in [interiorFluxMatrix], HesthavenEvolutionMethods.cpp 324-331. *)
Definition faceEntry (F : cface) (M : mat) (a : Z) (i : nat) (b : Z) (j : nat) : R :=
  let n1 := f_el1 (cf_geo F) in
  if a =? cf_e1 F then
    (if b =? cf_e1 F then M i j else if b =? cf_e2 F then M i (n1 + j)%nat else 0%R)
  else if a =? cf_e2 F then
    (if b =? cf_e1 F then M (n1 + i)%nat j else if b =? cf_e2 F then M (n1 + i)%nat (n1 + j)%nat else 0%R)
  else 0%R.
(** Used in [interiorFluxMatrix], HesthavenEvolutionMethods.cpp 324-331. *)
Definition memZ (e : Z) (l : list Z) : bool := existsb (Z.eqb e) l.
(** assembleInteriorFluxMatrix, HesthavenEvolutionMethods.cpp 324-331, with HesthavenFluxIntegrator: all faces interior to
    the sub-mesh. *)
Definition interiorFluxMatrix (m : cmesh) (sub : list Z) : res mat :=
  ms <- mapM (fun F => M <- hesthavenFlux (cf_geo F) ;; Ok (F, M))
             (filter (fun F => memZ (cf_e1 F) sub && memZ (cf_e2 F) sub) (cm_face m)) ;;
  Ok (fun r c => match locate m sub r, locate m sub c with
                 | Some (a, i), Some (b, j) => fold_right Rplus 0%R (map (fun FM => faceEntry (fst FM) (snd FM) a i b j) ms)
                 | _, _ => 0%R
                 end).

(** SparseMatrix::GetRow: assembly skips zeros.  Simplified: columns in increasing order.
    Used in [nodePairs], HesthavenEvolutionMethods.cpp 387-405. *)
Definition getRow (n : nat) (A : mat) (r : nat) : list (nat * R) :=
  map (fun c => (c, A r c)) (filter (fun c => if Req_EM_T (A r c) 0 then false else true) (seq 0 n)).
(** [vals[cols.Find(r)]]: undefined when the row has no such column.
    Used in [nodePairs], HesthavenEvolutionMethods.cpp 387-405. *)
Definition diagOf (r : nat) (row : list (nat * R)) : res R :=
  match find (fun cv => (fst cv =? r)%nat) row with Some cv => Ok (snd cv) | None => UB end.

(** mapConnectivity, HesthavenEvolutionMethods.cpp 59-75; the two vectors are kept as a vector of pairs. *)
Definition connTol : R := 1 / 1000000.
(** Used in [nodePairs], HesthavenEvolutionMethods.cpp 387-405. *)
Definition mapConnectivity (n : nat) (A : mat) : res (list (nat * nat)) :=
  foldM (fun acc r =>
    let row := getRow n A r in
    foldM (fun acc cv =>
      if (r =? fst cv)%nat then Ok acc else
      d <- diagOf r row ;;
      if Rlt_dec (Rabs (snd cv - d)) connTol then
        (if Rlt_dec connTol (Rabs d) then Ok (acc ++ [(r, fst cv)]) else Ok acc)
      else Ok acc) row acc)
    (seq 0 (n / 2)) [].

(** std::sort. Used in [interiorBlock], HesthavenEvolutionMethods.cpp 342-370. *)
Fixpoint insertBy {A} (le : A -> A -> bool) (x : A) (l : list A) : list A :=
  match l with [] => [x] | y :: t => if le x y then x :: l else y :: insertBy le x t end.
(** Used in [interiorBlock], HesthavenEvolutionMethods.cpp 342-370. *)
Definition sortBy {A} (le : A -> A -> bool) (l : list A) : list A := fold_right (insertBy le) [] l.
(** Used in [interiorBlock], HesthavenEvolutionMethods.cpp 342-370. *)
Definition pairLe (p q : Z * Z) : bool := (fst p <? fst q) || ((fst p =? fst q) && (snd p <=? snd q)).

(** buildConnectivityForInteriorBdrFace, HesthavenEvolutionMethods.cpp 387-405, as pairs; also the two loops of
    appendConnectivityMapsForInteriorFace 350-363 before they are ordered. *)
Definition nodePairs (m : cmesh) (F : cface) (sub : list Z) : res (list (Z * Z)) :=
  A <- interiorFluxMatrix m sub ;;
  maps <- mapConnectivity (subDofs m sub) A ;;
  d1 <- zget (cm_dofs m) (cf_e1 F) ;;
  d2 <- zget (cm_dofs m) (cf_e2 F) ;;
  mapM (fun rc => a <- zget d1 (Z.of_nat (fst rc)) ;;
                  b <- zget d2 (Z.of_nat (snd rc) - Z.of_nat (length d1)) ;; Ok (a, b)) maps.
(** Used in [interiorBlock], HesthavenEvolutionMethods.cpp 342-370. *)
Definition swapP (p : Z * Z) : Z * Z := (snd p, fst p).

(** appendConnectivityMapsForInteriorFace, HesthavenEvolutionMethods.cpp 342-370. *)
Definition interiorBlock (m : cmesh) (F : cface) (sub : list Z) (e : Z) : res (list (Z * Z)) :=
  ps <- nodePairs m F sub ;;
  if cf_e1 F =? e then Ok (sortBy pairLe ps)
  else if cf_e2 F =? e then Ok (sortBy pairLe (map swapP ps))
  else Throw.

(** appendConnectivityMapsForBoundaryFace, HesthavenEvolutionMethods.cpp 407-434, with the surface matrix of 758-763.
    Simplified: the transfer of a unit vector from the sub-mesh names the dof of the parent.
    A sub-mesh of more than one element is not modelled (UB). *)
Definition surfaceTol : R := 1 / 100000000.
(** Used in [faceBlock], HesthavenEvolutionMethods.cpp 721-785. *)
Definition boundaryBlock (m : cmesh) (F : cface) (sub : list Z) (e : Z) : res (list (Z * Z)) :=
  match sub with
  | [e'] =>
    if e' =? e then
      d <- zget (cm_dofs m) e ;;
      M <- hesthavenFlux (cf_geo F) ;;
      mapM (fun r => v <- zget d (Z.of_nat r) ;; Ok (v, v))
           (filter (fun r => if Rlt_dec surfaceTol (Rabs (M r r)) then true else false) (seq 0 (length d)))
    else UB
  | _ => UB
  end.

(** assembleGlobalConnectivityMap, HesthavenEvolutionMethods.cpp 721-785, in two and three dimensions: the attributes of
    the mesh are changed and restored for every face. *)
Definition faceBlock (m : cmesh) (orig : list Z) (e : Z) (f : Z) (attrs : list Z) : res (list (Z * Z) * list Z) :=
  i <- faceIsInterior m f ;;
  F <- zget (cm_face m) f ;;
  if negb i then
    ' (sub, attrs') <- oneElementSubMesh orig attrs e ;;
    blk <- boundaryBlock m F sub e ;; Ok (blk, attrs')
  else
    ' (sub, attrs') <- interiorFaceSubMesh orig attrs F ;;
    attrs'' <- restore2 orig (cf_e1 F) (cf_e2 F) attrs' ;;
    blk <- interiorBlock m F sub e ;; Ok (blk, attrs'').
(** Used in [connectivities], HesthavenEvolutionMethods.cpp 500-534. *)
Definition globalConnectivity (m : cmesh) : res (list (Z * Z)) :=
  ' (g, _) <- foldM (fun st e =>
    fs <- zget (cm_elface m) e ;;
    foldM (fun st f =>
      ' (blk, attrs') <- faceBlock m (cm_attr m) e f (snd st) ;;
      Ok (fst st ++ blk, attrs')) fs st)
    (zseq (cm_ne m)) ([], cm_attr m) ;;
  Ok g.

(** assembleGlobalConnectivityMap1D, HesthavenEvolutionMethods.cpp 697-719: [size_t] arithmetic, so without elements the
    loop bound wraps around (UB here). *)
Definition globalConnectivity1D (num_elem p : Z) : res (list (Z * Z)) :=
  if num_elem <=? 0 then UB else
  Ok ([(0, 0)]
      ++ flat_map (fun e => [(p * e + p, p * e + p + 1); (p * e + p + 1, p * e + p)]) (zseq (Z.to_nat (num_elem - 1)))
      ++ [(p * num_elem + p, p * num_elem + p)]).

(** Mesh::GetFaceToBdrElMap: the boundary element of each face, or -1.
    Used in [trueBdrElements], HesthavenEvolutionMethods.cpp 487-498. *)
Definition faceToBdr (m : cmesh) : res (list Z) :=
  foldM (fun l b => ' (f, _) <- zget (cm_bdr m) b ;; zset l f b) (zseq (length (cm_bdr m))) (repeat (-1) (length (cm_face m))).
(** Array::Find. Used in [trueBdrElements], HesthavenEvolutionMethods.cpp 487-498. *)
Fixpoint findFrom (k : Z) (x : Z) (l : list Z) : Z :=
  match l with [] => -1 | y :: t => if x =? y then k else findFrom (k + 1) x t end.
(** assembleInteriorOrTrueBdrMap, HesthavenEvolutionMethods.cpp 487-498: the boundary elements on interior faces and the
    others.  [at(false)] throws when there are none of the latter. *)
Definition trueBdrElements (m : cmesh) : res (list Z) :=
  f2b <- faceToBdr m ;;
  foldM (fun acc b => i <- faceIsInterior m (findFrom 0 b f2b) ;; Ok (if i : bool then acc else acc ++ [b]))
        (zseq (length (cm_bdr m))) [].

(** findNodesPerBdrFace, HesthavenEvolutionMethods.cpp 459-473, on the form of assembleFaceMassBilinearForm 271-279 of one
    boundary element. *)
Definition nodesOfBdr (m : cmesh) (b : Z) : res (list Z) :=
  ' (f, _) <- zget (cm_bdr m) b ;;
  F <- zget (cm_face m) f ;;
  d <- zget (cm_dofs m) (cf_e1 F) ;;
  M <- hesthavenFlux (cf_geo F) ;;
  Ok (filter (fun r =>
        let v := fold_right Rplus 0%R (map (fun i => if nth i d (-1) =? r then M i i else 0%R) (seq 0 (length d))) in
        if Rlt_dec connTol (Rabs v) then true else false)
      (zseq (Z.to_nat (cm_N m)))).

(** findMapBIDForFaceNodes, HesthavenEvolutionMethods.cpp 616-636. *)
Fixpoint eqbZs (a b : list Z) : bool :=
  match a, b with [], [] => true | x :: a, y :: b => (x =? y) && eqbZs a b | _, _ => false end.
(** Used in [connectivities], HesthavenEvolutionMethods.cpp 500-534. *)
Fixpoint findWindow (nodes : list Z) (g : list (Z * Z)) (n : Z) : res (list Z) :=
  match g with
  | [] => Throw
  | p :: t =>
    match nodes with
    | [] => UB
    | v :: _ =>
      if (v =? fst p) && (length nodes <=? length g)%nat && eqbZs nodes (map fst (firstn (length nodes) g))
      then Ok (map (fun k => n + k) (zseq (length nodes)))
      else findWindow nodes t (n + 1)
    end
  end.
(** Used in [connectivities], HesthavenEvolutionMethods.cpp 500-534. *)
Definition findMapBID (expected : list Z) (g : list (Z * Z)) : res (list Z) := findWindow (sortBy Z.leb expected) g 0.

(** initMapB, HesthavenEvolutionMethods.cpp 638-647. *)
Definition initMapB (g : list (Z * Z)) : res (list Z) :=
  foldM (fun acc i => p <- zget g i ;; Ok (if fst p =? snd p then acc ++ [i] else acc)) (zseq (length g)) [].
(** initVMapB, HesthavenEvolutionMethods.cpp 650-657. *)
Definition initVMapB (g : list (Z * Z)) (mB : list Z) : res (list Z) :=
  mapM (fun i => p <- zget g i ;; Ok (fst p)) mB.

(** Used in [pushBdr], HesthavenEvolutionMethods.cpp 659-695. *)
Definition pushB (b : bmaps) (m v : list Z) : bmaps := mkB (mapB b ++ [m]) (vmapB b ++ [v]).
(** Used in [connectivities], HesthavenEvolutionMethods.cpp 500-534. *)
Definition noB : bmaps := mkB [] [].
(** Used in [connectivities], HesthavenEvolutionMethods.cpp 500-534. *)
Definition noIB : ibmaps := mkIB [] [] [] [].
(** Used in [connectivities], HesthavenEvolutionMethods.cpp 500-534. *)
Definition noBdr : bdrMaps := mkBdr noB noB noB noIB noIB noIB noIB.

(** initBdrConnectivityMaps, HesthavenEvolutionMethods.cpp 659-695, the switch 676-690. *)
Definition pushBdr (c : cond) (m v : list Z) (s : bdrMaps) : bdrMaps :=
  match c with
  | PEC => mkBdr (pushB (bPEC s) m v) (bPMC s) (bSMA s) (iPEC s) (iPMC s) (iSMA s) (bTFSF s)
  | PMC => mkBdr (bPEC s) (pushB (bPMC s) m v) (bSMA s) (iPEC s) (iPMC s) (iSMA s) (bTFSF s)
  | SMA => mkBdr (bPEC s) (bPMC s) (pushB (bSMA s) m v) (iPEC s) (iPMC s) (iSMA s) (bTFSF s)
  | _ => s
  end.
(** [marker.second[attribute - 1] == 1].
    Used in [initIntFaceMaps], HesthavenEvolutionMethods.cpp 590-614. *)
Definition marked (mk : list Z) (attr : Z) : res bool := x <- zget mk (attr - 1) ;; Ok (x =? 1).
(** Used in [connectivities], HesthavenEvolutionMethods.cpp 500-534. *)
Definition initBdrMaps (m : cmesh) (g : list (Z * Z)) (markers : list (cond * list Z)) (tb : list Z) (s : bdrMaps) : res bdrMaps :=
  mB <- initMapB g ;; vB <- initVMapB g mB ;;
  nodes <- mapM (nodesOfBdr m) tb ;;
  foldM (fun s k =>
    b <- zget tb k ;;
    foldM (fun s mk =>
      ' (_, a) <- zget (cm_bdr m) b ;;
      on <- marked (snd mk) a ;;
      if negb on then Ok s else
      match vB with
      | [] => Ok s
      | _ :: _ =>
        ns <- zget nodes k ;;
        ids <- findMapBID ns g ;;
        vs <- mapM (fun i => p <- zget g i ;; Ok (fst p)) ids ;;
        Ok (pushBdr (fst mk) ids vs s)
      end) markers s)
    (zseq (length nodes)) s.

(** std::distance(begin, std::find(...)): the size when there is no such pair.
    Used in [interiorMapB], HesthavenEvolutionMethods.cpp 578-588. *)
Definition pairEqb (p q : Z * Z) : bool := (fst p =? fst q) && (snd p =? snd q).
(** Used in [interiorMapB], HesthavenEvolutionMethods.cpp 578-588. *)
Fixpoint indexOf (p : Z * Z) (g : list (Z * Z)) : Z :=
  match g with [] => 0 | q :: t => if pairEqb p q then 0 else 1 + indexOf p t end.
(** initInteriorFacesMapB, HesthavenEvolutionMethods.cpp 578-588. *)
Definition interiorMapB (g ps : list (Z * Z)) : list (Z * Z) := map (fun p => (indexOf p g, indexOf (swapP p) g)) ps.

(** Used in [loadIntBdr], HesthavenEvolutionMethods.cpp 536-576. *)
Definition pushIB (b : ibmaps) (m1 m2 v1 v2 : list Z) : ibmaps :=
  mkIB (mapB1 b ++ [m1]) (mapB2 b ++ [m2]) (vmapB1 b ++ [v1]) (vmapB2 b ++ [v2]).
(** loadIntBdrConditions, HesthavenEvolutionMethods.cpp 536-576. *)
Definition loadIntBdr (ids ps : list (Z * Z)) (c : cond) (ori : R) (s : bdrMaps) : res bdrMaps :=
  let m1 := map fst ids in let m2 := map snd ids in let v1 := map fst ps in let v2 := map snd ps in
  match c with
  | PEC => Ok (mkBdr (bPEC s) (bPMC s) (bSMA s) (pushIB (iPEC s) m1 m2 v1 v2) (iPMC s) (iSMA s) (bTFSF s))
  | PMC => Ok (mkBdr (bPEC s) (bPMC s) (bSMA s) (iPEC s) (pushIB (iPMC s) m1 m2 v1 v2) (iSMA s) (bTFSF s))
  | SMA => Ok (mkBdr (bPEC s) (bPMC s) (bSMA s) (iPEC s) (iPMC s) (pushIB (iSMA s) m1 m2 v1 v2) (bTFSF s))
  | TotalFieldIn =>
    Ok (mkBdr (bPEC s) (bPMC s) (bSMA s) (iPEC s) (iPMC s) (iSMA s)
         (if Rle_dec 0 ori then pushIB (bTFSF s) m1 m2 v1 v2 else pushIB (bTFSF s) m2 m1 v2 v1))
  | _ => Throw
  end.

(** initIntFaceConnectivityMaps, HesthavenEvolutionMethods.cpp 590-614.  On a face of the boundary Elem2No is -1 and
    setting its attribute is undefined. *)
Definition initIntFaceMaps (m : cmesh) (g : list (Z * Z)) (markers : list (cond * list Z)) (st : bdrMaps * list Z) : res (bdrMaps * list Z) :=
  let orig := snd st in
  foldM (fun st b =>
    foldM (fun st mk =>
      ' (f, a) <- zget (cm_bdr m) b ;;
      on <- marked (snd mk) a ;;
      if negb on then Ok st else
      F <- zget (cm_face m) f ;;
      ori <- zget (cm_ori m) b ;;
      ' (sub, attrs') <- interiorFaceSubMesh orig (snd st) F ;;
      ps <- nodePairs m F sub ;;
      s' <- loadIntBdr (interiorMapB g ps) ps (fst mk) ori (fst st) ;;
      Ok (s', attrs')) markers st)
    (zseq (length (cm_bdr m))) st.

(** Connectivities::Connectivities, HesthavenEvolutionMethods.cpp 500-534, in two and three dimensions: the pairs, the
    maps of the boundary conditions, and the attributes of the mesh afterwards. *)
Definition connectivities (m : cmesh) (bdrMk intMk tfsfMk : list (cond * list Z)) : res (list (Z * Z) * bdrMaps * list Z) :=
  g <- globalConnectivity m ;;
  tb <- trueBdrElements m ;;
  match tb with
  | [] => Throw
  | _ :: _ =>
    s1 <- initBdrMaps m g bdrMk tb noBdr ;;
    ' (s2, a2) <- initIntFaceMaps m g intMk (s1, cm_attr m) ;;
    ' (s3, a3) <- initIntFaceMaps m g tfsfMk (s2, a2) ;;
    Ok (g, s3, a3)
  end.

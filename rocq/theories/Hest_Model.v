(** Model of the construction of the nodal (Hesthaven) operator: reference matrices, element
    data, straight and curved elements.  src/evolution/HesthavenEvolution.cpp 11-95, 134-255,
    315-437 and src/evolution/HesthavenEvolutionMethods.cpp 133-270, 280-307.

    [double] is modelled by R.  What MFEM provides is data: shape functions and weights of the
    quadrature rules, the mass matrix of each reference element, the derivative matrices of
    each element, the geometry of its faces. *)
From Coq Require Import ZArith List Bool Reals.
From Verif Require Import Common Face_Model Nodal_Model Step_Model Setup_Model Conn_Model.
Import ListNotations.
Local Open Scope R_scope.

(** Eigen::MatrixXd. Used in [removeColumn], HesthavenEvolutionMethods.cpp 213-222. *)
Record emat := mkE { e_r : nat; e_c : nat; e_at : mat }.
(** The product of Eigen; sizes that do not match are an error.
    Used in [buildRefs], HesthavenEvolution.cpp 365-370. *)
Definition emul (A B : emat) : res emat :=
  if (e_c A =? e_r B)%nat
  then Ok (mkE (e_r A) (e_c B) (fun i j => fold_right Rplus 0 (map (fun k => e_at A i k * e_at B k j) (seq 0 (e_c A)))))
  else UB.
(** Used in [refElemEmat], HesthavenEvolution.cpp 57-82. *)
Definition escale (a : R) (A : emat) : emat := mkE (e_r A) (e_c A) (fun i j => e_at A i j * a).
(** The rows the matrix-vector products of Mult read.
    Used in [storeElement], HesthavenEvolution.cpp 383-408. *)
Definition rowsOf (A : emat) : list (list R) := map (fun i => map (e_at A i) (seq 0 (e_c A))) (seq 0 (e_r A)).
(** [DynamicMatrix refInvMass;] before any assignment, HesthavenEvolution.cpp 364. *)
Definition emptyE : emat := mkE 0 0 mzero.

(** L2_FECollection(order, dim, GaussLobatto): number of dofs of an element of each type, its
    mass matrix on MFEM's reference element, and its faces as HesthavenFluxIntegrator sees
    them. Used in [refElemInvMass], HesthavenEvolution.cpp 46-55. *)
Record fecol := mkFec { fc_order : Z; fc_n : etype -> nat; fc_mass : etype -> mat; fc_faces : etype -> list face }.

(** A mesh of copies of one shape: type, number of elements, determinant of the Jacobian of
    each element. Used in [getRefMesh], HesthavenEvolution.cpp 27-44. *)
Record refmesh := mkRM { rm_type : etype; rm_ne : nat; rm_det : R }.
(** Determinant of two edges of the plane, of three edges of space.
    Used in [getRefMesh], HesthavenEvolution.cpp 27-44. *)
Definition det2 (a b : R * R) : R := fst a * snd b - snd a * fst b.
(** Used in [getRefMesh], HesthavenEvolution.cpp 27-44. *)
Definition det3 (a b c : R * R * R) : R :=
  let '(a0, a1, a2) := a in let '(b0, b1, b2) := b in let '(c0, c1, c2) := c in
  a0 * (b1 * c2 - b2 * c1) - a1 * (b0 * c2 - b2 * c0) + a2 * (b0 * c1 - b1 * c0).
(** buildHesthavenRefTetrahedra, HesthavenEvolutionMethods.cpp 257-268: edges from the first vertex. *)
Definition refTetrahedron : refmesh := mkRM Tetrahedron 1 (det3 (2, 0, 0) (0, 2, 0) (0, 0, 2)).
(** getRefMeshForGeomType, HesthavenEvolution.cpp 27-44.  MakeCartesian2D(1, 1, TRIANGLE, true, 2, 2) cuts a
    square of side 2 into two triangles of equal determinant; MakeCartesian2D(1, 1, QUADRILATERAL)
    has the default sides 1. *)
Definition getRefMesh (t : etype) (dim : Z) : res refmesh :=
  if (dim =? 2)%Z then
    match t with
    | Triangle => Ok (mkRM Triangle 2 (det2 (2, 0) (2, 2)))
    | Quadrilateral => Ok (mkRM Quadrilateral 1 (det2 (1, 0) (0, 1)))
    | _ => Throw
    end
  else if (dim =? 3)%Z then Ok refTetrahedron
  else Throw.

Section Build.
(** mfem::InverseIntegrator: inverse of the element matrix of the given size.
    Used in [assembleInverseMass], HesthavenEvolution.cpp 13-25. *)
Variable inv : nat -> mat -> mat.
Variable fc : fecol.

(** MassIntegrator on an element whose Jacobian has constant determinant.
    Used in [assembleInverseMass], HesthavenEvolution.cpp 13-25. *)
Definition scaledMass (t : etype) (det : R) : mat := fun i j => det * fc_mass fc t i j.
(** assembleInverseMassMatrix, HesthavenEvolution.cpp 13-25: one block for each element. *)
Definition assembleInverseMass (m : refmesh) : emat :=
  let n := fc_n fc (rm_type m) in
  mkE (rm_ne m * n) (rm_ne m * n)
      (fun i j => if (i / n =? j / n)%nat then inv n (scaledMass (rm_type m) (rm_det m)) (i mod n)%nat (j mod n)%nat else 0).

(** loadMatrixForTris, HesthavenEvolutionMethods.cpp 168-178. *)
Definition loadMatrixForTris (G : emat) (startRow startCol : nat) : emat :=
  mkE (e_r G / 2) (e_c G / 2) (fun i j => e_at G (startRow + i)%nat (startCol + j)%nat).
(** getElemMassMatrixFromGlobal, HesthavenEvolutionMethods.cpp 180-201. *)
Definition getElemMass (e : Z) (G : emat) (t : etype) : res emat :=
  match t with
  | Triangle => if (e =? 0)%Z then Ok (loadMatrixForTris G 0 0)
                else if (e =? 1)%Z then Ok (loadMatrixForTris G (e_r G / 2) (e_c G / 2)) else Throw
  | Quadrilateral | Tetrahedron | Hexahedron => Ok G
  | _ => Throw
  end.
(** assembleHesthavenRefElemInvMassMatrix, HesthavenEvolution.cpp 46-55. *)
Definition refElemInvMass (t : etype) (dim : Z) : res emat :=
  m <- getRefMesh t dim ;; getElemMass 0 (assembleInverseMass m) t.

(** getFaceNodeNumByGeomType, HesthavenEvolutionMethods.cpp 133-148. *)
Definition faceNodeNum (dim : Z) (t : etype) : res nat :=
  let p := fc_order fc in
  if (dim =? 2)%Z then Ok (Z.to_nat (p + 1))
  else if (dim =? 3)%Z then
    Ok (Z.to_nat (if etypeEqb t Tetrahedron then Z.quot ((p + 1) * (p + 2)) 2 else (p + 1) * (p + 1))%Z)
  else Throw.

(** removeColumn, HesthavenEvolutionMethods.cpp 213-222. *)
Definition removeColumn (A : emat) (c : nat) : emat :=
  let numCols := (e_c A - 1)%nat in
  mkE (e_r A) numCols (fun i j => if ((c <? numCols) && (c <=? j))%nat then e_at A i (j + 1)%nat else e_at A i j).
(** HesthavenEvolutionMethods.cpp 229-235: no entry of the column reaches the tolerance. *)
Definition zeroTol : R := 1 / 1000000.
(** HesthavenEvolutionMethods.cpp 227-240. *)
Definition isZeroColumn (A : emat) (c : nat) : bool :=
  forallb (fun r => if Rle_dec zeroTol (Rabs (e_at A r c - 0)) then false else true) (seq 0 (e_r A)).
(** removeZeroColumns, HesthavenEvolutionMethods.cpp 224-244. *)
Definition removeZeroColumns (A : emat) : emat :=
  fold_left removeColumn (rev (filter (isZeroColumn A) (seq 0 (e_c A)))) A.

(** assembleConnectivityFaceMassMatrix, HesthavenEvolutionMethods.cpp 280-287, with the marker of one face of a
    one-element mesh: the element matrix of that face.  Simplified: boundary element f of the
    mesh is its face f. *)
Definition faceMassMatrix (n : nat) (F : face) : res emat := M <- hesthavenFlux F ;; Ok (mkE n n M).
(** assembleEmat, HesthavenEvolutionMethods.cpp 289-300.  A block and a matrix of different sizes are an error. *)
Definition assembleEmat (dim : Z) (t : etype) : res emat :=
  nf <- faceNodeNum dim t ;;
  let n := fc_n fc t in
  let fs := fc_faces fc t in
  ' st <- foldM (fun st F =>
      let '(f, A) := st in
      S0 <- faceMassMatrix n F ;;
      let B := removeZeroColumns S0 in
      if (e_c B =? nf)%nat
      then Ok ((f + 1)%nat, mkE (e_r A) (e_c A) (fun i j => if ((f * nf <=? j) && (j <? f * nf + nf))%nat then e_at B i (j - f * nf)%nat else e_at A i j))
      else UB) fs (0%nat, mkE n (length fs * nf) mzero) ;;
  Ok (snd st).
(** assembleHesthavenRefElemEmat, HesthavenEvolution.cpp 57-82: the sub-mesh is element 0 of the
    reference mesh. *)
Definition refElemEmat (t : etype) (dim : Z) : res emat :=
  m <- getRefMesh t dim ;;
  A <- assembleEmat dim (rm_type m) ;;
  Ok (if ((dim =? 3)%Z && etypeEqb t Tetrahedron) then escale 2 A else A).

(** getReferenceVolume, HesthavenEvolution.cpp 134-148. *)
Definition getReferenceVolume (t : etype) : res R :=
  match t with
  | Triangle => Ok 2
  | Quadrilateral => Ok 4
  | Tetrahedron => Ok (8 / 6)
  | Hexahedron => Ok 8
  | _ => Throw
  end.

(** One element of the local mesh: type, dofs, determinant of the Jacobian, volume, geometry
    of its faces, and matrices of DerivativeIntegrator on it.
    Used in [storeElement], HesthavenEvolution.cpp 383-408. *)
Record gelem := mkGE { ge_type : etype; ge_dofs : list Z; ge_det : R; ge_vol : R; ge_geo : list geo; ge_D : nat -> mat }.

(** buildDerivativeSubOperator on the one-element sub-mesh, dense, DGOperatorFactory.h 428-460.
    Used in [storeDir], HesthavenEvolution.cpp 150-171. *)
Definition derivMatrix (dim : Z) (g : gelem) (d : nat) : emat :=
  let n := fc_n fc (ge_type g) in mkE n n (if (dim <=? Z.of_nat d)%Z then mzero else ge_D g d).
(** storeDirectionalMatrices, HesthavenEvolution.cpp 150-171, one direction.  Simplified: the set of shared matrices
    gives back an equal matrix (Store_Model.v). *)
Definition storeDir (dim : Z) (refInvMass : emat) (g : gelem) (d : nat) : res emat :=
  P <- emul refInvMass (derivMatrix dim g d) ;;
  rv <- getReferenceVolume (ge_type g) ;;
  Ok (mkE (e_r P) (e_c P) (fun i j => e_at P i j * rv / ge_vol g)).

(** One coordinate of the unit normal of a face, HesthavenEvolution.cpp 187-199; CalcOrtho is
    [calculateNormal] of Face_Model.v. *)
Definition normalCoord (dim : Z) (q : geo) (d : nat) : R :=
  if (Z.of_nat d <? dim)%Z then nth d (calculateNormal q) 0 / weightOf q else 0.
(** storeFaceInformation, HesthavenEvolution.cpp 173-205: each face has the same value at its [nf] nodes, faces one
    after the other.  Simplified: the vectors are written in this order. *)
Definition perFaceNode (nf : nat) (v : geo -> R) (g : gelem) : list R := flat_map (fun q => repeat (v q) nf) (ge_geo g).
(** HesthavenEvolution.cpp 173-205: the number of nodes of a face, from the order in 2D. *)
Definition faceNodes (dim : Z) (g : gelem) : res nat :=
  if (dim =? 2)%Z then Ok (Z.to_nat (fc_order fc + 1)) else faceNodeNum dim (ge_type g).

(** Body of the loop over straight elements, HesthavenEvolution.cpp 383-408. *)
Definition storeElement (dim : Z) (refInvMass : emat) (elems : list gelem) (e : Z) : res helem :=
  g <- zget elems e ;;
  ds <- mapM (storeDir dim refInvMass g) (seq 0 3) ;;
  nf <- faceNodes dim g ;;
  Ok (mkEl e (ge_dofs g) (map rowsOf ds)
           (map (fun d => perFaceNode nf (fun q => normalCoord dim q d) g) (seq 0 3))
           (perFaceNode nf (fun q => weightOf q * 2 / ge_det g) g)).

(** ** Straight and curved elements *)

(** HesthavenEvolution.cpp 207-243: the tolerance and the comparison of one coordinate. *)
Definition curveTol : R := 1 / 100000.
(** Used in [isCurved], HesthavenEvolution.cpp 225-232. *)
Definition farApart (a b : R) : bool := if Rlt_dec curveTol (Rabs (a - b)) then true else false.
(** Used in [isCurved], HesthavenEvolution.cpp 225-232. *)
Definition moved (p q : vertex) : bool :=
  farApart (coord p 0) (coord q 0) || farApart (coord p 1) (coord q 1) || farApart (coord p 2) (coord q 2).
(** HesthavenEvolution.cpp 220-232.  The straight copy of the mesh has the same collection, hence the
    same dofs. *)
Definition isCurved (posLin posCur : list vertex) (dofs : list Z) : res bool :=
  foldM (fun c d => p <- zget posLin d ;; q <- zget posCur d ;; Ok (c || moved p q)) dofs false.
(** initCurvedAndLinearElementsLists, HesthavenEvolution.cpp 207-243. *)
Definition splitElements (posLin posCur : list vertex) (elems : list gelem) : res (list Z * list (Z * list Z)) :=
  foldM (fun st e =>
    g <- zget elems e ;;
    c <- isCurved posLin posCur (ge_dofs g) ;;
    Ok (if c then (fst st, snd st ++ [(e, ge_dofs g)]) else (fst st ++ [e], snd st)))
    (zseq (length elems)) ([], []).

(** A boundary element: attribute, elements on both sides of its face (-1: none).
    Used in [checkTFSF], HesthavenEvolution.cpp 245-263. *)
Record bdrElem := mkBE { be_attr : Z; be_e1 : Z; be_e2 : Z }.
(** HesthavenEvolution.cpp 251-259: find in the map of curved elements. *)
Definition isIn (e : Z) (curved : list (Z * list Z)) : bool := existsb (fun k => (fst k =? e)%Z) curved.
(** checkForTFSFInCurvedElements, HesthavenEvolution.cpp 245-263. *)
Definition checkTFSF (markers : list (cond * list Z)) (bdr : list bdrElem) (curved : list (Z * list Z)) : res unit :=
  foldM (fun _ mk =>
    foldM (fun _ b =>
      v <- zget (snd mk) (be_attr b - 1) ;;
      if (v =? 1)%Z then
        (if isIn (be_e1 b) curved then Throw
         else if (negb (be_e2 b =? -1)%Z && isIn (be_e2 b) curved)%bool then Throw else Ok tt)
      else Ok tt) bdr tt) markers tt.

(** HesthavenEvolution.cpp 417-436: the rows of the global operator of the dofs of a curved element. *)
Definition curvedElement (N : Z) (global : Z -> list (Z * R)) (dofs : list Z) : celem :=
  mkCur dofs (flat_map (fun d => map (fun ft => (d + ft * N, global (d + ft * N))%Z) comps6) dofs).

(** HesthavenEvolution.cpp 351-362. *)
Definition allSameType (elems : list gelem) : res bool :=
  g0 <- zget elems 0 ;; Ok (forallb (fun g => etypeEqb (ge_type g0) (ge_type g)) elems).
(** HesthavenEvolution.cpp 364-370: the inverse mass matrix and the lifting; both stay empty on a mesh
    with elements of several types. *)
Definition buildRefs (dim : Z) (elems : list gelem) : res (emat * emat) :=
  same <- allSameType elems ;;
  if same then
    g0 <- zget elems 0 ;;
    Mi <- refElemInvMass (ge_type g0) dim ;;
    A <- refElemEmat (ge_type g0) dim ;;
    L <- emul Mi A ;;
    Ok (Mi, L)
  else Ok (emptyE, emptyE).

(** HesthavenEvolution::HesthavenEvolution, HesthavenEvolution.cpp 315-437.  The connectivity maps (Conn_Model.v), the
    sources and the global operator are arguments. *)
Definition buildNodal (dim N : Z) (elems : list gelem) (posLin posCur : list vertex)
    (tfsf : list (cond * list Z)) (bdr : list bdrElem) (global : Z -> list (Z * R))
    (alpha : R) (conn : list (Z * Z)) (maps : bdrMaps) (src : list (option (Z -> Z -> Z -> R))) : res nodal :=
  ' lc <- splitElements posLin posCur elems ;;
  _ <- checkTFSF tfsf bdr (snd lc) ;;
  ' refs <- buildRefs dim elems ;;
  lin <- mapM (storeElement dim (fst refs) elems) (fst lc) ;;
  Ok (mkNodal N alpha conn maps lin (map (fun k => curvedElement N global (snd k)) (snd lc)) (rowsOf (snd refs)) src).
End Build.

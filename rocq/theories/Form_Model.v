(** Model of how face matrices are assembled into the operators of the solver:
    src/mfemExtension/BilinearForm_IBFI.cpp, LinearForm_IBFI.cpp, and the sub-operators of
    src/components/DGOperatorFactory.h.

    The mesh is what assembly sees of it: the faces, with the dofs of their elements and the
    integration data of [Face_Model], and the boundary elements with their attribute and
    face.  Matrices are dense functions; a SparseMatrix stores the same values.  One rank:
    no shared faces. *)
From Coq Require Import ZArith List Bool Reals.
From Verif Require Import Common Face_Model Setup_Model Assembly_Model.
Import ListNotations.
Local Open Scope Z_scope.

(** Global dofs of the two elements of a face; the second list is empty on outer faces.
    Used in [assembleIBFI], BilinearForm_IBFI.cpp 27-82. *)
Record mface := mkMF { mf_dofs1 : list nat; mf_dofs2 : list nat; mf_face : face }.
(** Faces, boundary elements (attribute, face) and bdr_attributes.
    Used in [assembleIBFI], BilinearForm_IBFI.cpp 27-82. *)
Record fmesh := mkFM { fm_faces : list mface; fm_bdr : list (Z * nat); fm_battrs : list Z }.
(** Used in [assembleIBFI], BilinearForm_IBFI.cpp 27-82. *)
Definition integ := face -> res mat.

(** Used in [assembleIBFI], BilinearForm_IBFI.cpp 27-82. *)
Definition isInteriorFace (f : mface) : bool := match f_el2 (mf_face f) with Some _ => true | None => false end.
(** Used in [assembleIBFI], BilinearForm_IBFI.cpp 27-82. *)
Definition vdofs (f : mface) : list nat := mf_dofs1 f ++ mf_dofs2 f.
(** Used in [assembleIBFI], BilinearForm_IBFI.cpp 27-82. *)
Definition dofAt (l : list nat) (i : nat) : res nat := match nth_error l i with Some d => Ok d | None => UB end.

(** SparseMatrix::AddSubMatrix(vdofs, vdofs, elemmat), for a matrix of size [N].
    Used in [assembleIBFI], BilinearForm_IBFI.cpp 27-82. *)
Definition addSubMatrix (N : nat) (dofs : list nat) (K : mat) (M : mat) : res mat :=
  foldM (fun M i => foldM (fun M j =>
    di <- dofAt dofs i ;; dj <- dofAt dofs j ;; madd N di dj (K i j) M)
    (seq 0 (length dofs)) M) (seq 0 (length dofs)) M.
(** Vector::AddElementVector(vdofs, elemvect).
    Used in [assembleLinearIBFI], LinearForm_IBFI.cpp 19-83. *)
Definition addSubVector (N : nat) (dofs : list nat) (e : vec) (b : vec) : res vec :=
  foldM (fun b i => di <- dofAt dofs i ;;
    if (di <? N)%nat then Ok (fun k => if (k =? di)%nat then (b k + e i)%R else b k) else UB)
    (seq 0 (length dofs)) b.

(** bdr_attributes.Size() ? bdr_attributes.Max() : 0.
    Used in [assembleIBFI], BilinearForm_IBFI.cpp 27-82. *)
Definition markerSize (battrs : list Z) : Z := match battrs with [] => 0 | a :: t => fold_left Z.max t a end.

(** [a |= b] for all the positions of [a]. Used in [unionMarker], BilinearForm_IBFI.cpp 35-54. *)
Definition orMarker (a b : list Z) : res (list Z) :=
  foldM (fun a i => x <- zget a i ;; y <- zget b i ;; zset a i (Z.lor x y)) (zseq (length a)) a.
(** BilinearForm_IBFI.cpp 35-54, LinearForm_IBFI.cpp 34-53: NULL means every attribute. *)
Fixpoint unionMarker {A} (ks : list (A * option marker)) (acc : list Z) : res (list Z) :=
  match ks with
  | [] => Ok acc
  | (_, None) :: _ => Ok (map (fun _ => 1) acc)
  | (_, Some m) :: t => a <- orMarker acc m ;; unionMarker t a
  end.
(** The test of the inner loop, BilinearForm_IBFI.cpp 72-76 and LinearForm_IBFI.cpp 69-73. *)
Definition skipped (mk : option marker) (attr : Z) : res bool :=
  match mk with None => Ok false | Some m => x <- zget m (attr - 1) ;; Ok (x =? 0) end.
(** Used in [assembleIBFI], BilinearForm_IBFI.cpp 27-82. *)
Definition faceAt (m : fmesh) (fi : nat) : res mface := match nth_error (fm_faces m) fi with Some f => Ok f | None => UB end.

(** BilinearFormIBFI::Assemble, BilinearForm_IBFI.cpp 27-82, after BilinearForm::Assemble has produced [M]:
    GetInternalBdrFaceTransformations is null on faces with one element.  The method
    AddInternalBoundaryFaceIntegrator of the forked MFEM is assumed to do the same. *)
Definition assembleIBFI (N : nat) (m : fmesh) (ks : list (integ * option marker)) (M : mat) : res mat :=
  match ks with
  | [] => Ok M
  | _ =>
    mk <- unionMarker ks (repeat 0 (Z.to_nat (markerSize (fm_battrs m)))) ;;
    foldM (fun M b =>
      let (attr, fi) := (b : Z * nat) in
      x <- zget mk (attr - 1) ;;
      if x =? 0 then Ok M else
      f <- faceAt m fi ;;
      if isInteriorFace f then
        foldM (fun M k =>
          s <- skipped (snd k) attr ;;
          if (s : bool) then Ok M else
          K <- fst k (mf_face f) ;; addSubMatrix N (vdofs f) K M) ks M
      else Ok M) (fm_bdr m) M
  end.

(** LinearFormIBFI::Assemble, LinearForm_IBFI.cpp 19-83. *)
Definition assembleLinearIBFI (N : nat) (m : fmesh) (ks : list ((face -> res vec) * option marker)) (b : vec) : res vec :=
  match ks with
  | [] => Ok b
  | _ =>
    mk <- unionMarker ks (repeat 0 (Z.to_nat (markerSize (fm_battrs m)))) ;;
    foldM (fun b e =>
      let (attr, fi) := (e : Z * nat) in
      x <- zget mk (attr - 1) ;;
      if x =? 0 then Ok b else
      f <- faceAt m fi ;;
      if isInteriorFace f then
        foldM (fun b k =>
          s <- skipped (snd k) attr ;;
          if (s : bool) then Ok b else
          e <- fst k (mf_face f) ;; addSubVector N (vdofs f) e b) ks b
      else Ok b) (fm_bdr m) b
  end.

(** BilinearForm::Assemble of MFEM for integrators on outer boundary faces:
    GetBdrFaceTransformations is null on interior faces.
    Used in [faceForm], DGOperatorFactory.h 467-573. *)
Definition assembleBdr (N : nat) (m : fmesh) (ks : list (integ * marker)) (M : mat) : res mat :=
  foldM (fun M b =>
    let (attr, fi) := (b : Z * nat) in
    f <- faceAt m fi ;;
    if isInteriorFace f then Ok M else
    foldM (fun M k =>
      x <- zget (snd k) (attr - 1) ;;
      if x =? 0 then Ok M else K <- fst k (mf_face f) ;; addSubMatrix N (vdofs f) K M) ks M) (fm_bdr m) M.

(** BilinearForm::Assemble for integrators on interior faces.  With a marker (forked MFEM)
    the faces of marked boundary elements are left out.
    Used in [faceForm], DGOperatorFactory.h 467-573. *)
Definition ignored (m : fmesh) (ign : marker) (fi : nat) : bool :=
  existsb (fun b => (snd b =? fi)%nat && match zget ign (fst b - 1) with Ok x => negb (x =? 0) | _ => false end) (fm_bdr m).
(** Used in [faceForm], DGOperatorFactory.h 467-573. *)
Definition assembleInterior (N : nat) (m : fmesh) (ig : integ) (ign : marker) (M : mat) : res mat :=
  foldM (fun M fi =>
    f <- faceAt m fi ;;
    if isInteriorFace f && negb (ignored m ign fi)
    then K <- ig (mf_face f) ;; addSubMatrix N (vdofs f) K M
    else Ok M) (seq 0 (length (fm_faces m))) M.

(** ** DGOperatorFactory.h *)
(** bdrCentCoeff and bdrUpwindCoeff, DGOperatorFactory.h 21-35; [operator[]] of a missing condition gives an
    empty vector. *)
Definition bdrCentCoeff (c : cond) : list R :=
  match c with
  | PEC => [2; 0] | PMC => [0; 2] | SMA => [1; 1] | SurfaceCond => [1; 1] | SGBC => [1; 1] | _ => []
  end%R.
(** Used in [bdrCoeffCheck], DGOperatorFactory.h 117-129. *)
Definition bdrUpwindCoeff (c : cond) : list R :=
  match c with
  | PEC => [2; 0] | PMC => [0; 2] | SMA => [1; 1] | SurfaceCond => [1; 1] | SGBC => [1; 1] | _ => []
  end%R.
(** bdrCoeffCheck, DGOperatorFactory.h 117-129. *)
Definition bdrCoeffCheck (alpha : R) (c : cond) : list R := if Req_EM_T alpha 0 then bdrCentCoeff c else bdrUpwindCoeff c.
(** [c[cond].at(f)]. DGOperatorFactory.h 467-675. *)
Definition coeffAt (alpha : R) (c : cond) (f : Z) : res R :=
  if f <? 0 then Throw else match nth_error (bdrCoeffCheck alpha c) (Z.to_nat f) with Some v => Ok v | None => Throw end.

(** buildInteriorIgnoreMarker, DGOperatorFactory.h 373-389; the map never holds TotalFieldIn here, but the test
    is kept. *)
Definition buildInteriorIgnoreMarker (ib : list (cond * marker)) : res marker :=
  match ib with
  | [] => Ok []
  | (_, m0) :: _ =>
    foldM (fun mk kv =>
      if cond_eqb (fst kv) TotalFieldIn then Ok mk else
      foldM (fun mk i => x <- zget (snd kv) i ;; if x =? 1 then zset mk i 1 else Ok mk)
        (zseq (length (snd kv))) mk) ib (repeat 0 (length m0))
  end.

Section Factory.
Variable N : nat.                     (* fes_.GetNDofs() *)
Variable m : fmesh.
Variable dim : Z.
Variable alpha : R.
Variable ob ib : list (cond * marker). (* getBoundaryToMarker(), getInteriorBoundaryToMarker() *)
(** Assembled domain forms: inverse mass, derivative and conductivity matrices. *)
Variable MInv : Z -> mat.
Variable D : Z -> mat.
Variable MSigma : mat.

(** The common shape of buildZero/One/TwoNormalSubOperator, DGOperatorFactory.h 467-573: interior faces with
    [k a], boundary faces with [k] of the coefficient. *)
Definition faceForm (k : R -> integ) (a : R) (coeff : cond -> res R) : res mat :=
  ign <- buildInteriorIgnoreMarker ib ;;
  ks <- mapM (fun kv => c <- (if cond_eqb (fst kv) SMA then Ok 1%R else coeff (fst kv)) ;; Ok (k c, snd kv)) ob ;;
  M <- assembleInterior N m (k a) ign mzero ;; assembleBdr N m ks M.
(** DGOperatorFactory.h 467-573. *)
Definition buildZeroNormalSubOperator (f : Z) : res mat :=
  faceForm zeroNormalJump alpha (fun c => v <- coeffAt alpha c f ;; Ok (v * alpha)%R).
(** DGOperatorFactory.h 467-573. *)
Definition buildOneNormalSubOperator (f : Z) (dirs : list nat) : res mat :=
  faceForm (oneNormalJump dirs) 1%R (fun c => coeffAt alpha c f).
(** DGOperatorFactory.h 467-573. *)
Definition buildTwoNormalSubOperator (f : Z) (dirs : list nat) : res mat :=
  faceForm (twoNormalJump dirs) alpha (fun c => v <- coeffAt alpha c f ;; Ok (v * alpha)%R).

(** buildZero/One/TwoNormalIBFISubOperator, DGOperatorFactory.h 575-675; the default branch of the switch uses
    the plain jump [k']. *)
Definition ibfiForm (k k' : R -> integ) (coeff : cond -> res R) : res mat :=
  ks <- foldM (fun l kv =>
    if cond_eqb (fst kv) TotalFieldIn || cond_eqb (fst kv) SGBC then Ok l
    else match fst kv with
         | SMA => Ok (l ++ [(k 1%R, Some (snd kv))])
         | PEC | PMC => c <- coeff (fst kv) ;; Ok (l ++ [(k c, Some (snd kv))])
         | _ => c <- coeff (fst kv) ;; Ok (l ++ [(k' c, Some (snd kv))])
         end) ib [] ;;
  assembleIBFI N m ks mzero.
(** DGOperatorFactory.h 575-675. *)
Definition buildZeroNormalIBFISubOperator (f : Z) : res mat :=
  ibfiForm (interiorJump []) zeroNormalJump (fun c => v <- coeffAt alpha c f ;; Ok (v * alpha)%R).
(** DGOperatorFactory.h 575-675. *)
Definition buildOneNormalIBFISubOperator (f : Z) (dirs : list nat) : res mat :=
  ibfiForm (interiorJump dirs) (oneNormalJump dirs) (fun c => coeffAt alpha c f).
(** DGOperatorFactory.h 575-675. *)
Definition buildTwoNormalIBFISubOperator (f : Z) (dirs : list nat) : res mat :=
  ibfiForm (interiorJump dirs) (twoNormalJump dirs) (fun c => v <- coeffAt alpha c f ;; Ok (v * alpha)%R).

(** buildSourceFaceIBFIZero/One/TwoNormalSubOperator, DGOperatorFactory.h 677-711. *)
Definition sourceForm (k : integ) (mk : marker) : res mat := assembleIBFI N m [(k, Some mk)] mzero.

(** buildDerivativeSubOperator, DGOperatorFactory.h 427-465: no integrator beyond the mesh dimension. *)
Definition buildDerivativeSubOperator (d : Z) : mat := if dim <=? d then mzero else D d.

(** buildByMult, DGOperatorFactory.h 131-147: product of matrices of size [N]. *)
Definition mmul (A B : mat) : mat := fun i j => fold_right Rplus 0%R (map (fun k => A i k * B k j)%R (seq 0 N)).
(** Rows of the product; explicit zeros are kept. DGOperatorFactory.h 131-147. *)
Definition rowsOf (A : mat) : list (list (Z * R)) :=
  map (fun i => map (fun j => (Z.of_nat j, A i j)) (seq 0 N)) (seq 0 N).

(** The products requested by buildGlobalOperator and buildSourceFaceOperator (marker [sm]).
    DGOperatorFactory.h 1404-1571. *)
Definition factoryMat (sm : marker) (o : opname) : res mat :=
  match o with
  | OpDerivative f x => Ok (mmul (MInv f) (buildDerivativeSubOperator x))
  | OpZeroNormal f => A <- buildZeroNormalSubOperator f ;; Ok (mmul (MInv f) A)
  | OpOneNormal f falt x => A <- buildOneNormalSubOperator falt [Z.to_nat x] ;; Ok (mmul (MInv f) A)
  | OpTwoNormal f d d2 => A <- buildTwoNormalSubOperator f [Z.to_nat d; Z.to_nat d2] ;; Ok (mmul (MInv f) A)
  | OpZeroNormalIBFI f => A <- buildZeroNormalIBFISubOperator f ;; Ok (mmul (MInv f) A)
  | OpOneNormalIBFI f falt x => A <- buildOneNormalIBFISubOperator falt [Z.to_nat x] ;; Ok (mmul (MInv f) A)
  | OpTwoNormalIBFI f d d2 => A <- buildTwoNormalIBFISubOperator f [Z.to_nat d; Z.to_nat d2] ;; Ok (mmul (MInv f) A)
  | OpSourceZeroNormal f => A <- sourceForm (zeroNormalJump alpha) sm ;; Ok (mmul (MInv f) A)
  | OpSourceOneNormal f _ x => A <- sourceForm (oneNormalJump [Z.to_nat x] 1%R) sm ;; Ok (mmul (MInv f) A)
  | OpSourceTwoNormal f d d2 => A <- sourceForm (twoNormalJump [Z.to_nat d; Z.to_nat d2] alpha) sm ;; Ok (mmul (MInv f) A)
  | OpConductive => Ok (mmul (MInv E) MSigma)
  end.
(** An operator that was never requested has empty rows. DGOperatorFactory.h 1404-1571. *)
Definition factoryRows (sm : marker) (o : opname) : list (list (Z * R)) :=
  match factoryMat sm o with Ok A => rowsOf A | _ => repeat [] N end.

End Factory.

(** Model of the spectral analysis of a case: the element matrix built by
    src/solver/Solver.cpp 582-625 and by src/components/EigenvalueEstimator.cpp,
    the stability check of Solver.cpp 678-739, and the choice of the largest
    eigenvalue (Solver.cpp 627-637, src/components/OptimizationManager.cpp).

    The products of the inverse mass matrix with the derivative and face forms are the
    arbitrary function [op] of Assembly_Model; the eigenvalues returned by Eigen and the
    step taken by the ODE solver are arguments. *)
From Coq Require Import ZArith List Bool Reals.
From Verif Require Import Common Csr_Model Csr_Spec Assembly_Model Setup_Model.
Import ListNotations.
Local Open Scope Z_scope.

(** A matrix, as the value of each entry.  Simplified: Eigen's SparseMatrix and MatrixXd are
    both represented by their entries. Used in [zeroMat], Solver.cpp 582-625. *)
Definition mat := Z -> Z -> R.
(** Solver.cpp 582-625. *)
Definition zeroMat : mat := fun _ _ => 0%R.

(** SpMat().ToDenseMatrix() of MFEM: entry (i,j) of a sparse matrix given by its rows.
    Used in [allocateDenseInEigen], MaxwellEvolutionMethods.cpp 43-55. *)
Definition denseEntry (rows : list (list (Z * R))) (i j : Z) : R :=
  rsum (map (fun e => if fst e =? j then snd e else 0%R) (nth (Z.to_nat i) rows [])).

(** calcOffsetCoeff, src/evolution/MaxwellEvolutionMethods.cpp 33-40. *)
Definition calcOffsetCoeff (f d : list Z) : res (Z * Z) :=
  f0 <- zget f 0 ;; d0 <- zget d 0 ;;
  if (1 <? length d)%nat
  then f1 <- zget f 1 ;; d1 <- zget d 1 ;; Ok (3 * f0 + d0, 3 * f1 + d1)
  else Ok (3 * f0 + d0, 3 * f0 + d0).

(** coeffRef(r, c) += v. Used in [allocateDenseInEigen], MaxwellEvolutionMethods.cpp 43-55. *)
Definition addAt (M : mat) (r c : Z) (v : R) : mat :=
  fun r' c' => if (r' =? r) && (c' =? c) then (M r' c' + v)%R else M r' c'.

(** Used in [allocateDenseInEigen], MaxwellEvolutionMethods.cpp 43-55. *)
Definition nonZero (v : R) : bool := if Req_EM_T v 0 then false else true.

(** allocateDenseInEigen, MaxwellEvolutionMethods.cpp 43-55; [n] is the height and the
    width of the dense matrix. *)
Definition allocateDenseInEigen (n : Z) (rows : list (list (Z * R))) (M : mat) (f d : list Z) (sign : R) : res mat :=
  ' (oc0, oc1) <- calcOffsetCoeff f d ;;
  Ok (fold_left (fun M i =>
        fold_left (fun M j =>
          if nonZero (denseEntry rows i j)
          then addAt M (i + n * oc0) (j + n * oc1) (sign * denseEntry rows i j)%R
          else M) (zseq (Z.to_nat n)) M) (zseq (Z.to_nat n)) M).

Section Matrix.
Variable op : opname -> list (list (Z * R)).
Variable n : Z.                      (* subfes.GetNDofs() *)

(** One call of the list below: sub-operator, fields, directions and sign.
    Used in [fluxCalls], Solver.cpp 582-625. *)
Definition call : Type := (opname * (list Z * list Z) * R)%type.

(** assembleSubmeshedSpectralOperatorMatrix, Solver.cpp 582-625: the calls made for one
    direction [x], 599-606, and those under [alpha > 0], 608-619. *)
Definition fluxCalls (x : Z) : list call :=
  let y := (x + 1) mod 3 in
  let z := (x + 2) mod 3 in
  [ (OpDerivative H y, ([H; E], [x; z]), (-1)%R);
    (OpDerivative H z, ([H; E], [x; y]), 1%R);
    (OpDerivative E y, ([E; H], [x; z]), 1%R);
    (OpDerivative E z, ([E; H], [x; y]), (-1)%R);
    (OpOneNormal H E y, ([H; E], [x; z]), 1%R);
    (OpOneNormal H E z, ([H; E], [x; y]), (-1)%R);
    (OpOneNormal E H y, ([E; H], [x; z]), (-1)%R);
    (OpOneNormal E H z, ([E; H], [x; y]), 1%R) ].
(** Solver.cpp 582-625. *)
Definition penaltyCalls (x : Z) : list call :=
  [ (OpZeroNormal H, ([H; H], [x]), (-1)%R);
    (OpZeroNormal E, ([E; E], [x]), (-1)%R);
    (OpTwoNormal H 0 x, ([H; H], [0; x]), 1%R);
    (OpTwoNormal H 1 x, ([H; H], [1; x]), 1%R);
    (OpTwoNormal H 2 x, ([H; H], [2; x]), 1%R);
    (OpTwoNormal E 0 x, ([E; E], [0; x]), 1%R);
    (OpTwoNormal E 1 x, ([E; E], [1; x]), 1%R);
    (OpTwoNormal E 2 x, ([E; E], [2; x]), 1%R) ].
(** Solver.cpp 582-625. *)
Definition spectralCalls (alpha : R) (x : Z) : list call :=
  fluxCalls x ++ (if Rlt_dec 0 alpha then penaltyCalls x else []).

(** Solver.cpp 582-625. *)
Definition doCall (M : mat) (k : call) : res mat :=
  let '(o, (f, d), s) := k in allocateDenseInEigen n (op o) M f d s.

(** Solver.cpp 582-625. *)
Definition spectralMatrix (alpha : R) : res mat :=
  foldM (fun M x => foldM doCall (spectralCalls alpha x) M) dirs zeroMat.

(** EigenvalueEstimator::getOffset, EigenvalueEstimator.cpp 6-34. *)
Definition getOffset (f d : Z) : res Z :=
  if f =? E then
    if d =? 0 then Ok 0 else if d =? 1 then Ok n else if d =? 2 then Ok (2 * n) else Throw
  else if f =? H then
    if d =? 0 then Ok (3 * n) else if d =? 1 then Ok (4 * n) else if d =? 2 then Ok (5 * n) else Throw
  else Throw.

(** mat_.block(r, c, n, n) += s * rows.
    Used in [estimatorPenalty], EigenvalueEstimator.cpp 59-94. *)
Definition addDense (M : mat) (r c : Z) (s : R) (rows : list (list (Z * R))) : mat :=
  fun r' c' =>
    if (r <=? r') && (r' <? r + n) && (c <=? c') && (c' <? c + n)
    then (M r' c' + s * denseEntry rows (r' - r) (c' - c))%R else M r' c'.
(** Used in [estimatorPenalty], EigenvalueEstimator.cpp 59-94. *)
Definition addBlockAt (M : mat) (f d f' d' : Z) (s : R) (rows : list (list (Z * R))) : res mat :=
  r <- getOffset f d ;; c <- getOffset f' d' ;; Ok (addDense M r c s rows).

(** Inverse mass matrix of the first field times the two-normal form of the second:
    EigenvalueEstimator.cpp 69-74 combines the inverse mass of [f] with the form of
    altField(f), which is not among the products used for the evolution. *)
Variable twoAlt : Z -> Z -> Z -> Z -> list (list (Z * R)).

(** The loops of the constructor, EigenvalueEstimator.cpp 59-94: the first over the directions
    d < Z (63), the second over x <= Z (80).  [sg] is the sign given to the inverse mass matrix, 78. *)
Definition estimatorPenalty (f : Z) (M : mat) (d : Z) : res mat :=
  M <- addBlockAt M f d f d 1%R (op (OpZeroNormal f)) ;;
  M <- addBlockAt M f 0 f d (-1)%R (twoAlt f (altField f) d 0) ;;
  M <- addBlockAt M f 1 f d (-1)%R (twoAlt f (altField f) d 1) ;;
  addBlockAt M f 2 f d (-1)%R (twoAlt f (altField f) d 2).
(** EigenvalueEstimator.cpp 78-93. *)
Definition estimatorFlux (f : Z) (M : mat) (x : Z) : res mat :=
  let sg := (if f =? H then (-1)%R else 1%R) in
  let y := (x + 1) mod 3 in
  let z := (x + 2) mod 3 in
  M <- addBlockAt M f x (altField f) y (- sg)%R (op (OpDerivative f z)) ;;
  M <- addBlockAt M f x (altField f) y (- sg)%R (op (OpOneNormal f (altField f) z)) ;;
  M <- addBlockAt M f x (altField f) z sg (op (OpDerivative f y)) ;;
  addBlockAt M f x (altField f) z sg (op (OpOneNormal f (altField f) y)).
(** EigenvalueEstimator.cpp 59-94. *)
Definition estimatorMatrix : res mat :=
  foldM (fun M f =>
    M <- foldM (estimatorPenalty f) [0; 1] M ;;
    foldM (estimatorFlux f) dirs M) fields zeroMat.

End Matrix.

(** modulus, written out as in Solver.cpp 631, 696-697 and OptimizationManager.cpp 34. *)
Definition modulus (z : R * R) : R := sqrt (fst z * fst z + snd z * snd z).

(** findMaxEigenvalueModulus, Solver.cpp 627-637. *)
Definition findMaxEigenvalueModulus (ev : list (R * R)) : R :=
  fold_left (fun r z =>
    if Rle_dec (modulus z) 1 then if Rle_dec r (modulus z) then modulus z else r else r) ev 0%R.

(** calcHighestModulus, OptimizationManager.cpp 30-39. *)
Definition calcHighestModulus (ev : list (R * R)) : R * R :=
  fold_left (fun r z => if Rlt_dec (modulus r) (modulus z) then z else r) ev (0%R, 0%R).

(** evaluateStabilityByEigenvalueEvolutionFunction, Solver.cpp 678-707.  [step] is one step of
    the ODE solver with the time step of the case, started at time 0 on the element.
    Simplified: the vector of eigenvalues and the state have the same size, 6 n. *)
Definition evaluateStability (step : list R -> list R) (ev : list (R * R)) : res unit :=
  let real := step (map fst ev) in
  let imag := step (map snd ev) in
  foldM (fun _ i =>
    rp <- zget (map fst ev) i ;; ip <- zget (map snd ev) i ;;
    r <- zget real i ;; m <- zget imag i ;;
    let modPre := modulus (rp, ip) in
    if nonZero modPre
    then if Rlt_dec 1 (modulus (r, m) / modPre) then Throw else Ok tt
    else Ok tt) (zseq (length real)) tt.

(** performSpectralAnalysis, Solver.cpp 709-739: one element after the other.  [eigs e] are the
    eigenvalues of the matrix of element [e], [step e] the ODE step on it. *)
Definition performSpectralAnalysis (eigs : Z -> list (R * R)) (step : Z -> list R -> list R) (ne : nat) : res unit :=
  foldM (fun _ e => evaluateStability (step e) (eigs e)) (zseq ne) tt.

(** reassembleSpectralBdrForSubmesh Solver.cpp 639-676 and assignAttToBdrByDimForSpectral 553-580: the
    boundary attribute of the [i]-th boundary element of an element's sub-mesh, and the
    conditions declared.  Element types as in MFEM: 1 segment, 2 triangle, 3 quadrilateral,
    4 tetrahedron, 5 hexahedron. *)
Definition spectralBdrAttributes (elemType : Z) (nbe : nat) : res (list Z) :=
  if (1 <=? elemType) && (elemType <=? 5) then Ok (map (fun i => i + 1) (zseq nbe)) else Throw.
(** Used in [spectralCoefficient], Solver.cpp 730. *)
Definition allSMA (k : nat) : list (Z * cond) := map (fun i => (i + 1, SMA)) (zseq k).
(** Used in [spectralCoefficient], Solver.cpp 730. *)
Definition assignAttToBdrByDimForSpectral (dim elemType : Z) : res (list (Z * cond)) :=
  if dim =? 1 then Ok (allSMA 2)
  else if dim =? 2 then
    if elemType =? 2 then Ok (allSMA 3) else if elemType =? 3 then Ok (allSMA 4) else Throw
  else if dim =? 3 then
    if elemType =? 4 then Ok (allSMA 4) else if elemType =? 5 then Ok (allSMA 6) else Throw
  else Throw.

(** The permittivity (or permeability) met by the element with attribute [att]: the model of
    the sub-mesh is built from an empty GeomTagToMaterialInfo (584, Solver.cpp 730) and the element keeps
    its attribute (722). *)
Definition spectralCoefficient (isE : bool) (elemType dim : Z) (nbe : nat) (att : Z) : res R :=
  battrs <- spectralBdrAttributes elemType nbe ;;
  conds <- assignAttToBdrByDimForSpectral dim elemType ;;
  m <- newModel [] conds [] battrs ;;
  v <- buildEpsMuPiecewiseVector isE (md_mat m) ;;
  pwEval v att.

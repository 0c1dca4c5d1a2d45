(** Model of the face integrators, src/mfemExtension/IntegratorFunctions.cpp and
    src/mfemExtension/BilinearIntegrators.cpp.

    A face is what the integrators see of it: the numbers of dofs of its elements and, for
    each integration point, the weight of the rule, the geometry of the face there and the
    shape functions of the elements.  Choosing the rule (setIntegrationRule 7-53) and
    evaluating shape functions are MFEM's business and arbitrary here. *)
From Coq Require Import ZArith List Bool Reals.
From Verif Require Import Common.
Import ListNotations.
Local Open Scope R_scope.

(** Geometry at a point: the coordinate of the point in the reference segment (1D), or
    the Jacobian of the face (one column in 2D, two in 3D).
    Used in [calculateNormal], IntegratorFunctions.cpp 56-63. *)
Inductive geo :=
| G1 (x : R)
| G2 (a b : R)
| G3 (a0 a1 a2 b0 b1 b2 : R).

(** Used in [zeroNormalJump], BilinearIntegrators.cpp 9-52. *)
Record qpoint := mkQ { q_w : R; q_geo : geo; q_s1 : list R; q_s2 : list R }.
(** [f_el2] is None when Elem2No < 0.
    Used in [setNeighbourNDoF], IntegratorFunctions.cpp 100-108. *)
Record face := mkFace { f_el1 : nat; f_el2 : option nat; f_pts : list qpoint }.

(** setNormalVector1D, IntegratorFunctions.cpp 56-63; setNormalVector 65-73 with
    mfem::CalcOrtho for 2x1 and 3x2 Jacobians; calculateNormal 119-132. *)
Definition calculateNormal (g : geo) : list R :=
  match g with
  | G1 x => [2 * x - 1]
  | G2 a b => [b; - a]
  | G3 a0 a1 a2 b0 b1 b2 => [a1 * b2 - a2 * b1; a2 * b0 - a0 * b2; a0 * b1 - a1 * b0]
  end.

(** Trans.Weight() of MFEM: 1 on a point, otherwise the length or area scaling of the
    Jacobian, sqrt(det(J^T J)). Used in [calculateSMANormal], IntegratorFunctions.cpp 74-83. *)
Definition weightOf (g : geo) : R :=
  match g with
  | G1 _ => 1
  | G2 a b => sqrt (a * a + b * b)
  | G3 a0 a1 a2 b0 b1 b2 =>
      let E := a0 * a0 + a1 * a1 + a2 * a2 in
      let G := b0 * b0 + b1 * b1 + b2 * b2 in
      let F := a0 * b0 + a1 * b1 + a2 * b2 in
      sqrt (E * G - F * F)
  end.

(** setNormalSMAVector IntegratorFunctions.cpp 74-83 and calculateSMANormal 134-149. *)
Definition calculateSMANormal (g : geo) : list R :=
  match g with
  | G1 x => calculateNormal (G1 x)
  | _ => map (fun c => c / weightOf g) (calculateNormal g)
  end.

(** setNeighbourNDoF, IntegratorFunctions.cpp 100-108. *)
Definition setNeighbourNDoF (F : face) : nat := match f_el2 F with Some n => n | None => 0%nat end.

(** buildNormalTerm, IntegratorFunctions.cpp 110-117: [res.at(i) += nor(i)] on three zeros, then [res.at(dir)].
    Simplified: 0.0 + x is x. *)
Definition buildNormalTerm (nor : list R) (dir : nat) : res R :=
  if (3 <? length nor)%nat then Throw
  else match nth_error (nor ++ repeat 0 (3 - length nor)) dir with Some v => Ok v | None => Throw end.

(** calculateBetaTerm, IntegratorFunctions.cpp 152-171. *)
Definition calculateBetaTerm (nor : list R) (dir : list nat) (beta : R) : res R :=
  match dir with
  | [] => Ok beta
  | [d0] => nIn <- buildNormalTerm nor d0 ;; Ok (beta * nIn)
  | [d0; d1] => nIn <- buildNormalTerm nor d0 ;; nOut <- buildNormalTerm nor d1 ;; Ok (beta * nIn * nOut)
  | _ => Throw
  end.

(** std::vector::at on the direction terms.
    Used in [oneNormalJump], BilinearIntegrators.cpp 54-100. *)
Definition dirAt (dir : list nat) (i : nat) : res nat :=
  match nth_error dir i with Some d => Ok d | None => Throw end.

(** DenseMatrix elmat: a square matrix of the given size; writes outside are undefined.
    Used in [buildFaceMatrix], IntegratorFunctions.cpp 85-98. *)
Definition mat := nat -> nat -> R.
(** Used in [fluxTotalField], BilinearIntegrators.cpp 515-575. *)
Definition mzero : mat := fun _ _ => 0.
(** Used in [buildFaceMatrix], IntegratorFunctions.cpp 85-98. *)
Definition madd (n i j : nat) (v : R) (M : mat) : res mat :=
  if ((i <? n) && (j <? n))%nat
  then Ok (fun a b => if ((a =? i) && (b =? j))%nat then M a b + v else M a b)
  else UB.
(** Used in [buildFaceMatrix], IntegratorFunctions.cpp 85-98. *)
Definition vget (l : list R) (i : nat) : res R := match nth_error l i with Some v => Ok v | None => UB end.

(** buildFaceMatrix, IntegratorFunctions.cpp 85-98; [n] is the size of elmat. *)
Definition buildFaceMatrix (n : nat) (w : R) (ndofA ndofB offsetRow offsetCol : nat) (shapeA shapeB : list R) (M : mat) : res mat :=
  foldM (fun M i =>
    foldM (fun M j =>
      a <- vget shapeA i ;; b <- vget shapeB j ;;
      madd n (i + offsetRow) (j + offsetCol)
           (if (offsetRow =? offsetCol)%nat then w * a * b else - (w * a * b)) M)
      (seq 0 ndofB) M) (seq 0 ndofA) M.

(** The calls labelled TL, TR, BL and BR in the integrators.
    Used in [zeroNormalJump], BilinearIntegrators.cpp 9-52. *)
Definition TL (F : face) (q : qpoint) (w : R) : mat -> res mat :=
  buildFaceMatrix (f_el1 F + setNeighbourNDoF F) w (f_el1 F) (f_el1 F) 0 0 (q_s1 q) (q_s1 q).
(** Used in [zeroNormalJump], BilinearIntegrators.cpp 9-52. *)
Definition TR (F : face) (q : qpoint) (w : R) : mat -> res mat :=
  buildFaceMatrix (f_el1 F + setNeighbourNDoF F) w (f_el1 F) (setNeighbourNDoF F) 0 (f_el1 F) (q_s1 q) (q_s2 q).
(** Used in [zeroNormalJump], BilinearIntegrators.cpp 9-52. *)
Definition BL (F : face) (q : qpoint) (w : R) : mat -> res mat :=
  buildFaceMatrix (f_el1 F + setNeighbourNDoF F) w (setNeighbourNDoF F) (f_el1 F) (f_el1 F) 0 (q_s2 q) (q_s1 q).
(** Used in [zeroNormalJump], BilinearIntegrators.cpp 9-52. *)
Definition BR (F : face) (q : qpoint) (w : R) : mat -> res mat :=
  buildFaceMatrix (f_el1 F + setNeighbourNDoF F) w (setNeighbourNDoF F) (setNeighbourNDoF F) (f_el1 F) (f_el1 F) (q_s2 q) (q_s2 q).
(** [if (ndof2) { ... }]. Used in [zeroNormalJump], BilinearIntegrators.cpp 9-52. *)
Definition ifNeighbour (F : face) (k : mat -> res mat) (M : mat) : res mat :=
  if (setNeighbourNDoF F =? 0)%nat then Ok M else k M.
(** [if (w != 0.0) { ... }]. Used in [zeroNormalJump], BilinearIntegrators.cpp 9-52. *)
Definition ifNonZero (w : R) (k : mat -> res mat) (M : mat) : res mat :=
  if Req_EM_T w 0 then Ok M else k M.

(** The loop over integration points, starting from elmat = 0.
    Used in [zeroNormalJump], BilinearIntegrators.cpp 9-52. *)
Definition overPoints (F : face) (step : qpoint -> mat -> res mat) : res mat :=
  foldM (fun M q => step q M) (f_pts F) mzero.

(** MaxwellDGZeroNormalJumpIntegrator, BilinearIntegrators.cpp 9-52. *)
Definition zeroNormalJump (beta : R) (F : face) : res mat :=
  overPoints F (fun q M =>
    let w := q_w q * beta * (/ 2) * weightOf (q_geo q) in
    ifNonZero w (fun M => M <- TL F q w M ;; ifNeighbour F (fun M => M <- TR F q w M ;; M <- BL F q w M ;; BR F q w M) M) M).

(** MaxwellDGOneNormalJumpIntegrator, BilinearIntegrators.cpp 54-100. *)
Definition oneNormalJump (dir : list nat) (beta : R) (F : face) : res mat :=
  overPoints F (fun q M =>
    d <- dirAt dir 0 ;; nd <- buildNormalTerm (calculateNormal (q_geo q)) d ;;
    let w := q_w q * (beta * nd) * (/ 2) in
    ifNonZero w (fun M => M <- TL F q w M ;; ifNeighbour F (fun M => M <- TR F q w M ;; M <- BL F q (- w) M ;; BR F q (- w) M) M) M).

(** MaxwellDGTwoNormalJumpIntegrator, BilinearIntegrators.cpp 102-149. *)
Definition twoNormalJump (dir : list nat) (beta : R) (F : face) : res mat :=
  overPoints F (fun q M =>
    d <- dirAt dir 0 ;; nd <- buildNormalTerm (calculateNormal (q_geo q)) d ;;
    e <- dirAt dir 1 ;; ne <- buildNormalTerm (calculateNormal (q_geo q)) e ;;
    let w := q_w q * (beta * nd * ne) * (/ 2) / weightOf (q_geo q) in
    ifNonZero w (fun M => M <- TL F q w M ;; ifNeighbour F (fun M => M <- TR F q w M ;; M <- BL F q w M ;; BR F q w M) M) M).

(** MaxwellDGDecoupledZeroNormalJumpIntegrator, BilinearIntegrators.cpp 151-192. *)
Definition decoupledZeroNormal (beta : R) (F : face) : res mat :=
  overPoints F (fun q M =>
    let w := q_w q * beta * (/ 2) * weightOf (q_geo q) in
    ifNonZero w (fun M => M <- TL F q w M ;; ifNeighbour F (fun M => BR F q w M) M) M).

(** MaxwellDGDecoupledOneNormalJumpIntegrator, BilinearIntegrators.cpp 194-236. *)
Definition decoupledOneNormal (dir : list nat) (beta : R) (F : face) : res mat :=
  overPoints F (fun q M =>
    d <- dirAt dir 0 ;; nd <- buildNormalTerm (calculateNormal (q_geo q)) d ;;
    let w := q_w q * (beta * nd) * (/ 2) in
    ifNonZero w (fun M => M <- TL F q w M ;; ifNeighbour F (fun M => BR F q (- w) M) M) M).

(** MaxwellDGDecoupledTwoNormalJumpIntegrator, BilinearIntegrators.cpp 238-280. *)
Definition decoupledTwoNormal (dir : list nat) (beta : R) (F : face) : res mat :=
  overPoints F (fun q M =>
    d <- dirAt dir 0 ;; nd <- buildNormalTerm (calculateNormal (q_geo q)) d ;;
    e <- dirAt dir 1 ;; ne <- buildNormalTerm (calculateNormal (q_geo q)) e ;;
    let w := q_w q * (beta * nd * ne) * (/ 2) / weightOf (q_geo q) in
    ifNonZero w (fun M => M <- TL F q w M ;; ifNeighbour F (fun M => BR F q w M) M) M).

(** The three ways [w] is scaled by Trans.Weight(), by the number of direction terms.
    Used in [traceJump], BilinearIntegrators.cpp 282-353. *)
Definition scaleBy (dir : list nat) (g : geo) (w : R) : res R :=
  match dir with
  | [] => Ok (w * weightOf g)
  | [_] => Ok w
  | [_; _] => Ok (w / weightOf g)
  | _ => Throw
  end.
(** Sign of the second element's blocks: -w in the one-direction case.
    Used in [traceJump], BilinearIntegrators.cpp 282-353. *)
Definition sideSign (dir : list nat) (w : R) : R := match dir with [_] => - w | _ => w end.

(** MaxwellDGTraceJumpIntegrator, BilinearIntegrators.cpp 282-353. *)
Definition traceJump (dir : list nat) (beta : R) (F : face) : res mat :=
  overPoints F (fun q M =>
    b <- calculateBetaTerm (calculateNormal (q_geo q)) dir beta ;;
    let w := q_w q * b * (/ 2) in
    ifNonZero w (fun M =>
      w <- scaleBy dir (q_geo q) w ;;
      M <- TL F q w M ;;
      ifNeighbour F (fun M => M <- TR F q w M ;; M <- BL F q (sideSign dir w) M ;; BR F q (sideSign dir w) M) M) M).

(** MaxwellDGInteriorJumpIntegrator, BilinearIntegrators.cpp 356-412: no test of ndof2. *)
Definition interiorJump (dir : list nat) (beta : R) (F : face) : res mat :=
  overPoints F (fun q M =>
    b <- calculateBetaTerm (calculateNormal (q_geo q)) dir beta ;;
    let w := q_w q * b * (/ 2) in
    ifNonZero w (fun M =>
      w <- scaleBy dir (q_geo q) w ;;
      M <- TL F q w M ;; BR F q (sideSign dir w) M) M).

(** MaxwellSMAJumpIntegrator, BilinearIntegrators.cpp 414-465. *)
Definition smaJump (dir : list nat) (beta : R) (F : face) : res mat :=
  overPoints F (fun q M =>
    b <- calculateBetaTerm (calculateNormal (q_geo q)) dir beta ;;
    let w := q_w q * b * (/ 2) in
    ifNonZero w (fun M => w <- scaleBy dir (q_geo q) w ;; TL F q w M) M).

(** MaxwellDGOneNormalTotalFieldIntegrator, BilinearIntegrators.cpp 467-513. *)
Definition oneNormalTotalField (dir : list nat) (beta : R) (F : face) : res mat :=
  overPoints F (fun q M =>
    d <- dirAt dir 0 ;; nd <- buildNormalTerm (calculateNormal (q_geo q)) d ;;
    let w := q_w q * (beta * nd) * (/ 2) in
    ifNonZero w (fun M => M <- TL F q w M ;; ifNeighbour F (fun M => M <- TR F q (- w) M ;; M <- BL F q w M ;; BR F q (- w) M) M) M).

(** MaxwellDGFluxTotalFieldIntegrator, BilinearIntegrators.cpp 515-575: [elmat = 0.0] inside the loop. *)
Definition fluxTotalField (tfsf : R) (F : face) : res mat :=
  overPoints F (fun q _ =>
    let w := q_w q * (/ 2) in
    let pos := if Rlt_dec 0 tfsf then true else false in
    M <- ifNonZero w (TL F q (if pos then w else 0)) mzero ;;
    ifNeighbour F (ifNonZero w (fun M =>
      M <- TR F q (if pos then 0 else w) M ;; M <- BL F q (if pos then 0 else w) M ;;
      BR F q (if pos then w else 0) M)) M).

(** MaxwellDGPenaltyTotalFieldIntegrator, BilinearIntegrators.cpp 577-624: [elmat = 0.0] inside the loop. *)
Definition penaltyTotalField (dir : list nat) (beta tfsf : R) (F : face) : res mat :=
  overPoints F (fun q _ =>
    b <- calculateBetaTerm (calculateNormal (q_geo q)) dir beta ;;
    let w := q_w q * b * tfsf in
    ifNeighbour F (ifNonZero w (fun M => M <- TR F q w M ;; BR F q w M)) mzero).

(** TotalFieldScatteredFieldIntegrator, BilinearIntegrators.cpp 626-669: [elmat = 0.0] inside the loop; elmat has
    the size of the first element. *)
Definition totalFieldScatteredField (beta : R) (F : face) : res mat :=
  overPoints F (fun q _ =>
    let w := q_w q * beta in
    buildFaceMatrix (f_el1 F) w (f_el1 F) (f_el1 F) 0 0 (q_s1 q) (q_s1 q) mzero).

(** HesthavenFluxIntegrator, BilinearIntegrators.cpp 671-714. *)
Definition hesthavenFlux (F : face) : res mat :=
  overPoints F (fun q M =>
    let w := q_w q * 2 in
    ifNonZero w (fun M => M <- TL F q w M ;; ifNeighbour F (fun M => M <- TR F q (- w) M ;; M <- BL F q (- w) M ;; BR F q w M) M) M).

(** ** Linear forms on faces, src/mfemExtension/LinearIntegrators.cpp.  The element vector is
    a function on indices with its size; values of coefficients at a point are arbitrary.
    Used in [boundaryJump1], LinearIntegrators.cpp 17-72. *)
Definition vec := nat -> R.
(** Used in [boundaryJump1], LinearIntegrators.cpp 17-72. *)
Definition vzero : vec := fun _ => 0.
(** Vector::Add(w, shape). Used in [boundaryJump1], LinearIntegrators.cpp 17-72. *)
Definition vaddShape (n : nat) (w : R) (s : list R) (e : vec) : res vec :=
  if (length s =? n)%nat then Ok (fun i => if (i <? n)%nat then e i + w * nth i s 0 else e i) else UB.
(** Vector::operator*. Used in [boundaryJump1], LinearIntegrators.cpp 17-72. *)
Definition dotV (u n : list R) : R := fold_right Rplus 0 (map (fun p => fst p * snd p) (combine u n)).

(** BoundaryDGJumpIntegrator on one element, LinearIntegrators.cpp 17-72; [u q] is the coefficient at the point. *)
Definition boundaryJump1 (u : qpoint -> list R) (beta : R) (F : face) : res vec :=
  foldM (fun e q => vaddShape (f_el1 F) (beta * dotV (u q) (calculateSMANormal (q_geo q)) * q_w q) (q_s1 q) e) (f_pts F) vzero.
(** BoundaryDGJumpIntegrator on two elements, LinearIntegrators.cpp 74-135: lines 128-133 assign.  [x2] is the
    reference coordinate of the point in the second element, used in 1D only. *)
Definition boundaryJump2 (u u2 : qpoint -> list R) (x2 : qpoint -> R) (beta : R) (F : face) : res vec :=
  foldM (fun e q =>
    let nor := calculateSMANormal (q_geo q) in
    let nor2 := match q_geo q with G1 _ => [2 * x2 q - 1] | _ => nor end in
    let w1 := beta * dotV (u q) nor * q_w q in
    let w2 := beta * dotV (u2 q) nor2 * q_w q in
    if ((length (q_s1 q) =? f_el1 F) && (length (q_s2 q) =? setNeighbourNDoF F))%nat
    then Ok (fun i => if (i <? f_el1 F)%nat then w1 * nth i (q_s1 q) 0
                      else if (i <? f_el1 F + setNeighbourNDoF F)%nat then w2 * nth (i - f_el1 F) (q_s2 q) 0 else e i)
    else UB) (f_pts F) vzero.
(** FarFieldBdrFaceIntegrator, LinearIntegrators.cpp 153-204, and NTFFBdrFaceIntegrator, 323-361: [c q] is the
    coefficient.  In both the normal has as many components as the mesh and is padded with
    zeros up to three. *)
Definition innerNormal (g : geo) (dir : nat) : R := nth dir (map Ropp (calculateNormal g)) 0.
(** LinearIntegrators.cpp 153-204. *)
Definition farFieldFace (c : qpoint -> R) (dir : nat) (F : face) : res vec :=
  foldM (fun e q => vaddShape (f_el1 F) (q_w q * c q * innerNormal (q_geo q) dir / weightOf (q_geo q)) (q_s1 q) e) (f_pts F) vzero.
(** LinearIntegrators.cpp 323-361. *)
Definition ntffFace (c : qpoint -> R) (dir : nat) (F : face) : res vec :=
  foldM (fun e q => vaddShape (f_el1 F) (q_w q * c q * innerNormal (q_geo q) dir) (q_s1 q) e) (f_pts F) vzero.

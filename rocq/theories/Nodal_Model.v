(** Model of the nodal (Hesthaven) evolution operator,
    src/evolution/HesthavenEvolution.cpp, over exact reals.

    Field components are numbered c = 3*f + d with f = 0 for E, 1 for H and
    d = 0, 1, 2 for X, Y, Z, so that [e_[d]] is component d and [h_[d]] is
    component 3 + d.  The data the constructor computes with MFEM (connectivity,
    boundary maps, directional matrices, LIFT, normals, scales) are fields of the
    record [nodal]. *)
From Coq Require Import ZArith List Bool Reals.
From Verif Require Import Common.
Import ListNotations.
Local Open Scope Z_scope.

(** TrueBoundaryMaps, HesthavenEvolutionMethods.h 75-78. *)
Record bmaps := mkB { mapB : list (list Z); vmapB : list (list Z) }.
(** InteriorBoundaryMaps, h HesthavenEvolutionMethods.h 80-85; TotalFieldScatteredFieldMaps, h 87-92, has the
    same shape (side 1 is the scattered side, side 2 the total side). *)
Record ibmaps := mkIB { mapB1 : list (list Z); mapB2 : list (list Z); vmapB1 : list (list Z); vmapB2 : list (list Z) }.
(** BoundaryMaps, h HesthavenEvolutionMethods.h 94-102. *)
Record bdrMaps := mkBdr { bPEC : bmaps; bPMC : bmaps; bSMA : bmaps;
                          iPEC : ibmaps; iPMC : ibmaps; iSMA : ibmaps; bTFSF : ibmaps }.
(** HesthavenElement, h HesthavenEvolutionMethods.h 66-73 (type and volume are not used by Mult), with the
    dofs [fes.GetElementDofs(id)] gives. *)
Record helem := mkEl { el_id : Z; el_dofs : list Z; el_dir : list (list (list R));
                       el_nor : list (list R); el_fscale : list R }.
(** HesthavenCurvedElement, h HesthavenEvolutionMethods.h 59-64: the non-empty rows of its sparse matrix. *)
Record celem := mkCur { cu_dofs : list Z; cu_rows : list (Z * list (Z * R)) }.
(** Members of HesthavenEvolution used by Mult, HesthavenEvolution.h 35-48.  A
    source is [None] when the cast to TotalField fails, otherwise its value at the
    current time as a function of node, field and direction. *)
Record nodal := mkNodal {
  nd_N : Z; nd_alpha : R; nd_global : list (Z * Z); nd_bdr : bdrMaps;
  nd_lin : list helem; nd_cur : list celem; nd_lift : list (list R);
  nd_src : list (option (Z -> Z -> Z -> R)) }.

(** Used in [applyBdrBC], HesthavenEvolution.cpp 275-313. *)
Definition xyz : list Z := [0; 1; 2].
(** Used in [nodalMult], HesthavenEvolution.cpp 450-542. *)
Definition comps6 : list Z := [0; 1; 2; 3; 4; 5].

(** HesthavenFields, HesthavenEvolutionMethods.cpp 7-13: six vectors. *)
Definition hfields := list (list R).
(** Used in [nodeFlux], HesthavenEvolutionMethods.cpp 49-57. *)
Definition fget (F : hfields) (c p : Z) : res R := l <- zget F c ;; zget l p.
(** Used in [applyBdrBC], HesthavenEvolution.cpp 275-313. *)
Definition fset (F : hfields) (c p : Z) (a : R) : res hfields :=
  l <- zget F c ;; l' <- zset l p a ;; zset F c l'.
(** Used in [evaluateTFSF], HesthavenEvolution.cpp 97-124. *)
Definition fadd (F : hfields) (c p : Z) (a : R) : res hfields :=
  o <- fget F c p ;; fset F c p (o + a)%R.

(** FieldsInputMaps, HesthavenEvolutionMethods.cpp 15-23: entry [i] of the view of
    component [c]. *)
Definition view (n : Z) (x : list R) (c i : Z) : res R :=
  if (0 <=? i) && (i <? n) then zget x (c * n + i) else UB.
(** Used in [loadOut], HesthavenEvolution.cpp 439-448. *)
Definition viewSet (n : Z) (x : list R) (c i : Z) (a : R) : res (list R) :=
  if (0 <=? i) && (i <? n) then zset x (c * n + i) a else UB.

(** Mult, HesthavenEvolution.cpp 472-479: jumps across every connectivity pair.
    Simplified: one component after the other; the writes are independent. *)
Definition jumpAt (n : Z) (x : list R) (c : Z) (pq : Z * Z) : res R :=
  b <- view n x c (snd pq) ;; a <- view n x c (fst pq) ;; Ok (b - a)%R.
(** Used in [nodalMult], HesthavenEvolution.cpp 450-542. *)
Definition initJumps (s : nodal) (x : list R) : res hfields :=
  mapM (fun c => mapM (jumpAt (nd_N s) x c) (nd_global s)) comps6.

(** isDoFinCurvedElement, HesthavenEvolution.cpp 264-273. *)
Definition inCurved (s : nodal) (d : Z) : bool :=
  existsb (fun c => existsb (Z.eqb d) (cu_dofs c)) (nd_cur s).

(** applyBoundaryConditionsToNodes, HesthavenEvolution.cpp 275-313: the lambda applyBdrBC 277-288. *)
Definition applyBdrBC (s : nodal) (x : list R) (bc : bmaps) (ec hc : R) (F : hfields) : res hfields :=
  foldM (fun F m =>
    foldM (fun F d =>
      vb <- zget (vmapB bc) m ;;
      foldM (fun F k =>
        v <- zget vb k ;;
        if inCurved s v then Ok F else
        mb <- zget (mapB bc) m ;; p <- zget mb k ;;
        e <- view (nd_N s) x d v ;; F1 <- fset F d p (ec * e)%R ;;
        h <- view (nd_N s) x (3 + d) v ;; fset F1 (3 + d) p (hc * h)%R)
        (zseq (length vb)) F) xyz F)
    (zseq (length (vmapB bc))) F.

(** The lambda applyIntBdrBC, HesthavenEvolution.cpp 294-307. *)
Definition applyIntBdrBC (s : nodal) (x : list R) (bc : ibmaps) (ec hc : R) (F : hfields) : res hfields :=
  foldM (fun F m =>
    foldM (fun F d =>
      m1 <- zget (mapB1 bc) m ;;
      foldM (fun F k =>
        v1s <- zget (vmapB1 bc) m ;; v1 <- zget v1s k ;;
        v2s <- zget (vmapB2 bc) m ;; v2 <- zget v2s k ;;
        if negb (inCurved s v1) || negb (inCurved s v2) then
          p1 <- zget m1 k ;;
          m2 <- zget (mapB2 bc) m ;; p2 <- zget m2 k ;;
          e1 <- view (nd_N s) x d v1 ;; F1 <- fset F d p1 (ec * e1)%R ;;
          h1 <- view (nd_N s) x (3 + d) v1 ;; F2 <- fset F1 (3 + d) p1 (hc * h1)%R ;;
          e2 <- view (nd_N s) x d v2 ;; F3 <- fset F2 d p2 (ec * e2)%R ;;
          h2 <- view (nd_N s) x (3 + d) v2 ;; fset F3 (3 + d) p2 (hc * h2)%R
        else Ok F)
        (zseq (length m1)) F) xyz F)
    (zseq (length (mapB1 bc))) F.

(** HesthavenEvolution.cpp 290-292 and 309-311.  With alpha = 0 the absorbing factor is infinite in the
    code; here that is UB unless there is no absorbing face. *)
Definition applyBoundary (s : nodal) (x : list R) (F : hfields) : res hfields :=
  let b := nd_bdr s in let a := nd_alpha s in
  F1 <- applyBdrBC s x (bPEC b) (-2) 0 F ;;
  F2 <- applyBdrBC s x (bPMC b) 0 (-2) F1 ;;
  F3 <- (if Req_EM_T a 0 then (if length (vmapB (bSMA b)) =? 0 then Ok F2 else UB)%nat
         else applyBdrBC s x (bSMA b) (-1 / a) (-1 / a) F2) ;;
  F4 <- applyIntBdrBC s x (iPEC b) (-1) 0 F3 ;;
  F5 <- applyIntBdrBC s x (iPMC b) 0 (-1) F4 ;;
  applyIntBdrBC s x (iSMA b) (-0.5) (-0.5) F5.

(** evaluateTFSF, HesthavenEvolution.cpp 97-124. *)
Definition evaluateTFSF (s : nodal) (F : hfields) : res hfields :=
  let b := bTFSF (nd_bdr s) in
  foldM (fun F src =>
    match src with
    | None => Ok F
    | Some ev =>
      foldM (fun F m =>
        ps <- zget (mapB1 b) m ;;
        foldM (fun F k =>
          foldM (fun F d =>
            vs <- zget (vmapB1 b) m ;; v <- zget vs k ;;
            p <- zget ps k ;;
            F1 <- fadd F d p (- ev v 0%Z d) ;;
            F2 <- fadd F1 (3 + d) p (- ev v 1%Z d) ;;
            qs <- zget (mapB2 b) m ;; q <- zget qs k ;;
            F3 <- fadd F2 d q (ev v 0%Z d) ;;
            fadd F3 (3 + d) q (ev v 1%Z d)) xyz F)
          (zseq (length ps)) F)
        (zseq (length (mapB1 b))) F
    end) (nd_src s) F.

(** Eigen matrix-vector product; sizes that do not match are an error.
    Used in [applyLIFT], HesthavenEvolution.cpp 126-132. *)
Definition rdot (a b : list R) : R := fold_right Rplus 0%R (map (fun p => fst p * snd p)%R (combine a b)).
(** Used in [applyLIFT], HesthavenEvolution.cpp 126-132. *)
Definition matVec (A : list (list R)) (v : list R) : res (list R) :=
  if forallb (fun r => length r =? length v)%nat A then Ok (map (fun r => rdot r v) A) else UB.

(** FieldsElementMaps, HesthavenEvolutionMethods.cpp 35-47: a raw pointer into the
    state vector, at [id * dofs.Size()] of component [c]. *)
Definition elemField (n : Z) (x : list R) (el : helem) (c : Z) : res (list R) :=
  let nd := length (el_dofs el) in
  mapM (fun k => zget x (c * n + el_id el * Z.of_nat nd + k)) (zseq nd).

(** Flux at one face node, HesthavenEvolution.cpp 499-520: [nor], [je], [jh] hold the three components of
    the normal and of the jumps. *)
Definition at3 (l : list R) (d : Z) : R := nth (Z.to_nat d) l 0%R.
(** Used in [nodeFlux], HesthavenEvolutionMethods.cpp 49-57. *)
Definition ndot (nor j : list R) : R := (0 + at3 nor 0 * at3 j 0 + at3 nor 1 * at3 j 1 + at3 nor 2 * at3 j 2)%R.
(** Used in [nodeFlux], HesthavenEvolutionMethods.cpp 49-57. *)
Definition fluxH (alpha : R) (nor je jh : list R) (x : Z) : R :=
  let y := (x + 1) mod 3 in let z := (x + 2) mod 3 in
  (-1 * at3 nor y * at3 je z + at3 nor z * at3 je y + alpha * (at3 jh x - ndot nor jh * at3 nor x))%R.
(** Used in [nodeFlux], HesthavenEvolutionMethods.cpp 49-57. *)
Definition fluxE (alpha : R) (nor je jh : list R) (x : Z) : R :=
  let y := (x + 1) mod 3 in let z := (x + 2) mod 3 in
  (at3 nor y * at3 jh z - 1 * at3 nor z * at3 jh y + alpha * (at3 je x - ndot nor je * at3 nor x))%R.

(** The six fluxes at node [i] of element [el]: HesthavenElementJumps,
    HesthavenEvolutionMethods.cpp 49-57, is a raw pointer at [id * elemFluxSize]. *)
Definition nodeFlux (s : nodal) (F : hfields) (el : helem) (i : Z) : res (list R) :=
  let p := el_id el * Z.of_nat (length (el_fscale el)) + i in
  nor <- mapM (fun d => fget (el_nor el) d i) xyz ;;
  je <- mapM (fun d => fget F d p) xyz ;;
  jh <- mapM (fun d => fget F (3 + d) p) xyz ;;
  Ok (map (fluxE (nd_alpha s) nor je jh) xyz ++ map (fluxH (nd_alpha s) nor je jh) xyz).

(** applyLIFT, HesthavenEvolution.cpp 126-132, on component [c] of the fluxes. *)
Definition applyLIFT (lift : list (list R)) (fscale : list R) (fl : list (list R)) (c : Z) : res (list R) :=
  g <- mapM (fun i => f <- zget fl i ;; v <- zget f c ;; q <- zget fscale i ;; Ok (v * (q / 2))%R) (zseq (length fl)) ;;
  matVec lift g.

(** Used in [elemResult], HesthavenEvolution.cpp 526-530. *)
Definition add3 (a b c : list R) : list R :=
  map (fun t => fst (fst t) + snd (fst t) + snd t)%R (combine (combine a b) c).

(** hResult and eResult, HesthavenEvolution.cpp 526-530.  Eigen requires equal sizes. *)
Definition elemResult (s : nodal) (x : list R) (el : helem) (fl : list (list R)) (f d : Z) : res (list R) :=
  let y := (d + 1) mod 3 in let z := (d + 2) mod 3 in
  dir1 <- zget (el_dir el) y ;; dir2 <- zget (el_dir el) z ;;
  let a := 1 - f in
  uz <- elemField (nd_N s) x el (3 * a + z) ;; uy <- elemField (nd_N s) x el (3 * a + y) ;;
  v1 <- matVec dir1 uz ;; v2 <- matVec dir2 uy ;;
  v3 <- applyLIFT (nd_lift s) (el_fscale el) fl (3 * f + d) ;;
  if ((length v1 =? length v2) && (length v1 =? length v3))%nat
  then Ok (if f =? 1 then add3 (map (fun r => -1 * r)%R v1) v2 v3
           else add3 v1 (map (fun r => - (1 * r))%R v2) v3)
  else UB.

(** loadOutVectors, HesthavenEvolution.cpp 439-448: SetSubVector on the view of component [c]. *)
Definition loadOut (n : Z) (c : Z) (data : list R) (dofs : list Z) (out : list R) : res (list R) :=
  foldM (fun o i => k <- zget dofs i ;; v <- zget data i ;; viewSet n o c k v) (zseq (length dofs)) out.

(** One pass of the loop over linear elements, HesthavenEvolution.cpp 491-536. *)
Definition linElement (s : nodal) (x : list R) (F : hfields) (out : list R) (el : helem) : res (list R) :=
  fl <- mapM (nodeFlux s F el) (zseq (length (el_fscale el))) ;;
  foldM (fun o d =>
    h <- elemResult s x el fl 1 d ;; e <- elemResult s x el fl 0 d ;;
    o1 <- loadOut (nd_N s) (3 + d) h (el_dofs el) o ;;
    loadOut (nd_N s) d e (el_dofs el) o1) xyz out.

(** mfem SparseMatrix::AddMult on the rows of a curved element, HesthavenEvolution.cpp 538-540. *)
Definition curElement (x : list R) (out : list R) (ce : celem) : res (list R) :=
  foldM (fun o r =>
    t <- foldM (fun a cv => v <- zget x (fst cv) ;; Ok (a + snd cv * v)%R) (snd r) 0%R ;;
    b <- zget o (fst r) ;; zset o (fst r) (b + t)%R) (cu_rows ce) out.

(** Mult, HesthavenEvolution.cpp 450-542; [out] has 6*N entries. *)
Definition nodalMult (s : nodal) (x : list R) : res (list R) :=
  let out0 := repeat 0%R (Z.to_nat (6 * nd_N s)) in
  J0 <- initJumps s x ;;
  J1 <- applyBoundary s x J0 ;;
  J2 <- evaluateTFSF s J1 ;;
  o1 <- foldM (linElement s x J2) (nd_lin s) out0 ;;
  foldM (curElement x) (nd_cur s) o1.

(** Model of a run on several processes: the operator each process assembles
    (src/components/DGOperatorFactory.h with BF = ParBilinearForm) and its application to the local
    fields and to those received from the neighbours (src/evolution/GlobalEvolution.cpp 628-813).

    MFEM cuts the mesh, numbers the dofs of the neighbours and exchanges their values; its
    ParBilinearForm adds the faces shared with other processes.  Those parts are transcribed from
    MFEM and belong to the trusted base.  Numbers are reals; the processes run in step, as every
    exchange is collective. *)
From Coq Require Import ZArith List Bool Reals.
From Verif Require Import Common Csr_Model Face_Model Setup_Model Assembly_Model Form_Model Evol_Model Ode_Model.
Import ListNotations.
Local Open Scope Z_scope.

(** What one process holds: the number of its dofs (fes_.GetNDofs()), for each neighbour dof (there
    are fes_.num_face_nbr_dofs, DGOperatorFactory.h 391-397) the process that owns it and its number
    there, its faces and boundary elements, the faces shared with other processes (first element
    local, second element a neighbour), and its assembled domain forms.
    Used in [rankOperator], DGOperatorFactory.h 1427-1571. *)
Record prank := mkPR {
  pr_n : nat; pr_nbr : list (nat * nat); pr_mesh : fmesh; pr_shared : list mface;
  pr_MInv : Z -> mat; pr_D : Z -> mat; pr_Sigma : mat }.
(** Columns of the face operators: local and neighbour dofs, DGOperatorFactory.h 61-81, 391-397. *)
Definition pwidth (rk : prank) : nat := pr_n rk + length (pr_nbr rk).

(** SparseMatrix::AddSubMatrix(rows, cols, elemmat) of an [N] x [W] matrix.
    Used in [assembleShared], DGOperatorFactory.h 467-573. *)
Definition addRows (N W : nat) (rows cols : list nat) (K : mat) (M : mat) : res mat :=
  foldM (fun M i => foldM (fun M j =>
    di <- dofAt rows i ;; dj <- dofAt cols j ;;
    if ((di <? N) && (dj <? W))%nat
    then Ok (fun a b => if ((a =? di) && (b =? dj))%nat then (M a b + K i j)%R else M a b)
    else UB) (seq 0 (length cols)) M) (seq 0 (length rows)) M.
(** ParBilinearForm::AssembleSharedFaces of MFEM: only the rows of the local element.
    Used in [pfaceForm], DGOperatorFactory.h 467-573. *)
Definition assembleShared (N W : nat) (shared : list mface) (ig : integ) (M : mat) : res mat :=
  foldM (fun M f => K <- ig (mf_face f) ;; addRows N W (mf_dofs1 f) (vdofs f) K M) shared M.

Section Factory.
Variable dim : Z.
Variable alpha : R.
Variable ob ib : list (cond * marker).
Variable sm : marker.

(** res->Assemble() of a ParBilinearForm with interior face integrators, DGOperatorFactory.h 467-573:
    the local faces first, which leave the neighbour columns at zero, then the shared ones. *)
Definition pfaceForm (rk : prank) (k : R -> integ) (a : R) (coeff : cond -> res R) : res mat :=
  M <- faceForm (pr_n rk) (pr_mesh rk) ob ib k a coeff ;;
  assembleShared (pr_n rk) (pwidth rk) (pr_shared rk) (k a) (fun i j => if (j <? pr_n rk)%nat then M i j else 0%R).

(** The products of buildGlobalOperator on one process, DGOperatorFactory.h 1427-1564; forms without
    interior face integrators have no neighbour columns. *)
Definition pfactoryMat (rk : prank) (o : opname) : res mat :=
  match o with
  | OpZeroNormal f =>
      A <- pfaceForm rk zeroNormalJump alpha (fun c => v <- coeffAt alpha c f ;; Ok (v * alpha)%R) ;;
      Ok (mmul (pr_n rk) (pr_MInv rk f) A)
  | OpOneNormal f falt x =>
      A <- pfaceForm rk (oneNormalJump [Z.to_nat x]) 1%R (fun c => coeffAt alpha c falt) ;;
      Ok (mmul (pr_n rk) (pr_MInv rk f) A)
  | OpTwoNormal f d d2 =>
      A <- pfaceForm rk (twoNormalJump [Z.to_nat d; Z.to_nat d2]) alpha (fun c => v <- coeffAt alpha c f ;; Ok (v * alpha)%R) ;;
      Ok (mmul (pr_n rk) (pr_MInv rk f) A)
  | _ => factoryMat (pr_n rk) (pr_mesh rk) dim alpha ob ib (pr_MInv rk) (pr_D rk) (pr_Sigma rk) sm o
  end.
(** Columns of each product. Used in [pfactoryRows], DGOperatorFactory.h 1427-1564. *)
Definition pcols (rk : prank) (o : opname) : nat :=
  match o with OpZeroNormal _ | OpOneNormal _ _ _ | OpTwoNormal _ _ _ => pwidth rk | _ => pr_n rk end.
(** Rows of the products, explicit zeros kept. DGOperatorFactory.h 131-147. *)
Definition pfactoryRows (rk : prank) (o : opname) : list (list (Z * R)) :=
  match pfactoryMat rk o with
  | Ok A => map (fun i => map (fun j => (Z.of_nat j, A i j)) (seq 0 (pcols rk o))) (seq 0 (pr_n rk))
  | _ => repeat [] (pr_n rk)
  end.
(** buildGlobalOperator on one process, DGOperatorFactory.h 1427-1571. *)
Definition rankOperator (rk : prank) : res (csr R) :=
  buildGlobalOperator R Rplus Rmult 1%R (-1)%R (pfactoryRows rk) dim (Z.of_nat (pr_n rk)) (Z.of_nat (length (pr_nbr rk)))
    (match ib with [] => false | _ => true end).
End Factory.

(** Values of component [c] at the neighbour dofs of a process after ExchangeFaceNbrData,
    GlobalEvolution.cpp 771-774; [X] are the vectors of all the processes. *)
Definition nbrData (rks : list prank) (X : list (list R)) (rk : prank) (c : Z) : res (list R) :=
  mapM (fun p => match nth_error rks (fst p), nth_error X (fst p) with
                 | Some q, Some x => zget x (c * Z.of_nat (pr_n q) + Z.of_nat (snd p))
                 | _, _ => UB end) (pr_nbr rk).
(** Mult on one process without sources or layers, GlobalEvolution.cpp 759-812; [work] is the scratch
    vector left by the previous call and [junk] the contents of a new one. *)
Definition rankMult (junk : nat -> list R) (rks : list prank) (X : list (list R)) (rk : prank) (P : csr R) (work x : list R) : res (list R) :=
  nd <- mapM (nbrData rks X rk) comps ;;
  w <- pack (pr_n rk) (length (pr_nbr rk)) junk work x nd ;;
  mapM (csr_mult_row P w) (zseq (6 * pr_n rk)).
(** Mult on all the processes, GlobalEvolution.cpp 628-813: scratch vectors are zero between calls
    (or not allocated yet), which [works] says. *)
Definition allMult (junk : nat -> list R) (rks : list prank) (Ps : list (csr R)) (works X : list (list R)) : res (list (list R)) :=
  mapM (fun q => rankMult junk rks X (fst (fst (fst q))) (snd (fst (fst q))) (snd (fst q)) (snd q))
    (combine (combine (combine rks Ps) works) X).

(** x.Add(a, k) on every process.  Used by odeSolver_->Step, Solver.cpp 535-551. *)
Definition addAll (a : R) (K X : list (list R)) : list (list R) := map (fun p => addv a (snd p) (fst p)) (combine X K).
(** mfem::RK4Solver::Step on all the processes; chosen at Solver.cpp 45-47.  [works] are the scratch
    vectors each evaluation finds. *)
Definition allStep (junk : nat -> list R) (rks : list prank) (Ps : list (csr R)) (works : nat -> list (list R)) (X : list (list R)) (dt : R) : res (list (list R)) :=
  K <- allMult junk rks Ps (works 0%nat) X ;;
  let Y := addAll (dt / 2) K X in let Z := addAll (dt / 6) K X in
  K <- allMult junk rks Ps (works 1%nat) Y ;;
  let Y := addAll (dt / 2) K X in let Z := addAll (dt / 3) K Z in
  K <- allMult junk rks Ps (works 2%nat) Y ;;
  let Y := addAll dt K X in let Z := addAll (dt / 3) K Z in
  K <- allMult junk rks Ps (works 3%nat) Y ;; Ok (addAll (dt / 6) K Z).
(** A run of steps, Solver.cpp 483-551. *)
Fixpoint allSteps (junk : nat -> list R) (rks : list prank) (Ps : list (csr R)) (works : nat -> nat -> list (list R)) (X : list (list R)) (dts : list R) : res (list (list R)) :=
  match dts with
  | [] => Ok X
  | dt :: t => Y <- allStep junk rks Ps (works (length t)) X dt ;; allSteps junk rks Ps works Y t
  end.

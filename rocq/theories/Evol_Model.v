(** Model of src/evolution/GlobalEvolution.cpp (Mult, ImplicitSolve,
    applyTFSFSourceToVector, commitSGBCCheckpoint, finalizeSGBCStep) and of the
    thin-layer wrapper src/solver/SolverExtension.cpp 160-442.

    Numbers are exact reals.  Arrays are lists with checked access.  Timers,
    printing and the CUDA branches are left out (the CUDA kernels are in
    Gpu_Model). *)
From Coq Require Import ZArith List Bool Reals.
From Flocq Require Import Core.Raux.
From Verif Require Import Common Probe_Model.
Import ListNotations.
Local Open Scope Z_scope.

(** ** Vectors and sparse matrices *)

(** A finalised mfem::SparseMatrix: the (column, value) entries of each row.
    Used in [subImplicitSolve], GlobalEvolution.cpp 1145-1171. *)
Definition matrix := list (list (Z * R)).

(** Row times vector: the inner loops of SparseMatrix::Mult / AddMult and of the
    targeted products in GlobalEvolution.cpp 905-921 and 963-979. *)
Definition row_dot (row : list (Z * R)) (x : list R) : res R :=
  foldM (fun s cv => xi <- zget x (fst cv) ;; Ok (s + snd cv * xi)%R) row 0%R.
(** SparseMatrix::Mult. Used in [subImplicitSolve], GlobalEvolution.cpp 1145-1171. *)
Definition spmv (M : matrix) (x : list R) : res (list R) := mapM (fun row => row_dot row x) M.
(** Vector sum; sizes must agree. Used in [implicitSolve], GlobalEvolution.cpp 1090-1233. *)
Fixpoint vadd (a : R) (u v : list R) : res (list R) :=
  match u, v with
  | [], [] => Ok []
  | x :: u', y :: v' => r <- vadd a u' v' ;; Ok ((x + a * y)%R :: r)
  | _, _ => UB
  end.
(** SparseMatrix::AddMult(x, y, a): y += a M x. Used in [mult], GlobalEvolution.cpp 628-1001. *)
Definition add_mult (M : matrix) (x y : list R) (a : R) : res (list R) :=
  z <- spmv M x ;; vadd a y z.

(** A sequence of writes v[i] = a. Used in [copySlot], GlobalEvolution.cpp 843-873. *)
Definition write (v : list R) (ia : Z * R) : res (list R) := zset v (fst ia) (snd ia).
(** Used in [copySlot], GlobalEvolution.cpp 843-873. *)
Definition writes (ws : list (Z * R)) (v : list R) : res (list R) := foldM write ws v.
(** Vector::SetVector(src, offset). Used in [mult], GlobalEvolution.cpp 628-1001. *)
Definition setVector (src : list R) (off : Z) (v : list R) : res (list R) :=
  writes (combine (map (Z.add off) (zseq (length src))) src) v.

(** Used in [mult], GlobalEvolution.cpp 628-1001. *)
Definition zeros (n : nat) : list R := repeat 0%R n.
(** Used in [ifaceNormSq], GlobalEvolution.cpp 663-674. *)
Definition sumsq (v : list R) : R := fold_right (fun x s => x * x + s)%R 0%R v.
(** Vector::Norml2. Used in [mult], GlobalEvolution.cpp 628-1001. *)
Definition norml2 (v : list R) : R := sqrt (sumsq v).

(** The six field components in storage order Ex Ey Ez Hx Hy Hz: component
    [d] of E at d, of H at 3+d (loops [for d = X..Z] over both fields).
    Used in [fillLeft], SolverExtension.cpp 200-331. *)
Definition comps : list Z := [0; 1; 2; 3; 4; 5].

(** The six values at a dof of a vector with [n] dofs per component:
    [in[d*ndofs+dof]] / [fields.get(f,d)[dof]] (Fields.h: views of the same data).
    Used in [updateGhosts], SolverExtension.cpp 200-245. *)
Definition getEH (v : list R) (n dof : Z) : res (list R) := mapM (fun c => zget v (c * n + dof)) comps.

(** ** The wrapper of the thin-layer sub-solver *)

(** Rotation to the face frame, rotateGlobalFieldsToLocal 381-395 and
    SolverExtension.cpp 252-261: [rot] is the fixed-size array double[9], [v] the
    six values; constant indices. *)
Definition rotIn (rot v : list R) : list R :=
  let r i := nth i rot 0%R in let x i := nth i v 0%R in
  (r 0%nat * x 0%nat + r 1%nat * x 1%nat + r 2%nat * x 2%nat :: r 3%nat * x 0%nat + r 4%nat * x 1%nat + r 5%nat * x 2%nat :: r 6%nat * x 0%nat + r 7%nat * x 1%nat + r 8%nat * x 2%nat ::
   r 0%nat * x 3%nat + r 1%nat * x 4%nat + r 2%nat * x 5%nat :: r 3%nat * x 3%nat + r 4%nat * x 4%nat + r 5%nat * x 5%nat :: r 6%nat * x 3%nat + r 7%nat * x 4%nat + r 8%nat * x 5%nat :: nil)%R.
(** Rotation back, fillBCSlot 861-872 and SolverExtension.cpp 373-405. *)
Definition rotOut (rot v : list R) : list R :=
  let r i := nth i rot 0%R in let x i := nth i v 0%R in
  (r 0%nat * x 0%nat + r 3%nat * x 1%nat + r 6%nat * x 2%nat :: r 1%nat * x 0%nat + r 4%nat * x 1%nat + r 7%nat * x 2%nat :: r 2%nat * x 0%nat + r 5%nat * x 1%nat + r 8%nat * x 2%nat ::
   r 0%nat * x 3%nat + r 3%nat * x 4%nat + r 6%nat * x 5%nat :: r 1%nat * x 3%nat + r 4%nat * x 4%nat + r 7%nat * x 5%nat :: r 2%nat * x 3%nat + r 5%nat * x 4%nat + r 8%nat * x 5%nat :: nil)%R.

(** Boundary condition at a side of the layer (Model.h: sgbc_bdr_info); anything
    but PEC, PMC, SMA is transparent. Used in [solve], Solver.cpp 535-551. *)
Inductive side := PEC | PMC | SMA | Transparent.

(** SGBCState, SolverExtension.h 45-65.  The ghost arrays are written by
    finalizeSGBCStep before it reads them and are read nowhere else, so they are
    local to that function here. *)
Record sstate := mkS { s_gl : Z; s_gr : Z; s_rot : list R; s_fs : list R }.
(** Used in [advance], GlobalEvolution.cpp 512-518. *)
Definition with_fs (s : sstate) (fs : list R) : sstate := mkS (s_gl s) (s_gr s) (s_rot s) fs.

(** Ghost filling, SolverExtension.cpp 200-331: the same values in all the ghost
    dofs of a side; [gh] = n_ghost_elements_*(maxOrder+1) dofs, [n] dofs per
    component. *)
Definition fillLeft (n gh : Z) (v6 : list R) (all : list R) : res (list R) :=
  foldM (fun all c => foldM (fun all dof => zset all (c * n + dof) (nth (Z.to_nat c) v6 0%R)) (zseq (Z.to_nat gh)) all) comps all.
(** Used in [updateGhosts], SolverExtension.cpp 200-245. *)
Definition fillRight (n gh : Z) (v6 : list R) (all : list R) : res (list R) :=
  foldM (fun all c => foldM (fun all dof => zset all (c * n + (n - 1) - dof) (nth (Z.to_nat c) v6 0%R)) (zseq (Z.to_nat gh)) all) comps all.

(** updateFieldsWithGlobal SolverExtension.cpp 200-245, updateFieldsWithGlobalVector 247-296. *)
Definition updateGhosts (n gh : Z) (input : list R) (ndofs : Z) (s : sstate) (all : list R) : res (list R) :=
  l <- getEH input ndofs (s_gl s) ;;
  all <- fillLeft n gh (rotIn (s_rot s) l) all ;;
  if s_gr s =? -1 then Ok all
  else r <- getEH input ndofs (s_gr s) ;; fillRight n gh (rotIn (s_rot s) r) all.

(** Used in [updateInterp], SolverExtension.cpp 298-331. *)
Definition lerp (alpha : R) (a b : list R) : list R :=
  map (fun p => ((1 - alpha) * fst p + alpha * snd p)%R) (combine a b).
(** updateFieldsWithInterpolatedGhost SolverExtension.cpp 298-331. *)
Definition updateInterp (n gh : Z) (alpha : R) (lo ln ro rn : list R) (s : sstate) (all : list R) : res (list R) :=
  all <- fillLeft n gh (lerp alpha lo ln) all ;;
  if s_gr s =? -1 then Ok all else fillRight n gh (lerp alpha ro rn) all.

(** ** Implicit solves with the cached factorisation, GlobalEvolution.cpp 1145-1171 *)

(** J = I - dt A as a dense matrix (1148, GlobalEvolution.cpp 1156-1160).  ToDenseMatrix is taken to
    add up equal positions (there are none in a merged operator, C15). *)
Definition denseRow (n : nat) (row : list (Z * R)) : list R :=
  map (fun j => fold_right (fun cv s => if Z.eqb (fst cv) j then snd cv + s else s)%R 0%R row) (zseq n).
(** Used in [subImplicitSolve], GlobalEvolution.cpp 1145-1171. *)
Definition jacRow (n : nat) (dt : R) (i : nat) (row : list (Z * R)) : list R :=
  map (fun jv => (- dt * snd jv + (if Nat.eqb i (fst jv) then 1 else 0))%R) (combine (seq 0 n) (denseRow n row)).
(** Used in [subImplicitSolve], GlobalEvolution.cpp 1145-1171. *)
Definition jac (A : matrix) (dt : R) : list (list R) :=
  map (fun ir => jacRow (length A) dt (fst ir) (snd ir)) (combine (seq 0 (length A)) A).

(** The cache: dense_A_formed_, cached_dt_ (-1.0 in the header) and J_inv_.
    A DenseMatrixInverse is identified by the matrix it was built from.
    Used in [newCache], GlobalEvolution.h, the initial values of the members used in GlobalEvolution.cpp 1145-1171. *)
Record cache := mkCache { c_formed : bool; c_cdt : R; c_inv : option (list (list R)) }.
(** GlobalEvolution.h, the initial values of the members used in GlobalEvolution.cpp 1145-1171. *)
Definition newCache : cache := mkCache false (-1)%R None.

Section Solve.
(** mfem::DenseMatrixInverse: solution of J k = rhs. *)
Variable inv : list (list R) -> list R -> list R.

(** Dense branch for operator [A] and right-hand side [rhs].
    Used in [subImplicitSolve], GlobalEvolution.cpp 1145-1171. *)
Definition denseSolve (A : matrix) (dt : R) (rhs : list R) (c : cache) : res (list R * cache) :=
  let c1 := if c_formed c then c else mkCache true (-1)%R (c_inv c) in
  let c2 := if Req_EM_T dt (c_cdt c1) then c1 else mkCache true dt (Some (jac A dt)) in
  match c_inv c2 with
  | None => UB                                    (* null unique_ptr *)
  | Some J => Ok (inv J rhs, c2)
  end.

(** ImplicitSolve of the sub-solver: serial mesh, no sources (1114, GlobalEvolution.cpp 1145-1171). *)
Definition subImplicitSolve (A : matrix) (dt : R) (x : list R) (c : cache) : res (list R * cache) :=
  rhs <- spmv A x ;; denseSolve A dt rhs c.

(** An mfem ODE solver's Step as a program that calls ImplicitSolve: the code of
    mfem is not in the repository, so this is an arbitrary such program.
    Used in [solve], Solver.cpp 535-551. *)
Inductive prog :=
| Ret (x : list R)
| Call (dt : R) (x : list R) (k : list R -> prog).
(** Used in [solve], Solver.cpp 535-551. *)
Fixpoint runProg (A : matrix) (p : prog) (c : cache) : res (list R * cache) :=
  match p with
  | Ret x => Ok (x, c)
  | Call dt x k => '(r, c') <- subImplicitSolve A dt x c ;; runProg A (k r) c'
  end.

(** SGBCWrapper: dofs per component, ghost dofs per side, recommended dt, sides,
    operator and ODE step of its solver. Used in [solve], Solver.cpp 535-551. *)
Record wrapper := mkW {
  w_n : Z; w_gh : Z; w_rec : R; w_left : side; w_right : side;
  w_A : matrix; w_ode : R -> R -> list R -> prog }.
(** Mutable part: all dofs, time, final time and step of the inner solver, cache.
    Used in [solve], Solver.cpp 535-551. *)
Record wdyn := mkD { d_all : list R; d_time : R; d_final : R; d_dt : R; d_cache : cache }.
(** Used in [advance], GlobalEvolution.cpp 512-518. *)
Definition set_all (d : wdyn) (v : list R) : wdyn := mkD v (d_time d) (d_final d) (d_dt d) (d_cache d).

(** solve 407-442 (message left out) and the inner Solver::step (Solver.cpp
    535-551; the inner solver has no layer of its own and no probes). *)
Definition solve (w : wrapper) (t dt : R) (d : wdyn) : res wdyn :=
  if Rlt_dec (Rabs dt) (/ 1000000000) then Ok d
  else
    let d1 := mkD (d_all d) t (t + dt)%R dt (d_cache d) in
    let truedt := Rmin (d_dt d1) (d_final d1 - d_time d1)%R in
    '(x, c) <- runProg (w_A w) (w_ode w (d_time d1) truedt (d_all d1)) (d_cache d1) ;;
    Ok (mkD x (d_time d1 + truedt)%R (d_final d1) (d_dt d1) c).

(** Number of sub-steps, GlobalEvolution.cpp 500-504, 530-534, 718-721, 738-741. *)
Definition nsteps (sub dt : R) : res Z :=
  if Rlt_dec 0 sub then (if Rlt_dec sub dt then ceil_int (dt / sub)%R else Ok 1) else Ok 1.

(** Sub-steps of one state: GlobalEvolution.cpp 512-518, 726-731: load, for each sub-step fill the
    ghosts ([ghosts step]) and solve, save. *)
Definition advance (w : wrapper) (base dt : R) (ghosts : R -> Z -> list R -> res (list R))
    (s : sstate) (d : wdyn) : res (sstate * wdyn) :=
  m <- nsteps (w_rec w) dt ;;
  let sub := (dt / IZR m)%R in
  d' <- foldM (fun d step =>
          all <- ghosts ((IZR step + 1) / IZR m)%R step (d_all d) ;;
          solve w (base + IZR step * sub)%R sub (set_all d all))
        (zseq (Z.to_nat m)) (set_all d (s_fs s)) ;;
  Ok (with_fs s (d_all d'), d').

(** ** The evolution operator *)

Variables ndofs nbr : nat.                (* fes_.GetNDofs(), num_face_nbr_dofs *)
Variable Aop : matrix.                    (* globalOperator_ *)
Variable Top : option matrix.             (* TFSFOperator_ *)
Variable Sop : option matrix.             (* SGBCOperator_ *)
Variable hasTF : bool.                    (* tfsfSourceIndices_ not empty and a TFSF space *)
Variable sub2par : list Z.                (* tfsf_sub_to_parent_ids_ *)
Variable src : R -> list (list R).        (* incident field at a time: six vectors on the TFSF dofs *)
Variables elem1 elem2 : list Z.           (* sgbc_elem1_dofs_, sgbc_elem2_dofs_ *)
Variable junk : nat -> list R.            (* contents of a freshly sized mfem::Vector *)

(** Used in [ifaceNormSq], GlobalEvolution.cpp 663-674. *)
Definition nZ : Z := Z.of_nat ndofs.
(** Used in [scatter], GlobalEvolution.cpp 551-626. *)
Definition bZ : Z := Z.of_nat (ndofs + nbr).
(** Used in [mult], GlobalEvolution.cpp 628-1001. *)
Definition wsize : nat := 6 * (ndofs + nbr).
(** Used in [mult], GlobalEvolution.cpp 628-1001. *)
Definition thr : R := (/ 100000000)%R.    (* sgbc_skip_threshold_, tfsf_skip_threshold_ *)

(** A tag: its wrapper and its states (sgbc_wrapper_map_, sgbc_states_; the
    constructor GlobalEvolution.cpp 206-247 creates both together and every list is non-empty). *)
Record group := mkG { g_w : wrapper; g_d : wdyn; g_states : list sstate }.

(** Mutable members.  The checkpoint map is [None] before the first commit and
    then holds, per state, the fields and the 12 ghost values.
    Used in [multSub], GlobalEvolution.cpp 645-751. *)
Record evol := mkEvol {
  e_work : list R;
  e_groups : list group;
  e_cp : option (list (list (list R * (list R * list R))));
  e_base : R; e_dt : R; e_cache : cache }.

(** applyTFSFSourceToVector GlobalEvolution.cpp 551-626.  Result: scratch vector and output. *)
Definition scatter (func : list (list R)) (work : list R) : res (list R) :=
  foldM (fun w vp =>
    foldM (fun w c => x <- zget (nth (Z.to_nat c) func []) (fst vp) ;;
                      zset w (c * bZ + snd vp) x) comps w)
    (combine (zseq (length sub2par)) sub2par) work.
(** Used in [mult], GlobalEvolution.cpp 628-1001. *)
Definition applyTFSF (t : R) (work out : list R) : res (list R * list R) :=
  match Top with
  | None => Ok (work, out)
  | Some T =>
    if hasTF then
      let work := if Nat.eqb (length work) wsize then work else zeros wsize in
      let func := src t in
      let norm2 := fold_right (fun v s => norml2 v * norml2 v + s)%R 0%R func in
      if Rlt_dec norm2 (thr * thr)%R then Ok (work, out)
      else
        work <- scatter func work ;;
        out <- add_mult T work out (-1)%R ;;
        Ok (zeros (length work), out)
    else Ok (work, out)
  end.

(** Quiescence of a state: ifaceNormSq GlobalEvolution.cpp 663-674 / ifaceNormSqGF 462-474. *)
Definition ifaceNormSq (input : list R) (s : sstate) : res R :=
  l <- getEH input nZ (s_gl s) ;;
  if s_gr s =? -1 then Ok (sumsq l)
  else r <- getEH input nZ (s_gr s) ;; Ok (sumsq l + sumsq r)%R.
(** Used in [anyLoud], GlobalEvolution.cpp 678-688. *)
Definition loud (input : list R) (s : sstate) : res bool :=
  if Rle_dec thr (norml2 (s_fs s)) then Ok true
  else n2 <- ifaceNormSq input s ;; Ok (if Rle_dec (thr * thr) n2 then true else false).
(** All quiescent: GlobalEvolution.cpp 678-688 / 476-487, stopping at the first loud state. *)
Fixpoint anyLoud (input : list R) (l : list sstate) : res bool :=
  match l with
  | [] => Ok false
  | s :: r => b <- loud input s ;; if (b : bool) then Ok true else anyLoud input r
  end.

(** Restore from the checkpoint: GlobalEvolution.cpp 651-659 / 439-446 (memcpy of the fields).
    [map::at] throws when the checkpoint has never been made. *)
Definition restoreStates (ss : list sstate) (cp : list (list R * (list R * list R))) : list sstate :=
  map (fun p => with_fs (fst p) (fst (snd p))) (combine ss cp).
(** Used in [multSub], GlobalEvolution.cpp 645-751. *)
Definition restore (gs : list group) (cp : option (list (list (list R * (list R * list R))))) : res (list group) :=
  match cp with
  | None => match gs with [] => Ok [] | _ => Throw end
  | Some cps => Ok (map (fun p => mkG (g_w (fst p)) (g_d (fst p)) (restoreStates (g_states (fst p)) (snd p))) (combine gs cps))
  end.

(** A loop over the states of a tag that threads the wrapper.
    Used in [multSub], GlobalEvolution.cpp 645-751. *)
Fixpoint overStates (f : sstate -> wdyn -> res (sstate * wdyn)) (ss : list sstate) (d : wdyn) : res (list sstate * wdyn) :=
  match ss with
  | [] => Ok ([], d)
  | s :: r => '(s', d') <- f s d ;; '(r', d'') <- overStates f r d' ;; Ok (s' :: r', d'')
  end.

(** Sub-solve of one state in Mult, GlobalEvolution.cpp 722-733 (serial branch). *)
Definition subMult (input : list R) (dts base : R) (w : wrapper) (s : sstate) (d : wdyn) : res (sstate * wdyn) :=
  b <- loud input s ;;
  if (b : bool)
  then advance w base dts (fun _ _ all => updateGhosts (w_n w) (w_gh w) input nZ s all) s d
  else Ok (s, d).

(** Step 1 of Mult, GlobalEvolution.cpp 645-751: new groups and [sgbc_all_quiescent]. *)
Definition multSub (e : evol) (t : R) (input : list R) : res (list group * bool) :=
  match Sop, e_groups e with
  | None, gs => Ok (gs, false)
  | _, [] => Ok ([], false)
  | _, _ =>
    let dts := (t - e_base e)%R in
    gs <- restore (e_groups e) (e_cp e) ;;
    b <- anyLoud input (flat_map g_states gs) ;;
    if (b : bool) then
      if Rlt_dec (/ 1000000000000) dts then
        gs' <- mapM (fun g => '(ss, d) <- overStates (subMult input dts (e_base e) (g_w g)) (g_states g) (g_d g) ;;
                             Ok (mkG (g_w g) d ss)) gs ;;
        Ok (gs', false)
      else Ok (gs, false)
    else Ok (gs, true)
  end.

(** Steps 2 and 3, GlobalEvolution.cpp 759-793: fill the scratch vector with the input and the
    neighbour data [nd] (six vectors received from the other ranks). *)
Definition chunk (v : list R) (c : Z) : list R := firstn ndofs (skipn (Z.to_nat c * ndofs) v).
(** Used in [mult], GlobalEvolution.cpp 628-1001. *)
Definition pack (work input : list R) (nd : list (list R)) : res (list R) :=
  let w0 := if Nat.eqb (length work) wsize then work else junk wsize in
  w1 <- foldM (fun w c => setVector (chunk input c) (c * bZ) w) comps w0 ;;
  if Nat.eqb nbr 0 then Ok w1
  else foldM (fun w c => setVector (nth (Z.to_nat c) nd []) (c * bZ + nZ) w) comps w1.

(** fillBCSlot GlobalEvolution.cpp 843-873 and copyGlobalSlot 876-881. *)
Definition copySlot (input : list R) (dof slot : Z) (work : list R) : res (list R) :=
  v <- getEH input nZ dof ;;
  writes (map (fun c => (c * bZ + slot, nth (Z.to_nat c) v 0%R)) comps) work.
(** Used in [pass1], GlobalEvolution.cpp 883-902. *)
Definition mirror (b : side) (v : list R) : list R :=
  let x i := nth i v 0%R in
  match b with
  | PEC => [- x 0%nat; - x 1%nat; - x 2%nat; x 3%nat; x 4%nat; x 5%nat]%R
  | PMC => [x 0%nat; x 1%nat; x 2%nat; - x 3%nat; - x 4%nat; - x 5%nat]%R
  | _ => v
  end.
(** Used in [pass1], GlobalEvolution.cpp 883-902. *)
Definition fillBC (b : side) (input : list R) (source target : Z) (s : sstate) (n idx : Z) (work : list R) : res (list R) :=
  v <- match b with
       | Transparent => l <- getEH (s_fs s) n idx ;; Ok (rotOut (s_rot s) l)
       | _ => u <- getEH input nZ source ;; Ok (mirror b u)
       end ;;
  writes (map (fun c => (c * bZ + target, nth (Z.to_nat c) v 0%R)) comps) work.

(** getLeftInterfaceIndex / getRightInterfaceIndex, SolverExtension.cpp 191-198. *)
Definition idxLeft (w : wrapper) : Z := w_gh w.
(** Used in [pass2], GlobalEvolution.cpp 943-960. *)
Definition idxRight (w : wrapper) : Z := w_n w - 1 - w_gh w.

(** Pass 1, GlobalEvolution.cpp 883-902: the slots seen by Elem1. *)
Definition pass1 (input : list R) (w : wrapper) (work : list R) (s : sstate) : res (list R) :=
  work <- copySlot input (s_gl s) (s_gl s) work ;;
  if s_gr s =? -1 then Ok work
  else fillBC (w_left w) input (s_gl s) (s_gr s) s (w_n w) (idxLeft w) work.
(** Pass 2, GlobalEvolution.cpp 943-960: the slots seen by Elem2. *)
Definition pass2 (input : list R) (w : wrapper) (work : list R) (s : sstate) : res (list R) :=
  if s_gr s =? -1 then Ok work
  else work <- fillBC (w_right w) input (s_gr s) (s_gl s) s (w_n w) (idxRight w) work ;;
       copySlot input (s_gr s) (s_gr s) work.
(** Used in [sgbcFlux], GlobalEvolution.cpp 832-995. *)
Definition overGroups (f : wrapper -> list R -> sstate -> res (list R)) (gs : list group) (work : list R) : res (list R) :=
  foldM (fun wk g => foldM (f (g_w g)) (g_states g) wk) gs work.

(** Targeted product, GlobalEvolution.cpp 905-921 / 963-979. *)
Definition target (M : matrix) (dofs : list Z) (work out : list R) : res (list R) :=
  foldM (fun out c => foldM (fun out dof =>
      let row := c * nZ + dof in
      r <- zget M row ;; x <- row_dot r work ;; o <- zget out row ;; zset out row (o + x)%R) dofs out) comps out.

(** Clearing, GlobalEvolution.cpp 924-937 and 982-994. *)
Definition clearSlot (work : list R) (dof : Z) : res (list R) :=
  writes (map (fun c => (c * bZ + dof, 0%R)) comps) work.
(** Used in [sgbcFlux], GlobalEvolution.cpp 832-995. *)
Definition clear1 (_ : wrapper) (work : list R) (s : sstate) : res (list R) :=
  work <- clearSlot work (s_gl s) ;; if s_gr s =? -1 then Ok work else clearSlot work (s_gr s).
(** Used in [sgbcFlux], GlobalEvolution.cpp 832-995. *)
Definition clear2 (_ : wrapper) (work : list R) (s : sstate) : res (list R) :=
  if s_gr s =? -1 then Ok work else work <- clearSlot work (s_gl s) ;; clearSlot work (s_gr s).

(** Step 6, GlobalEvolution.cpp 832-995. *)
Definition sgbcFlux (M : matrix) (gs : list group) (input work out : list R) : res (list R * list R) :=
  work <- overGroups (pass1 input) gs work ;;
  out <- target M elem1 work out ;;
  work <- overGroups clear1 gs work ;;
  work <- overGroups (pass2 input) gs work ;;
  out <- target M elem2 work out ;;
  work <- overGroups clear2 gs work ;;
  Ok (work, out).

(** Mult, GlobalEvolution.cpp 628-1001, at operator time [t] with neighbour data [nd]. *)
Definition mult (e : evol) (t : R) (nd : list (list R)) (input : list R) : res (list R * evol) :=
  '(gs, quiet) <- multSub e t input ;;
  work <- pack (e_work e) input nd ;;
  out <- spmv Aop work ;;
  let work := zeros (length work) in
  '(work, out) <- applyTFSF t work out ;;
  '(work, out) <- match Sop, gs with
                  | None, _ | _, [] => Ok (work, out)
                  | Some M, _ => if (quiet : bool) then Ok (work, out) else sgbcFlux M gs input work out
                  end ;;
  Ok (out, mkEvol work gs (e_cp e) (e_base e) (e_dt e) (e_cache e)).

(** commitSGBCCheckpoint, GlobalEvolution.cpp 399-433.  The right ghost values of a one-sided state
    are never read; they are zero here. *)
Definition ghostsAt (fields : list R) (s : sstate) : res (list R * list R) :=
  l <- getEH fields nZ (s_gl s) ;;
  if s_gr s =? -1 then Ok (rotIn (s_rot s) l, zeros 6)
  else r <- getEH fields nZ (s_gr s) ;; Ok (rotIn (s_rot s) l, rotIn (s_rot s) r).
(** GlobalEvolution.cpp 399-433. *)
Definition commit (e : evol) (base dt : R) (fields : list R) : res evol :=
  cps <- mapM (fun g => mapM (fun s => gh <- ghostsAt fields s ;; Ok (s_fs s, gh)) (g_states g)) (e_groups e) ;;
  Ok (mkEvol (e_work e) (e_groups e) (Some cps) base dt (e_cache e)).

(** finalizeSGBCStep, GlobalEvolution.cpp 435-549 (serial branch). *)
Definition finState (dt base : R) (fields : list R) (w : wrapper) (p : sstate * (list R * (list R * list R))) (d : wdyn)
  : res (sstate * wdyn) :=
  let s := fst p in
  '(ln, rn) <- ghostsAt fields s ;;
  let '(lo, ro) := snd (snd p) in
  advance w base dt (fun alpha _ all => updateInterp (w_n w) (w_gh w) alpha lo ln ro rn s all) s d.
(** GlobalEvolution.cpp 435-549. *)
Fixpoint overPairs (f : sstate * (list R * (list R * list R)) -> wdyn -> res (sstate * wdyn))
    (ss : list (sstate * (list R * (list R * list R)))) (d : wdyn) : res (list sstate * wdyn) :=
  match ss with
  | [] => Ok ([], d)
  | s :: r => '(s', d') <- f s d ;; '(r', d'') <- overPairs f r d' ;; Ok (s' :: r', d'')
  end.
(** GlobalEvolution.cpp 435-549. *)
Definition finalize (e : evol) (fields : list R) : res evol :=
  gs <- restore (e_groups e) (e_cp e) ;;
  let put gs := mkEvol (e_work e) gs (e_cp e) (e_base e) (e_dt e) (e_cache e) in
  b <- anyLoud fields (flat_map g_states gs) ;;
  if (b : bool) then
    match e_cp e with
    | None => Ok (put gs)
    | Some cps =>
      gs' <- mapM (fun p => let '(g, cp) := p in
               '(ss, d) <- overPairs (finState (e_dt e) (e_base e) fields (g_w g)) (combine (g_states g) cp) (g_d g) ;;
               Ok (mkG (g_w g) d ss)) (combine gs cps) ;;
      Ok (put gs')
    end
  else Ok (put gs).

(** The GMRES branch, an iterative solver of mfem: any function of the step, the
    right-hand side and the initial guess. *)
Variable gmres : R -> list R -> list R -> list R.

(** ImplicitSolve, GlobalEvolution.cpp 1090-1233.  [implicit_inNew_], [implicit_rhs_] and
    [implicit_src_] are overwritten before use in every call.  [k0] is the
    caller's vector (the initial guess of GMRES). *)
Definition implicitSolve (e : evol) (t dt : R) (nd : list (list R)) (x k0 : list R) : res (list R * evol) :=
  rhs <- (if Nat.eqb nbr 0 then spmv Aop x else w <- pack [] x nd ;; spmv Aop w) ;;
  '(work, rhs) <- match Top with
                  | Some _ => if hasTF then '(w, s) <- applyTFSF t (e_work e) (zeros (length x)) ;;
                                            r <- vadd 1%R rhs s ;; Ok (w, r)
                              else Ok (e_work e, rhs)
                  | None => Ok (e_work e, rhs)
                  end ;;
  if Nat.eqb nbr 0 && (length x <=? 600)%nat then
    '(k, c) <- denseSolve Aop dt rhs (e_cache e) ;;
    Ok (k, mkEvol work (e_groups e) (e_cp e) (e_base e) (e_dt e) c)
  else
    Ok (gmres dt rhs k0, mkEvol work (e_groups e) (e_cp e) (e_base e) (e_dt e) (e_cache e)).
End Solve.

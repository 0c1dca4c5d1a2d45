(** Model of the messages of a run on several processes: what each process sends and waits for in
    Mult and ImplicitSolve (src/evolution/GlobalEvolution.cpp 628-813, 1090-1233), and the runs of all
    the processes at their own pace.

    ParGridFunction::ExchangeFaceNbrData of MFEM sends the local values to every neighbour, waits for
    theirs and returns; messages between two processes arrive in the order they were sent, so that the
    k-th exchange of a process meets the k-th of its neighbour.  Those parts are transcribed from MFEM
    and MPI and belong to the trusted base.  Numbers are reals; no sources, no thin layers. *)
From Coq Require Import ZArith List Bool Reals.
From Verif Require Import Common Csr_Model Evol_Model Ode_Model Par_Model.
Import ListNotations.

(** What a process does next: it has ended with a state, it has failed, or it exchanges the vector [v]
    and goes on with the values received from its neighbours, in the order of its neighbour dofs.
    Each exchange is one ExchangeFaceNbrData, GlobalEvolution.cpp 771-774. *)
Inductive act := Done (x : list R) | Fail | Exch (v : list R) (k : list R -> act).

(** The grid function of component [c], GlobalEvolution.cpp 766-769. *)
Definition component (rk : prank) (x : list R) (c : nat) : list R := firstn (pr_n rk) (skipn (c * pr_n rk) x).
(** Work vector and product, GlobalEvolution.cpp 779-812; [nd] are the received values by component. *)
Definition localRate (junk : nat -> list R) (rk : prank) (P : csr R) (work x : list R) (nd : list (list R)) : res (list R) :=
  w <- pack (pr_n rk) (length (pr_nbr rk)) junk work x nd ;;
  mapM (csr_mult_row P w) (zseq (6 * pr_n rk)).
(** Mult on one process, GlobalEvolution.cpp 759-812: six exchanges, E and H by turns, then the product.
    The same exchanges are in ImplicitSolve, 1117-1136, and in its operator, 1177-1199. *)
Definition rate (junk : nat -> list R) (rk : prank) (P : csr R) (work x : list R) (k : list R -> act) : act :=
  Exch (component rk x 0) (fun e0 => Exch (component rk x 3) (fun h0 =>
  Exch (component rk x 1) (fun e1 => Exch (component rk x 4) (fun h1 =>
  Exch (component rk x 2) (fun e2 => Exch (component rk x 5) (fun h2 =>
    match localRate junk rk P work x [e0; e1; e2; h0; h1; h2] with Ok y => k y | _ => Fail end)))))).

(** mfem::RK4Solver::Step on one process; chosen at Solver.cpp 45-47. [work] are the scratch vectors
    each evaluation finds. *)
Definition rkStep (junk : nat -> list R) (rk : prank) (P : csr R) (work : nat -> list R) (x : list R) (dt : R) (k : list R -> act) : act :=
  rate junk rk P (work 0%nat) x (fun k1 =>
    let y := addv (dt / 2) k1 x in let z := addv (dt / 6) k1 x in
  rate junk rk P (work 1%nat) y (fun k2 =>
    let y := addv (dt / 2) k2 x in let z := addv (dt / 3) k2 z in
  rate junk rk P (work 2%nat) y (fun k3 =>
    let y := addv dt k3 x in let z := addv (dt / 3) k3 z in
  rate junk rk P (work 3%nat) y (fun k4 => k (addv (dt / 6) k4 z))))).
(** The run of one process, Solver.cpp 483-551. *)
Fixpoint rkProgram (junk : nat -> list R) (rk : prank) (P : csr R) (work : nat -> nat -> list R) (x : list R) (dts : list R) : act :=
  match dts with
  | [] => Done x
  | dt :: t => rkStep junk rk P (work (length t)) x dt (fun y => rkProgram junk rk P work y t)
  end.

Section Implicit.
Variable junk : nat -> list R.
(** What mfem::GMRESSolver does after its first product: from the right-hand side and the products so
    far, the next vector to multiply or nothing, and the solution; and the dense solver. Any functions. *)
Variable next : list R -> list (list R) -> option (list R).
Variable solution : list R -> list (list R) -> list R.
Variable dense : csr R -> R -> list R -> list R.

(** JOp::Mult, GlobalEvolution.cpp 1213-1218; the work vector is written in full. *)
Definition applyJ (rk : prank) (P : csr R) (dt : R) (v : list R) (k : list R -> act) : act :=
  rate junk rk P [] v (fun av => k (addv (- dt) av v)).
(** The products of GMRES after the first one, at most [fuel]. Called at GlobalEvolution.cpp 1221-1231. *)
Fixpoint krylov (fuel : nat) (rk : prank) (P : csr R) (dt : R) (b : list R) (products : list (list R)) (k : list R -> act) : act :=
  match fuel with
  | O => k (solution b products)
  | S f => match next b products with
           | None => k (solution b products)
           | Some v => applyJ rk P dt v (fun w => krylov f rk P dt b (products ++ [w]) k)
           end
  end.
(** The norm GMRES uses: it was built without a communicator, GlobalEvolution.cpp 1221, so that its
    scalar products are those of the local vectors. *)
Definition localNorm (b : list R) : R := sqrt (fold_right Rplus 0%R (map (fun z => (z * z)%R) b)).
(** gmres.Mult(b, k) of MFEM from zero, GlobalEvolution.cpp 1221-1231: relative tolerance 1e-8, absolute
    tolerance 0; nothing to do when the residual meets them, else the first product is that of the
    scaled right-hand side. *)
Definition gmresSolve (rk : prank) (P : csr R) (dt : R) (b : list R) (k : list R -> act) : act :=
  let beta := localNorm b in
  if Rle_dec beta (Rmax (/ 100000000 * beta) 0) then k (repeat 0%R (length b))
  else applyJ rk P dt (map (fun z => (z / beta)%R) b) (fun w => krylov 400 rk P dt b [w] k).
(** ImplicitSolve on one process, GlobalEvolution.cpp 1090-1233. *)
Definition implicitStage (rk : prank) (P : csr R) (dt : R) (x : list R) (k : list R -> act) : act :=
  if Nat.eqb (length (pr_nbr rk)) 0 then
    match mapM (csr_mult_row P x) (zseq (6 * pr_n rk)) with
    | Ok b => if (6 * pr_n rk <=? 600)%nat then k (dense P dt b) else gmresSolve rk P dt b k
    | _ => Fail
    end
  else rate junk rk P [] x (fun b => gmresSolve rk P dt b k).
(** The run of one process with mfem::BackwardEulerSolver, chosen at Solver.cpp 49-51: Solver.cpp 483-551. *)
Fixpoint implicitProgram (rk : prank) (P : csr R) (x : list R) (dts : list R) : act :=
  match dts with
  | [] => Done x
  | dt :: t => implicitStage rk P dt x (fun k => implicitProgram rk P (addv dt k x) t)
  end.
End Implicit.

(** A process with the vectors it has sent so far, in order; that of the exchange it waits in is the
    last. The messages of ExchangeFaceNbrData, GlobalEvolution.cpp 771-774. *)
Record proc := mkProc { p_act : act; p_sent : list (list R) }.
(** Used in [start] and [move], GlobalEvolution.cpp 771-774. *)
Definition enter (a : act) (sent : list (list R)) : proc :=
  mkProc a (match a with Exch v _ => sent ++ [v] | _ => sent end).
(** All the processes at the start of the run, Solver.cpp 483-551. *)
Definition start (programs : list act) : nat -> proc := fun i => enter (nth i programs Fail) [].
(** The values process [rk] receives in exchange number [c], GlobalEvolution.cpp 771-774. *)
Definition received (w : nat -> proc) (rk : prank) (c : nat) : list R :=
  map (fun e => nth (snd e) (nth c (p_sent (w (fst e))) []) 0%R) (pr_nbr rk).
(** One process leaves an exchange: all its neighbours have sent theirs of the same number.
    GlobalEvolution.cpp 771-774. *)
Inductive move (rks : list prank) (w w' : nat -> proc) : Prop :=
| Move i rk v k :
    nth_error rks i = Some rk -> p_act (w i) = Exch v k ->
    (forall e, In e (pr_nbr rk) -> (length (p_sent (w i)) <= length (p_sent (w (fst e))))%nat) ->
    w' i = enter (k (received w rk (length (p_sent (w i)) - 1))) (p_sent (w i)) ->
    (forall j, j <> i -> w' j = w j) -> move rks w w'.
(** A run of [n] such moves, in any order. GlobalEvolution.cpp 771-774. *)
Inductive moves (rks : list prank) : nat -> (nat -> proc) -> (nat -> proc) -> Prop :=
| M0 w : moves rks 0 w w
| MS n w w' w'' : moves rks n w w' -> move rks w' w'' -> moves rks (S n) w w''.

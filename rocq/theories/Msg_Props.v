(** Property theorems C109. *)
From Coq Require Import ZArith List Reals.
From Verif Require Import Common Csr_Model Face_Model Setup_Model Assembly_Model Form_Model Global_Spec GlobalEx_Proofs ParMult_Proofs Par_Model Par_Spec ParEx_Proofs Msg_Model Msg_Proofs MsgEx_Proofs.
Import ListNotations.
Local Open Scope R_scope.

(** C109.  Runge-Kutta runs: for every mesh, number of processes among which it is cut along untagged
    faces, initial state, sizes of the steps and order in which the processes leave their exchanges,
    the run makes a bounded number of moves, and when no process can go on each has ended with its part
    of the fields of the run on one process. *)
Theorem C109_any_schedule_partial :
  forall N m dim alpha gb gi ob ib MInv D MSigma sm owns rks,
  goodMesh N m dim -> tables m gb gi ob ib -> distributed N m dim MInv D MSigma owns rks ->
  forall junk : nat -> list R, (forall n, length (junk n) = n) ->
  exists A Ps,
    buildGlobalOperator R Rplus Rmult 1 (-1) (factoryRows N m dim alpha ob ib MInv D MSigma sm) dim (Z.of_nat N) 0
      (match ib with [] => false | _ => true end) = Ok A /\
    mapM (rankOperator dim alpha ob ib sm) rks = Ok Ps /\
    (exists F, forall x, length x = (6 * N)%nat -> applies A N x (F x)) /\
    forall F works x t dts progs, (forall x, length x = (6 * N)%nat -> applies A N x (F x)) -> length x = (6 * N)%nat ->
      (forall i rk P own, nth_error rks i = Some rk -> nth_error Ps i = Some P -> nth_error owns i = Some own ->
         nth_error progs i = Some (rkProgram junk rk P (works i) (part N own x) dts)) ->
      forall n w, moves rks n (start progs) w -> (n <= length rks * (24 * length dts))%nat /\
      ((forall w', ~ move rks w w') -> forall i own, nth_error owns i = Some own -> p_act (w i) = Done (part N own (rkRun F x t dts))).
Proof. exact schedules. Qed.
Print Assumptions C109_any_schedule_partial.

(** C109.  Whatever the processes do, neighbours have made the same number of exchanges when all have ended. *)
Theorem C109_matched :
  forall rks progs n w, moves rks n (start progs) w ->
  (forall i, (i < length rks)%nat -> exists x, p_act (w i) = Done x) ->
  forall i j rk rk' a b, nth_error rks i = Some rk -> nth_error rks j = Some rk' -> In (j, a) (pr_nbr rk) -> In (i, b) (pr_nbr rk') ->
  length (p_sent (w i)) = length (p_sent (w j)).
Proof. exact matched. Qed.
Print Assumptions C109_matched.

(** C109, finding: runs of one implicit step.  When nothing changes yet on one process and something
    does on a neighbour, that neighbour never ends, in whatever order the processes go on and whatever
    the linear solver does after its first product. *)
Theorem C109_implicit_waits :
  forall N m dim alpha gb gi ob ib MInv D MSigma sm owns rks,
  goodMesh N m dim -> tables m gb gi ob ib -> distributed N m dim MInv D MSigma owns rks ->
  forall junk : nat -> list R, (forall n, length (junk n) = n) ->
  exists A Ps,
    buildGlobalOperator R Rplus Rmult 1 (-1) (factoryRows N m dim alpha ob ib MInv D MSigma sm) dim (Z.of_nat N) 0
      (match ib with [] => false | _ => true end) = Ok A /\
    mapM (rankOperator dim alpha ob ib sm) rks = Ok Ps /\
    forall next solution dense x y dt progs p q own own' rq j, length x = (6 * N)%nat -> applies A N x y ->
      (forall i rk P own, nth_error rks i = Some rk -> nth_error Ps i = Some P -> nth_error owns i = Some own ->
         nth_error progs i = Some (implicitProgram junk next solution dense rk P (part N own x) [dt])) ->
      Forall (fun rk => pr_nbr rk <> []) rks ->
      nth_error owns p = Some own -> nth_error owns q = Some own' -> nth_error rks q = Some rq -> In (p, j) (pr_nbr rq) ->
      Forall (fun z => z = 0) (part N own y) -> ~ Forall (fun z => z = 0) (part N own' y) ->
      forall n w, moves rks n (start progs) w -> forall z, p_act (w q) <> Done z.
Proof. exact implicit_stuck. Qed.
Print Assumptions C109_implicit_waits.

(** A mesh of two elements in a conductor, one per process, with a field in the second: the rate is
    zero on the first process and not on the second. *)
Example C109_ex : goodMesh 4 hMesh 1 /\ tables hMesh gGb gGi gOb [] /\ distributed 4 hMesh 1 gMInv gD (gMass 0%Z) hOwns hRanks /\
  (forall A, serialOperator 4 hMesh 1 1 gOb [] gMInv gD (gMass 0%Z) [] = Ok A -> applies A 4 hX (map Ropp hX)) /\
  Forall (fun z => z = 0) (part 4 [0; 1]%nat (map Ropp hX)) /\ ~ Forall (fun z => z = 0) (part 4 [2; 3]%nat (map Ropp hX)).
Proof. exact (conj h_good (conj h_tables (conj h_distributed (conj (h_decays 1 []) h_zero)))). Qed.

(** C109, finding: so runs with an implicit integrator on several processes need not have any way to end. *)
Theorem C109_implicit_ends_refuted :
  ~ (forall N m dim alpha gb gi ob ib MInv D MSigma sm owns rks junk Ps next solution dense x dt progs,
     goodMesh N m dim -> tables m gb gi ob ib -> distributed N m dim MInv D MSigma owns rks -> (forall n, length (junk n) = n) ->
     mapM (rankOperator dim alpha ob ib sm) rks = Ok Ps -> length x = (6 * N)%nat ->
     (forall i rk P own, nth_error rks i = Some rk -> nth_error Ps i = Some P -> nth_error owns i = Some own ->
        nth_error progs i = Some (implicitProgram junk next solution dense rk P (part N own x) [dt])) ->
     exists n w, moves rks n (start progs) w /\ forall i, (i < length rks)%nat -> exists z, p_act (w i) = Done z).
Proof. exact h_never. Qed.
Print Assumptions C109_implicit_ends_refuted.

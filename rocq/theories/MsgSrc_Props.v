(** Property theorems C109, with sources. *)
From Coq Require Import ZArith List Reals.
From Verif Require Import Common Csr_Model Face_Model Setup_Model Assembly_Model Form_Model Form_Spec Global_Spec GlobalEx_Proofs Tfsf_Spec Ode_Model Par_Model Par_Spec ParSrc_Model ParSrc_Spec ParSrcEx_Proofs Msg_Model MsgSrc_Model MsgSrc_Proofs.
Import ListNotations.
Local Open Scope R_scope.

(** C109.  Runs with total-field sources end under every schedule as well, each process with its part
    of the fields of the run on one process that uses the incident field that is heard (see C108). *)
Theorem C109_any_schedule_sources_partial :
  forall N m dim alpha gb gi ob ib MInv D MSigma sm owns rks sub inc ss,
  goodMesh N m dim -> tables m gb gi ob ib -> Z.of_nat (length sm) = markerSize (fm_battrs m) ->
  distributed N m dim MInv D MSigma owns rks -> sourcesShared N owns sub inc ss ->
  forall junk : nat -> list R, (forall n, length (junk n) = n) ->
  exists A Ps,
    buildGlobalOperator R Rplus Rmult 1 (-1) (factoryRows N m dim alpha ob ib MInv D MSigma sm) dim (Z.of_nat N) 0
      (match ib with [] => false | _ => true end) = Ok A /\
    mapM (rankOperator dim alpha ob ib sm) rks = Ok Ps /\
    forall h F, (forall t, heard N owns sub inc t (h t)) ->
    (forall t x, length x = (6 * N)%nat -> exists y w, applies A N x y /\
       lilApplies (buildSourceFaceOperator R Rplus Rmult 1 (-1) (factoryRows N m dim alpha ob ib MInv D MSigma sm) dim (Z.of_nat N) 0) N (h t) w /\
       F t x = addv (-1) w y) ->
    forall works x t dts progs, length x = (6 * N)%nat ->
      (forall i rk P own s, nth_error rks i = Some rk -> nth_error Ps i = Some P -> nth_error owns i = Some own -> nth_error ss i = Some s ->
         nth_error progs i = Some (rkProgramS junk rk P (rankSource dim alpha ob ib sm rk) s (works i) (part N own x) t dts)) ->
      forall n w, moves rks n (start progs) w -> (n <= length rks * (24 * length dts))%nat /\
      ((forall w', ~ move rks w w') -> forall i own, nth_error owns i = Some own -> p_act (w i) = Done (part N own (rkRunT F x t dts))).
Proof. exact schedulesS. Qed.
Print Assumptions C109_any_schedule_sources_partial.

Example C109_sources_ex : goodMesh 4 kMesh 1 /\ tables kMesh gGb gGi gOb [] /\ distributed 4 kMesh 1 kI kD kZ kOwns kRanks /\
  forall a, sourcesShared 4 kOwns kSub (kInc a) (kSS a).
Proof. exact (conj k_good (conj k_tables (conj k_distributed k_shared))). Qed.

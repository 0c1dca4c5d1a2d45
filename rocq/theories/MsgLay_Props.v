(** Property theorems C109, with thin layers. *)
From Coq Require Import ZArith List Reals.
From Verif Require Import Common Csr_Model Face_Model Setup_Model Assembly_Model Form_Model Form_Spec Global_Spec GlobalEx_Proofs Tfsf_Spec TfsfEx_Proofs Evol_Model Evol_Spec EvolLayer_Spec EvolEx_Proofs Ode_Model Par_Model Par_Spec ParSrc_Model ParSrc_Spec ParSrcEx_Proofs ParLay_Model ParLay_Spec ParLayEx_Proofs Msg_Model MsgSrc_Model MsgLay_Model MsgLay_Proofs.
Import ListNotations.
Local Open Scope R_scope.

(** C109.  Runs with thin layers end under every schedule as well, each process with its part of the
    fields of the run on one process and the layers of that run that touch it, under the conditions
    of C111. *)
Theorem C109_any_schedule_layers_partial :
  forall N m dim alpha gb gi ob ib MInv D MSigma sm lm owns rks sub inc ss e1 e2 els,
  goodMesh N m dim -> tables m gb gi ob ib ->
  Z.of_nat (length sm) = markerSize (fm_battrs m) -> Z.of_nat (length lm) = markerSize (fm_battrs m) ->
  distributed N m dim MInv D MSigma owns rks -> sourcesShared N owns sub inc ss ->
  NoDup e1 -> NoDup e2 -> (forall d, In d e1 -> (0 <= d < Z.of_nat N)%Z) -> (forall d, In d e2 -> (0 <= d < Z.of_nat N)%Z) ->
  Forall2 (fun own el => elementsShared own e1 (fst el) /\ elementsShared own e2 (snd el)) owns els -> owns <> [] ->
  forall inv (junk : nat -> list R), (forall n, length (junk n) = n) ->
  exists A Ps,
    buildGlobalOperator R Rplus Rmult 1 (-1) (factoryRows N m dim alpha ob ib MInv D MSigma sm) dim (Z.of_nat N) 0
      (match ib with [] => false | _ => true end) = Ok A /\
    mapM (rankOperator dim alpha ob ib sm) rks = Ok Ps /\
    forall F,
    (forall t x, length x = (6 * N)%nat -> exists y, applies A N x y /\
       oneSource N (finalized (6 * N) (6 * N) (buildSourceFaceOperator R Rplus Rmult 1 (-1) (factoryRows N m dim alpha ob ib MInv D MSigma sm) dim (Z.of_nat N) 0))
         (map Z.of_nat sub) (sampled inc sub) t y = Ok (F t x)) ->
    forall works x t dts e Es z f progs, length x = (6 * N)%nat ->
      Forall (fun dt => 0 < dt) dts -> startLayers inv N owns e Es ->
      runCalls (list R) evol (fun _ _ e t x => addLayers inv (mkLR N 0 (finalized (6 * N) (6 * N) (buildSourceFaceOperator R Rplus Rmult 1 (-1) (factoryRows N m dim alpha ob ib MInv D MSigma lm) dim (Z.of_nat N) 0)) e1 e2) e t x (F t x)) addv (commit N) (finalize inv N)
        (fun e t x => sameVerdict owns sub inc t /\ sameDecisions N owns e x) (sameDecisions N owns) e x t dts ->
      oneRun inv F (mkLR N 0 (finalized (6 * N) (6 * N) (buildSourceFaceOperator R Rplus Rmult 1 (-1) (factoryRows N m dim alpha ob ib MInv D MSigma lm) dim (Z.of_nat N) 0)) e1 e2) e x t dts = Ok (z, f) ->
      (forall i rk P own s el e', nth_error rks i = Some rk -> nth_error Ps i = Some P -> nth_error owns i = Some own -> nth_error ss i = Some s ->
         nth_error els i = Some el -> nth_error Es i = Some e' ->
         nth_error progs i = Some (rkProgramL inv junk rk P (rankSource dim alpha ob ib sm rk) s (rankLayers dim alpha ob ib lm rk el) (works i) e' (part N own x) t dts)) ->
      exists Es', Forall2 (fun own e' => layersShared own (layersIn (e_groups f)) (layersIn (e_groups e'))) owns Es' /\
      forall n w, moves rks n (start progs) w -> (n <= length rks * (24 * length dts))%nat /\
      ((forall w', ~ move rks w w') -> forall i own e', nth_error owns i = Some own -> nth_error Es' i = Some e' -> p_act (w i) = Done (part N own z ++ inside e')).
Proof. exact schedulesL. Qed.
Print Assumptions C109_any_schedule_layers_partial.

(** C109.  The same when one process has all the layers. *)
Theorem C109_any_schedule_one_holder_partial :
  forall N m dim alpha gb gi ob ib MInv D MSigma sm lm owns rks sub inc ss e1 e2 els,
  goodMesh N m dim -> tables m gb gi ob ib ->
  Z.of_nat (length sm) = markerSize (fm_battrs m) -> Z.of_nat (length lm) = markerSize (fm_battrs m) ->
  distributed N m dim MInv D MSigma owns rks -> sourcesShared N owns sub inc ss ->
  NoDup e1 -> NoDup e2 -> (forall d, In d e1 -> (0 <= d < Z.of_nat N)%Z) -> (forall d, In d e2 -> (0 <= d < Z.of_nat N)%Z) ->
  Forall2 (fun own el => elementsShared own e1 (fst el) /\ elementsShared own e2 (snd el)) owns els -> owns <> [] ->
  forall inv (junk : nat -> list R), (forall n, length (junk n) = n) ->
  exists A Ps,
    buildGlobalOperator R Rplus Rmult 1 (-1) (factoryRows N m dim alpha ob ib MInv D MSigma sm) dim (Z.of_nat N) 0
      (match ib with [] => false | _ => true end) = Ok A /\
    mapM (rankOperator dim alpha ob ib sm) rks = Ok Ps /\
    forall F,
    (forall t x, length x = (6 * N)%nat -> exists y, applies A N x y /\
       oneSource N (finalized (6 * N) (6 * N) (buildSourceFaceOperator R Rplus Rmult 1 (-1) (factoryRows N m dim alpha ob ib MInv D MSigma sm) dim (Z.of_nat N) 0))
         (map Z.of_nat sub) (sampled inc sub) t y = Ok (F t x)) ->
    forall works x t dts e Es z f progs, length x = (6 * N)%nat ->
      Forall (fun dt => 0 < dt) dts -> startLayers inv N owns e Es ->
      Forall (sameVerdict owns sub inc) (stages t dts) -> onOneProcess owns (e_groups e) ->
      oneRun inv F (mkLR N 0 (finalized (6 * N) (6 * N) (buildSourceFaceOperator R Rplus Rmult 1 (-1) (factoryRows N m dim alpha ob ib MInv D MSigma lm) dim (Z.of_nat N) 0)) e1 e2) e x t dts = Ok (z, f) ->
      (forall i rk P own s el e', nth_error rks i = Some rk -> nth_error Ps i = Some P -> nth_error owns i = Some own -> nth_error ss i = Some s ->
         nth_error els i = Some el -> nth_error Es i = Some e' ->
         nth_error progs i = Some (rkProgramL inv junk rk P (rankSource dim alpha ob ib sm rk) s (rankLayers dim alpha ob ib lm rk el) (works i) e' (part N own x) t dts)) ->
      exists Es', Forall2 (fun own e' => layersShared own (layersIn (e_groups f)) (layersIn (e_groups e'))) owns Es' /\
      forall n w, moves rks n (start progs) w -> (n <= length rks * (24 * length dts))%nat /\
      ((forall w', ~ move rks w w') -> forall i own e', nth_error owns i = Some own -> nth_error Es' i = Some e' -> p_act (w i) = Done (part N own z ++ inside e')).
Proof. exact schedulesL1. Qed.
Print Assumptions C109_any_schedule_one_holder_partial.

Example C109_layers_ex : goodMesh 4 kMesh 1 /\ tables kMesh gGb gGi gOb [] /\ distributed 4 kMesh 1 kI kD kZ kOwns kRanks /\
  sourcesShared 4 kOwns kSub (kInc 1) (kSS 1) /\ (forall t, sameVerdict kOwns kSub (kInc 1) t) /\
  Forall2 (fun own el => elementsShared own [0%Z] (fst el) /\ elementsShared own [1%Z] (snd el)) kOwns hEls /\
  startLayers exInv 4 kOwns (hE [hS 0 1 (zeros 18)]) [hE [hS 0 1 (zeros 18)]; hNone] /\ onOneProcess kOwns (e_groups (hE [hS 0 1 (zeros 18)])) /\
  (forall F, (forall t x, length x = 24%nat -> length (F t x) = 24%nat) -> forall x t dts, length x = 24%nat -> Forall (fun dt => 0 < dt) dts ->
  exists z f, oneRun exInv F (mkLR 4 0 (finalized (6 * 4) (6 * 4) (buildSourceFaceOperator R Rplus Rmult 1 (-1) (factoryRows 4 kMesh 1 1 gOb [] kI kD kZ tSm) 1 (Z.of_nat 4) 0)) [0%Z] [1%Z])
    (hE [hS 0 1 (zeros 18)]) x t dts = Ok (z, f)).
Proof. exact (conj k_good (conj k_tables (conj k_distributed (conj (k_shared 1) (conj k_same (conj h_elements (conj (h_start exInv) (conj h_one h_example)))))))). Qed.

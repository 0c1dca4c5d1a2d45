(** Runs on several processes with thin layers. *)
From Coq Require Import ZArith List Bool Reals Permutation.
From Verif Require Import Common Csr_Model Face_Model Setup_Model Assembly_Model Form_Model Form_Spec Nodal_Spec Global_Spec GlobalEx_Proofs Tfsf_Spec TfsfEx_Proofs Evol_Model EvolLayer_Spec EvolEx_Proofs Evol_Spec Ode_Model Par_Model Par_Spec ParMult_Proofs ParSrc_Model ParSrc_Spec ParSrcRun_Proofs ParSrcEx_Proofs ParLay_Model ParLay_Spec ParLayFin_Proofs ParLayEx_Proofs.
Import ListNotations.
Local Open Scope R_scope.

(** C111.  With thin layers and sources: if one process ends its run with fields [z] and layers [f],
    and at every call of the run each process that has layers finds them quiet, or not, as one process
    does, then the run on several processes ends too, with the parts of [z], and each process has
    the layers of [f] that touch its elements. *)
Theorem C111_layers_run :
  forall N m dim alpha gb gi ob ib MInv D MSigma sm lm owns rks sub inc ss e1 e2 els,
  goodMesh N m dim -> tables m gb gi ob ib ->
  Z.of_nat (length sm) = markerSize (fm_battrs m) -> Z.of_nat (length lm) = markerSize (fm_battrs m) ->
  distributed N m dim MInv D MSigma owns rks -> sourcesShared N owns sub inc ss ->
  NoDup e1 -> NoDup e2 -> (forall d, In d e1 -> (0 <= d < Z.of_nat N)%Z) -> (forall d, In d e2 -> (0 <= d < Z.of_nat N)%Z) ->
  Forall2 (fun own el => elementsShared own e1 (fst el) /\ elementsShared own e2 (snd el)) owns els -> owns <> [] ->
  forall inv (junk : nat -> list R), (forall n, length (junk n) = n) ->
  exists A Ps,
    buildGlobalOperator R Rplus Rmult 1 (-1) (factoryRows N m dim alpha ob ib MInv D MSigma sm) dim (Z.of_nat N) 0
      (match ib with [] => false | _ => true end) = Ok A /\
    mapM (rankOperator dim alpha ob ib sm) rks = Ok Ps /\
    forall F,
    (forall t x, length x = (6 * N)%nat -> exists y, applies A N x y /\
       oneSource N (finalized (6 * N) (6 * N) (buildSourceFaceOperator R Rplus Rmult 1 (-1) (factoryRows N m dim alpha ob ib MInv D MSigma sm) dim (Z.of_nat N) 0))
         (map Z.of_nat sub) (sampled inc sub) t y = Ok (F t x)) ->
    forall works x t dts e Es z f, length x = (6 * N)%nat -> (forall s k, length (works s k) = length rks) ->
      Forall (fun dt => 0 < dt) dts -> startLayers inv N owns e Es ->
      runCalls (list R) evol (fun _ _ e t x => addLayers inv (mkLR N 0 (finalized (6 * N) (6 * N) (buildSourceFaceOperator R Rplus Rmult 1 (-1) (factoryRows N m dim alpha ob ib MInv D MSigma lm) dim (Z.of_nat N) 0)) e1 e2) e t x (F t x)) addv (commit N) (finalize inv N)
        (fun e t x => sameVerdict owns sub inc t /\ sameDecisions N owns e x) (sameDecisions N owns) e x t dts ->
      oneRun inv F (mkLR N 0 (finalized (6 * N) (6 * N) (buildSourceFaceOperator R Rplus Rmult 1 (-1) (factoryRows N m dim alpha ob ib MInv D MSigma lm) dim (Z.of_nat N) 0)) e1 e2) e x t dts = Ok (z, f) ->
      exists Es', allRun inv junk rks Ps (map (rankSource dim alpha ob ib sm) rks) ss
          (map (fun q => rankLayers dim alpha ob ib lm (fst q) (snd q)) (combine rks els)) works Es (spread N owns x) t dts = Ok (spread N owns z, Es') /\
        Forall2 (fun own e' => layersShared own (layersIn (e_groups f)) (layersIn (e_groups e'))) owns Es'.
Proof. exact lrun_ok. Qed.
Print Assumptions C111_layers_run.

(** C111.  If all the layers are on one process, nothing is asked of them. *)
Theorem C111_one_holder_run :
  forall N m dim alpha gb gi ob ib MInv D MSigma sm lm owns rks sub inc ss e1 e2 els,
  goodMesh N m dim -> tables m gb gi ob ib ->
  Z.of_nat (length sm) = markerSize (fm_battrs m) -> Z.of_nat (length lm) = markerSize (fm_battrs m) ->
  distributed N m dim MInv D MSigma owns rks -> sourcesShared N owns sub inc ss ->
  NoDup e1 -> NoDup e2 -> (forall d, In d e1 -> (0 <= d < Z.of_nat N)%Z) -> (forall d, In d e2 -> (0 <= d < Z.of_nat N)%Z) ->
  Forall2 (fun own el => elementsShared own e1 (fst el) /\ elementsShared own e2 (snd el)) owns els -> owns <> [] ->
  forall inv (junk : nat -> list R), (forall n, length (junk n) = n) ->
  exists A Ps,
    buildGlobalOperator R Rplus Rmult 1 (-1) (factoryRows N m dim alpha ob ib MInv D MSigma sm) dim (Z.of_nat N) 0
      (match ib with [] => false | _ => true end) = Ok A /\
    mapM (rankOperator dim alpha ob ib sm) rks = Ok Ps /\
    forall F,
    (forall t x, length x = (6 * N)%nat -> exists y, applies A N x y /\
       oneSource N (finalized (6 * N) (6 * N) (buildSourceFaceOperator R Rplus Rmult 1 (-1) (factoryRows N m dim alpha ob ib MInv D MSigma sm) dim (Z.of_nat N) 0))
         (map Z.of_nat sub) (sampled inc sub) t y = Ok (F t x)) ->
    forall works x t dts e Es z f, length x = (6 * N)%nat -> (forall s k, length (works s k) = length rks) ->
      Forall (fun dt => 0 < dt) dts -> startLayers inv N owns e Es ->
      Forall (sameVerdict owns sub inc) (stages t dts) -> onOneProcess owns (e_groups e) ->
      oneRun inv F (mkLR N 0 (finalized (6 * N) (6 * N) (buildSourceFaceOperator R Rplus Rmult 1 (-1) (factoryRows N m dim alpha ob ib MInv D MSigma lm) dim (Z.of_nat N) 0)) e1 e2) e x t dts = Ok (z, f) ->
      exists Es', allRun inv junk rks Ps (map (rankSource dim alpha ob ib sm) rks) ss
          (map (fun q => rankLayers dim alpha ob ib lm (fst q) (snd q)) (combine rks els)) works Es (spread N owns x) t dts = Ok (spread N owns z, Es') /\
        Forall2 (fun own e' => layersShared own (layersIn (e_groups f)) (layersIn (e_groups e'))) owns Es'.
Proof. exact lone_ok. Qed.
Print Assumptions C111_one_holder_run.

(** Four elements on two processes, a layer between the two elements of the first; [F] may be any
    right-hand side, and the run of one process succeeds. *)
Example C111_ex : goodMesh 4 kMesh 1 /\ tables kMesh gGb gGi gOb [] /\ distributed 4 kMesh 1 kI kD kZ kOwns kRanks /\
  sourcesShared 4 kOwns kSub (kInc 1) (kSS 1) /\ (forall t, sameVerdict kOwns kSub (kInc 1) t) /\
  Forall2 (fun own el => elementsShared own [0%Z] (fst el) /\ elementsShared own [1%Z] (snd el)) kOwns hEls /\
  startLayers exInv 4 kOwns (hE [hS 0 1 (zeros 18)]) [hE [hS 0 1 (zeros 18)]; hNone] /\ onOneProcess kOwns (e_groups (hE [hS 0 1 (zeros 18)])).
Proof. exact (conj k_good (conj k_tables (conj k_distributed (conj (k_shared 1) (conj k_same (conj h_elements (conj (h_start exInv) h_one))))))). Qed.
Example C111_ex_runs : forall F, (forall t x, length x = 24%nat -> length (F t x) = 24%nat) -> forall x t dts, length x = 24%nat -> Forall (fun dt => 0 < dt) dts ->
  exists z f, oneRun exInv F (mkLR 4 0 (finalized (6 * 4) (6 * 4) (buildSourceFaceOperator R Rplus Rmult 1 (-1) (factoryRows 4 kMesh 1 1 gOb [] kI kD kZ tSm) 1 (Z.of_nat 4) 0)) [0%Z] [1%Z])
    (hE [hS 0 1 (zeros 18)]) x t dts = Ok (z, f).
Proof. exact h_example. Qed.

(** C111, finding: each process compares only its own layers with the threshold.  A layer that one
    process integrates, because another layer is loud, is left as it is by a process that does not
    have the loud one. *)
Theorem C111_threshold_refuted :
  ~ (forall inv N own e e' x0 x1 t dt c c' f f', (forall d, In d own -> (d < N)%nat) -> NoDup own -> fresh e -> fresh e' -> goodLayers inv N (e_groups e) ->
  (forall g, In g (e_groups e') -> roomy (g_w g)) -> layersShared own (layersIn (e_groups e)) (layersIn (e_groups e')) ->
  0 < dt -> length x0 = (6 * N)%nat -> length x1 = (6 * N)%nat ->
  commit N e t dt x0 = Ok c -> commit (length own) e' t dt (part N own x0) = Ok c' ->
  finalize inv N c x1 = Ok f -> finalize inv (length own) c' (part N own x1) = Ok f' ->
  layersShared own (layersIn (e_groups f)) (layersIn (e_groups f'))).
Proof. exact h_refuted. Qed.
Print Assumptions C111_threshold_refuted.

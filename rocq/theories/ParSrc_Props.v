(** Runs on several processes with total-field sources. *)
From Coq Require Import ZArith List Bool Reals Permutation.
From Verif Require Import Common Csr_Model Face_Model Setup_Model Assembly_Model Form_Model Form_Spec FormEx_Proofs Nodal_Spec Global_Spec GlobalEx_Proofs Tfsf_Spec TfsfEx_Proofs Ode_Model Par_Model Par_Spec ParMult_Proofs ParSrc_Model ParSrc_Spec ParSrcRun_Proofs ParSrcEx_Proofs.
Import ListNotations.
Local Open Scope R_scope.

(** C108.  With sources, and with thin layers still left out: at a time at which the field is quiet
    everywhere, or no process has a quiet part that is not zero, one evaluation of the right-hand side
    on several processes gives the parts of the vector that one process computes.  At any time it gives
    the parts of what one process would compute from the incident field without the quiet parts. *)
Theorem C108_source_evaluation_partial :
  forall N m dim alpha gb gi ob ib MInv D MSigma sm owns rks sub inc ss,
  goodMesh N m dim -> tables m gb gi ob ib -> Z.of_nat (length sm) = markerSize (fm_battrs m) ->
  distributed N m dim MInv D MSigma owns rks -> sourcesShared N owns sub inc ss ->
  forall junk : nat -> list R, (forall n, length (junk n) = n) ->
  exists A Ps,
    buildGlobalOperator R Rplus Rmult 1 (-1) (factoryRows N m dim alpha ob ib MInv D MSigma sm) dim (Z.of_nat N) 0
      (match ib with [] => false | _ => true end) = Ok A /\
    mapM (rankOperator dim alpha ob ib sm) rks = Ok Ps /\
    (forall t h x y w works, heard N owns sub inc t h -> length x = (6 * N)%nat -> applies A N x y ->
       lilApplies (buildSourceFaceOperator R Rplus Rmult 1 (-1) (factoryRows N m dim alpha ob ib MInv D MSigma sm) dim (Z.of_nat N) 0) N h w ->
       length works = length rks ->
       allMultS junk rks Ps (map (rankSource dim alpha ob ib sm) rks) ss t works (spread N owns x) = Ok (spread N owns (addv (-1) w y))) /\
    (forall t x, length x = (6 * N)%nat -> exists y z, applies A N x y /\
       oneSource N (finalized (6 * N) (6 * N) (buildSourceFaceOperator R Rplus Rmult 1 (-1) (factoryRows N m dim alpha ob ib MInv D MSigma sm) dim (Z.of_nat N) 0))
         (map Z.of_nat sub) (sampled inc sub) t y = Ok z /\
       (sameVerdict owns sub inc t -> forall works, length works = length rks ->
          allMultS junk rks Ps (map (rankSource dim alpha ob ib sm) rks) ss t works (spread N owns x) = Ok (spread N owns z))).
Proof. exact eval_ok. Qed.
Print Assumptions C108_source_evaluation_partial.

(** C108.  The same for runs: [F t x] is what one process computes at time [t] for fields [x]. *)
Theorem C108_source_run_partial :
  forall N m dim alpha gb gi ob ib MInv D MSigma sm owns rks sub inc ss,
  goodMesh N m dim -> tables m gb gi ob ib -> Z.of_nat (length sm) = markerSize (fm_battrs m) ->
  distributed N m dim MInv D MSigma owns rks -> sourcesShared N owns sub inc ss ->
  forall junk : nat -> list R, (forall n, length (junk n) = n) ->
  exists A Ps,
    buildGlobalOperator R Rplus Rmult 1 (-1) (factoryRows N m dim alpha ob ib MInv D MSigma sm) dim (Z.of_nat N) 0
      (match ib with [] => false | _ => true end) = Ok A /\
    mapM (rankOperator dim alpha ob ib sm) rks = Ok Ps /\
    forall F,
    (forall t x, length x = (6 * N)%nat -> exists y, applies A N x y /\
       oneSource N (finalized (6 * N) (6 * N) (buildSourceFaceOperator R Rplus Rmult 1 (-1) (factoryRows N m dim alpha ob ib MInv D MSigma sm) dim (Z.of_nat N) 0))
         (map Z.of_nat sub) (sampled inc sub) t y = Ok (F t x)) ->
    forall works x t dts, Forall (sameVerdict owns sub inc) (stages t dts) -> length x = (6 * N)%nat ->
      (forall s k, length (works s k) = length rks) ->
      allStepsS junk rks Ps (map (rankSource dim alpha ob ib sm) rks) ss works (spread N owns x) t dts = Ok (spread N owns (rkRunT F x t dts)).
Proof. exact srun_ok. Qed.
Print Assumptions C108_source_run_partial.

(** C108.  Without a condition on the field: the run is the one that a single process would compute
    from the incident field that is heard. *)
Theorem C108_source_heard_run_partial :
  forall N m dim alpha gb gi ob ib MInv D MSigma sm owns rks sub inc ss,
  goodMesh N m dim -> tables m gb gi ob ib -> Z.of_nat (length sm) = markerSize (fm_battrs m) ->
  distributed N m dim MInv D MSigma owns rks -> sourcesShared N owns sub inc ss ->
  forall junk : nat -> list R, (forall n, length (junk n) = n) ->
  exists A Ps,
    buildGlobalOperator R Rplus Rmult 1 (-1) (factoryRows N m dim alpha ob ib MInv D MSigma sm) dim (Z.of_nat N) 0
      (match ib with [] => false | _ => true end) = Ok A /\
    mapM (rankOperator dim alpha ob ib sm) rks = Ok Ps /\
    forall h F, (forall t, heard N owns sub inc t (h t)) ->
    (forall t x, length x = (6 * N)%nat -> exists y w, applies A N x y /\
       lilApplies (buildSourceFaceOperator R Rplus Rmult 1 (-1) (factoryRows N m dim alpha ob ib MInv D MSigma sm) dim (Z.of_nat N) 0) N (h t) w /\
       F t x = addv (-1) w y) ->
    forall works x t dts, length x = (6 * N)%nat -> (forall s k, length (works s k) = length rks) ->
      allStepsS junk rks Ps (map (rankSource dim alpha ob ib sm) rks) ss works (spread N owns x) t dts = Ok (spread N owns (rkRunT F x t dts)).
Proof. exact hrun_ok. Qed.
Print Assumptions C108_source_heard_run_partial.

(** C108.  What is not heard is small: the squares of the differences add up to at most 1e-16 per
    process. *)
Theorem C108_source_unheard :
  forall N owns sub inc t g h, Permutation (concat owns) (seq 0 N) -> NoDup sub -> fieldOn N sub inc t g -> heard N owns sub inc t h ->
  sumN (6 * N) (fun r => (nth r g 0 - nth r h 0) * (nth r g 0 - nth r h 0)) <= INR (length owns) * (/ 100000000 * / 100000000).
Proof. exact dropped. Qed.
Print Assumptions C108_source_unheard.

(** Four elements, two processes, two faces of the surface. *)
Example C108_source_ex : goodMesh 4 kMesh 1 /\ tables kMesh gGb gGi gOb [] /\ distributed 4 kMesh 1 kI kD kZ kOwns kRanks /\
  (forall a, sourcesShared 4 kOwns kSub (kInc a) (kSS a)) /\ forall t, sameVerdict kOwns kSub (kInc 1) t.
Proof. exact (conj k_good (conj k_tables (conj k_distributed (conj k_shared k_same)))). Qed.
(** The source term of this example is not zero. *)
Example C108_source_acts : forall a t h, fieldOn 4 kSub (kInc a) t h ->
  sumN (length h) (fun c => entry (buildSourceFaceOperator R Rplus Rmult 1 (-1) (factoryRows 4 kMesh 1 1 gOb [] kI kD kZ tSm) 1 (Z.of_nat 4) 0) 4 c * nth c h 0) = - a.
Proof. exact k_row. Qed.

(** C108, finding: each process compares its own part of the incident field with the threshold, so a
    field that one process uses can be dropped when several run. *)
Theorem C108_source_threshold_refuted :
  ~ (forall N m dim alpha gb gi ob ib MInv D MSigma sm owns rks sub inc ss,
  goodMesh N m dim -> tables m gb gi ob ib -> Z.of_nat (length sm) = markerSize (fm_battrs m) ->
  distributed N m dim MInv D MSigma owns rks -> sourcesShared N owns sub inc ss ->
  forall junk : nat -> list R, (forall n, length (junk n) = n) ->
  forall A Ps, buildGlobalOperator R Rplus Rmult 1 (-1) (factoryRows N m dim alpha ob ib MInv D MSigma sm) dim (Z.of_nat N) 0
      (match ib with [] => false | _ => true end) = Ok A ->
    mapM (rankOperator dim alpha ob ib sm) rks = Ok Ps ->
    forall t works x y z, length x = (6 * N)%nat -> length works = length rks -> applies A N x y ->
      oneSource N (finalized (6 * N) (6 * N) (buildSourceFaceOperator R Rplus Rmult 1 (-1) (factoryRows N m dim alpha ob ib MInv D MSigma sm) dim (Z.of_nat N) 0))
        (map Z.of_nat sub) (sampled inc sub) t y = Ok z ->
      allMultS junk rks Ps (map (rankSource dim alpha ob ib sm) rks) ss t works (spread N owns x) = Ok (spread N owns z)).
Proof. exact threshold. Qed.
Print Assumptions C108_source_threshold_refuted.

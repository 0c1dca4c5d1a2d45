(** C69: energy of the assembled global operator. *)
From Coq Require Import ZArith List Bool Reals.
From Verif Require Import Common Csr_Model Face_Model Face_Spec Setup_Model Setup_Spec Assembly_Model Form_Model Form_Spec Nodal_Spec NodalEnergy_Spec Global_Spec GlobalBalance_Proofs GlobalEx_Proofs.
Import ListNotations.
Local Open Scope R_scope.

(** The power balance: the energy changes only by what each face exchanges, according to
    the condition the input gives its tag, and by conduction. *)
Theorem C69_balance : forall N m dim alpha gb gi ob ib Mass MInv D MSigma sm,
  dgSpace N m dim Mass MInv D -> tables m gb gi ob ib ->
  exists A, buildGlobalOperator R Rplus Rmult 1 (-1) (factoryRows N m dim alpha ob ib MInv D MSigma sm) dim (Z.of_nat N) 0
              (match ib with [] => false | _ => true end) = Ok A /\
    forall x, length x = (6 * N)%nat -> exists y, applies A N x y /\
      fieldRate N Mass x y = facesum m (pointRate N alpha m gb gi x) - ohmic N MSigma x.
Proof. exact balance. Qed.
Print Assumptions C69_balance.
Example C69_balance_ex : dgSpace 4 gMesh 1 gMass gMInv gD /\ tables gMesh gGb gGi gOb [] /\
  length gX = 24%nat /\ facesum gMesh (pointRate 4 1 gMesh gGb gGi gX) - ohmic 4 (gMass 0%Z) gX = - (7 / 2).
Proof. exact (conj g_space (conj g_tables g_rate)). Qed.

(** Every sub-operator the build requests can be assembled. *)
Theorem C69_requested : forall N m dim alpha gb gi ob ib Mass MInv D MSigma sm, dgSpace N m dim Mass MInv D -> tables m gb gi ob ib ->
  forall f k l, (f = 0 \/ f = 1)%Z -> (0 <= k < 3)%Z -> (0 <= l < 3)%Z ->
  Forall (fun o => exists A, factoryMat N m dim alpha ob ib MInv D MSigma sm o = Ok A)
    [OpDerivative f k; OpZeroNormal f; OpOneNormal f (1 - f) k; OpTwoNormal f k l;
     OpZeroNormalIBFI f; OpOneNormalIBFI f (1 - f) k; OpTwoNormalIBFI f k l; OpConductive].
Proof. exact requested. Qed.
Print Assumptions C69_requested.
Example C69_requested_ex : dgSpace 4 gMesh 1 gMass gMInv gD /\ tables gMesh gGbR gGi gObR [].
Proof. exact (conj g_space g_tablesR). Qed.

(** The marker tables the model builds from the tags of the input are such tables. *)
Theorem C69_input : forall gt2m m gb gi, fm_battrs m <> [] -> ascending gb -> ascending gi ->
  tagsFit (markerSize (fm_battrs m)) gb -> tagsFit (markerSize (fm_battrs m)) gi ->
  exists md, newModel gt2m gb gi (fm_battrs m) = Ok md /\ tables m gb gi (bdrToMarkerMap (md_mk md)) (intBdrToMarkerMap (md_mk md)).
Proof. exact input_tables. Qed.
Print Assumptions C69_input.
Example C69_input_ex : fm_battrs gMesh <> [] /\ ascending gGb /\ ascending gGi /\
  tagsFit (markerSize (fm_battrs gMesh)) gGb /\ tagsFit (markerSize (fm_battrs gMesh)) gGi.
Proof. exact g_input. Qed.

(** With every outer face closed, no interior sheet and any upwinding, energy never grows. *)
Theorem C69_never_grows : forall N m dim alpha gb gi ob ib Mass MInv D MSigma sm,
  dgSpace N m dim Mass MInv D -> tables m gb gi ob ib ->
  0 <= alpha -> passive m gb gi -> nonnegWeights m -> (forall v, 0 <= mform N MSigma v v) ->
  exists A, buildGlobalOperator R Rplus Rmult 1 (-1) (factoryRows N m dim alpha ob ib MInv D MSigma sm) dim (Z.of_nat N) 0
              (match ib with [] => false | _ => true end) = Ok A /\
    forall x y, length x = (6 * N)%nat -> applies A N x y -> fieldRate N Mass x y <= 0.
Proof. exact never_grows. Qed.
Print Assumptions C69_never_grows.
Theorem C69_decays : forall N m dim alpha gb gi ob ib Mass MInv D MSigma sm,
  dgSpace N m dim Mass MInv D -> tables m gb gi ob ib -> (forall f i j, Mass f i j = Mass f j i) ->
  0 <= alpha -> passive m gb gi -> nonnegWeights m -> (forall v, 0 <= mform N MSigma v v) ->
  exists A, buildGlobalOperator R Rplus Rmult 1 (-1) (factoryRows N m dim alpha ob ib MInv D MSigma sm) dim (Z.of_nat N) 0
              (match ib with [] => false | _ => true end) = Ok A /\
    forall x, evolves A N x -> forall a b, a <= b -> fieldEnergy N Mass (x b) <= fieldEnergy N Mass (x a).
Proof. exact decays. Qed.
Print Assumptions C69_decays.
Example C69_decays_ex : dgSpace 4 gMesh 1 gMass gMInv gD /\ tables gMesh gGb gGi gOb [] /\ (forall f i j, gMass f i j = gMass f j i) /\
  (passive gMesh gGb gGi /\ nonnegWeights gMesh) /\ (forall v, 0 <= mform 4 (sMass 1) v v) /\
  exists A, buildGlobalOperator R Rplus Rmult 1 (-1) (factoryRows 4 gMesh 1 1 gOb [] gMInv gD (sMass 1) []) 1 4 0 false = Ok A /\ evolves A 4 (gZ 1).
Proof. exact (conj g_space (conj g_tables (conj g_sym (conj g_passive (conj (g_psd 1 Rle_0_1) (long_evolves 1 gGb gGi gOb 1 [] g_tables)))))). Qed.

(** Centred fluxes between perfect walls without losses conserve it. *)
Theorem C69_conserved : forall N m dim alpha gb gi ob ib Mass MInv D MSigma sm,
  dgSpace N m dim Mass MInv D -> tables m gb gi ob ib ->
  alpha = 0 -> reflecting m gb gi -> (forall v, mform N MSigma v v = 0) ->
  exists A, buildGlobalOperator R Rplus Rmult 1 (-1) (factoryRows N m dim alpha ob ib MInv D MSigma sm) dim (Z.of_nat N) 0
              (match ib with [] => false | _ => true end) = Ok A /\
    forall x y, length x = (6 * N)%nat -> applies A N x y -> fieldRate N Mass x y = 0.
Proof. exact conserved. Qed.
Print Assumptions C69_conserved.
Theorem C69_stays : forall N m dim alpha gb gi ob ib Mass MInv D MSigma sm,
  dgSpace N m dim Mass MInv D -> tables m gb gi ob ib -> (forall f i j, Mass f i j = Mass f j i) ->
  alpha = 0 -> reflecting m gb gi -> (forall v, mform N MSigma v v = 0) ->
  exists A, buildGlobalOperator R Rplus Rmult 1 (-1) (factoryRows N m dim alpha ob ib MInv D MSigma sm) dim (Z.of_nat N) 0
              (match ib with [] => false | _ => true end) = Ok A /\
    forall x, evolves A N x -> forall a b, fieldEnergy N Mass (x b) = fieldEnergy N Mass (x a).
Proof. exact stays. Qed.
Print Assumptions C69_stays.
Example C69_stays_ex : dgSpace 4 gMesh 1 gMass gMInv gD /\ tables gMesh gGbR gGi gObR [] /\ (forall f i j, gMass f i j = gMass f j i) /\
  reflecting gMesh gGbR gGi /\ (forall v, mform 4 (sMass 0) v v = 0) /\
  exists A, buildGlobalOperator R Rplus Rmult 1 (-1) (factoryRows 4 gMesh 1 0 gObR [] gMInv gD (sMass 0) []) 1 4 0 false = Ok A /\ evolves A 4 (gZ 0).
Proof. exact (conj g_space (conj g_tablesR (conj g_sym (conj g_reflecting (conj g_zero (long_evolves 0 gGbR gGi gObR 0 [] g_tablesR)))))). Qed.

(** An outer face whose tag has no condition is not a wall: energy can grow through it. *)
Theorem C69_untagged_refuted : exists N m dim Mass MInv D MSigma A, dgSpace N m dim Mass MInv D /\ tables m [] [] [] [] /\
  buildGlobalOperator R Rplus Rmult 1 (-1) (factoryRows N m dim 0 [] [] MInv D MSigma []) dim (Z.of_nat N) 0 false = Ok A /\
  exists x y, length x = (6 * N)%nat /\ applies A N x y /\ 0 < fieldRate N Mass x y.
Proof. exact untagged_refuted. Qed.
Print Assumptions C69_untagged_refuted.

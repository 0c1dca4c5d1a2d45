(** C99, C100: the nodal and the assembled operator, side by side. *)
From Coq Require Import ZArith List Bool Reals.
From Verif Require Import Common Csr_Model Geo_Spec Face_Model Face_Spec Nodal_Model Nodal_Spec NodalEnergy_Spec Step_Model Setup_Model Setup_Spec Assembly_Model Form_Model Form_Spec Global_Spec Conn_Model Conn_Spec.
From Verif Require Import NodalEnergy_Proofs GlobalBalance_Proofs HestRun_Proofs HestEx_Proofs GlobalEx_Proofs Hest_Model Hest_Spec Twin_Spec TwinWeak_Proofs TwinRun_Proofs TwinEx_Proofs Consist_Spec Consist_Proofs ConsistEx_Proofs.
Import ListNotations.
Local Open Scope R_scope.

(** The assembled operator against any test function: the curl of the other field, the face
    terms of the conditions and the losses. *)
Theorem C99_weak : forall N m dim alpha gb gi ob ib Mass MInv D MSigma sm, dgSpace N m dim Mass MInv D -> tables m gb gi ob ib ->
  exists A, theOperator N m dim alpha ob ib MInv D MSigma sm = Ok A /\ forall x, length x = (6 * N)%nat -> exists y, applies A N x y /\
  forall v g d, (g = 0 \/ g = 1)%Z -> (0 <= d < 3)%Z ->
    mform N (Mass g) v (fld N y g d) =
    weakCurl N dim D x v g d + facesum m (faceTerm N alpha m gb gi x v g d) - (if (g =? 0)%Z then mform N MSigma v (fld N x 0 d) else 0).
Proof. exact weak. Qed.
Print Assumptions C99_weak.
Example C99_weak_ex : dgSpace 6 twM 2 twMass twInv twD /\ tables twM twGb twGi twOb twWall.
Proof. exact (conj tw_space tw_tablesW). Qed.

(** The nodal operator minus the assembled one, at every face of the mesh. *)
Theorem C99_difference : forall inv fc dim t nf ref elems posLin posCur m nodes bdrMk intMk tfsfMk fm gb gi ob ib Mass MInv D MSigma N,
  sameProblem inv fc dim t nf ref elems posLin posCur m nodes bdrMk intMk tfsfMk fm gb gi ob ib Mass MInv D MSigma N ->
  forall tfsf bdr global alpha conn maps attrs sm, connectivities m bdrMk intMk tfsfMk = Ok (conn, maps, attrs) -> rowsIn (cm_N m) global ->
  forall s, buildNodal inv fc dim (cm_N m) elems posLin posCur tfsf bdr global alpha conn maps [] = Ok s ->
  alpha <> 0 \/ (forall f, ~ carries m bdrMk SMA f) ->
  exists A, theOperator N fm dim alpha ob ib MInv D MSigma sm = Ok A /\
  forall x, length x = (6 * N)%nat -> exists out y, nodalMult s x = Ok out /\ length out = length x /\ applies A N x y /\
    forall v g d, (g = 0 \/ g = 1)%Z -> (0 <= d < 3)%Z ->
      mform N (Mass g) v (fld N out g d) = mform N (Mass g) v (fld N y g d) + facesum fm (fun fi F q => excessAt N alpha x v g d (kindFrom fm gb gi fi F) F q).
Proof. exact difference_run. Qed.
Print Assumptions C99_difference.

(** With upwind fluxes or without absorbing sides, and without interior walls, the two operators
    give the same state. *)
Theorem C99_same : forall inv fc dim t nf ref elems posLin posCur m nodes bdrMk intMk tfsfMk fm gb gi ob ib Mass MInv D MSigma N,
  sameProblem inv fc dim t nf ref elems posLin posCur m nodes bdrMk intMk tfsfMk fm gb gi ob ib Mass MInv D MSigma N ->
  forall tfsf bdr global alpha conn maps attrs sm, connectivities m bdrMk intMk tfsfMk = Ok (conn, maps, attrs) -> rowsIn (cm_N m) global ->
  forall s, buildNodal inv fc dim (cm_N m) elems posLin posCur tfsf bdr global alpha conn maps [] = Ok s ->
  alpha = 1 \/ (forall f, ~ carries m bdrMk SMA f) -> (forall f c, carries m (intMk ++ tfsfMk) c f -> c = TotalFieldIn) ->
  exists A, theOperator N fm dim alpha ob ib MInv D MSigma sm = Ok A /\
  forall x, length x = (6 * N)%nat -> exists y, applies A N x y /\ nodalMult s x = Ok y.
Proof. exact same_run. Qed.
Print Assumptions C99_same.

(** Then the solutions of one are the solutions of the other. *)
Theorem C99_solutions : forall inv fc dim t nf ref elems posLin posCur m nodes bdrMk intMk tfsfMk fm gb gi ob ib Mass MInv D MSigma N,
  sameProblem inv fc dim t nf ref elems posLin posCur m nodes bdrMk intMk tfsfMk fm gb gi ob ib Mass MInv D MSigma N ->
  forall tfsf bdr global alpha conn maps attrs sm, connectivities m bdrMk intMk tfsfMk = Ok (conn, maps, attrs) -> rowsIn (cm_N m) global ->
  forall s, buildNodal inv fc dim (cm_N m) elems posLin posCur tfsf bdr global alpha conn maps [] = Ok s ->
  alpha = 1 \/ (forall f, ~ carries m bdrMk SMA f) -> (forall f c, carries m (intMk ++ tfsfMk) c f -> c = TotalFieldIn) ->
  exists A, theOperator N fm dim alpha ob ib MInv D MSigma sm = Ok A /\ forall x, solves s x <-> evolves A N x.
Proof. exact same_solutions. Qed.
Print Assumptions C99_solutions.

(** A square of two triangles with conducting and absorbing sides, with and without a sheet. *)
Example C99_ex : sameProblem p1Inv p1 2 Triangle 2 p1Ref sqE sqPos sqPos sqM sqN sqMk [] [] twM twGb [] twOb [] twMass twInv twD noSigma 6 /\
  (forall f c, ~ carries sqM ([] ++ []) c f) /\ (exists f, carries sqM sqMk PEC f) /\ (exists f, carries sqM sqMk SMA f) /\ rowsIn (cm_N sqM) (fun _ => []) /\
  exists conn maps attrs s, connectivities sqM sqMk [] [] = Ok (conn, maps, attrs) /\
    buildNodal p1Inv p1 2 (cm_N sqM) sqE sqPos sqPos [] [] (fun _ => []) 1 conn maps [] = Ok s.
Proof. exact tw_ex. Qed.
Example C99_ex_wall : sameProblem p1Inv p1 2 Triangle 2 p1Ref sqE sqPos sqPos sqM sqN sqMk twWall [] twM twGb twGi twOb twWall twMass twInv twD noSigma 6.
Proof. exact tw_problemW. Qed.

(** With another flux parameter the absorbing sides are not the same. *)
Theorem C99_absorbing_refuted : exists inv fc dim t nf ref elems posLin posCur m nodes bdrMk fm gb ob Mass MInv D MSigma N,
  sameProblem inv fc dim t nf ref elems posLin posCur m nodes bdrMk [] [] fm gb [] ob [] Mass MInv D MSigma N /\
  exists conn maps attrs s A x out y, connectivities m bdrMk [] [] = Ok (conn, maps, attrs) /\
    buildNodal inv fc dim (cm_N m) elems posLin posCur [] [] (fun _ => []) (/ 2) conn maps [] = Ok s /\
    theOperator N fm dim (/ 2) ob [] MInv D MSigma [] = Ok A /\
    nodalMult s x = Ok out /\ applies A N x y /\ out <> y.
Proof. exact tw_absorbing. Qed.
Print Assumptions C99_absorbing_refuted.
(** A conducting sheet between two elements is not the same, even with upwind fluxes. *)
Theorem C99_sheet_refuted : exists inv fc dim t nf ref elems posLin posCur m nodes bdrMk intMk fm gb gi ob ib Mass MInv D MSigma N,
  (forall c f, carries m intMk c f -> c = PEC) /\
  sameProblem inv fc dim t nf ref elems posLin posCur m nodes bdrMk intMk [] fm gb gi ob ib Mass MInv D MSigma N /\
  exists conn maps attrs s A x out y, connectivities m bdrMk intMk [] = Ok (conn, maps, attrs) /\
    buildNodal inv fc dim (cm_N m) elems posLin posCur [] [] (fun _ => []) 1 conn maps [] = Ok s /\
    theOperator N fm dim 1 ob ib MInv D MSigma [] = Ok A /\
    nodalMult s x = Ok out /\ applies A N x y /\ out <> y.
Proof. exact tw_wall. Qed.
Print Assumptions C99_sheet_refuted.

(** Fields continuous between the elements that meet the conditions of the walls: the assembled
    operator gives the curl and the losses, and nothing from the faces, whatever the flux. *)
Theorem C100_assembled : forall N m dim alpha gb gi ob ib Mass MInv D MSigma sm, dgSpace N m dim Mass MInv D -> tables m gb gi ob ib ->
  exists A, theOperator N m dim alpha ob ib MInv D MSigma sm = Ok A /\ forall x, length x = (6 * N)%nat -> fits N m gb gi x -> exists y, applies A N x y /\
  forall v g d, (g = 0 \/ g = 1)%Z -> (0 <= d < 3)%Z ->
    mform N (Mass g) v (fld N y g d) = weakCurl N dim D x v g d - (if (g =? 0)%Z then mform N MSigma v (fld N x 0 d) else 0).
Proof. exact consistent. Qed.
Print Assumptions C100_assembled.
Example C100_assembled_ex : length wvX = 36%nat /\ fits 6 twM twGb [] wvX /\ wvX <> repeat 0 36 /\ exists v, weakCurl 6 2 twD wvX v 0 2 <> 0.
Proof. exact wv_ex. Qed.

(** A uniform field that meets the conditions does not change. *)
Theorem C100_steady : forall N m dim alpha gb gi ob ib Mass MInv D MSigma sm, dgSpace N m dim Mass MInv D -> tables m gb gi ob ib -> flatSpace N dim Mass D ->
  (forall i j, MSigma i j = 0) ->
  exists A, theOperator N m dim alpha ob ib MInv D MSigma sm = Ok A /\ forall x, length x = (6 * N)%nat -> uniformField N x -> fits N m gb gi x ->
    applies A N x (repeat 0 (6 * N)) /\ evolves A N (fun _ => x).
Proof. exact steady. Qed.
Print Assumptions C100_steady.
Example C100_steady_ex : dgSpace 6 twM 2 twMass twInv twD /\ tables twM cvGb [] cvOb [] /\ flatSpace 6 2 twMass twD /\ uniformField 6 cvX /\ fits 6 twM cvGb [] cvX /\ cvX <> repeat 0 36.
Proof. exact cv_ex. Qed.

(** The nodal operator, with upwind fluxes or without absorbing faces. *)
Theorem C100_nodal : forall inv fc dim t nf ref elems posLin posCur m nodes bdrMk intMk tfsfMk fm gb gi ob ib Mass MInv D MSigma N,
  sameProblem inv fc dim t nf ref elems posLin posCur m nodes bdrMk intMk tfsfMk fm gb gi ob ib Mass MInv D MSigma N ->
  forall tfsf bdr global alpha conn maps attrs, connectivities m bdrMk intMk tfsfMk = Ok (conn, maps, attrs) -> rowsIn (cm_N m) global ->
  forall s, buildNodal inv fc dim (cm_N m) elems posLin posCur tfsf bdr global alpha conn maps [] = Ok s ->
  alpha = 1 \/ (forall f, ~ carries m (bdrMk ++ intMk ++ tfsfMk) SMA f) ->
  forall x, length x = (6 * N)%nat -> fits N fm gb gi x -> exists out, nodalMult s x = Ok out /\ length out = length x /\
    forall v g d, (g = 0 \/ g = 1)%Z -> (0 <= d < 3)%Z -> mform N (Mass g) v (fld N out g d) = weakCurl N dim D x v g d.
Proof. exact nodal_consistent. Qed.
Print Assumptions C100_nodal.
(** With another flux parameter it is not consistent: a wave that leaves through an absorbing side. *)
Theorem C100_nodal_refuted : exists inv fc dim t nf ref elems posLin posCur m nodes bdrMk fm gb ob Mass MInv D MSigma N,
  sameProblem inv fc dim t nf ref elems posLin posCur m nodes bdrMk [] [] fm gb [] ob [] Mass MInv D MSigma N /\
  exists conn maps attrs s x out v, connectivities m bdrMk [] [] = Ok (conn, maps, attrs) /\
    buildNodal inv fc dim (cm_N m) elems posLin posCur [] [] (fun _ => []) (/ 2) conn maps [] = Ok s /\
    fits N fm gb [] x /\ nodalMult s x = Ok out /\ mform N (Mass 0%Z) v (fld N out 0 2) <> weakCurl N dim D x v 0 2.
Proof. exact wv_refuted. Qed.
Print Assumptions C100_nodal_refuted.

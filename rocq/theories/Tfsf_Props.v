(** C70: total-field/scattered-field excitation of the assembled global operator. *)
From Coq Require Import ZArith List Bool Reals.
From Verif Require Import Common Csr_Model Face_Model Face_Spec Setup_Model Setup_Spec Assembly_Model Form_Model Form_Spec Nodal_Spec NodalEnergy_Spec Global_Spec GlobalBalance_Proofs GlobalEx_Proofs Tfsf_Spec TfsfRun_Proofs TfsfEx_Proofs.
Import ListNotations.
Local Open Scope R_scope.

(** The rate of a run with the source is that of the run without it, written for the total
    field inside the surface and for total minus incident outside. *)
Theorem C70_equivalence : forall N m dim alpha gb gi ob ib Mass MInv D MSigma sm s,
  dgSpace N m dim Mass MInv D -> tables m gb gi ob ib -> marks (markerSize (fm_battrs m)) gi TotalFieldIn sm ->
  splits m gi s -> zoned N dim s Mass MInv D MSigma ->
  exists A, buildGlobalOperator R Rplus Rmult 1 (-1) (factoryRows N m dim alpha ob ib MInv D MSigma sm) dim (Z.of_nat N) 0
              (match ib with [] => false | _ => true end) = Ok A /\
    forall u inc x g yu yi yx z, length u = (6 * N)%nat -> length inc = (6 * N)%nat -> length g = (6 * N)%nat ->
    unknown N s u inc x -> continuous m gi N inc -> halved m gi N s inc g ->
    applies A N u yu -> applies A N inc yi -> applies A N x yx ->
    lilApplies (buildSourceFaceOperator R Rplus Rmult 1 (-1) (factoryRows N m dim alpha ob ib MInv D MSigma sm) dim (Z.of_nat N) 0) N g z ->
    forall f d i, (0 <= f <= 1)%Z -> (0 <= d <= 2)%Z -> (i < N)%nat ->
      fld N yx f d i - fld N z f d i = if s i then fld N yu f d i else fld N yu f d i - fld N yi f d i.
Proof. exact equivalence. Qed.
Print Assumptions C70_equivalence.
Example C70_equivalence_ex : dgSpace 4 gMesh 1 gMass gMInv gD /\ tables gMesh gGb gGi gOb [] /\
  marks (markerSize (fm_battrs gMesh)) gGi TotalFieldIn tSm /\ splits gMesh gGi tS /\ zoned 4 1 tS gMass gMInv gD noSigma /\
  unknown 4 tS tInc tInc tX /\ continuous gMesh gGi 4 tInc /\ halved gMesh gGi 4 tS tInc tG.
Proof. exact (conj g_space (conj g_tables (conj t_marks (conj t_splits (conj t_zoned (conj t_unknown (conj t_continuous t_halved))))))). Qed.

(** An incident field that fills the total field zone leaks nothing to the outside. *)
Theorem C70_no_leak : forall N m dim alpha gb gi ob ib Mass MInv D MSigma sm s,
  dgSpace N m dim Mass MInv D -> tables m gb gi ob ib -> marks (markerSize (fm_battrs m)) gi TotalFieldIn sm ->
  splits m gi s -> zoned N dim s Mass MInv D MSigma ->
  exists A, buildGlobalOperator R Rplus Rmult 1 (-1) (factoryRows N m dim alpha ob ib MInv D MSigma sm) dim (Z.of_nat N) 0
              (match ib with [] => false | _ => true end) = Ok A /\
    forall inc x g yi yx z, length inc = (6 * N)%nat -> length x = (6 * N)%nat -> length g = (6 * N)%nat ->
    (forall f d i, (0 <= f <= 1)%Z -> (0 <= d <= 2)%Z -> (i < N)%nat -> fld N x f d i = if s i then fld N inc f d i else 0) ->
    continuous m gi N inc -> halved m gi N s inc g -> applies A N inc yi -> applies A N x yx ->
    lilApplies (buildSourceFaceOperator R Rplus Rmult 1 (-1) (factoryRows N m dim alpha ob ib MInv D MSigma sm) dim (Z.of_nat N) 0) N g z ->
    forall f d i, (0 <= f <= 1)%Z -> (0 <= d <= 2)%Z -> (i < N)%nat ->
      fld N yx f d i - fld N z f d i = if s i then fld N yi f d i else 0.
Proof. exact no_leak. Qed.
Print Assumptions C70_no_leak.
Example C70_no_leak_ex : forall f d i, (0 <= f <= 1)%Z -> (0 <= d <= 2)%Z -> (i < 4)%nat -> fld 4 tX f d i = if tS i then fld 4 tInc f d i else 0.
Proof. exact t_zone. Qed.

(** In time: what the run with the source has to integrate is solved by the total field
    inside and the scattered field outside, when the incident field obeys the discrete
    equations outside. *)
Theorem C70_run : forall N m dim alpha gb gi ob ib Mass MInv D MSigma sm s,
  dgSpace N m dim Mass MInv D -> tables m gb gi ob ib -> marks (markerSize (fm_battrs m)) gi TotalFieldIn sm ->
  splits m gi s -> zoned N dim s Mass MInv D MSigma ->
  exists A, buildGlobalOperator R Rplus Rmult 1 (-1) (factoryRows N m dim alpha ob ib MInv D MSigma sm) dim (Z.of_nat N) 0
              (match ib with [] => false | _ => true end) = Ok A /\
    forall u inc x g : R -> list R, evolves A N u ->
    (forall t, length (inc t) = (6 * N)%nat /\ continuous m gi N (inc t) /\ length (g t) = (6 * N)%nat /\ halved m gi N s (inc t) (g t)) ->
    (forall t yi, applies A N (inc t) yi -> forall f d i, (0 <= f <= 1)%Z -> (0 <= d <= 2)%Z -> (i < N)%nat -> s i = false ->
       derivable_pt_lim (fun t => fld N (inc t) f d i) t (fld N yi f d i)) ->
    (forall t, unknown N s (u t) (inc t) (x t)) ->
    forall t yx z, applies A N (x t) yx ->
    lilApplies (buildSourceFaceOperator R Rplus Rmult 1 (-1) (factoryRows N m dim alpha ob ib MInv D MSigma sm) dim (Z.of_nat N) 0) N (g t) z ->
    forall f d i, (0 <= f <= 1)%Z -> (0 <= d <= 2)%Z -> (i < N)%nat ->
      derivable_pt_lim (fun t => fld N (x t) f d i) t (fld N yx f d i - fld N z f d i).
Proof. exact run. Qed.
Print Assumptions C70_run.
Example C70_run_ex : (zoned 4 1 tS gMass gMInv gD (sMass 1)) /\
  (exists A, buildGlobalOperator R Rplus Rmult 1 (-1) (factoryRows 4 gMesh 1 1 gOb [] gMInv gD (sMass 1) tSm) 1 4 0 false = Ok A /\ evolves A 4 (gZ 1) /\
  (forall t yi, applies A 4 (gZ 1 t) yi -> forall f d i, (0 <= f <= 1)%Z -> (0 <= d <= 2)%Z -> (i < 4)%nat -> tS i = false ->
     derivable_pt_lim (fun t => fld 4 (gZ 1 t) f d i) t (fld 4 yi f d i))) /\
  (forall t, length (gZ 1 t) = 24%nat /\ continuous gMesh gGi 4 (gZ 1 t) /\ length (dG 1 t) = 24%nat /\ halved gMesh gGi 4 tS (gZ 1 t) (dG 1 t)) /\
  (forall t, unknown 4 tS (gZ 1 t) (gZ 1 t) (dX 1 t)).
Proof. exact (conj (zoned_s 1) (conj (d_run 1) (conj (d_inc 1) (d_unknown 1)))). Qed.

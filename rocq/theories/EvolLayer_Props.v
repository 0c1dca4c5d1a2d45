(** Property theorems C64 and C65. *)
From Coq Require Import ZArith List Reals.
From Verif Require Import Common Evol_Model Evol_Spec EvolLayer_Spec EvolHist_Proofs EvolReach_Proofs EvolEx_Proofs EvolLayer_Proofs EvolLayerEx_Proofs.
Import ListNotations.
Local Open Scope Z_scope.

(** C64.  In the middle of any step of any history, the layers an evaluation at
    time [t] uses are those of the last commit, each integrated alone from the
    commit time to [t] while its sides see the evaluation's own fields in the frame
    of the face; a layer is left as it is exactly when it and the fields at its
    sides are below 1e-8 or no time has passed. *)
Theorem C64_layers_in_evaluation :
  forall inv ndofs nbr Aop Top Sop hasTF sub2par src elem1 elem2 junk,
  (forall n, length (junk n) = n) -> forall gmres e0 hist base dt v calls e t input gs q,
  (forall g, In g (e_groups e0) -> roomy (g_w g)) ->
  midStep inv ndofs nbr Aop Top Sop hasTF sub2par src elem1 elem2 junk gmres e0 hist base dt v calls e ->
  Sop <> None -> multSub inv ndofs Sop e t input = Ok (gs, q) ->
  exists e1, runSteps inv ndofs nbr Aop Top Sop hasTF sub2par src elem1 elem2 junk gmres e0 hist = Ok e1 /\
  (e_groups e1 <> [] -> (q = true <-> allQuiet ndofs input (e_groups e1))) /\
  layerwise (seenLayer inv ndofs base t input) (e_groups e1) gs.
Proof. exact layers_in_mult. Qed.
Print Assumptions C64_layers_in_evaluation.

(** After a whole step, each layer is the one before it integrated alone over the
    step, its sides seeing the mesh fields interpolated between the two ends of the
    step; nothing changes exactly when all layers and sides are below 1e-8. *)
Theorem C64_layers_after_step :
  forall inv ndofs nbr Aop Top Sop hasTF sub2par src elem1 elem2 junk,
  (forall n, length (junk n) = n) -> forall gmres e0 hist st e2,
  (forall g, In g (e_groups e0) -> roomy (g_w g)) ->
  fresh e0 -> Forall (good_step ndofs nbr) (hist ++ [st]) ->
  runSteps inv ndofs nbr Aop Top Sop hasTF sub2par src elem1 elem2 junk gmres e0 (hist ++ [st]) = Ok e2 ->
  exists e1, runSteps inv ndofs nbr Aop Top Sop hasTF sub2par src elem1 elem2 junk gmres e0 hist = Ok e1 /\
  layerwise (nextLayer inv ndofs (st_base st) (st_dt st) (st_fields st) (st_end st) (allQuiet ndofs (st_end st) (e_groups e1)))
    (e_groups e1) (e_groups e2).
Proof. exact layers_after_step. Qed.
Print Assumptions C64_layers_after_step.

(** A run of one step in which the field 1 at the left side enters the layer. *)
Example C64_hypotheses_met : exists f s, exRun exE [stepB] = Ok f /\ fresh exE /\ Forall (good_step 2 0) [stepB] /\
  (forall g, In g (e_groups exE) -> roomy (g_w g)) /\ ~ allQuiet 2 (st_end stepB) (e_groups exE) /\
  map g_states (e_groups f) = [[s]] /\ nthZ (s_fs exS) 0 = 0%R /\ nthZ (s_fs s) 0 = 1%R /\ nthZ (s_fs s) 1 = 0%R.
Proof. exact ex_layer_step. Qed.

(** C65.  For an orthonormal frame, fields taken into the frame of a face and shown
    back by a transparent side are the fields they were. *)
Theorem C65_frame_round_trip :
  forall r u c, orthonormal r -> 0 <= c < 6 -> seen Transparent r u (intoFrame r u) c = u c.
Proof. exact frame_round. Qed.
Print Assumptions C65_frame_round_trip.

Example C65_hypotheses_met : orthonormal [0; 1; 0; -1; 0; 0; 0; 0; 1]%R.
Proof. exact ex_frame. Qed.

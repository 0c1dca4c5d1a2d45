(** C55: face matrices and face vectors of the integrators. *)
From Coq Require Import ZArith List Bool Reals.
From Verif Require Import Common Nodal_Spec Face_Model Face_Spec Face_Proofs FaceLoad_Proofs FaceEx_Proofs.
Import ListNotations.
Local Open Scope R_scope.

(** The three jump forms, as computed.  [v] is the test and [u] the trial function. *)
Theorem C55_zero : forall F, wfFace F -> forall beta,
  integrates F (zeroNormalJump beta F) (fun v u q => beta / 2 * (jump F v q * jump F u q)).
Proof. exact zero_value. Qed.
Print Assumptions C55_zero.
Theorem C55_one : forall F, wfFace F -> forall d beta, (d < 3)%nat ->
  integrates F (oneNormalJump [d] beta F) (fun v u q => beta * (unitN q d * jump F u q * avg F v q)).
Proof. exact one_value. Qed.
Print Assumptions C55_one.
Theorem C55_two : forall F, wfFace F -> forall d e beta, (d < 3)%nat -> (e < 3)%nat ->
  integrates F (twoNormalJump [d; e] beta F) (fun v u q => beta / 2 * (unitN q d * unitN q e * jump F v q * jump F u q)).
Proof. exact two_value. Qed.
Print Assumptions C55_two.
Example C55_ex : wfFace exF /\ f_el2 exF <> None /\
  suml (fun q => ds q * (1 / 2 * (jump exF one0 q * jump exF one0 q))) (f_pts exF) = 1 / 2.
Proof. exact ex_jump. Qed.

(** The forms without coupling across the face. *)
Theorem C55_decoupled_zero : forall F, wfFace F -> forall beta,
  integrates F (decoupledZeroNormal beta F) (fun v u q => beta / 2 * (side1 F v q * side1 F u q + side2 F v q * side2 F u q)).
Proof. exact dec_zero_value. Qed.
Print Assumptions C55_decoupled_zero.
Theorem C55_decoupled_one : forall F, wfFace F -> forall d beta, (d < 3)%nat ->
  integrates F (decoupledOneNormal [d] beta F) (fun v u q => beta / 2 * unitN q d * (side1 F v q * side1 F u q - side2 F v q * side2 F u q)).
Proof. exact dec_one_value. Qed.
Print Assumptions C55_decoupled_one.
Theorem C55_decoupled_two : forall F, wfFace F -> forall d e beta, (d < 3)%nat -> (e < 3)%nat ->
  integrates F (decoupledTwoNormal [d; e] beta F)
    (fun v u q => beta / 2 * (unitN q d * unitN q e) * (side1 F v q * side1 F u q + side2 F v q * side2 F u q)).
Proof. exact dec_two_value. Qed.
Print Assumptions C55_decoupled_two.

(** The forms taking a list of zero, one or two directions. *)
Theorem C55_trace : forall F, wfFace F -> forall dir beta, Forall (fun d => (d < 3)%nat) dir -> (length dir <= 2)%nat ->
  integrates F (traceJump dir beta F)
    (fun v u q => beta / 2 * normals dir q * ((side1 F v q + flip dir * - side2 F v q) * jump F u q)).
Proof. exact trace_value. Qed.
Print Assumptions C55_trace.
Theorem C55_interior : forall F, wfFace F -> forall dir beta, f_el2 F <> None -> Forall (fun d => (d < 3)%nat) dir -> (length dir <= 2)%nat ->
  integrates F (interiorJump dir beta F)
    (fun v u q => beta / 2 * normals dir q * (side1 F v q * side1 F u q + flip dir * (side2 F v q * side2 F u q))).
Proof. exact interior_value. Qed.
Print Assumptions C55_interior.
Theorem C55_absorbing : forall F, wfFace F -> forall dir beta, Forall (fun d => (d < 3)%nat) dir -> (length dir <= 2)%nat ->
  integrates F (smaJump dir beta F) (fun v u q => beta / 2 * normals dir q * (side1 F v q * side1 F u q)).
Proof. exact sma_value. Qed.
Print Assumptions C55_absorbing.
Theorem C55_total : forall F, wfFace F -> forall d beta, (d < 3)%nat ->
  integrates F (oneNormalTotalField [d] beta F) (fun v u q => beta * (unitN q d * jump F v q * avg F u q)).
Proof. exact total_value. Qed.
Print Assumptions C55_total.
(** The nodal operator's flux matrix: over the reference face, hence the missing weight. *)
Theorem C55_nodal_flux : forall F, wfFace F ->
  integrates F (hesthavenFlux F) (fun v u q => / weightOf (q_geo q) * (8 * (avg F v q * avg F u q))).
Proof. exact hesthaven_value. Qed.
Print Assumptions C55_nodal_flux.
(** The normal used is of unit length and points out of the first element's Jacobian. *)
Theorem C55_unit : forall F q, wfPoint F q -> unitN q 0 * unitN q 0 + unitN q 1 * unitN q 1 + unitN q 2 * unitN q 2 = 1.
Proof. exact unit_normal. Qed.
Print Assumptions C55_unit.

(** A face whose two traces agree contributes nothing to any row. *)
Theorem C55_agree : forall F r g, integrates F r g ->
  forall u, (forall v q, In q (f_pts F) -> g v u q = 0) ->
  exists M, r = Ok M /\ forall i, (i < faceSize F)%nat -> sumN (faceSize F) (fun j => M i j * u j) = 0.
Proof. exact agree_rows. Qed.
Print Assumptions C55_agree.
Theorem C55_continuous : forall F, wfFace F -> forall u, (forall q, In q (f_pts F) -> side1 F u q = side2 F u q) ->
  forall d e beta, (d < 3)%nat -> (e < 3)%nat ->
  (exists M, zeroNormalJump beta F = Ok M /\ forall i, (i < faceSize F)%nat -> sumN (faceSize F) (fun j => M i j * u j) = 0) /\
  (exists M, oneNormalJump [d] beta F = Ok M /\ forall i, (i < faceSize F)%nat -> sumN (faceSize F) (fun j => M i j * u j) = 0) /\
  (exists M, twoNormalJump [d; e] beta F = Ok M /\ forall i, (i < faceSize F)%nat -> sumN (faceSize F) (fun j => M i j * u j) = 0).
Proof. exact continuous_rows. Qed.
Print Assumptions C55_continuous.
Example C55_continuous_ex : wfFace exF /\ (forall q, In q (f_pts exF) -> side1 exF cont q = side2 exF cont q) /\ side1 exF cont ptA = 5.
Proof. exact ex_agree. Qed.

(** Face vectors. *)
Theorem C55_near_field : forall F c d, wfFace F ->
  loads (f_el1 F) F (ntffFace c d F) (fun v q => weightOf (q_geo q) * (c q * - unitN q d * side1 F v q)).
Proof. exact ntff_value. Qed.
Print Assumptions C55_near_field.
Theorem C55_far_field : forall F c d, wfFace F ->
  loads (f_el1 F) F (farFieldFace c d F) (fun v q => c q * - unitN q d * side1 F v q).
Proof. exact farfield_value. Qed.
Print Assumptions C55_far_field.
Theorem C55_load : forall F u beta, wfFace F -> (forall q, In q (f_pts F) -> (length (u q) <= length (calculateNormal (q_geo q)))%nat) ->
  loads (f_el1 F) F (boundaryJump1 u beta F) (fun v q => beta * sumN 3 (fun d => nth d (u q) 0 * unitN q d) * side1 F v q).
Proof. exact boundary1_value. Qed.
Print Assumptions C55_load.

(** The header documents the one-normal form with the jump of the test function. *)
Theorem C55_documented_refuted : exists F d beta, wfFace F /\ (d < 3)%nat /\
  ~ integrates F (oneNormalJump [d] beta F) (fun v u q => beta * (unitN q d * jump F u q * jump F v q)).
Proof. exact doc_refuted. Qed.
Print Assumptions C55_documented_refuted.
(** Integrators that reset their result at each integration point keep only the last. *)
Theorem C55_flux_total_refuted : exists F, wfFace F /\ ~ integrates F (fluxTotalField 1 F)
  (fun v u q => / weightOf (q_geo q) * (/ 2 * (side1 F v q * side1 F u q + side2 F v q * side2 F u q))).
Proof. exact flux_reset. Qed.
Print Assumptions C55_flux_total_refuted.
Theorem C55_penalty_total_refuted : exists F, wfFace F /\ ~ integrates F (penaltyTotalField [] 1 1 F)
  (fun v u q => / weightOf (q_geo q) * (side2 F v q * side2 F u q - side1 F v q * side2 F u q)).
Proof. exact penalty_reset. Qed.
Print Assumptions C55_penalty_total_refuted.
Theorem C55_scattered_refuted : exists F, wfFace F /\ f_el2 F = None /\ ~ integrates F (totalFieldScatteredField 1 F)
  (fun v u q => / weightOf (q_geo q) * (side1 F v q * side1 F u q)).
Proof. exact tfsf_reset. Qed.
Print Assumptions C55_scattered_refuted.
Theorem C55_two_sided_load_refuted : exists F u, wfFace F /\ ~ loads 2 F (boundaryJump2 u u (fun _ => 0) 1 F)
  (fun v q => sumN 3 (fun d => nth d (u q) 0 * unitN q d) * (side1 F v q + side2 F v q)).
Proof. exact load2_reset. Qed.
Print Assumptions C55_two_sided_load_refuted.
(** With one point the two sided load is right. *)
Theorem C55_two_sided_load_partial : forall F q n u u2 x2 beta, wfFace F -> f_el2 F = Some n -> f_pts F = [q] ->
  (length (u q) <= length (calculateNormal (q_geo q)))%nat -> (length (u2 q) <= length (calculateNormal (q_geo q)))%nat ->
  loads (faceSize F) F (boundaryJump2 u u2 x2 beta F)
    (fun v q => beta * sumN 3 (fun d => nth d (u q) 0 * unitN q d) * side1 F v q
              + beta * sumN 3 (fun d => nth d (u2 q) 0 * secondNormal x2 q d) * side2 F v q).
Proof. exact load2_value. Qed.
Print Assumptions C55_two_sided_load_partial.
Example C55_two_sided_load_ex : exists F q n (u : qpoint -> list R) x2, wfFace F /\ f_el2 F = Some n /\ f_pts F = [q] /\
  (length (u q) <= length (calculateNormal (q_geo q)))%nat /\ unitN q 0 = 1 /\ secondNormal x2 q 0 = -1.
Proof. exact load2_ex. Qed.
(** The load documented as an integral over the face lacks the surface element. *)
Theorem C55_load_measure_refuted : exists F u, wfFace F /\ (forall q, In q (f_pts F) -> (length (u q) <= length (calculateNormal (q_geo q)))%nat) /\
  ~ loads (f_el1 F) F (boundaryJump1 u 1 F) (fun v q => weightOf (q_geo q) * (sumN 3 (fun d => nth d (u q) 0 * unitN q d) * side1 F v q)).
Proof. exact load1_measure. Qed.
Print Assumptions C55_load_measure_refuted.
(** More than two directions, or a direction beyond the third, are refused with an error on any face. *)
Theorem C55_refused : forall F dir beta, f_pts F <> [] -> (2 < length dir)%nat \/ Exists (fun d => (3 <= d)%nat) dir ->
  traceJump dir beta F = Throw /\ interiorJump dir beta F = Throw /\ smaJump dir beta F = Throw.
Proof. exact jumps_refused. Qed.
Print Assumptions C55_refused.
Example C55_refused_ex : (2 < length [0; 1; 2])%nat /\ Exists (fun d => (3 <= d)%nat) [0; 3]%nat.
Proof. exact (conj (le_n 3) (Exists_cons_tl 0%nat (Exists_cons_hd _ 3%nat [] (le_n 3)))). Qed.

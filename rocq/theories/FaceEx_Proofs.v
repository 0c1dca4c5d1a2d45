(** Concrete faces for C55. *)
From Coq Require Import ZArith List Bool Reals Lia Lra.
From Verif Require Import Common Nodal_Spec Nodal_Proofs NodalMult_Proofs NodalEnergy_Proofs Face_Model Face_Spec Face_Proofs.
Import ListNotations.
Local Open Scope R_scope.

(** A vertical edge with two points, two dofs on each side. *)
Definition ptA := mkQ 1 (G2 0 1) [1; 0] [0; 1].
Definition ptB := mkQ 2 (G2 0 1) [0; 1] [1; 0].
Definition exF := mkFace 2 (Some 2%nat) [ptA; ptB].
Definition exO := mkFace 2 None [ptA; ptB].
Definition one0 : nat -> R := fun i => if (i =? 0)%nat then 1 else 0.
(** Continuous: dof 0 is dof 3 and dof 1 is dof 2. *)
Definition cont : nat -> R := fun i => match i with 0%nat => 5 | 1%nat => 7 | 2%nat => 7 | 3%nat => 5 | _ => 0 end.
Lemma weight_one : weightOf (G2 0 1) = 1.
Proof. cbn [weightOf]. replace (0 * 0 + 1 * 1) with 1 by ring. apply sqrt_1. Qed.
(** One dof, two points. *)
Definition ptC := mkQ 1 (G2 0 1) [1] [1].
Definition ptD := mkQ 1 (G2 0 1) [2] [1].
Definition exS := mkFace 1 None [ptC; ptD].
Definition exT := mkFace 1 (Some 1%nat) [ptC; ptD].
Lemma wf_exF : wfFace exF.
Proof.
  apply Forall_forall; intros q Hq; unfold exF, exO, exS, exT in *; cbn [f_pts In] in Hq; repeat (destruct Hq as [<-|Hq]); try destruct Hq; (split; [cbn [ptA ptB ptC ptD q_geo geoOk]; rewrite weight_one; lra|split; [reflexivity|first [reflexivity|exact I]]]).
Qed.
Lemma wf_exO : wfFace exO.
Proof.
  apply Forall_forall; intros q Hq; unfold exF, exO, exS, exT in *; cbn [f_pts In] in Hq; repeat (destruct Hq as [<-|Hq]); try destruct Hq; (split; [cbn [ptA ptB ptC ptD q_geo geoOk]; rewrite weight_one; lra|split; [reflexivity|first [reflexivity|exact I]]]).
Qed.
Lemma unit_x : forall w s s', unitN (mkQ w (G2 0 1) s s') 0 = 1.
Proof. intros. unfold unitN. cbn [q_geo normalOf]. rewrite weight_one. field. Qed.
Lemma ds_w : forall w s s', ds (mkQ w (G2 0 1) s s') = w.
Proof. intros. unfold ds. cbn [q_geo q_w]. rewrite weight_one. ring. Qed.
Ltac ev := unfold suml, jump, avg, side1, side2, tr, exF, exO, ptA, ptB, one0, cont, sumN;
  cbn [f_pts f_el1 f_el2 map fold_right q_s1 q_s2 length seq nth Nat.add Nat.eqb].

Lemma ex_jump : wfFace exF /\ f_el2 exF <> None /\ suml (fun q => ds q * (1 / 2 * (jump exF one0 q * jump exF one0 q))) (f_pts exF) = 1 / 2.
Proof.
  split; [exact wf_exF|]. split; [discriminate|]. ev. rewrite !ds_w. field.
Qed.
Lemma ex_agree : wfFace exF /\ (forall q, In q (f_pts exF) -> side1 exF cont q = side2 exF cont q) /\ side1 exF cont ptA = 5.
Proof.
  split; [exact wf_exF|]. split.
  - intros q [<-|[<-|[]]]; ev; ring.
  - ev. ring.
Qed.
Lemma doc_refuted : exists F d beta, wfFace F /\ (d < 3)%nat /\
  ~ integrates F (oneNormalJump [d] beta F) (fun v u q => beta * (unitN q d * jump F u q * jump F v q)).
Proof.
  exists exF, 0%nat, 1. split; [exact wf_exF|]. split; [lia|]. intros (M & E & V).
  destruct (one_value exF wf_exF 0 1 ltac:(lia)) as (M' & E' & V'). rewrite E in E'. injection E' as <-.
  specialize (V one0 one0). rewrite V' in V. revert V. ev. rewrite !unit_x, !ds_w. lra.
Qed.

Lemma wf_exS : wfFace exS.
Proof. apply Forall_forall; intros q Hq; unfold exF, exO, exS, exT in *; cbn [f_pts In] in Hq; repeat (destruct Hq as [<-|Hq]); try destruct Hq; (split; [cbn [ptA ptB ptC ptD q_geo geoOk]; rewrite weight_one; lra|split; [reflexivity|first [reflexivity|exact I]]]). Qed.
Lemma wf_exT : wfFace exT.
Proof. apply Forall_forall; intros q Hq; unfold exF, exO, exS, exT in *; cbn [f_pts In] in Hq; repeat (destruct Hq as [<-|Hq]); try destruct Hq; (split; [cbn [ptA ptB ptC ptD q_geo geoOk]; rewrite weight_one; lra|split; [reflexivity|first [reflexivity|exact I]]]). Qed.
Lemma flux_reset : exists F, wfFace F /\ ~ integrates F (fluxTotalField 1 F)
  (fun v u q => / weightOf (q_geo q) * (/ 2 * (side1 F v q * side1 F u q + side2 F v q * side2 F u q))).
Proof.
  exists exS. split; [exact wf_exS|]. intros (M & E & V).
  unfold fluxTotalField, overPoints, exS, ptC, ptD in E. cbn [f_pts foldM q_w q_s1] in E.
  unfold ifNonZero, ifNeighbour, TL, buildFaceMatrix, setNeighbourNDoF in E.
  destruct (Rlt_dec 0 1) as [_|N]; [|lra].
  cbn [f_el1 f_el2 Nat.add Nat.eqb seq foldM vget nth_error bind madd Nat.ltb Nat.leb andb q_s1 q_s2] in E.
  destruct (Req_EM_T (1 * / 2) 0) as [Z|_]; [lra|].
  cbn [bind] in E. injection E as <-. specialize (V one0 one0). revert V.
  unfold mform, faceSize, suml, side1, side2, tr, one0, sumN, exS, ptC, ptD, mzero, ds.
  cbn [f_pts f_el1 f_el2 map fold_right q_s1 q_s2 length seq nth Nat.add Nat.eqb andb q_geo q_w]. rewrite weight_one. lra.
Qed.
Lemma penalty_reset : exists F, wfFace F /\ ~ integrates F (penaltyTotalField [] 1 1 F)
  (fun v u q => / weightOf (q_geo q) * (side2 F v q * side2 F u q - side1 F v q * side2 F u q)).
Proof.
  exists exT. split; [exact wf_exT|]. intros (M & E & V).
  unfold penaltyTotalField, overPoints, exT, ptC, ptD in E. cbn [f_pts foldM q_w q_s1 q_geo] in E.
  unfold ifNonZero, ifNeighbour, TR, BR, buildFaceMatrix, setNeighbourNDoF, calculateBetaTerm in E.
  cbn [f_el1 f_el2 Nat.add Nat.eqb seq foldM vget nth_error bind madd Nat.ltb Nat.leb andb q_s1 q_s2] in E.
  destruct (Req_EM_T (1 * 1 * 1) 0) as [Z|_]; [lra|].
  cbn [bind] in E. injection E as <-. specialize (V INR INR). revert V.
  unfold mform, faceSize, suml, side1, side2, tr, one0, sumN, exT, ptC, ptD, mzero, ds.
  cbn [f_pts f_el1 f_el2 map fold_right q_s1 q_s2 length seq nth Nat.add Nat.eqb andb q_geo q_w INR]. rewrite weight_one. lra.
Qed.
Lemma tfsf_reset : exists F, wfFace F /\ f_el2 F = None /\ ~ integrates F (totalFieldScatteredField 1 F)
  (fun v u q => / weightOf (q_geo q) * (side1 F v q * side1 F u q)).
Proof.
  exists exS. split; [exact wf_exS|]. split; [reflexivity|]. intros (M & E & V).
  unfold totalFieldScatteredField, overPoints, exS, ptC, ptD in E. cbn [f_pts foldM q_w q_s1] in E.
  unfold buildFaceMatrix in E.
  cbn [f_el1 f_el2 Nat.add Nat.eqb seq foldM vget nth_error bind madd Nat.ltb Nat.leb andb q_s1 q_s2] in E.
  injection E as <-. specialize (V one0 one0). revert V.
  unfold mform, faceSize, suml, side1, side2, tr, one0, sumN, exS, ptC, ptD, mzero, ds.
  cbn [f_pts f_el1 f_el2 map fold_right q_s1 q_s2 length seq nth Nat.add Nat.eqb andb q_geo q_w]. rewrite weight_one. lra.
Qed.
Lemma load2_reset : exists F u, wfFace F /\ ~ loads 2 F (boundaryJump2 u u (fun _ => 0) 1 F)
  (fun v q => sumN 3 (fun d => nth d (u q) 0 * unitN q d) * (side1 F v q + side2 F v q)).
Proof.
  exists exT, (fun _ => [1; 0]). split; [exact wf_exT|]. intros (e & E & V).
  unfold boundaryJump2, exT, ptC, ptD, setNeighbourNDoF in E.
  cbn [f_pts foldM q_w q_s1 q_s2 q_geo f_el1 f_el2 length Nat.eqb andb Nat.add] in E. injection E as <-.
  specialize (V (fun _ => 1)). revert V.
  unfold suml, side1, side2, tr, sumN, exT, ptC, ptD, dotV, calculateSMANormal.
  cbn [f_pts f_el1 f_el2 map fold_right q_s1 q_s2 length seq nth Nat.add Nat.eqb Nat.ltb Nat.leb Nat.sub andb q_geo q_w calculateNormal combine fst snd].
  rewrite !unit_x. pose proof weight_one as W. cbn [weightOf] in W. rewrite W. lra.
Qed.
(** The header's promise beta <(u.n), w> over the face, against the single element load. *)
Lemma load1_measure : exists F u, wfFace F /\ (forall q, In q (f_pts F) -> (length (u q) <= length (calculateNormal (q_geo q)))%nat) /\
  ~ loads (f_el1 F) F (boundaryJump1 u 1 F) (fun v q => weightOf (q_geo q) * (sumN 3 (fun d => nth d (u q) 0 * unitN q d) * side1 F v q)).
Proof.
  assert (W : weightOf (G2 0 2) = 2).
  { cbn [weightOf]. replace (0 * 0 + 2 * 2) with (2 * 2) by ring. apply sqrt_square. lra. }
  set (F := mkFace 1 None [mkQ 1 (G2 0 2) [1] []]).
  assert (WF : wfFace F) by (apply Forall_forall; intros q [<-|[]]; split; [cbn [q_geo geoOk]; rewrite W; lra|split; [reflexivity|exact I]]).
  assert (L : forall q, In q (f_pts F) -> (length [1%R; 0%R] <= length (calculateNormal (q_geo q)))%nat)
    by (intros q [<-|[]]; cbn [q_geo calculateNormal length]; lia).
  exists F, (fun _ => [1; 0]). split; [exact WF|]. split; [exact L|]. intros (e & E & V).
  destruct (boundary1_value F (fun _ => [1; 0]) 1 WF L) as (e' & E' & V'). rewrite E in E'. injection E' as <-.
  specialize (V (fun _ => 1)). rewrite V' in V. revert V.
  unfold suml, side1, tr, sumN, F, unitN. cbn [f_pts map fold_right q_s1 length seq nth Nat.add q_geo q_w normalOf]. rewrite W. lra.
Qed.

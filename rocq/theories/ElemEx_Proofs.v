(** Cases: quadratic elements on a line, and two triangles with linear functions. *)
From Coq Require Import ZArith List Bool Reals Lia Lra Psatz Permutation.
From Verif Require Import Common Csr_Model Geo_Spec Face_Model Face_Spec Face_Proofs Nodal_Spec Nodal_Proofs NodalMult_Proofs NodalEnergy_Spec NodalEnergy_Proofs Setup_Model Setup_Spec Assembly_Model Form_Model Form_Spec Global_Spec GlobalEnergy_Proofs GlobalBalance_Proofs Step_Model Step_Spec StepGeo_Proofs Time_Model Ode_Model Ode_Spec Cfl_Spec CflLine_Proofs CflBlow_Proofs CflEx_Proofs Elem_Spec Elem_Proofs ElemStep_Proofs ElemLine_Proofs ElemGeo_Proofs.
Import ListNotations.
Local Open Scope R_scope.

Definition table (l : list (list R)) : mat := fun a b => nth b (nth a l []) 0.
(** ** Quadratics *)
Definition quadratic : reference := mkRef 3
  (table [[4 / 30; 2 / 30; - (1) / 30]; [2 / 30; 16 / 30; 2 / 30]; [- (1) / 30; 2 / 30; 4 / 30]])
  (table [[9; - (3) / 2; 3]; [- (3) / 2; 9 / 4; - (3) / 2]; [3; - (3) / 2; 9]])
  (fun _ => table [[- (1) / 2; 2 / 3; - (1) / 6]; [- (2) / 3; 0; 2 / 3]; [1 / 6; - (2) / 3; 1 / 2]]).
Definition quadraticEnds : ends := mkEnds [1; 0; 0] [0; 0; 1].
Definition quadraticMesh : mesh := mkMesh 1 1 (map (fun k => mkElement Segment (exH k) (exH k) [] (map (fun t => nodeAt exH k + exH k * t) [0; / 2; 1])) (seq 0 3)).
Lemma s3 : forall f, sumN 3 f = f 0%nat + f 1%nat + f 2%nat.
Proof. intros f. rewrite !CflLine_Proofs.sumN_S, CflLine_Proofs.sumN_0. ring. Qed.
Lemma quad_segment : segmentOk quadratic quadraticEnds.
Proof.
  split; [|split; [reflexivity|split; [reflexivity|]]].
  - split; [cbn; lia|]. split; [|split].
    + intros a b. cbn [r_mass quadratic]. unfold table. destruct a as [|[|[|a]]]; destruct b as [|[|[|b]]]; cbn [nth]; try reflexivity; try (destruct b; reflexivity); try (destruct a; reflexivity); destruct a, b; reflexivity.
    + intros v. cbn [r_dofs r_mass quadratic]. unfold mform. rewrite !s3. unfold table. cbn [nth]. set (x := v 0%nat). set (y := v 1%nat). set (z := v 2%nat). clearbody x y z.
      match goal with |- 0 <= ?e => replace e with ((4 * y + (x + z) / 2) * (4 * y + (x + z) / 2) / 30 + (x - z) * (x - z) / 24 + (x * x + z * z) / 12) by field end.
      pose proof (sq_nn (4 * y + (x + z) / 2)). pose proof (sq_nn (x - z)). pose proof (sq_nn x). pose proof (sq_nn z). lra.
    + intros a b Ha Hb. cbn [r_dofs quadratic] in *. rewrite s3. cbn [r_mass r_inv quadratic]. unfold table. destruct a as [|[|[|a]]]; destruct b as [|[|[|b]]]; try lia; cbn [nth Nat.eqb]; field.
  - intros a b Ha Hb. cbn [r_dofs quadratic at_left at_right quadraticEnds r_diff] in *. unfold table. destruct a as [|[|[|a]]]; destruct b as [|[|[|b]]]; try lia; cbn [nth]; field.
Qed.
Lemma quad_line : sameLineOf 3 exH [0; / 2; 1] quadraticMesh.
Proof.
  split; [reflexivity|]. split; [reflexivity|]. intros k e E. destruct k as [|[|[|k]]]; cbn [nth_error quadraticMesh m_elements seq map] in E; try (destruct k; discriminate); injection E as <-; eexists; reflexivity.
Qed.
Lemma quad_gap : smallestGap [0; / 2; 1] (/ 2).
Proof.
  split.
  - exists 0%nat, 1%nat, 0, (/ 2). repeat split; [lia|]. rewrite Rabs_minus_sym, Rminus_0_r, Rabs_pos_eq; lra.
  - assert (B : forall z, z <= - / 2 \/ / 2 <= z -> / 2 <= Rabs z) by (intros z [H|H]; [rewrite Rabs_left by lra; lra|rewrite Rabs_pos_eq; lra]).
    intros i j x y N Hi Hj. destruct i as [|[|[|i]]]; cbn [nth_error] in Hi; try (destruct i; discriminate); injection Hi as <-; destruct j as [|[|[|j]]]; cbn [nth_error] in Hj; try (destruct j; discriminate); injection Hj as <-; try (exfalso; now apply N); apply B; lra.
Qed.
Lemma quad_kinds : forall (q : nat) (e : ends), reflecting (lineOf q e 3 (endWalls 3) [1%Z]) [(1%Z, PEC)] [] /\ passive (lineOf q e 3 (endWalls 3) [1%Z]) [(1%Z, PEC)] [].
Proof.
  intros q e. assert (R : reflecting (lineOf q e 3 (endWalls 3) [1%Z]) [(1%Z, PEC)] []).
  { intros fi f E. destruct fi as [|[|[|[|fi]]]]; cbn [nth_error lineOf fm_faces map seq app Nat.sub] in E; try (destruct fi; discriminate); injection E as <-; cbn [f_el2 leftSide midSide rightSide mf_face]; left; reflexivity. }
  split; [exact R|]. intros fi F E. pose proof (R fi F E) as Q. destruct (f_el2 (mf_face F)); [destruct Q as [->|[->| ->]]|destruct Q as [->| ->]]; discriminate.
Qed.
Lemma small_factor : forall k, 0 <= k -> exists c, 0 < c /\ c * k <= 1 / 4.
Proof. intros k K. exists (1 / (4 * (k + 1))). assert (0 < 4 * (k + 1)) by lra. split; [unfold Rdiv; apply Rmult_lt_0_compat; [lra|apply Rinv_0_lt_compat; lra]|]. apply (Rmult_le_reg_r (4 * (k + 1))); [lra|]. replace (1 / (4 * (k + 1)) * k * (4 * (k + 1))) with k by (field; lra). lra. Qed.
Lemma ref_pos : forall r dim alpha T, (0 <= dim)%Z -> 0 <= alpha -> 0 <= T -> 0 <= refSize r dim alpha T.
Proof.
  intros r dim alpha T D A0 T0. assert (0 <= IZR dim) by (apply IZR_le; lia). unfold refSize, diffSize, edgeSize. pose proof (frob_pos (r_dofs r) (r_inv r)).
  assert (0 <= sumN (Z.to_nat dim) (fun e => frob (r_dofs r) (r_diff r e))) by (apply sumN_nn; intros e _; pose proof (frob_pos (r_dofs r) (r_diff r e)); lra).
  apply Rplus_le_le_0_compat; apply Rmult_le_pos; try assumption; try (apply Rmult_le_pos; lra). lra.
Qed.
Lemma end_pos : forall q e, 0 <= endSize q e.
Proof. intros q e. unfold endSize. apply Rplus_le_le_0_compat; apply sumN_nn; intros; apply sq_nn. Qed.
Theorem ex_quadratic : segmentOk quadratic quadraticEnds /\ lineTags 3 (endWalls 3) [1%Z] /\ (forall k, (k < 3)%nat -> 0 < exH k /\ exH k * / 2 <= 10) /\ (forall g k, 1 <= exW g k) /\
  sameLineOf 3 exH [0; / 2; 1] quadraticMesh /\ smallestGap [0; / 2; 1] (/ 2) /\
  tables (lineOf 3 quadraticEnds 3 (endWalls 3) [1%Z]) [(1%Z, PEC)] [] [(PEC, [1%Z])] [] /\ passive (lineOf 3 quadraticEnds 3 (endWalls 3) [1%Z]) [(1%Z, PEC)] [] /\ reflecting (lineOf 3 quadraticEnds 3 (endWalls 3) [1%Z]) [(1%Z, PEC)] [] /\
  (forall v u, mform (3 * 3) noLoss v u = 0) /\ lossBound (3 * 3) (affineMass quadratic exH exW) noLoss 0 /\
  exists c, 0 < c /\ c * (/ 2 / (2 * sqrt 2) * refSize quadratic 1 1 (endSize 3 quadraticEnds)) <= 1 / 4.
Proof.
  assert (n0 : (0 < 3)%nat) by lia. destruct (quad_kinds 3 quadraticEnds) as (Rf & Ps).
  split; [exact quad_segment|]. split; [exact (w_tags 3 n0)|]. split; [intros k _; pose proof (ex_h k); lra|]. split; [exact ex_w|]. split; [exact quad_line|]. split; [exact quad_gap|].
  split; [exact (w_tables 3 n0)|]. split; [exact Ps|]. split; [exact Rf|]. split; [apply noLoss_zero|]. split; [split; [lra|]; intros v u; rewrite noLoss_zero; lra|].
  apply small_factor. apply Rmult_le_pos; [|apply ref_pos; [lia|lra|apply end_pos]]. pose proof (sqrt_lt_R0 2 ltac:(lra)). unfold Rdiv. apply Rmult_le_pos; [lra|]. left. apply Rinv_0_lt_compat. lra.
Qed.

(** ** Two triangles: a rectangle of sides 4 and 3, cut along a diagonal *)
Definition linear2 : reference := mkRef 3
  (table [[/ 6; / 12; / 12]; [/ 12; / 6; / 12]; [/ 12; / 12; / 6]])
  (table [[9; -3; -3]; [-3; 9; -3]; [-3; -3; 9]])
  (fun e => if (e =? 0)%nat then table [[- / 3; / 3; 0]; [- / 3; / 3; 0]; [- / 3; / 3; 0]] else table [[- / 3; 0; / 3]; [- / 3; 0; / 3]; [- / 3; 0; / 3]]).
(** Three points (Simpson's rule) on an edge with tangent (a, b). *)
Definition simpson (a b : R) (s0 s1 : list R) (t0 t1 : list R) : list qpoint :=
  [mkQ (/ 6) (G2 a b) s0 t0; mkQ (4 / 6) (G2 a b) (map (fun p => (fst p + snd p) / 2) (combine s0 s1)) (map (fun p => (fst p + snd p) / 2) (combine t0 t1)); mkQ (/ 6) (G2 a b) s1 t1].
Definition edge (k : nat) (a b : R) (s0 s1 : list R) : mface := mkMF (dofsOf 3 k) [] (mkFace 3 None (simpson a b s0 s1 [] [])).
Definition pairMesh : fmesh := mkFM
  [edge 0 4 0 [1; 0; 0] [0; 1; 0];
   mkMF (dofsOf 3 0) (dofsOf 3 1) (mkFace 3 (Some 3%nat) (simpson (-4) 3 [0; 1; 0] [0; 0; 1] [1; 0; 0] [0; 0; 1]));
   edge 0 0 (-3) [0; 0; 1] [1; 0; 0]; edge 1 0 3 [1; 0; 0] [0; 1; 0]; edge 1 (-4) 0 [0; 1; 0] [0; 0; 1]]
  [(1%Z, 0%nat); (1%Z, 2%nat); (1%Z, 3%nat); (1%Z, 4%nat)] [1%Z].
Definition pairEl (fi : nat) : nat * option nat := match fi with 0%nat => (0%nat, None) | 1%nat => (0%nat, Some 1%nat) | 2%nat => (0%nat, None) | _ => (1%nat, None) end.
Definition pairC (k : nat) (d : Z) (e : nat) : R :=
  match k with
  | 0%nat => if (d =? 0)%Z then (if (e =? 0)%nat then 6 * / 4 else 6 * 0) else (if (e =? 0)%nat then 6 * 0 else 6 * / 3)
  | _ => if (d =? 0)%Z then (if (e =? 0)%nat then 6 * / 4 else 6 * - / 4) else (if (e =? 0)%nat then 6 * / 3 else 6 * 0)
  end.
Definition pairSteps : mesh := mkMesh 2 2
  [mkElement Triangle 6 0 [[(0, 0, 0); (4, 0, 0)]; [(4, 0, 0); (0, 3, 0)]; [(0, 3, 0); (0, 0, 0)]] [];
   mkElement Triangle 6 0 [[(4, 0, 0); (4, 3, 0)]; [(4, 3, 0); (0, 3, 0)]; [(0, 3, 0); (4, 0, 0)]] []].
Lemma linear_ok : referenceOk linear2.
Proof.
  split; [cbn; lia|]. split; [|split].
  - intros a b. cbn [r_mass linear2]. unfold table. destruct a as [|[|[|a]]]; destruct b as [|[|[|b]]]; cbn [nth]; try reflexivity; try (destruct b; reflexivity); try (destruct a; reflexivity); destruct a, b; reflexivity.
  - intros v. cbn [r_dofs r_mass linear2]. unfold mform. rewrite !s3. unfold table. cbn [nth]. set (x := v 0%nat). set (y := v 1%nat). set (z := v 2%nat). clearbody x y z.
    match goal with |- 0 <= ?e => replace e with (((x + y + z) * (x + y + z) + x * x + y * y + z * z) / 12) by field end.
    pose proof (sq_nn (x + y + z)). pose proof (sq_nn x). pose proof (sq_nn y). pose proof (sq_nn z). lra.
  - intros a b Ha Hb. cbn [r_dofs linear2] in *. rewrite s3. cbn [r_mass r_inv linear2]. unfold table. destruct a as [|[|[|a]]]; destruct b as [|[|[|b]]]; try lia; cbn [nth Nat.eqb]; field.
Qed.
Lemma r4 : weightOf (G2 4 0) = 4 /\ weightOf (G2 (-4) 0) = 4 /\ weightOf (G2 0 3) = 3 /\ weightOf (G2 0 (-3)) = 3 /\ weightOf (G2 (-4) 3) = 5.
Proof.
  cbn [weightOf]. repeat split.
  - replace (4 * 4 + 0 * 0) with (4 * 4) by ring. apply sqrt_square; lra.
  - replace (-4 * -4 + 0 * 0) with (4 * 4) by ring. apply sqrt_square; lra.
  - replace (0 * 0 + 3 * 3) with (3 * 3) by ring. apply sqrt_square; lra.
  - replace (0 * 0 + -3 * -3) with (3 * 3) by ring. apply sqrt_square; lra.
  - replace (-4 * -4 + 3 * 3) with (5 * 5) by ring. apply sqrt_square; lra.
Qed.
Lemma pair_cases : forall fi f, nth_error (fm_faces pairMesh) fi = Some f ->
  (fi = 0%nat /\ f = edge 0 4 0 [1; 0; 0] [0; 1; 0]) \/ (fi = 1%nat /\ f = mkMF (dofsOf 3 0) (dofsOf 3 1) (mkFace 3 (Some 3%nat) (simpson (-4) 3 [0; 1; 0] [0; 0; 1] [1; 0; 0] [0; 0; 1]))) \/
  (fi = 2%nat /\ f = edge 0 0 (-3) [0; 0; 1] [1; 0; 0]) \/ (fi = 3%nat /\ f = edge 1 0 3 [1; 0; 0] [0; 1; 0]) \/ (fi = 4%nat /\ f = edge 1 (-4) 0 [0; 1; 0] [0; 0; 1]).
Proof. intros fi f E. destruct fi as [|[|[|[|[|fi]]]]]; cbn [nth_error pairMesh fm_faces] in E; try (destruct fi; discriminate); injection E as <-; tauto. Qed.
Ltac pairs H := destruct (pair_cases _ _ H) as [(-> & ->)|[(-> & ->)|[(-> & ->)|[(-> & ->)|(-> & ->)]]]].
Lemma pair_touch : touches 3 2 pairMesh pairEl.
Proof. intros fi f E. pairs E; cbn [pairEl fst snd edge mf_dofs1 mf_dofs2 mf_face f_el2]; repeat split; lia. Qed.
Lemma pair_weights : nonnegWeights pairMesh.
Proof. apply Forall_forall. intros f If. apply In_nth_error in If. destruct If as (fi & E). apply Forall_forall. intros p Ip. pairs E; cbn [edge mf_face f_pts simpson] in Ip; destruct Ip as [<-|[<-|[<-|[]]]]; cbn [q_w]; lra. Qed.
Lemma pair_shapes : shapeSize pairMesh 1.
Proof.
  split; [lra|]. intros f p If Ip. apply In_nth_error in If. destruct If as (fi & E). pairs E; cbn [edge mf_face f_pts simpson] in Ip; destruct Ip as [<-|[<-|[<-|[]]]]; cbn [q_s1 q_s2 map combine sumSq fold_right fst snd]; lra.
Qed.
Lemma pair_measures : faceMeasures pairMesh pairEl 2 (fun _ => 12).
Proof.
  intros k Hk. destruct r4 as (W1 & W2 & W3 & W4 & W5). change (length (fm_faces pairMesh)) with 5%nat. rewrite !CflLine_Proofs.sumN_S, CflLine_Proofs.sumN_0.
  destruct k as [|[|k]]; [| |lia]; cbn [nth_error pairMesh fm_faces pairEl fst snd Nat.eqb]; unfold faceMeasure, edge; cbn [mf_face f_pts simpson map fold_right]; unfold ds; cbn [q_w q_geo]; rewrite ?W1, ?W2, ?W3, ?W4, ?W5; lra.
Qed.
Lemma pair_wf : Forall (fun f => wfFace (mf_face f)) (fm_faces pairMesh) /\ Forall (fun f => length (mf_dofs1 f) = f_el1 (mf_face f)) (fm_faces pairMesh).
Proof.
  destruct r4 as (W1 & W2 & W3 & W4 & W5). split; apply Forall_forall; intros f If; apply In_nth_error in If; destruct If as (fi & E).
  - apply Forall_forall. intros p Ip. pairs E; cbn [edge mf_face f_pts simpson] in Ip; destruct Ip as [<-|[<-|[<-|[]]]]; (split; [unfold geoOk; cbn [q_geo]; rewrite ?W1, ?W2, ?W3, ?W4, ?W5; lra|split; reflexivity || exact I]).
  - pairs E; reflexivity.
Qed.
Lemma pair_trace : traceSize pairMesh 3 2 (fun _ => 12) 1.
Proof. destruct pair_wf as (A & B). exact (face_trace 3 2 pairMesh pairEl (fun _ => 12) 1 pair_touch pair_measures pair_shapes pair_weights A B). Qed.
Definition pairV : nat -> R := fun _ => 6.
Lemma pair_space : dgSpace (2 * 3) pairMesh 2 (affineMass linear2 pairV exW) (affineInv linear2 pairV exW) (affineD linear2 2 pairC).
Proof.
  destruct r4 as (W1 & W2 & W3 & W4 & W5). destruct pair_wf as (F1 & F2).
  split; [lia|]. split; [split; [|split]|split; [|split; [|split]]].
  - apply Forall_forall. intros f If. apply In_nth_error in If. destruct If as (fi & E). pairs E; (split; [reflexivity|split; [reflexivity|]]); apply Forall_forall; cbn; intros d Hd; lia.
  - repeat constructor; lia.
  - repeat constructor; cbn; auto; lia.
  - cbn. repeat (constructor; [cbn; lia|]). constructor.
  - apply Forall_forall. intros f If. split; [rewrite Forall_forall in F1; now apply F1|]. apply In_nth_error in If. destruct If as (fi & E). intros p d Ip Hd. pairs E; cbn [edge mf_face f_pts simpson] in Ip; destruct Ip as [<-|[<-|[<-|[]]]];
      (destruct d as [|[|d]]; [lia|lia|]); unfold unitN, normalOf; cbn [q_geo]; unfold Rdiv; apply Rmult_0_l.
  - intros g i j _ Hi Hj. apply (affine_inverse 2 linear2 pairV (fun _ => 1) exW 6 linear_ok); auto; try lra; try exact ex_w. intros k _. unfold pairV. lra.
  - intros d v u Hd. assert (Hd' : d = 0%Z \/ d = 1%Z) by lia. unfold affineD. rewrite !(per_form 2 3). rewrite !CflLine_Proofs.sumN_S, !CflLine_Proofs.sumN_0. unfold mform. cbn [r_dofs linear2]. rewrite !s3. rewrite !CflLine_Proofs.sumN_S, !CflLine_Proofs.sumN_0.
    unfold facesum. change (length (fm_faces pairMesh)) with 5%nat. cbn [seq]. unfold suml at 1. cbn [map fold_right nth_error pairMesh fm_faces]. unfold suml, edge. cbn [mf_face f_pts simpson map fold_right combine fst snd].
    unfold ds, unitN. cbn [q_w q_geo]. rewrite ?W1, ?W2, ?W3, ?W4, ?W5. unfold side1, side2, tr, local. cbn [f_el2 f_el1 mf_dofs1 mf_dofs2 q_s1 q_s2 length app]. rewrite !s3. unfold dofsOf. cbn [seq Nat.mul Nat.add app nth]. cbn [r_diff linear2 Nat.eqb]. unfold table. cbn [nth].
    destruct Hd' as [-> | ->]; change (Z.to_nat 0) with 0%nat; change (Z.to_nat 1) with 1%nat; cbn [normalOf pairC Z.eqb Nat.eqb]; field.
Qed.
Lemma pair_mesh : meshOk (2 * 3) 2 pairMesh.
Proof. destruct pair_space as (A & B & C & D & _). exact (conj A (conj B (conj C D))). Qed.
Lemma pair_parts : elementParts linear2 2 pairMesh pairEl 2 pairC.
Proof.
  destruct r4 as (W1 & W2 & W3 & W4 & W5). intros k d x y Hk Hd. assert (Hd' : d = 0%Z \/ d = 1%Z) by lia.
  change (length (fm_faces pairMesh)) with 5%nat. change (Z.to_nat 2) with 2%nat. rewrite !CflLine_Proofs.sumN_S, !CflLine_Proofs.sumN_0. unfold mform. cbn [r_dofs linear2]. rewrite !s3.
  destruct k as [|[|k]]; [| |lia]; cbn [nth_error pairMesh fm_faces pairEl fst snd Nat.eqb]; unfold edge; cbn [mf_face f_pts simpson map fold_right combine fst snd]; unfold ds, unitN, value; cbn [q_w q_geo q_s1 q_s2 length];
    rewrite ?W1, ?W2, ?W3, ?W4, ?W5; rewrite !s3; cbn [nth r_diff linear2 Nat.eqb]; unfold table; cbn [nth];
    destruct Hd' as [-> | ->]; change (Z.to_nat 0) with 0%nat; change (Z.to_nat 1) with 1%nat; cbn [normalOf pairC Z.eqb Nat.eqb]; field.
Qed.
Lemma pair_first : triangleElement (mkElement Triangle 6 0 [[(0, 0, 0); (4, 0, 0)]; [(4, 0, 0); (0, 3, 0)]; [(0, 3, 0); (0, 0, 0)]] []) (0, 0, 0) (4, 0, 0) (0, 3, 0).
Proof.
  assert (E : area2 (0, 0, 0) (4, 0, 0) (0, 3, 0) = 12) by (unfold area2; ring).
  split; [cbn [e_faces]; repeat constructor|]. rewrite E. split; [cbn [e_volume]; rewrite Rabs_pos_eq; lra|lra].
Qed.
Lemma pair_second : triangleElement (mkElement Triangle 6 0 [[(4, 0, 0); (4, 3, 0)]; [(4, 3, 0); (0, 3, 0)]; [(0, 3, 0); (4, 0, 0)]] []) (4, 0, 0) (4, 3, 0) (0, 3, 0).
Proof.
  assert (E : area2 (4, 0, 0) (4, 3, 0) (0, 3, 0) = 12) by (unfold area2; ring).
  split; [cbn [e_faces]; repeat constructor|]. rewrite E. split; [cbn [e_volume]; rewrite Rabs_pos_eq; lra|lra].
Qed.
Lemma pair_triangles : triangles 2 pairSteps pairC.
Proof.
  intros k Hk. destruct k as [|[|k]]; [| |lia]; eexists; do 3 eexists.
  - exists (fun d e => if (d =? 0)%Z then (if (e =? 0)%nat then / 4 else 0) else (if (e =? 0)%nat then 0 else / 3)). split; [reflexivity|]. split; [exact pair_first|]. split.
    + intros e i p He Hp. rewrite ElemGeo_Proofs.two. cbn [Z.of_nat Pos.of_succ_nat]. destruct i as [|[|i]]; cbn [nth_error] in Hp; try (destruct i; discriminate); injection Hp as <-; cbn [coord Z.eqb Pos.eqb]; destruct e as [|[|e]]; cbn in He; try lia; cbn [Nat.eqb]; field.
    + intros d e. cbn [pairC e_volume]. destruct (d =? 0)%Z, (e =? 0)%nat; ring.
  - exists (fun d e => if (d =? 0)%Z then (if (e =? 0)%nat then / 4 else - / 4) else (if (e =? 0)%nat then / 3 else 0)). split; [reflexivity|]. split; [exact pair_second|]. split.
    + intros e i p He Hp. rewrite ElemGeo_Proofs.two. cbn [Z.of_nat Pos.of_succ_nat]. destruct i as [|[|i]]; cbn [nth_error] in Hp; try (destruct i; discriminate); injection Hp as <-; cbn [coord Z.eqb Pos.eqb]; destruct e as [|[|e]]; cbn in He; try lia; cbn [Nat.eqb]; field.
    + intros d e. cbn [pairC e_volume]. destruct (d =? 0)%Z, (e =? 0)%nat; ring.
Qed.
Lemma dist_of : forall p q r, 0 <= r -> dist2 2 p q = r * r -> dist 2 p q = r.
Proof. intros p q r H E. unfold dist. rewrite E. now apply sqrt_square. Qed.
Lemma pair_same : sameElements 2 pairV (fun _ => 12) pairSteps.
Proof.
  split; [reflexivity|]. intros k e E. destruct k as [|[|k]]; cbn [nth_error pairSteps m_elements] in E; try (destruct k; discriminate); injection E as <-; (split; [reflexivity|]); (split; [|unfold pairV; lra]).
  - destruct (triangle_boundary pairSteps _ _ _ _ eq_refl eq_refl pair_first) as (B & _).
    replace 12 with (dist 2 (0, 0, 0) (4, 0, 0) + dist 2 (4, 0, 0) (0, 3, 0) + dist 2 (0, 3, 0) (0, 0, 0)); [exact B|].
    rewrite (dist_of (0, 0, 0) (4, 0, 0) 4), (dist_of (4, 0, 0) (0, 3, 0) 5), (dist_of (0, 3, 0) (0, 0, 0) 3); try lra; unfold dist2, sq; change (0 <? 2)%Z with true; change (1 <? 2)%Z with true; change (2 <? 2)%Z with false; cbv iota; ring.
  - destruct (triangle_boundary pairSteps _ _ _ _ eq_refl eq_refl pair_second) as (B & _).
    replace 12 with (dist 2 (4, 0, 0) (4, 3, 0) + dist 2 (4, 3, 0) (0, 3, 0) + dist 2 (0, 3, 0) (4, 0, 0)); [exact B|].
    rewrite (dist_of (4, 0, 0) (4, 3, 0) 3), (dist_of (4, 3, 0) (0, 3, 0) 4), (dist_of (0, 3, 0) (4, 0, 0) 5); try lra; unfold dist2, sq; change (0 <? 2)%Z with true; change (1 <? 2)%Z with true; change (2 <? 2)%Z with false; cbv iota; ring.
Qed.
Lemma pair_tables : tables pairMesh [(1%Z, PEC)] [] [(PEC, [1%Z])] [].
Proof. exact (w_tables 3 (Nat.lt_0_succ 2)). Qed.
Lemma pair_kinds : reflecting pairMesh [(1%Z, PEC)] [] /\ passive pairMesh [(1%Z, PEC)] [].
Proof.
  assert (R : reflecting pairMesh [(1%Z, PEC)] []) by (intros fi f E; pairs E; cbn [f_el2 edge mf_face]; left; reflexivity).
  split; [exact R|]. intros fi F E. pose proof (R fi F E) as Q. destruct (f_el2 (mf_face F)); [destruct Q as [->|[->| ->]]|destruct Q as [->| ->]]; discriminate.
Qed.
Lemma pair_divisor : extraDivisor pairSteps 1.
Proof. right. split; [|reflexivity]. intros e Ie. cbn in Ie. destruct Ie as [<-|[<-|[]]]; discriminate. Qed.
Theorem ex_pair : referenceOk linear2 /\ (forall g k, 1 <= exW g k) /\ m_dim pairSteps = 2%Z /\ m_sdim pairSteps = 2%Z /\ triangles 2 pairSteps pairC /\ sameElements 2 pairV (fun _ => 12) pairSteps /\
  touches 3 2 pairMesh pairEl /\ faceMeasures pairMesh pairEl 2 (fun _ => 12) /\ shapeSize pairMesh 1 /\ nonnegWeights pairMesh /\
  dgSpace (2 * 3) pairMesh 2 (affineMass linear2 pairV exW) (affineInv linear2 pairV exW) (affineD linear2 2 pairC) /\
  tables pairMesh [(1%Z, PEC)] [] [(PEC, [1%Z])] [] /\ passive pairMesh [(1%Z, PEC)] [] /\ reflecting pairMesh [(1%Z, PEC)] [] /\ extraDivisor pairSteps 1 /\
  (forall v u, mform (2 * 3) noLoss v u = 0) /\ lossBound (2 * 3) (affineMass linear2 pairV exW) noLoss 0 /\
  exists c, 0 < c /\ c * refSize linear2 2 1 1 <= 1 / 4.
Proof.
  destruct pair_kinds as (Rf & Ps).
  split; [exact linear_ok|]. split; [exact ex_w|]. split; [reflexivity|]. split; [reflexivity|]. split; [exact pair_triangles|]. split; [exact pair_same|]. split; [exact pair_touch|]. split; [exact pair_measures|]. split; [exact pair_shapes|]. split; [exact pair_weights|].
  split; [exact pair_space|]. split; [exact pair_tables|]. split; [exact Ps|]. split; [exact Rf|]. split; [exact pair_divisor|]. split; [apply noLoss_zero|]. split; [split; [lra|]; intros v u; rewrite noLoss_zero; lra|].
  apply small_factor, ref_pos; [lia|lra|lra].
Qed.

(** ** Triangles and tetrahedra *)
Section Simplices.
Variable n : nat.
Variable r : reference.
Variable V S : nat -> R.
Variable w : Z -> nat -> R.
Variable m : fmesh.
Variable dim : Z.
Variable C : nat -> Z -> nat -> R.
Variable T alpha : R.
Variable el : nat -> nat * option nat.
Variable dmax : R.
Variable gl : Z -> list R.
Variable st : list (list R).
Variable ms : mesh.
Variable o : stepOptions.
Variable n0 n1 dv : R.
Variable ns : list R.
Variable gb gi : list (Z * cond).
Variable ob ib : list (cond * marker).
Variable MSigma : mat.
Variable sm : marker.
Notation N := (n * r_dofs r)%nat.
Hypothesis N0 : (0 < n)%nat.
Hypothesis RO : referenceOk r.
Hypothesis Hw : forall g k, 1 <= w g k.
Hypothesis SE : sameElements n V S ms.
Hypothesis Ms : m_dim ms = dim.
Hypothesis SI : simplices dim n ms C.
Hypothesis TO : touches (r_dofs r) n m el.
Hypothesis FM : faceMeasures m el n S.
Hypothesis SH : shapeSize m T.
Hypothesis Wt : nonnegWeights m.
Hypothesis DG : dgSpace N m dim (affineMass r V w) (affineInv r V w) (affineD r (Z.to_nat dim) C).
Hypothesis TB : tables m gb gi ob ib.
Hypothesis Hop : so_op o = Hesthaven -> dim = 2%Z.
Hypothesis GL : gl (so_order o) = n0 :: n1 :: ns.
Hypothesis NE : n0 <> n1.
Hypothesis C0 : 0 < so_cfl o.
Hypothesis EX : extraDivisor ms dv.
Lemma si_trace : traceSize m (r_dofs r) n S T.
Proof.
  destruct DG as (_ & (WM & _ & _) & _ & WF & _). apply (face_trace (r_dofs r) n m el S T TO FM SH Wt).
  - rewrite Forall_forall in *. intros f If. apply (WF f If).
  - rewrite Forall_forall in *. intros f If. apply (WM f If).
Qed.
Lemma si_dim : (dim = 2%Z \/ dim = 3%Z) /\ (m_sdim ms <= 3)%Z.
Proof. destruct SI as [(-> & E & _)|(-> & E & _)]; split; auto; lia. Qed.
Lemma si_bound : forall k d e, (k < n)%nat -> (0 <= d < dim)%Z -> (e < Z.to_nat dim)%nat -> Rabs (C k d e) <= S k.
Proof.
  destruct SI as [(-> & E & Q)|(-> & E & Q)]; [exact (triangles_bound n ms C V S Ms E Q SE)|exact (tetrahedra_bound n ms C V S Ms E Q SE)].
Qed.
Theorem simplex_bounded : forall Sg, 0 <= alpha -> passive m gb gi -> (forall v, 0 <= mform N MSigma v v) -> lossBound N (affineMass r V w) MSigma Sg ->
  exists A dt, buildGlobalOperator R Rplus Rmult 1 (-1) (factoryRows N m dim alpha ob ib (affineInv r V w) (affineD r (Z.to_nat dim) C) MSigma sm) dim (Z.of_nat N) 0 (match ib with [] => false | _ => true end) = Ok A /\
  estimateTimeStep dmax gl st ms o = Ok dt /\ 0 < dt /\
  (so_cfl o * Rabs (n0 - n1) / dv / globalFactor ms (so_op o) * refSize r dim alpha T + dt * Sg <= 1 / 4 ->
   forall f imp, evaluates A N f -> forall s tr s', s_dt s = dt -> length (s_fields s) = (6 * N)%nat -> runR (list R) (odeStep f imp 0) s tr s' ->
   Forall (fun st => fieldEnergy N (affineMass r V w) (s_fields st) <= 10001 / 10000 * (10001 / 10000) * fieldEnergy N (affineMass r V w) (s_fields s)) tr).
Proof.
  destruct si_dim as (Dm & Sd).
  exact (any_bounded n r V S w m dim C T alpha gb gi ob ib MSigma sm RO Hw si_bound si_trace Wt DG TB dmax gl st ms o n0 n1 dv ns Dm Ms Sd Hop SE N0 GL NE C0 EX).
Qed.
Theorem simplex_lossless : alpha = 0 -> reflecting m gb gi -> (forall v u, mform N MSigma v u = 0) ->
  exists A dt, buildGlobalOperator R Rplus Rmult 1 (-1) (factoryRows N m dim alpha ob ib (affineInv r V w) (affineD r (Z.to_nat dim) C) MSigma sm) dim (Z.of_nat N) 0 (match ib with [] => false | _ => true end) = Ok A /\
  estimateTimeStep dmax gl st ms o = Ok dt /\ 0 < dt /\
  (so_cfl o * Rabs (n0 - n1) / dv / globalFactor ms (so_op o) * refSize r dim alpha T <= sqrt 8 ->
   forall f imp, evaluates A N f -> forall s tr s', s_dt s = dt -> length (s_fields s) = (6 * N)%nat -> runR (list R) (odeStep f imp 0) s tr s' ->
   neverRises (energies N (affineMass r V w) s tr)).
Proof.
  destruct si_dim as (Dm & Sd).
  exact (any_lossless n r V S w m dim C T alpha gb gi ob ib MSigma sm RO Hw si_bound si_trace Wt DG TB dmax gl st ms o n0 n1 dv ns Dm Ms Sd Hop SE N0 GL NE C0 EX).
Qed.
End Simplices.

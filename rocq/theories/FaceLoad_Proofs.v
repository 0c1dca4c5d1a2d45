From Coq Require Import ZArith List Bool Reals Lia Lra.
From Verif Require Import Common Nodal_Spec Nodal_Proofs NodalMult_Proofs NodalEnergy_Proofs Face_Model Face_Spec Face_Proofs.
Import ListNotations.
Local Open Scope R_scope.

Lemma sumN_app : forall n m f, sumN (n + m) f = sumN n f + sumN m (fun i => f (n + i)%nat).
Proof.
  intros n m f. unfold sumN. rewrite seq_app, map_app, fold_right_app, Nat.add_0_l.
  assert (map f (seq n m) = map (fun i => f (n + i)%nat) (seq 0 m)) as ->.
  { clear. revert n. induction m as [|m IH]; intros n; cbn [seq map]; auto. rewrite Nat.add_0_r. f_equal.
    rewrite IH, <- seq_shift, map_map. apply map_ext. intros; f_equal; lia. }
  generalize (fold_right Rplus 0 (map (fun i => f (n + i)%nat) (seq 0 m))). intros r.
  induction (map f (seq 0 n)) as [|x l IH]; cbn [fold_right]; [ring|]. rewrite IH. ring.
Qed.

Lemma load2_value : forall F q n u u2 x2 beta, wfFace F -> f_el2 F = Some n -> f_pts F = [q] ->
  (length (u q) <= length (calculateNormal (q_geo q)))%nat -> (length (u2 q) <= length (calculateNormal (q_geo q)))%nat ->
  loads (faceSize F) F (boundaryJump2 u u2 x2 beta F)
    (fun v q => beta * sumN 3 (fun d => nth d (u q) 0 * unitN q d) * side1 F v q
              + beta * sumN 3 (fun d => nth d (u2 q) 0 * secondNormal x2 q d) * side2 F v q).
Proof.
  intros F q n u u2 x2 beta H En Ep Hu Hu2.
  pose proof (proj1 (Forall_forall _ _) H q) as Wq. rewrite Ep in Wq. specialize (Wq (or_introl eq_refl)).
  destruct (Wq) as (Gq & L1 & L2). rewrite En in L2.
  unfold boundaryJump2. rewrite Ep. cbn [foldM]. unfold setNeighbourNDoF. rewrite En, L1, L2, !Nat.eqb_refl. cbn [andb bind].
  eexists; split; [reflexivity|]. intros v.
  unfold faceSize. rewrite En, Ep, sumN_app. unfold suml. cbn [map fold_right].
  assert (L : length (calculateSMANormal (q_geo q)) = length (calculateNormal (q_geo q))) by (destruct (q_geo q); reflexivity).
  rewrite (dot_three (u q)) by (rewrite L; first [exact Hu|destruct (q_geo q); cbn [calculateNormal length]; lia]).
  set (nor2 := match q_geo q with G1 _ => [2 * x2 q - 1] | _ => calculateSMANormal (q_geo q) end).
  assert (Ln : length nor2 = length (calculateNormal (q_geo q))) by (unfold nor2; destruct (q_geo q); reflexivity).
  rewrite (dot_three (u2 q) nor2) by (rewrite Ln; first [exact Hu2|destruct (q_geo q); cbn [calculateNormal length]; lia]).
  assert (forall d, nth d nor2 0 = secondNormal x2 q d) as Hn.
  { intros d. unfold nor2, secondNormal. destruct (q_geo q) eqn:G.
    - destruct d as [|[|d]]; reflexivity.
    - rewrite <- G. apply (sma_normal F q Wq).
    - rewrite <- G. apply (sma_normal F q Wq). }
  rewrite (sumN_ext 3 (fun d => nth d (u2 q) 0 * nth d nor2 0) (fun d => nth d (u2 q) 0 * secondNormal x2 q d)) by (intros; now rewrite Hn).
  rewrite (sumN_ext 3 (fun d => nth d (u q) 0 * nth d (calculateSMANormal (q_geo q)) 0) (fun d => nth d (u q) 0 * unitN q d))
    by (intros; now rewrite (sma_normal F q Wq)).
  set (A := sumN 3 (fun d => nth d (u q) 0 * unitN q d)). set (B := sumN 3 (fun d => nth d (u2 q) 0 * secondNormal x2 q d)).
  unfold side1, side2, tr. rewrite En, L1, L2.
  rewrite (sumN_ext (f_el1 F) _ (fun i => (beta * A * q_w q) * (nth i (q_s1 q) 0 * v (i + 0)%nat))).
  2:{ intros i Hi. apply Nat.ltb_lt in Hi. rewrite Hi, Nat.add_0_r. ring. }
  rewrite (sumN_ext n _ (fun i => (beta * B * q_w q) * (nth i (q_s2 q) 0 * v (i + f_el1 F)%nat))).
  2:{ intros i Hi. replace (f_el1 F + i <? f_el1 F)%nat with false by (symmetry; apply Nat.ltb_ge; lia).
      replace (f_el1 F + i <? f_el1 F + n)%nat with true by (symmetry; apply Nat.ltb_lt; lia).
      replace (f_el1 F + i - f_el1 F)%nat with i by lia. rewrite (Nat.add_comm i). ring. }
  rewrite !sumN_scal. ring.
Qed.

(** A point between two segments: right end of the first, left end of the second. *)
Lemma load2_ex : exists F q n (u : qpoint -> list R) x2, wfFace F /\ f_el2 F = Some n /\ f_pts F = [q] /\
  (length (u q) <= length (calculateNormal (q_geo q)))%nat /\ unitN q 0 = 1 /\ secondNormal x2 q 0 = -1.
Proof.
  set (q := mkQ 1 (G1 1) [0; 1] [1; 0]). exists (mkFace 2 (Some 2%nat) [q]), q, 2%nat, (fun _ => [1]), (fun _ => 0).
  repeat split; auto.
  - constructor; [|constructor]. split; [right; reflexivity|]. split; reflexivity.
  - unfold unitN, q. cbn [q_geo normalOf weightOf]. field.
  - unfold secondNormal, q. cbn [q_geo]. ring.
Qed.

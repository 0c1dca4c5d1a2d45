From Coq Require Import ZArith List Bool Reals Lia Lra.
From Verif Require Import Common Mode_Model Mode_Spec Source_Model Mode_Proofs.
Import ListNotations.
Local Open Scope R_scope.

Lemma line_companions : forall m b rest pos t c, newCavity [m] (b :: rest) = Ok c -> cavityDx c pos t = UB /\ cavityDy c pos t = UB.
Proof.
  intros m b rest pos t c H. rewrite new_ok in H by (cbn; lia). injection H as <-. cbn [length firstn].
  unfold cavityDx, cavityDy. rewrite freq_at by reflexivity. cbn [bind]. unfold modeOf, zget, phaseOf, modeOf. cbn.
  destruct pos; cbn; auto.
Qed.
(** A field exists that the code computes, for a box of two by three. *)
Lemma ex_field : exists c E, newCavity [1; 2]%nat [2; 3] = Ok c /\
  (forall q s, length q = 2%nat -> cavityEval c q s = Ok (E q s)) /\ E [1; 3 / 4] 0 = 1 /\ onWall [2; 3] [1; 3].
Proof.
  exists (mkCav [1; 2]%nat [2; 3]), (closed (mkCav [1; 2]%nat [2; 3])). split; [reflexivity|]. split; [|split].
  - intros q s L. apply eval_at; cbn; lia.
  - unfold closed. cbn [length cv_modes prodn]. unfold kOf. cbn [nth cv_modes cv_box]. rewrite Rmult_0_r, cos_0.
    replace (INR 1 * PI / 2 * 1) with (PI / 2) by (cbn; field). replace (INR 2 * PI / 3 * (3 / 4)) with (PI / 2) by (cbn; field).
    rewrite sin_PI2. ring.
  - exists 1%nat. split; [cbn; lia|]. right. reflexivity.
Qed.
Lemma ex_companions : exists c E X Y, newCavity [1; 2]%nat [2; 3] = Ok c /\
  (forall q s, length q = 2%nat -> cavityEval c q s = Ok (E q s)) /\
  (forall q s, length q = 2%nat -> cavityDx c q s = Ok (X q s)) /\
  (forall q s, length q = 2%nat -> cavityDy c q s = Ok (Y q s)).
Proof.
  set (c := mkCav [1; 2]%nat [2; 3]).
  exists c, (closed c), (fun q s => match q with [x; y] => match cavityDx c [x; y] s with Ok v => v | _ => 0 end | _ => 0 end),
   (fun q s => match q with [x; y] => match cavityDy c [x; y] s with Ok v => v | _ => 0 end | _ => 0 end).
  split; [reflexivity|]. split; [|split].
  - intros q s L. apply eval_at; cbn; lia.
  - intros [|x [|y [|]]] s L; try discriminate L. unfold c. rewrite (plane_dx 1 2 2 3) by (try lra; lia). reflexivity.
  - intros [|x [|y [|]]] s L; try discriminate L. unfold c. rewrite (plane_dy 1 2 2 3) by (try lra; lia). reflexivity.
Qed.
Lemma slopes : forall m0 m1 b0 b1 c, b0 <> 0 -> b1 <> 0 -> (0 < m0 \/ 0 < m1)%nat -> newCavity [m0; m1] [b0; b1] = Ok c ->
  exists w, w <> 0 /\ w ^ 2 = (INR m0 * PI / b0) ^ 2 + (INR m1 * PI / b1) ^ 2 /\ forall Ez Dx Dy,
  (forall p t, length p = 2%nat -> cavityEval c p t = Ok (Ez p t)) ->
  (forall p t, length p = 2%nat -> cavityDx c p t = Ok (Dx p t)) ->
  (forall p t, length p = 2%nat -> cavityDy c p t = Ok (Dy p t)) ->
  forall x y t, derivable_pt_lim (fun s => Ez [s; y] t) x (w * Dx [x; y] t) /\
                derivable_pt_lim (fun s => Ez [x; s] t) y (w * Dy [x; y] t).
Proof. intros m0 m1 b0 b1 c B0 B1 H E. rewrite plane_new in E. injection E as <-. exact (plane_slopes m0 m1 b0 b1 B0 B1 H). Qed.
Lemma solution : forall m0 m1 b0 b1 c Ez, b0 <> 0 -> b1 <> 0 -> (0 < m0 \/ 0 < m1)%nat -> newCavity [m0; m1] [b0; b1] = Ok c ->
  (forall p t, length p = 2%nat -> cavityEval c p t = Ok (Ez p t)) ->
  exists Hx Hy, (forall p, Hx p 0 = 0 /\ Hy p 0 = 0) /\ forall x y t, maxwellAt Ez Hx Hy [x; y] t.
Proof. intros m0 m1 b0 b1 c Ez B0 B1 H E HE. rewrite plane_new in E. injection E as <-. exact (plane_solution m0 m1 b0 b1 B0 B1 H Ez HE). Qed.
Lemma not_solution : forall m0 m1 b0 b1 c a b Ez Dx Dy, b0 <> 0 -> b1 <> 0 -> (0 < m0)%nat -> (0 < m1)%nat -> newCavity [m0; m1] [b0; b1] = Ok c ->
  (forall p t, length p = 2%nat -> cavityEval c p t = Ok (Ez p t)) ->
  (forall p t, length p = 2%nat -> cavityDx c p t = Ok (Dx p t)) ->
  (forall p t, length p = 2%nat -> cavityDy c p t = Ok (Dy p t)) ->
  exists x y, ~ maxwellAt Ez (fun p t => a * Dy p t) (fun p t => b * Dx p t) [x; y] 0.
Proof.
  intros m0 m1 b0 b1 c a b Ez Dx Dy B0 B1 P0 P1 E HE HX HY. rewrite plane_new in E. injection E as <-.
  exact (plane_not m0 m1 b0 b1 B0 B1 P0 P1 a b Ez Dx Dy HE HX HY).
Qed.
Lemma sizes : forall modes box,
  ((length modes <= length box)%nat -> newCavity modes box = newCavity modes (firstn (length modes) box) /\
     exists c, newCavity modes box = Ok c /\ forall pos t, (cavityEval c pos t = UB <-> (length pos < length modes)%nat)) /\
  ((length box < length modes)%nat -> newCavity modes box = UB).
Proof.
  intros modes box. split; [|apply new_short]. intros L. split.
  - rewrite !new_ok by (try rewrite firstn_length; lia). now rewrite firstn_firstn, Nat.min_id.
  - eexists. split; [now apply new_ok|]. intros pos t. split.
    + intros H. destruct (Nat.lt_ge_cases (length pos) (length modes)) as [Lt|Ge]; [exact Lt|].
      rewrite eval_at in H by (cbn; rewrite ?firstn_length; lia). discriminate H.
    + intros H. apply eval_short; cbn; rewrite ?firstn_length; lia.
Qed.

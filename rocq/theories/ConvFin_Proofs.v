(** The statements about the accuracy of the time integrators on the assembled operator. *)
From Coq Require Import ZArith List Bool Reals Lia Lra.
From Verif Require Import Common Csr_Model Face_Model Face_Spec Setup_Model Setup_Spec Assembly_Model Form_Model Form_Spec Nodal_Spec NodalEnergy_Spec Global_Spec GlobalBalance_Proofs Time_Model Ode_Model Ode_Spec Ode_Proofs OdeRk_Proofs OdeStep_Proofs OdeLin_Proofs OdeRun_Proofs OdeFin_Proofs OdeNorm_Proofs OdeExact_Proofs OdeLocal_Proofs OdeConv_Proofs OdeSol_Proofs Conv_Spec.
Import ListNotations.
Local Open Scope R_scope.

Lemma order_is : forall ty, (0 <= ty <= 6)%Z -> orderN ty = order ty.
Proof.
  intros ty H. assert (C : (ty = 0 \/ ty = 1 \/ ty = 2 \/ ty = 3 \/ ty = 4 \/ ty = 5 \/ ty = 6)%Z) by lia.
  repeat (destruct C as [-> | C]; [reflexivity|]). subst ty. reflexivity.
Qed.
Lemma difference_sub : forall n x y, length x = n -> length y = n -> difference x y = sub x y.
Proof.
  intros n x y Hx Hy. apply (list_eq n); [unfold difference; rewrite map_length, combine_length; lia|apply sub_len; assumption|]. intros i.
  rewrite (sub_nth n) by assumption. destruct (lt_dec i n) as [H|H].
  - unfold difference. rewrite (nth_indep _ 0 ((fun p => fst p - snd p) (0, 0))) by (rewrite map_length, combine_length; lia).
    rewrite (map_nth (fun p => fst p - snd p)), combine_nth by lia. reflexivity.
  - rewrite !nth_overflow; try lia; [ring|]. unfold difference. rewrite map_length, combine_length. lia.
Qed.
Lemma size_nrm : forall N Mass x, nrm (fieldRate N Mass) x = sqrt 2 * size N Mass x.
Proof. intros. unfold nrm, size, fieldEnergy. rewrite <- sqrt_mult_alt by lra. f_equal. field. Qed.

Section Fin.
Variable N : nat.
Variable m : fmesh.
Variable dim : Z.
Variable alpha : R.
Variable gb gi : list (Z * cond).
Variable ob ib : list (cond * marker).
Variable Mass MInv D : Z -> mat.
Variable MSigma : mat.
Variable sm : marker.
Hypothesis DG : dgSpace N m dim Mass MInv D.
Hypothesis T : tables m gb gi ob ib.
Hypothesis MF : massForm N Mass.
Notation built A := (buildGlobalOperator R Rplus Rmult 1 (-1) (factoryRows N m dim alpha ob ib MInv D MSigma sm) dim (Z.of_nat N) 0
              (match ib with [] => false | _ => true end) = Ok A).
Hypothesis Ha : 0 <= alpha.
Hypothesis Pa : passive m gb gi.
Hypothesis Wt : nonnegWeights m.
Hypothesis Ps : forall v, 0 <= mform N MSigma v v.
Variable c : R.
Hypothesis Co : coercive N Mass c.
Notation n := (6 * N)%nat.
Notation B := (fieldRate N Mass).

Section Op.
Variable A : csr R.
Hypothesis EA : built A.
Lemma diss : forall x y, length x = n -> applies A N x y -> B x y <= 0.
Proof.
  destruct (never_grows N m dim alpha gb gi ob ib Mass MInv D MSigma sm DG T Ha Pa Wt Ps) as (A' & EA' & G). unfold theOperator in EA'. rewrite EA in EA'. injection EA' as <-. exact G.
Qed.
Lemma decay : forall u, evolves A N u -> forall a b, a <= b -> nrm B (u b) <= nrm B (u a).
Proof.
  destruct (decays N m dim alpha gb gi ob ib Mass MInv D MSigma sm DG T (proj1 MF) Ha Pa Wt Ps) as (A' & EA' & G). unfold theOperator in EA'. rewrite EA in EA'. injection EA' as <-.
  intros u Eu a b Hab. rewrite !size_nrm. apply Rmult_le_compat_l; [apply sqrt_pos|]. apply sqrt_le_1_alt, G; assumption.
Qed.
Lemma follows : forall f u, evaluates A N f -> evolves A N u ->
  (forall t, length (u t) = n) /\ forall t i, (i < n)%nat -> derivable_pt_lim (fun s => nth i (u s) 0) t (nth i (f 0 (u t)) 0).
Proof.
  intros f u Ev Eu. split; [intros t; apply Eu|]. intros t i Hi. destruct (Eu t) as (L & y & Y & Dy). rewrite <- (applies_unique N A (u t) y (f 0 (u t)) Y (Ev 0 (u t) L)). apply Dy, Hi.
Qed.
Theorem error_bound : forall f imp K u, evaluates A N f -> solvesStages A N imp -> 0 <= K -> boundedBy A N Mass K -> evolves A N u ->
  forall ty s tr s', (0 <= ty <= 6)%Z -> 0 < s_dt s -> s_dt s * K <= 1 / 4 -> s_fields s = u (s_time s) -> runR (list R) (odeStep f imp ty) s tr s' ->
  Forall (fun st => size N Mass (difference (s_fields st) (u (s_time st))) <=
    2 * (convC ty + 1) * ((s_dt s * K) ^ order ty + constantError ty (s_dt s * K)) * (K * (s_time st - s_time s)) * size N Mass (u (s_time s))) tr.
Proof.
  intros f imp K u Ev St K0 HK Eu ty s tr s' Hty Hd HdK Hf Rn. destruct (follows f u Ev Eu) as (Lu & Du). destruct Co as (c0 & Cq).
  assert (Lf : length (s_fields s) = n) by (rewrite Hf; apply Lu).
  pose proof (run_error n B (Badd' N Mass MF) (Bsym' N Mass MF) (Bpos' N Mass MF) (f 0) (Flen' N A f Ev) (Fadd' N A f Ev) (Diss' N Mass A f Ev diss) c c0 (coercive_entry N Mass MF c c0 Cq)
    f (fF' N A f Ev) imp (impS' N A f Ev imp St) K K0 (HK' N Mass A f Ev K HK) u Lu Du (decay u Eu) ty Hty (s_time s) (s_dt s) Hd HdK s tr s' eq_refl (Rle_refl _) Lf) as R1.
  assert (Inv : forall ts, nrm B (many f imp ty (s_dt s) ts (sub (s_fields s) (u (s_time s)))) <= grow * lam B K u ty (s_time s) (s_dt s) * (s_time s - s_time s)).
  { intros ts. rewrite Hf. replace (s_time s - s_time s) with 0 by ring. rewrite Rmult_0_r.
    assert (Z0 : nrm B (sub (u (s_time s)) (u (s_time s))) = 0).
    { rewrite (nrm_ext n B _ (repeat 0 n)); [apply (nrm_zero n B (Badd' N Mass MF))|apply sub_len; apply Lu|apply repeat_length|]. intros i. rewrite (sub_nth n), nth_zero by apply Lu. ring. }
    eapply Rle_trans; [apply (many_grow n B (Badd' N Mass MF) (Bsym' N Mass MF) (Bpos' N Mass MF) (f 0) (Flen' N A f Ev) (Fadd' N A f Ev) (Diss' N Mass A f Ev diss) c c0 (coercive_entry N Mass MF c c0 Cq)
      f (fF' N A f Ev) imp (impS' N A f Ev imp St) K K0 (HK' N Mass A f Ev K HK) ty (s_dt s) Hty (Rlt_le _ _ Hd) HdK)|rewrite Z0; lra]. apply sub_len; apply Lu. }
  specialize (R1 Inv Rn). clear Inv.
  assert (Lt : Forall (fun st => length (s_fields st) = n /\ s_time s <= s_time st) tr).
  { clear R1. revert Hd Lf. clear HdK Hf. induction Rn as [s G|s tr s' G Rn IH]; intros Hd Lf; [constructor|].
    pose proof (OdeRun_Proofs.guard_pos s Hd G) as (T1 & T2).
    assert (L1 : length (s_fields (stepR (list R) (odeStep f imp ty) s)) = n) by (apply (ode_len N A f Ev imp St); [exact Lf|lra]).
    constructor; [split; [exact L1|cbn; lra]|]. eapply Forall_impl; [|apply IH; [exact Hd|exact L1]]. intros st (Q1 & Q2). split; [exact Q1|]. cbn in Q2. lra. }
  rewrite Forall_forall in *. intros st Hst. specialize (R1 st Hst). destruct (Lt st Hst) as (Ls & Ht). rewrite (difference_sub n) by (auto; apply Lu).
  rewrite size_nrm in R1. unfold lam in R1. rewrite size_nrm in R1. rewrite order_is in R1 by exact Hty.
  assert (S2 : 0 < sqrt 2) by (apply sqrt_lt_R0; lra). apply Rmult_le_reg_l with (sqrt 2); [exact S2|]. eapply Rle_trans; [exact R1|].
  assert (P1 : 0 <= localC ty) by apply localC_pos. assert (P2 : 0 <= s_dt s * K) by (apply Rmult_le_pos; lra). assert (P3 : 0 <= (s_dt s * K) ^ order ty) by (apply pow_le, P2).
  assert (P4 : 0 <= size N Mass (u (s_time s))) by apply sqrt_pos. assert (P5 : 0 <= K * (s_time st - s_time s)) by (apply Rmult_le_pos; lra).
  assert (E : excess ty * (s_dt s * K) = constantError ty (s_dt s * K)) by (unfold excess, constantError; destruct (ty =? 4)%Z; ring). rewrite E.
  assert (P6 : 0 <= constantError ty (s_dt s * K)) by (rewrite <- E; apply Rmult_le_pos; [apply excess_pos|exact P2]).
  set (pw := (s_dt s * K) ^ order ty) in *. set (ce := constantError ty (s_dt s * K)) in *. set (w := K * (s_time st - s_time s)) in *. set (z := size N Mass (u (s_time s))) in *.
  replace (2 * (K * (convC ty * pw + ce) * (sqrt 2 * z)) * (s_time st - s_time s)) with (sqrt 2 * (2 * (convC ty * pw + ce) * w * z)) by (unfold w; ring).
  apply Rmult_le_compat_l; [lra|]. apply Rmult_le_compat_r; [exact P4|]. apply Rmult_le_compat_r; [exact P5|]. unfold convC. clearbody pw ce. nra.
Qed.
End Op.
Lemma op_exists : exists A, built A.
Proof. destruct (never_grows N m dim alpha gb gi ob ib Mass MInv D MSigma sm DG T Ha Pa Wt Ps) as (A' & EA' & _). exists A'. exact EA'. Qed.

Theorem fin_converges : exists A, built A /\
  forall u f imp, evolves A N u -> evaluates A N f -> solvesStages A N imp ->
  forall ty start final eps, (0 <= ty <= 6)%Z -> 0 < eps -> exists delta, 0 < delta /\
  forall dt calls tr s', 0 < dt < delta -> runR (list R) (odeStep f imp ty) (mkSolver start dt final (u start) calls) tr s' ->
  Forall (fun st => size N Mass (difference (s_fields st) (u (s_time st))) <= eps) tr.
Proof.
  destruct (fin_solvable N m dim alpha gb gi ob ib Mass MInv D MSigma sm DG T MF Ha Pa Wt Ps c Co) as (A & EA & _ & _ & (K & K0 & HK) & _). exists A. split; [exact EA|].
  intros u f imp Eu Ev St ty start final eps Hty He.
  set (Z := size N Mass (u start)). assert (Z0 : 0 <= Z) by apply sqrt_pos.
  set (C := 2 * (convC ty + 1) * 2 * (K * Rabs (final - start)) * Z).
  assert (C0 : 0 <= C).
  { unfold C, convC. pose proof (localC_pos ty). pose proof (Rabs_pos (final - start)). repeat apply Rmult_le_pos; lra. }
  set (delta := Rmin (1 / (4 * (K + 1))) (eps / ((C + 1) * (K + 1)))).
  assert (PK : 0 < K + 1) by lra.
  assert (PD : 0 < delta) by (apply Rmin_glb_lt; unfold Rdiv; [apply Rmult_lt_0_compat; [lra|apply Rinv_0_lt_compat; lra]|apply Rmult_lt_0_compat; [exact He|apply Rinv_0_lt_compat, Rmult_lt_0_compat; lra]]).
  exists delta. split; [exact PD|]. intros dt calls tr s' (Hd & Hlt) Rn.
  assert (D1 : dt * (K + 1) <= 1 / 4).
  { assert (dt <= 1 / (4 * (K + 1))) by (eapply Rle_trans; [left; exact Hlt|apply Rmin_l]). apply (Rmult_le_compat_r (K + 1)) in H; [|lra]. replace (1 / (4 * (K + 1)) * (K + 1)) with (1 / 4) in H by (field; lra). exact H. }
  assert (D2 : dt * (K + 1) * (C + 1) <= eps).
  { assert (dt <= eps / ((C + 1) * (K + 1))) by (eapply Rle_trans; [left; exact Hlt|apply Rmin_r]). apply (Rmult_le_compat_r ((C + 1) * (K + 1))) in H; [|apply Rmult_le_pos; lra].
    replace (eps / ((C + 1) * (K + 1)) * ((C + 1) * (K + 1))) with eps in H by (field; lra). lra. }
  assert (HdK : dt * K <= 1 / 4) by nra. assert (P0 : 0 <= dt * K) by (apply Rmult_le_pos; lra).
  pose proof (error_bound A EA f imp K u Ev St K0 HK Eu ty (mkSolver start dt final (u start) calls) tr s' Hty Hd HdK eq_refl Rn) as Q. cbn [s_dt s_time] in Q.
  assert (Lt : Forall (fun st => s_time st <= Rmax start final /\ start <= s_time st) tr).
  { clear Q. remember (mkSolver start dt final (u start) calls) as s eqn:Es.
    assert (G0 : s_dt s = dt /\ s_final s = final /\ s_time s <= Rmax start final /\ start <= s_time s) by (rewrite Es; cbn; repeat split; [apply Rmax_l|lra]). clear Es.
    revert G0. induction Rn as [s G|s tr s' G Rn IH]; intros (G1 & G2 & G3 & G4); [constructor|].
    pose proof (OdeRun_Proofs.guard_pos s ltac:(lra) G) as (T1 & T2).
    assert (M1 : s_time s + truedt s <= Rmax start final).
    { apply Rle_trans with final; [|apply Rmax_r]. unfold truedt. rewrite G2. pose proof (Rmin_r (s_dt s) (final - s_time s)). lra. }
    constructor; [split; [exact M1|cbn; lra]|]. apply IH. cbn. repeat split; auto. lra. }
  rewrite Forall_forall in *. intros st Hst. eapply Rle_trans; [apply (Q st Hst)|]. destruct (Lt st Hst) as (M1 & M2). fold Z.
  assert (W : s_time st - start <= Rabs (final - start)).
  { unfold Rmax in M1. destruct (Rle_dec start final); [rewrite Rabs_pos_eq by lra; lra|]. pose proof (Rabs_pos (final - start)). lra. }
  assert (S1 : (dt * K) ^ order ty + constantError ty (dt * K) <= 2 * (dt * K)).
  { assert (P1 : (dt * K) ^ order ty <= dt * K).
    { assert (Op : exists p, order ty = Datatypes.S p) by (assert (X : (ty = 0 \/ ty = 1 \/ ty = 2 \/ ty = 3 \/ ty = 4 \/ ty = 5 \/ ty = 6)%Z) by lia; destruct X as [-> | [-> | [-> | [-> | [-> | [-> | ->]]]]]]; eexists; reflexivity).
      destruct Op as (p & ->). cbn [pow]. rewrite <- (Rmult_1_r (dt * K)) at 3. apply Rmult_le_compat_l; [exact P0|]. rewrite <- (pow1 p). apply pow_incr. lra. }
    assert (P2 : constantError ty (dt * K) <= dt * K).
    { unfold constantError. destruct (ty =? 4)%Z; [|exact P0]. rewrite <- (Rmult_1_l (dt * K)) at 2. apply Rmult_le_compat_r; [exact P0|]. apply Rle_trans with (/ 1); [|rewrite Rinv_1; lra]. apply Rinv_le_contravar; [lra|]. apply pow_R1_Rle. lra. }
    lra. }
  assert (S2 : K * (s_time st - start) <= K * Rabs (final - start)) by (apply Rmult_le_compat_l; [exact K0|exact W]).
  assert (S3 : 0 <= K * (s_time st - start)) by (apply Rmult_le_pos; lra).
  assert (P7 : 0 <= 2 * (convC ty + 1)) by (unfold convC; pose proof (localC_pos ty); lra).
  apply Rle_trans with (C * (dt * K)).
  - unfold C. replace (2 * (convC ty + 1) * 2 * (K * Rabs (final - start)) * Z * (dt * K)) with (2 * (convC ty + 1) * (2 * (dt * K)) * (K * Rabs (final - start)) * Z) by ring.
    apply Rmult_le_compat_r; [exact Z0|]. apply Rle_trans with (2 * (convC ty + 1) * (2 * (dt * K)) * (K * (s_time st - start))).
    + apply Rmult_le_compat_r; [exact S3|]. apply Rmult_le_compat_l; [exact P7|exact S1].
    + apply Rmult_le_compat_l; [|exact S2]. apply Rmult_le_pos; [exact P7|lra].
  - assert (dt * K <= dt * (K + 1)) by (apply Rmult_le_compat_l; lra). assert (0 <= dt * (K + 1)) by (apply Rmult_le_pos; lra). nra.
Qed.

Theorem fin_solution : exists A, built A /\ forall start x, length x = n -> exists u, evolves A N u /\ u start = x /\
  forall v, evolves A N v -> v start = x -> forall t, start <= t -> v t = u t.
Proof.
  destruct (fin_solvable N m dim alpha gb gi ob ib Mass MInv D MSigma sm DG T MF Ha Pa Wt Ps c Co) as (A & EA & (f & Ev) & _ & (K & K0 & HK) & _). exists A. split; [exact EA|].
  intros start x Lx. destruct Co as (c0 & Cq). pose proof (coercive_entry N Mass MF c c0 Cq) as Coer.
  set (w := sol n (f 0) x). assert (Lw : forall t, length (w t) = n) by (intros; apply sol_len).
  pose proof (sol_follows n B (f 0) (Flen' N A f Ev) (Fadd' N A f Ev) c c0 Coer K K0 (HK' N Mass A f Ev K HK) x Lx) as Dw. fold w in Dw.
  exists (fun t => w (t - start)). assert (Eu : evolves A N (fun t => w (t - start))).
  { intros t. split; [apply Lw|]. exists (f 0 (w (t - start))). split; [apply Ev, Lw|]. intros i Hi.
    intros e He. destruct (Dw (t - start) i Hi e He) as (d & Hdd). exists d. intros k Nk Hk. replace (t + k - start) with (t - start + k) by ring. apply Hdd; assumption. }
  split; [exact Eu|]. split; [rewrite Rminus_diag_eq by reflexivity; apply (sol_start n (f 0) x Lx)|].
  intros v Vv V0 t Ht. set (d := fun t => sub (v t) (w (t - start))).
  destruct (follows A f v Ev Vv) as (Lv & Dv).
  assert (Ed : evolves A N d).
  { intros t'. split; [apply sub_len; [apply Lv|apply Lw]|]. exists (sub (f 0 (v t')) (f 0 (w (t' - start)))). split.
    - unfold d, sub. apply applies_linear; try apply Ev; auto; apply Lv || apply Lw.
    - intros i Hi. destruct (Eu t') as (_ & y & Y & Dy). rewrite (applies_unique N A (w (t' - start)) y (f 0 (w (t' - start))) Y (Ev 0 _ (Lw _))) in Dy.
      rewrite (sub_nth n) by (apply Ev; apply Lv || apply Lw).
      assert (Q : derivable_pt_lim (fun s => nth i (v s) 0 - nth i (w (s - start)) 0) t' (nth i (f 0 (v t')) 0 - nth i (f 0 (w (t' - start))) 0)) by (apply (derivable_pt_lim_minus (fun s => nth i (v s) 0) (fun s => nth i (w (s - start)) 0)); [apply Dv, Hi|apply Dy, Hi]).
      intros e He. destruct (Q e He) as (dd & Hdd). exists dd. intros k Nk Hk. unfold d. rewrite !(sub_nth n) by (apply Lv || apply Lw). apply Hdd; assumption. }
  pose proof (decay A EA d Ed start t Ht) as Dc.
  assert (Z0 : nrm B (d start) = 0).
  { rewrite (nrm_ext n B _ (repeat 0 n)); [apply (nrm_zero n B (Badd' N Mass MF))|apply sub_len; [apply Lv|apply Lw]|apply repeat_length|]. intros i. unfold d. rewrite (sub_nth n), nth_zero by (apply Lv || apply Lw).
    rewrite V0. unfold w. replace (start - start) with 0 by ring. rewrite (sol_start n (f 0) x Lx). ring. }
  rewrite Z0 in Dc. assert (Ld : length (d t) = n) by (apply sub_len; [apply Lv|apply Lw]).
  assert (Zt : B (d t) (d t) = 0) by (rewrite <- (nrm_sqr n B (Bpos' N Mass MF) (d t) Ld); pose proof (nrm_pos B (d t)); assert (nrm B (d t) = 0) by lra; rewrite H0; ring).
  apply (list_eq n); [apply Lv|apply Lw|]. intros i. pose proof (Coer (d t) i Ld) as Q. rewrite Zt in Q. unfold d in Q. rewrite (sub_nth n) in Q by (apply Lv || apply Lw).
  pose proof (Rle_0_sqr (nth i (v t) 0 - nth i (w (t - start)) 0)) as Q2. unfold Rsqr in Q2. set (e := nth i (v t) 0 - nth i (w (t - start)) 0) in *.
  assert (e * e = 0) by nra. assert (e = 0) by (apply Rsqr_0_uniq; exact H). unfold e in H0. lra.
Qed.
End Fin.

Theorem fin_error : exists C : Z -> R, forall N m dim alpha gb gi ob ib Mass MInv D MSigma sm,
  dgSpace N m dim Mass MInv D -> tables m gb gi ob ib -> massForm N Mass ->
  0 <= alpha -> passive m gb gi -> nonnegWeights m -> (forall v, 0 <= mform N MSigma v v) ->
  forall c, coercive N Mass c ->
  exists A, buildGlobalOperator R Rplus Rmult 1 (-1) (factoryRows N m dim alpha ob ib MInv D MSigma sm) dim (Z.of_nat N) 0
              (match ib with [] => false | _ => true end) = Ok A /\
  forall f imp K u, evaluates A N f -> solvesStages A N imp -> 0 <= K -> boundedBy A N Mass K -> evolves A N u ->
  forall ty s tr s', (0 <= ty <= 6)%Z -> 0 < s_dt s -> s_dt s * K <= 1 / 4 -> s_fields s = u (s_time s) -> runR (list R) (odeStep f imp ty) s tr s' ->
  Forall (fun st => size N Mass (difference (s_fields st) (u (s_time st))) <=
    C ty * ((s_dt s * K) ^ order ty + constantError ty (s_dt s * K)) * (K * (s_time st - s_time s)) * size N Mass (u (s_time s))) tr.
Proof.
  exists (fun ty => 2 * (convC ty + 1)). intros N m dim alpha gb gi ob ib Mass MInv D MSigma sm DG T MF Ha Pa Wt Ps c Co.
  destruct (op_exists N m dim alpha gb gi ob ib Mass MInv D MSigma sm DG T Ha Pa Wt Ps) as (A & EA). exists A. split; [exact EA|].
  exact (error_bound N m dim alpha gb gi ob ib Mass MInv D MSigma sm DG T MF Ha Pa Wt Ps c Co A EA).
Qed.

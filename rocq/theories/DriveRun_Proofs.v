(** The closed statements about runs with a source. *)
From Coq Require Import ZArith List Bool Reals Lia Lra.
From Verif Require Import Common Csr_Model Face_Model Face_Spec Setup_Model Setup_Spec Assembly_Model Form_Model Form_Spec Nodal_Spec NodalEnergy_Spec Global_Spec GlobalBalance_Proofs Time_Model Ode_Model Ode_Spec Ode_Proofs OdeRk_Proofs OdeStep_Proofs OdeLin_Proofs OdeRun_Proofs OdeFin_Proofs OdeNorm_Proofs OdeExact_Proofs OdeLocal_Proofs OdeConv_Proofs OdeDrive_Proofs OdeForced_Proofs OdeDuh_Proofs Conv_Spec ConvFin_Proofs Drive_Spec DriveFin_Proofs.
Import ListNotations.
Local Open Scope R_scope.

Section Fin.
Variable N : nat.
Variable m : fmesh.
Variable dim : Z.
Variable alpha : R.
Variable gb gi : list (Z * cond).
Variable ob ib : list (cond * marker).
Variable Mass MInv D : Z -> mat.
Variable MSigma : mat.
Variable sm : marker.
Hypothesis DG : dgSpace N m dim Mass MInv D.
Hypothesis T : tables m gb gi ob ib.
Hypothesis MF : massForm N Mass.
Notation built A := (buildGlobalOperator R Rplus Rmult 1 (-1) (factoryRows N m dim alpha ob ib MInv D MSigma sm) dim (Z.of_nat N) 0
              (match ib with [] => false | _ => true end) = Ok A).
Hypothesis Ha : 0 <= alpha.
Hypothesis Pa : passive m gb gi.
Hypothesis Wt : nonnegWeights m.
Hypothesis Ps : forall v, 0 <= mform N MSigma v v.
Variable c : R.
Hypothesis Co : coercive N Mass c.
Notation n := (6 * N)%nat.
Notation B := (fieldRate N Mass).
Lemma op : exists A, built A /\ (exists f, evaluates A N f) /\ (exists imp, solvesStages A N imp) /\ exists K, 0 <= K /\ boundedBy A N Mass K.
Proof. destruct (fin_solvable N m dim alpha gb gi ob ib Mass MInv D MSigma sm DG T MF Ha Pa Wt Ps c Co) as (A & E & P1 & P2 & P3 & _). exists A. auto. Qed.
Lemma late_none : forall f imp ty (s : solver (list R)) tr s', 0 < s_dt s -> runR (list R) (odeStep f imp ty) s tr s' ->
  Forall (fun st => s_time s <= s_time st <= s_final s) tr.
Proof.
  intros f imp ty s tr s' Hd Rn. induction Rn as [s G|s tr s' G Rn IH]; [constructor|]. pose proof (OdeRun_Proofs.guard_pos s Hd G) as (T1 & T2).
  assert (M1 : s_time s + truedt s <= s_final s) by (unfold truedt; pose proof (Rmin_r (s_dt s) (s_final s - s_time s)); lra).
  constructor; [cbn; lra|]. eapply Forall_impl; [|apply IH; exact Hd]. intros st (Q1 & Q2). cbn in Q1, Q2. lra.
Qed.
Theorem drive_converges : exists A, built A /\
  forall g c0 c1 c2 u f imp, smoothSource N Mass g c0 c1 c2 -> drivenBy A N g u -> drivenRates A N g f -> drivenStages A N g imp ->
  forall ty start final eps, (0 <= ty <= 6)%Z -> 0 < eps -> exists delta, 0 < delta /\
  forall dt calls tr s', 0 < dt < delta -> runR (list R) (odeStep f imp ty) (mkSolver start dt final (u start) calls) tr s' ->
  Forall (fun st => size N Mass (difference (s_fields st) (u (s_time st))) <= eps) tr.
Proof.
  destruct op as (A & EA & (f0 & Ev) & (imp0 & St) & (K & K0 & HK)). exists A. split; [exact EA|].
  intros g b0 b1 b2 u f imp Sm Du Dr Ds ty start final eps Hty He.
  assert (Bd : 0 <= b0 /\ 0 <= b1 /\ 0 <= b2).
  { destruct Sm as (g1 & g2 & _ & _ & Q0 & Q1 & Q2). pose proof (proj2 (Q0 0)). pose proof (proj2 (Q1 0)). pose proof (proj2 (Q2 0)).
    pose proof (size_pos N Mass (g 0)). pose proof (size_pos N Mass (g1 0)). pose proof (size_pos N Mass (g2 0)). lra. }
  destruct Bd as (P0 & P1 & P2).
  assert (Lg : forall t, length (g t) = n) by (destruct Sm as (? & ? & _ & _ & Q0 & _); intros; apply Q0).
  assert (Up : upTo N Mass 0 g g).
  { intros t. split; [apply Lg|]. rewrite (difference_sub n) by apply Lg. apply to_size. rewrite Rmult_0_r. right.
    rewrite (nrm_ext n B _ (repeat 0 n)); [apply (nrm_zero n B (Badd' N Mass MF))|apply sub_len; apply Lg|apply repeat_length|]. intros i. rewrite (sub_nth n), nth_zero by apply Lg. ring. }
  set (w := Rabs (final - start)). assert (W0 : 0 <= w) by apply Rabs_pos.
  set (U := size N Mass (u start) + b0 * (final - start)). set (U' := size N Mass (u start) + b0 * w).
  assert (U0 : 0 <= U') by (unfold U'; pose proof (size_pos N Mass (u start)); assert (0 <= b0 * w) by (apply Rmult_le_pos; assumption); lra).
  set (m1 := K * (K * U' + b0) + b1). set (m2 := K * m1 + b2).
  assert (KU : 0 <= K * U') by (apply Rmult_le_pos; assumption). assert (KU2 : 0 <= K * (K * U' + b0)) by (apply Rmult_le_pos; lra). assert (Q3 : 0 <= m1) by (unfold m1; lra). assert (KM : 0 <= K * m1) by (apply Rmult_le_pos; assumption). assert (Q4 : 0 <= m2) by (unfold m2; lra).
  pose proof (respC_pos ty Hty) as RP.
  assert (FC : 0 <= forcedC ty) by (unfold forcedC; pose proof (localC_pos ty); pose proof (Rabs_pos (de (dOf ty))); pose proof (Rabs_pos (de2 (dOf ty))); destruct (ty =? 1)%Z; lra).
  set (C := 2 * (forcedC ty + 1 + respC ty) * w). assert (C0 : 0 <= C) by (unfold C; apply Rmult_le_pos; lra).
  set (V := C * (m1 + m2)). assert (V0 : 0 <= V) by (unfold V; apply Rmult_le_pos; lra).
  set (delta := Rmin 1 (Rmin (1 / (4 * (K + 1))) (eps / (V + 1)))).
  assert (PD : 0 < delta).
  { unfold delta. apply Rmin_glb_lt; [lra|]. apply Rmin_glb_lt; unfold Rdiv; (apply Rmult_lt_0_compat; [lra|apply Rinv_0_lt_compat; lra]). }
  exists delta. split; [exact PD|]. intros dt calls tr s' (Hd & Hlt) Rn.
  assert (L1 : dt <= 1) by (eapply Rle_trans; [left; exact Hlt|apply Rmin_l]).
  assert (D1 : dt * K <= 1 / 4).
  { assert (H : dt <= 1 / (4 * (K + 1))) by (eapply Rle_trans; [left; exact Hlt|eapply Rle_trans; [apply Rmin_r|apply Rmin_l]]). apply (Rmult_le_compat_r (K + 1)) in H; [|lra]. replace (1 / (4 * (K + 1)) * (K + 1)) with (1 / 4) in H by (field; lra). lra. }
  assert (D2 : dt * (V + 1) <= eps).
  { assert (H : dt <= eps / (V + 1)) by (eapply Rle_trans; [left; exact Hlt|eapply Rle_trans; [apply Rmin_r|apply Rmin_r]]). apply (Rmult_le_compat_r (V + 1)) in H; [|lra]. replace (eps / (V + 1) * (V + 1)) with eps in H by (field; lra). exact H. }
  pose proof (error_run N m dim alpha gb gi ob ib Mass MInv D MSigma sm DG T MF Ha Pa Wt Ps c Co A EA f0 Ev imp0 St K f imp g g b0 b1 b2 0 u K0 HK Sm Up Dr Ds Du ty
    (mkSolver start dt final (u start) calls) tr s' Hty Hd D1 eq_refl Rn) as Q. cbn [s_dt s_time s_final] in Q. fold U in Q.
  pose proof (late_none f imp ty (mkSolver start dt final (u start) calls) tr s' Hd Rn) as Lt. cbn [s_time s_final] in Lt.
  rewrite Forall_forall in *. intros st Hst. eapply Rle_trans; [apply (Q st Hst)|]. destruct (Lt st Hst) as (M1 & M2). rewrite Rplus_0_r.
  assert (Wf : w = final - start) by (unfold w; rewrite Rabs_pos_eq by lra; reflexivity). assert (EU : U = U') by (unfold U, U'; rewrite Wf; reflexivity).
  assert (DE : 0 <= driveError ty K b0 b1 b2 U dt <= dt * (m1 + m2)).
  { rewrite EU. unfold driveError. fold m1. fold m2. assert (Z1 : 0 <= dt * m1) by (apply Rmult_le_pos; lra). assert (Z2 : 0 <= dt * m2) by (apply Rmult_le_pos; lra).
    destruct (ty =? 1)%Z; [lra|]. assert (Z3 : 0 <= constantError ty (dt * m1) <= dt * m1).
    { unfold constantError. destruct (ty =? 4)%Z; [|lra]. assert (0 < / 10 ^ 16 <= 1) by (split; [apply Rinv_0_lt_compat; lra|apply Rmult_le_reg_l with (10 ^ 16); [lra|rewrite Rinv_r by lra; lra]]). split; [apply Rmult_le_pos; lra|]. rewrite <- (Rmult_1_l (dt * m1)) at 2. apply Rmult_le_compat_r; lra. }
    assert (Z4 : 0 <= dt * dt * m2 <= dt * m2).
    { split; [repeat apply Rmult_le_pos; lra|]. rewrite Rmult_assoc. rewrite <- (Rmult_1_l (dt * m2)) at 2. apply Rmult_le_compat_r; lra. }
    lra. }
  apply Rle_trans with (C * (dt * (m1 + m2))); [|unfold V in D2; lra].
  apply Rmult_le_compat; [apply Rmult_le_pos; lra|lra| |lra]. unfold C. apply Rmult_le_compat_l; lra.
Qed.
Theorem drive_solution : exists A, built A /\
  (forall g, (forall t, length (g t) = n) -> (exists f, drivenRates A N g f) /\ exists imp, drivenStages A N g imp) /\
  forall g, (forall t, length (g t) = n) -> (forall i t, continuity_pt (fun s => nth i (g s) 0) t) ->
  forall start x, length x = n -> exists u, drivenBy A N g u /\ u start = x /\ forall v, drivenBy A N g v -> v start = x -> forall t, v t = u t.
Proof.
  destruct op as (A & EA & (f0 & Ev) & (imp0 & St) & (K & K0 & HK)). exists A. split; [exact EA|].
  split; [intros g Lg; apply (with_source N A f0 Ev imp0 St g Lg)|]. intros g Lg Cg start x Lx. destruct Co as (c0 & Cq).
  pose proof (coercive_entry N Mass MF c c0 Cq) as Coer.
  pose proof (Flen' N A f0 Ev) as FL. pose proof (Fadd' N A f0 Ev) as FA. set (F := f0 0) in *.
  set (gs := fun t => g (t + start)).
  assert (Cs : forall i t, continuity_pt (fun s => nth i (gs s) 0) t).
  { intros i t. apply (continuity_pt_comp (fun s => s + start) (fun s => nth i (g s) 0)); [|apply Cg].
    apply (continuity_pt_plus (fun s => s) (fun _ => start)); [apply derivable_continuous_pt, derivable_pt_id|apply continuity_pt_const; intros a b; reflexivity]. }
  set (w := duh n F gs x). assert (Lw : forall t, length (w t) = n) by (intros; apply duh_len).
  pose proof (duh_follows n B (Badd' N Mass MF) (Bsym' N Mass MF) (Bpos' N Mass MF) c c0 Coer F FL FA K K0 (HK' N Mass A f0 Ev K HK) gs (fun t => Lg (t + start)) Cs x) as Dw. fold w in Dw.
  exists (fun t => w (t - start)).
  assert (Dt : forall t i, (i < n)%nat -> derivable_pt_lim (fun s => nth i (w (s - start)) 0) t (nth i (F (w (t - start))) 0 + nth i (g t) 0)).
  { intros t i Hi. pose proof (Dw (t - start) i Hi) as Q. rewrite (addv_nth n) in Q by (apply Lg || apply FL, Lw). unfold gs in Q. replace (t - start + start) with t in Q by ring. rewrite Rmult_1_l in Q.
    intros e He. destruct (Q e He) as (d & Hdd). exists d. intros k Nk Hk. replace (t + k - start) with (t - start + k) by ring. apply Hdd; assumption. }
  split; [intros t; split; [apply Lw|exists (F (w (t - start))); split; [apply Ev, Lw|apply Dt]]|].
  split; [replace (start - start) with 0 by ring; apply (duh_start n F gs x Lx)|].
  intros v Vv V0 t. destruct (driven_is N A f0 Ev g v Lg Vv) as (Lv & Dv). fold F in Dv.
  set (d := fun s => sub (v (start + s)) (w s)). assert (Ld : forall s, length (d s) = n) by (intros; apply sub_len; [apply Lv|apply Lw]).
  assert (Z : forall s i, nth i (d s) 0 = 0).
  { apply (zero_only n B (Badd' N Mass MF) (Bsym' N Mass MF) (Bpos' N Mass MF) c c0 Coer F FL FA K K0 (HK' N Mass A f0 Ev K HK) d Ld).
    - intros s i Hi. unfold d. unfold sub at 2. rewrite FA, (addv_nth n) by (try apply FL; apply Lv || apply Lw).
      apply (derivable_pt_lim_ext (fun s => nth i (v (start + s)) 0 - nth i (w s) 0)); [intros; rewrite (sub_nth n) by (apply Lv || apply Lw); reflexivity|].
      pose proof (Dv (start + s) i Hi) as Q1. rewrite (addv_nth n) in Q1 by (apply Lg || apply FL, Lv). pose proof (Dw s i Hi) as Q2. rewrite (addv_nth n) in Q2 by (apply Lg || apply FL, Lw). unfold gs in Q2.
      replace (nth i (F (v (start + s))) 0 + -1 * nth i (F (w s)) 0) with (nth i (F (v (start + s))) 0 + 1 * nth i (g (start + s)) 0 - (nth i (F (w s)) 0 + 1 * nth i (g (s + start)) 0)) by (rewrite (Rplus_comm s start); ring).
      apply (derivable_pt_lim_minus (fun s => nth i (v (start + s)) 0) (fun s => nth i (w s) 0)); [|exact Q2].
      intros e He. destruct (Q1 e He) as (dd & Hdd). exists dd. intros k Nk Hk. rewrite <- Rplus_assoc. apply Hdd; assumption.
    - intros i. unfold d. rewrite (sub_nth n) by (apply Lv || apply Lw). rewrite Rplus_0_r, V0. unfold w. rewrite (duh_start n F gs x Lx). ring. }
  apply (list_eq n); [apply Lv|apply Lw|]. intros i. specialize (Z (t - start) i). unfold d in Z. rewrite (sub_nth n) in Z by (apply Lv || apply Lw). replace (start + (t - start)) with t in Z by ring. lra.
Qed.
End Fin.

Theorem drive_bounded : exists C : Z -> R, forall N m dim alpha gb gi ob ib Mass MInv D MSigma sm,
  dgSpace N m dim Mass MInv D -> tables m gb gi ob ib -> massForm N Mass ->
  0 <= alpha -> passive m gb gi -> nonnegWeights m -> (forall v, 0 <= mform N MSigma v v) ->
  forall c, coercive N Mass c ->
  exists A, buildGlobalOperator R Rplus Rmult 1 (-1) (factoryRows N m dim alpha ob ib MInv D MSigma sm) dim (Z.of_nat N) 0
              (match ib with [] => false | _ => true end) = Ok A /\
  forall g c0, boundedSource N Mass g c0 ->
  (forall u, drivenBy A N g u -> forall a b, a <= b -> size N Mass (u b) <= size N Mass (u a) + c0 * (b - a)) /\
  forall f imp K, drivenRates A N g f -> drivenStages A N g imp -> 0 <= K -> boundedBy A N Mass K ->
  forall ty s tr s', (0 <= ty <= 6)%Z -> 0 < s_dt s -> (1 <= ty)%Z \/ s_dt s * K <= 1 / 4 -> length (s_fields s) = (6 * N)%nat -> runR (list R) (odeStep f imp ty) s tr s' ->
  Forall (fun st => size N Mass (s_fields st) <= 2 * (size N Mass (s_fields s) + C ty * c0 * (s_time st - s_time s))) tr.
Proof.
  exists respC. intros N m dim alpha gb gi ob ib Mass MInv D MSigma sm DG T MF Ha Pa Wt Ps c Co.
  destruct (op N m dim alpha gb gi ob ib Mass MInv D MSigma sm DG T MF Ha Pa Wt Ps c Co) as (A & EA & (f0 & Ev) & (imp0 & St) & _). exists A. split; [exact EA|].
  intros g c0 Bs. split.
  - intros u Du. exact (growth N m dim alpha gb gi ob ib Mass MInv D MSigma sm DG T MF Ha Pa Wt Ps A EA f0 Ev g c0 u Bs Du).
  - intros f imp K Dr Ds K0 HK. exact (bounded_run N m dim alpha gb gi ob ib Mass MInv D MSigma sm DG T MF Ha Pa Wt Ps c Co A EA f0 Ev imp0 St K f imp g c0 K0 HK Bs Dr Ds).
Qed.
Theorem drive_error : exists C : Z -> R, forall N m dim alpha gb gi ob ib Mass MInv D MSigma sm,
  dgSpace N m dim Mass MInv D -> tables m gb gi ob ib -> massForm N Mass ->
  0 <= alpha -> passive m gb gi -> nonnegWeights m -> (forall v, 0 <= mform N MSigma v v) ->
  forall c, coercive N Mass c ->
  exists A, buildGlobalOperator R Rplus Rmult 1 (-1) (factoryRows N m dim alpha ob ib MInv D MSigma sm) dim (Z.of_nat N) 0
              (match ib with [] => false | _ => true end) = Ok A /\
  forall g used c0 c1 c2 eta u f imp K, smoothSource N Mass g c0 c1 c2 -> upTo N Mass eta used g ->
  drivenBy A N g u -> drivenRates A N used f -> drivenStages A N used imp -> 0 <= K -> boundedBy A N Mass K ->
  forall ty s tr s', (0 <= ty <= 6)%Z -> 0 < s_dt s -> s_dt s * K <= 1 / 4 -> s_fields s = u (s_time s) -> runR (list R) (odeStep f imp ty) s tr s' ->
  Forall (fun st => size N Mass (difference (s_fields st) (u (s_time st))) <=
    C ty * (s_time st - s_time s) * (driveError ty K c0 c1 c2 (size N Mass (u (s_time s)) + c0 * (s_final s - s_time s)) (s_dt s) + eta)) tr.
Proof.
  exists (fun ty => 2 * (forcedC ty + 1 + respC ty)). intros N m dim alpha gb gi ob ib Mass MInv D MSigma sm DG T MF Ha Pa Wt Ps c Co.
  destruct (op N m dim alpha gb gi ob ib Mass MInv D MSigma sm DG T MF Ha Pa Wt Ps c Co) as (A & EA & (f0 & Ev) & (imp0 & St) & _). exists A. split; [exact EA|].
  intros g used b0 b1 b2 eta u f imp K Sm Up Du Dr Ds K0 HK.
  exact (error_run N m dim alpha gb gi ob ib Mass MInv D MSigma sm DG T MF Ha Pa Wt Ps c Co A EA f0 Ev imp0 St K f imp g used b0 b1 b2 eta u K0 HK Sm Up Dr Ds Du).
Qed.

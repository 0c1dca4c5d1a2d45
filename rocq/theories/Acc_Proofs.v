(** Runs stay near every curve that nearly satisfies Maxwell's equations. *)
From Coq Require Import ZArith List Bool Reals Lia Lra.
From Verif Require Import Common Csr_Model Face_Model Face_Spec Setup_Model Setup_Spec Assembly_Model Form_Model Form_Spec Nodal_Spec NodalEnergy_Spec Global_Spec GlobalEnergy_Proofs GlobalBalance_Proofs Time_Model Ode_Model Ode_Spec Ode_Proofs OdeRk_Proofs OdeStep_Proofs OdeLin_Proofs OdeRun_Proofs OdeFin_Proofs OdeNorm_Proofs OdeExact_Proofs OdeLocal_Proofs OdeConv_Proofs OdeDrive_Proofs OdeForced_Proofs OdeDuh_Proofs Conv_Spec ConvFin_Proofs Drive_Spec DriveFin_Proofs DriveRun_Proofs Twin_Spec Consist_Spec Consist_Proofs Acc_Spec.
Import ListNotations.
Local Open Scope R_scope.

Lemma fld_add : forall N a k x f d i, length k = (6 * N)%nat -> length x = (6 * N)%nat -> fld N (addv a k x) f d i = fld N x f d i + a * fld N k f d i.
Proof. intros. unfold fld. rewrite (addv_nth (6 * N)) by assumption. reflexivity. Qed.

Lemma run_len : forall n (f : R -> list R -> list R) imp, (forall t x, length x = n -> length (f t x) = n) -> (forall t h x, length x = n -> 0 <= h -> length (imp t h x) = n) ->
  forall ty (s : solver (list R)) tr s', 0 < s_dt s -> length (s_fields s) = n -> runR (list R) (odeStep f imp ty) s tr s' -> Forall (fun st => length (s_fields st) = n) tr.
Proof.
  intros n f imp Lf Li ty.
  assert (P33 : 0 <= a33) by apply OdeStep_Proofs.a33_pos. assert (P23 : 0 <= gamma23) by apply OdeStep_Proofs.gamma23_pos. assert (P34 : 0 <= a34) by apply OdeStep_Proofs.a34_pos.
  assert (St : forall x t dt, length x = n -> 0 <= dt -> length (odeStep f imp ty x t dt) = n).
  { intros x t dt Hx Hd. unfold odeStep.
    assert (I : forall t' a y, 0 <= a -> length y = n -> length (imp t' (a * dt) y) = n) by (intros; apply Li; [assumption|apply Rmult_le_pos; assumption]).
    destruct (ty =? 0)%Z; [unfold rk4Step; repeat first [assumption|apply addv_len|apply Lf]|]. destruct (ty =? 1)%Z; [unfold backwardEulerStep; repeat first [assumption|apply addv_len|apply Li]|].
    destruct (ty =? 2)%Z; [unfold trapezoidalStep; repeat first [assumption|apply addv_len|apply Li|apply Lf|lra]|]. destruct (ty =? 3)%Z; [unfold implicitMidpointStep; repeat first [assumption|apply addv_len|apply Li|lra]|].
    destruct (ty =? 4)%Z; [unfold sdirk33Step; repeat first [assumption|apply addv_len|apply I|apply Li|lra]|]. destruct (ty =? 5)%Z; [unfold sdirk23Step; repeat first [assumption|apply addv_len|apply I|apply Li|lra]|].
    destruct (ty =? 6)%Z; [unfold sdirk34Step; repeat first [assumption|apply addv_len|apply I|apply Li|lra]|]. exact Hx. }
  intros s tr s' Hd Ls Rn. revert Hd Ls. induction Rn as [s G|s tr s' G Rn IH]; intros Hd Ls; [constructor|].
  pose proof (OdeRun_Proofs.guard_pos s Hd G) as (T1 & T2).
  assert (L1 : length (s_fields (stepR (list R) (odeStep f imp ty) s)) = n) by (cbn [stepR s_fields]; apply St; [exact Ls|lra]).
  constructor; [exact L1|]. apply IH; [exact Hd|exact L1].
Qed.

Section Acc.
Variable N : nat.
Variable m : fmesh.
Variable dim : Z.
Variable alpha : R.
Variable gb gi : list (Z * cond).
Variable ob ib : list (cond * marker).
Variable Mass MInv D : Z -> mat.
Variable MSigma : mat.
Variable sm : marker.
Hypothesis DG : dgSpace N m dim Mass MInv D.
Hypothesis T : tables m gb gi ob ib.
Hypothesis MF : massForm N Mass.
Hypothesis Ha : 0 <= alpha.
Hypothesis Pa : passive m gb gi.
Hypothesis Wt : nonnegWeights m.
Hypothesis Ps : forall v, 0 <= mform N MSigma v v.
Variable c : R.
Hypothesis Co : coercive N Mass c.
Notation n := (6 * N)%nat.
Notation B := (fieldRate N Mass).
Variable A : csr R.
Hypothesis EA : buildGlobalOperator R Rplus Rmult 1 (-1) (factoryRows N m dim alpha ob ib MInv D MSigma sm) dim (Z.of_nat N) 0
              (match ib with [] => false | _ => true end) = Ok A.

Lemma form_zero : forall z, length z = n -> (forall v f d, (f = 0 \/ f = 1)%Z -> (0 <= d < 3)%Z -> mform N (Mass f) v (fld N z f d) = 0) -> forall i, nth i z 0 = 0.
Proof.
  intros z Lz Hz i. destruct Co as (c0 & Cq). pose proof (coercive_entry N Mass MF c c0 Cq z i Lz) as Q.
  assert (Z0 : B z z = 0) by (unfold fieldRate, suml; cbn [map fold_right]; rewrite !Hz by lia; ring).
  rewrite Z0 in Q. assert (nth i z 0 * nth i z 0 <= 0) by nra. nra.
Qed.
Lemma near_driven : forall g w eps, (forall t, length (g t) = n) -> nearMaxwell N m dim gb gi Mass D MSigma g w eps ->
  exists r, boundedSource N Mass r eps /\ drivenBy A N (fun t => addv 1 (r t) (g t)) w.
Proof.
  intros g w eps Lg (dw & r & Nr). destruct (consistent N m dim alpha gb gi ob ib Mass MInv D MSigma sm DG T) as (A' & EA' & Q). unfold theOperator in EA'. rewrite EA in EA'. injection EA' as <-.
  exists r. split; [intros t; split; apply Nr|]. intros t. destruct (Nr t) as (Lw & Ld & Lr & Fi & Dv & Mx & _). split; [exact Lw|].
  destruct (Q (w t) Lw Fi) as (y & Hy & V). exists y. split; [exact Hy|]. intros i Hi. pose proof (proj1 Hy) as Ly.
  assert (E : nth i (dw t) 0 = nth i y 0 + nth i (addv 1 (r t) (g t)) 0).
  { set (z := addv (-1) (addv 1 (addv 1 (r t) (g t)) y) (dw t)).
    assert (L1 : length (addv 1 (r t) (g t)) = n) by (apply addv_len; [exact Lr|apply Lg]).
    assert (L2 : length (addv 1 (addv 1 (r t) (g t)) y) = n) by (apply addv_len; assumption).
    assert (Lz : length z = n) by (apply addv_len; assumption).
    assert (Z : nth i z 0 = 0).
    { apply form_zero; [exact Lz|]. intros v f d Hf Hd. specialize (Mx v f d Hf Hd). specialize (V v f d Hf Hd).
      rewrite (mform_ext N (Mass f) v (fld N z f d) (fun k => fld N (dw t) f d k + (-1) * (fld N y f d k + (fld N (g t) f d k + fld N (r t) f d k)))).
      - rewrite mform_plus, mform_scal, !mform_plus. rewrite Mx, V. ring.
      - intros k Hk. unfold z. rewrite !fld_add by auto. ring. }
    unfold z in Z. rewrite !(addv_nth n) in Z by auto. rewrite (addv_nth n) by auto. lra. }
  rewrite <- E. apply Dv, Hi.
Qed.

Lemma size_tri : forall x y z, length x = n -> length y = n -> length z = n -> size N Mass (difference x z) <= size N Mass (difference x y) + size N Mass (difference y z).
Proof.
  intros x y z Lx Ly Lz. rewrite !(difference_sub n) by assumption. apply to_size. eapply Rle_trans; [apply (nrm_tri n B (Badd' N Mass MF) (Bsym' N Mass MF) (Bpos' N Mass MF) x y z Lx Ly Lz)|].
  rewrite !size_nrm. right. ring.
Qed.
Lemma size_symm : forall x y, length x = n -> length y = n -> size N Mass (difference x y) = size N Mass (difference y x).
Proof.
  intros x y Lx Ly. rewrite !(difference_sub n) by assumption. pose proof (nrm_sym n B (Badd' N Mass MF) (Bsym' N Mass MF) x y Lx Ly) as Q. rewrite !size_nrm in Q.
  apply Rmult_eq_reg_l with (sqrt 2); [exact Q|]. apply Rgt_not_eq, sqrt_lt_R0. lra.
Qed.
Theorem near_fields : forall g u w eps, (forall t, length (g t) = n) -> drivenBy A N g u -> nearMaxwell N m dim gb gi Mass D MSigma g w eps ->
  forall a b, a <= b -> size N Mass (difference (u b) (w b)) <= size N Mass (difference (u a) (w a)) + eps * (b - a).
Proof.
  intros g u w eps Lg Du Nw a b Hab. destruct (near_driven g w eps Lg Nw) as (r & Br & Dw).
  destruct (op N m dim alpha gb gi ob ib Mass MInv D MSigma sm DG T MF Ha Pa Wt Ps c Co) as (A' & EA' & (f0 & Ev) & (imp0 & St) & _). rewrite EA in EA'. injection EA' as <-.
  assert (Lu : forall t, length (u t) = n) by (intros; apply Du). assert (Lw : forall t, length (w t) = n) by (intros; apply Dw). assert (Lr : forall t, length (r t) = n) by (intros; apply Br).
  assert (De : drivenBy A N r (fun t => sub (w t) (u t))).
  { intros t. split; [apply sub_len; auto|]. exists (f0 0 (sub (w t) (u t))). split; [apply Ev, sub_len; auto|]. intros i Hi.
    destruct (Du t) as (_ & yu & Yu & Fu). destruct (Dw t) as (_ & yw & Yw & Fw). specialize (Fu i Hi). specialize (Fw i Hi).
    rewrite (applies_unique N A _ _ _ Yu (Ev 0 (u t) (Lu t))) in Fu. rewrite (applies_unique N A _ _ _ Yw (Ev 0 (w t) (Lw t))) in Fw.
    rewrite (addv_nth n) in Fw by auto. unfold sub at 2. rewrite (Fadd' N A f0 Ev), (addv_nth n) by (auto; apply Ev; auto).
    apply (derivable_pt_lim_ext (fun s => nth i (w s) 0 - nth i (u s) 0)); [intros; rewrite (sub_nth n) by auto; reflexivity|].
    replace (nth i (f0 0 (w t)) 0 + -1 * nth i (f0 0 (u t)) 0 + nth i (r t) 0) with (nth i (f0 0 (w t)) 0 + (nth i (g t) 0 + 1 * nth i (r t) 0) - (nth i (f0 0 (u t)) 0 + nth i (g t) 0)) by ring.
    apply derivable_pt_lim_minus; assumption. }
  pose proof (growth N m dim alpha gb gi ob ib Mass MInv D MSigma sm DG T MF Ha Pa Wt Ps A EA f0 Ev r eps _ Br De a b Hab) as Q. cbv beta in Q.
  rewrite <- !(difference_sub n) in Q by auto. rewrite (size_symm (u b)), (size_symm (u a)) by auto. exact Q.
Qed.
End Acc.

Section Closed.
Notation built N m dim alpha ob ib MInv D MSigma sm A := (buildGlobalOperator R Rplus Rmult 1 (-1) (factoryRows N m dim alpha ob ib MInv D MSigma sm) dim (Z.of_nat N) 0
              (match ib with [] => false | _ => true end) = Ok A).
Theorem acc_fields : forall N m dim alpha gb gi ob ib Mass MInv D MSigma sm,
  dgSpace N m dim Mass MInv D -> tables m gb gi ob ib -> massForm N Mass ->
  0 <= alpha -> passive m gb gi -> nonnegWeights m -> (forall v, 0 <= mform N MSigma v v) ->
  forall c, coercive N Mass c ->
  exists A, built N m dim alpha ob ib MInv D MSigma sm A /\
  forall g u w eps, (forall t, length (g t) = (6 * N)%nat) -> drivenBy A N g u -> nearMaxwell N m dim gb gi Mass D MSigma g w eps ->
  forall a b, a <= b -> size N Mass (difference (u b) (w b)) <= size N Mass (difference (u a) (w a)) + eps * (b - a).
Proof.
  intros N m dim alpha gb gi ob ib Mass MInv D MSigma sm DG T MF Ha Pa Wt Ps c Co.
  destruct (op N m dim alpha gb gi ob ib Mass MInv D MSigma sm DG T MF Ha Pa Wt Ps c Co) as (A & EA & _). exists A. split; [exact EA|].
  exact (near_fields N m dim alpha gb gi ob ib Mass MInv D MSigma sm DG T MF Ha Pa Wt Ps c Co A EA).
Qed.
Theorem acc_solution : forall N m dim alpha gb gi ob ib Mass MInv D MSigma sm,
  dgSpace N m dim Mass MInv D -> tables m gb gi ob ib -> massForm N Mass ->
  0 <= alpha -> passive m gb gi -> nonnegWeights m -> (forall v, 0 <= mform N MSigma v v) ->
  forall c, coercive N Mass c ->
  exists A, built N m dim alpha ob ib MInv D MSigma sm A /\
  forall g w, (forall t, length (g t) = (6 * N)%nat) -> nearMaxwell N m dim gb gi Mass D MSigma g w 0 -> drivenBy A N g w.
Proof.
  intros N m dim alpha gb gi ob ib Mass MInv D MSigma sm DG T MF Ha Pa Wt Ps c Co.
  destruct (op N m dim alpha gb gi ob ib Mass MInv D MSigma sm DG T MF Ha Pa Wt Ps c Co) as (A & EA & _). exists A. split; [exact EA|].
  intros g w Lg Nw. destruct (near_driven N m dim alpha gb gi ob ib Mass MInv D MSigma sm DG T MF c Co A EA g w 0 Lg Nw) as (r & Br & Dw).
  intros t. destruct (Dw t) as (L & y & Y & Dy). split; [exact L|]. exists y. split; [exact Y|]. intros i Hi. specialize (Dy i Hi). destruct (Br t) as (Lr & Sr).
  rewrite (addv_nth (6 * N)) in Dy by auto.
  assert (Z : nth i (r t) 0 = 0).
  { assert (S0 : size N Mass (r t) = 0) by (pose proof (size_pos N Mass (r t)); lra). pose proof (Bpos' N Mass MF (r t) Lr) as P.
    assert (E0 : fieldRate N Mass (r t) (r t) = 0) by (unfold size, fieldEnergy in S0; apply sqrt_eq_0 in S0; lra).
    destruct Co as (c0 & Cq). pose proof (coercive_entry N Mass MF c c0 Cq (r t) i Lr) as Q. rewrite E0 in Q. assert (nth i (r t) 0 * nth i (r t) 0 <= 0) by nra. nra. }
  rewrite Z, Rmult_0_r, Rplus_0_r in Dy. exact Dy.
Qed.
Theorem acc_run : exists C : Z -> R, forall N m dim alpha gb gi ob ib Mass MInv D MSigma sm,
  dgSpace N m dim Mass MInv D -> tables m gb gi ob ib -> massForm N Mass ->
  0 <= alpha -> passive m gb gi -> nonnegWeights m -> (forall v, 0 <= mform N MSigma v v) ->
  forall c, coercive N Mass c ->
  exists A, built N m dim alpha ob ib MInv D MSigma sm A /\
  forall f imp K w eps, evaluates A N f -> solvesStages A N imp -> 0 <= K -> boundedBy A N Mass K -> nearMaxwell N m dim gb gi Mass D MSigma (noSource N) w eps ->
  forall ty s tr s', (0 <= ty <= 6)%Z -> 0 < s_dt s -> s_dt s * K <= 1 / 4 -> length (s_fields s) = (6 * N)%nat -> runR (list R) (odeStep f imp ty) s tr s' ->
  Forall (fun st => size N Mass (difference (s_fields st) (w (s_time st))) <=
    size N Mass (difference (s_fields s) (w (s_time s))) + eps * (s_time st - s_time s) +
    C ty * ((s_dt s * K) ^ order ty + constantError ty (s_dt s * K)) * (K * (s_time st - s_time s)) * size N Mass (s_fields s)) tr.
Proof.
  destruct fin_error as (C & FE). exists C. intros N m dim alpha gb gi ob ib Mass MInv D MSigma sm DG T MF Ha Pa Wt Ps c Co.
  destruct (FE N m dim alpha gb gi ob ib Mass MInv D MSigma sm DG T MF Ha Pa Wt Ps c Co) as (A & EA & Er). exists A. split; [exact EA|].
  intros f imp K w eps Ev St K0 HK Nw ty s tr s' Hty Hd HdK Lf Rn.
  destruct (fin_solution N m dim alpha gb gi ob ib Mass MInv D MSigma sm DG T MF Ha Pa Wt Ps c Co) as (A' & EA' & So). rewrite EA in EA'. injection EA' as <-.
  destruct (So (s_time s) (s_fields s) Lf) as (u & Eu & Us & _).
  pose proof (Er f imp K u Ev St K0 HK Eu ty s tr s' Hty Hd HdK (eq_sym Us) Rn) as Q. pose proof (late_none f imp ty s tr s' Hd Rn) as Lt.
  assert (Ld : drivenBy A N (noSource N) u).
  { intros t. destruct (Eu t) as (L & y & Y & Dy). split; [exact L|]. exists y. split; [exact Y|]. intros i Hi. unfold noSource. rewrite nth_zero, Rplus_0_r. apply Dy, Hi. }
  assert (Ls : Forall (fun st => length (s_fields st) = (6 * N)%nat) tr).
  { apply (run_len _ f imp (fun t x L => proj1 (Ev t x L)) (fun t h x L H => proj1 (St t h x L H)) ty s tr s' Hd Lf Rn). }
  rewrite Forall_forall in *. intros st Hst. specialize (Q st Hst). specialize (Lt st Hst). specialize (Ls st Hst).
  pose proof (near_fields N m dim alpha gb gi ob ib Mass MInv D MSigma sm DG T MF Ha Pa Wt Ps c Co A EA (noSource N) u w eps (fun t => repeat_length _ _) Ld Nw (s_time s) (s_time st) (proj1 Lt)) as Q2.
  rewrite Us in Q, Q2. assert (Lw : forall t, length (w t) = (6 * N)%nat) by (destruct Nw as (dw & r & Nw); intros t; apply Nw).
  pose proof (size_tri N Mass MF (s_fields st) (u (s_time st)) (w (s_time st)) Ls (proj1 (Eu _)) (Lw _)). lra.
Qed.
Theorem acc_driven : exists C : Z -> R, forall N m dim alpha gb gi ob ib Mass MInv D MSigma sm,
  dgSpace N m dim Mass MInv D -> tables m gb gi ob ib -> massForm N Mass ->
  0 <= alpha -> passive m gb gi -> nonnegWeights m -> (forall v, 0 <= mform N MSigma v v) ->
  forall c, coercive N Mass c ->
  exists A, built N m dim alpha ob ib MInv D MSigma sm A /\
  forall g used c0 c1 c2 eta f imp K w eps, smoothSource N Mass g c0 c1 c2 -> upTo N Mass eta used g ->
  drivenRates A N used f -> drivenStages A N used imp -> 0 <= K -> boundedBy A N Mass K -> nearMaxwell N m dim gb gi Mass D MSigma g w eps ->
  forall ty s tr s', (0 <= ty <= 6)%Z -> 0 < s_dt s -> s_dt s * K <= 1 / 4 -> length (s_fields s) = (6 * N)%nat -> runR (list R) (odeStep f imp ty) s tr s' ->
  Forall (fun st => size N Mass (difference (s_fields st) (w (s_time st))) <=
    size N Mass (difference (s_fields s) (w (s_time s))) + eps * (s_time st - s_time s) +
    C ty * (s_time st - s_time s) * (driveError ty K c0 c1 c2 (size N Mass (s_fields s) + c0 * (s_final s - s_time s)) (s_dt s) + eta)) tr.
Proof.
  destruct drive_error as (C & FE). exists C. intros N m dim alpha gb gi ob ib Mass MInv D MSigma sm DG T MF Ha Pa Wt Ps c Co.
  destruct (FE N m dim alpha gb gi ob ib Mass MInv D MSigma sm DG T MF Ha Pa Wt Ps c Co) as (A & EA & Er). exists A. split; [exact EA|].
  intros g used c0 c1 c2 eta f imp K w eps Sm Up Dr Ds K0 HK Nw ty s tr s' Hty Hd HdK Lf Rn.
  destruct (drive_solution N m dim alpha gb gi ob ib Mass MInv D MSigma sm DG T MF Ha Pa Wt Ps c Co) as (A' & EA' & _ & So). rewrite EA in EA'. injection EA' as <-.
  assert (Lg : forall t, length (g t) = (6 * N)%nat) by (destruct Sm as (? & ? & _ & _ & Q0 & _); intros; apply Q0).
  assert (Cg : forall i t, continuity_pt (fun s => nth i (g s) 0) t).
  { intros i t. destruct (lt_dec i (6 * N)) as [Hi|Hi].
    - destruct Sm as (g1 & g2 & Ch & _). apply derivable_continuous_pt. exists (nth i (g1 t) 0). apply Ch, Hi.
    - apply (cont_ext (fun _ => 0)); [intros y; symmetry; rewrite nth_overflow; [reflexivity|rewrite Lg; lia]|apply continuity_pt_const; intros a b; reflexivity]. }
  destruct (So g Lg Cg (s_time s) (s_fields s) Lf) as (u & Eu & Us & _).
  pose proof (Er g used c0 c1 c2 eta u f imp K Sm Up Eu Dr Ds K0 HK ty s tr s' Hty Hd HdK (eq_sym Us) Rn) as Q. pose proof (late_none f imp ty s tr s' Hd Rn) as Lt.
  pose proof (run_len _ f imp (fun t x L => proj1 (Dr t x L)) (fun t h x L H => proj1 (Ds t h x L H)) ty s tr s' Hd Lf Rn) as Ls.
  rewrite Forall_forall in *. intros st Hst. specialize (Q st Hst). specialize (Lt st Hst). specialize (Ls st Hst).
  pose proof (near_fields N m dim alpha gb gi ob ib Mass MInv D MSigma sm DG T MF Ha Pa Wt Ps c Co A EA g u w eps Lg Eu Nw (s_time s) (s_time st) (proj1 Lt)) as Q2.
  rewrite Us in Q, Q2. assert (Lw : forall t, length (w t) = (6 * N)%nat) by (destruct Nw as (dw & r & Nw); intros t; apply Nw).
  pose proof (size_tri N Mass MF (s_fields st) (u (s_time st)) (w (s_time st)) Ls (proj1 (Eu _)) (Lw _)). lra.
Qed.
End Closed.

(** The statements about runs with a source on the assembled operator. *)
From Coq Require Import ZArith List Bool Reals Lia Lra.
From Verif Require Import Common Csr_Model Face_Model Face_Spec Setup_Model Setup_Spec Assembly_Model Form_Model Form_Spec Nodal_Spec NodalEnergy_Spec Global_Spec GlobalBalance_Proofs Time_Model Ode_Model Ode_Spec Ode_Proofs OdeRk_Proofs OdeStep_Proofs OdeLin_Proofs OdeRun_Proofs OdeFin_Proofs OdeNorm_Proofs OdeExact_Proofs OdeLocal_Proofs OdeConv_Proofs OdeDrive_Proofs OdeForced_Proofs Conv_Spec ConvFin_Proofs Drive_Spec.
Import ListNotations.
Local Open Scope R_scope.

(** ** Smooth curves *)
Section Smooth.
Variable n : nat.
Variable B : list R -> list R -> R.
Hypothesis Badd : forall a k x y, length k = n -> length x = n -> length y = n -> B (addv a k x) y = B x y + a * B k y.
Hypothesis Bsym : forall x y, length x = n -> length y = n -> B x y = B y x.
Hypothesis Bpos : forall x, length x = n -> 0 <= B x x.
Notation nrm := (nrm B).
Variables g g1 g2 : R -> list R.
Hypothesis Lg : forall t, length (g t) = n.
Hypothesis Lg1 : forall t, length (g1 t) = n.
Hypothesis Lg2 : forall t, length (g2 t) = n.
Hypothesis D1 : forall t i, (i < n)%nat -> derivable_pt_lim (fun s => nth i (g s) 0) t (nth i (g1 t) 0).
Hypothesis D2 : forall t i, (i < n)%nat -> derivable_pt_lim (fun s => nth i (g1 s) 0) t (nth i (g2 t) 0).
Variables c1 c2 : R.
Hypothesis H1 : forall t, nrm (g1 t) <= c1.
Hypothesis H2 : forall t, nrm (g2 t) <= c2.
Lemma c1p : 0 <= c1. Proof. pose proof (H1 0). pose proof (nrm_pos B (g1 0)). lra. Qed.
Lemma c2p : 0 <= c2. Proof. pose proof (H2 0). pose proof (nrm_pos B (g2 0)). lra. Qed.
(** A curve that starts at zero grows at most with its speed, in both directions of time. *)
Lemma both_ways : forall (r r' : R -> list R) M S, (forall s, length (r s) = n) -> (forall s, length (r' s) = n) -> 0 <= M ->
  (forall s i, (i < n)%nat -> derivable_pt_lim (fun s => nth i (r s) 0) s (nth i (r' s) 0)) -> (forall i, nth i (r 0) 0 = 0) ->
  (forall s, Rabs s <= Rabs S -> nrm (r' s) <= M) -> nrm (r S) <= M * Rabs S.
Proof.
  intros r r' M S Lr Lr' HM Dr Z Bd. destruct (Rle_dec 0 S) as [P|P].
  - rewrite (Rabs_pos_eq S P). apply (vec_mvt n B Badd Bsym Bpos r r' S M Lr Lr' P HM Dr Z). intros s Hs. apply Bd. rewrite !Rabs_pos_eq by lra. lra.
  - set (q := fun s => r (- s)). set (q' := fun s => addv (-1) (r' (- s)) (repeat 0 n)).
    assert (Lq' : forall s, length (q' s) = n) by (intros; apply addv_len; [apply Lr'|apply repeat_length]).
    assert (Q : nrm (q (- S)) <= M * (- S)).
    { apply (vec_mvt n B Badd Bsym Bpos q q'); [intros; apply Lr|exact Lq'|lra|exact HM| |unfold q; rewrite Ropp_0; exact Z|].
      - intros s i Hi. unfold q'. rewrite (addv_nth n), nth_zero by (apply Lr' || apply repeat_length).
        pose proof (derivable_pt_lim_comp Ropp (fun s => nth i (r s) 0) s (-1) (nth i (r' (- s)) 0) (derivable_pt_lim_opp id s 1 (derivable_pt_lim_id s)) (Dr (- s) i Hi)) as X.
        replace (0 + -1 * nth i (r' (- s)) 0) with (nth i (r' (- s)) 0 * -1) by ring. exact X.
      - intros s Hs. unfold q'. rewrite (nrm_scal n B Badd Bsym) by apply Lr'. replace (Rabs (-1)) with 1 by (rewrite Rabs_left; lra). rewrite Rmult_1_l. apply Bd. rewrite Rabs_Ropp, Rabs_pos_eq, Rabs_left by lra. lra. }
    unfold q in Q. rewrite Ropp_involutive in Q. rewrite Rabs_left by lra. exact Q.
Qed.
Lemma shifted : forall t i (w w' : R -> list R), (i < n)%nat -> (forall t i, (i < n)%nat -> derivable_pt_lim (fun s => nth i (w s) 0) t (nth i (w' t) 0)) ->
  forall s, derivable_pt_lim (fun s => nth i (w (t + s)) 0) s (nth i (w' (t + s)) 0).
Proof.
  intros t i w w' Hi Dw s. intros e He. destruct (Dw (t + s) i Hi e He) as (d & Hd). exists d. intros k Nk Hk. rewrite <- Rplus_assoc. apply Hd; assumption.
Qed.
Lemma lip_g : forall s t, nrm (sub (g s) (g t)) <= c1 * Rabs (s - t).
Proof.
  intros s t. set (r := fun s => sub (g (t + s)) (g t)).
  assert (Q : nrm (r (s - t)) <= c1 * Rabs (s - t)).
  { apply (both_ways r (fun s => g1 (t + s))); [intros; apply sub_len; apply Lg|intros; apply Lg1|exact c1p| | |intros; apply H1].
    - intros q i Hi. apply (derivable_pt_lim_ext (fun s => nth i (g (t + s)) 0 - nth i (g t) 0)); [intros; unfold r; rewrite (sub_nth n) by apply Lg; reflexivity|].
      replace (nth i (g1 (t + q)) 0) with (nth i (g1 (t + q)) 0 - 0) by ring. apply derivable_pt_lim_minus; [apply (shifted t i g g1 Hi D1)|apply derivable_pt_lim_const].
    - intros i. unfold r. rewrite (sub_nth n), Rplus_0_r by apply Lg. ring. }
  unfold r in Q. replace (t + (s - t)) with s in Q by ring. exact Q.
Qed.
Lemma lip_g1 : forall s t, nrm (sub (g1 s) (g1 t)) <= c2 * Rabs (s - t).
Proof.
  intros s t. set (r := fun s => sub (g1 (t + s)) (g1 t)).
  assert (Q : nrm (r (s - t)) <= c2 * Rabs (s - t)).
  { apply (both_ways r (fun s => g2 (t + s))); [intros; apply sub_len; apply Lg1|intros; apply Lg2|exact c2p| | |intros; apply H2].
    - intros q i Hi. apply (derivable_pt_lim_ext (fun s => nth i (g1 (t + s)) 0 - nth i (g1 t) 0)); [intros; unfold r; rewrite (sub_nth n) by apply Lg1; reflexivity|].
      replace (nth i (g2 (t + q)) 0) with (nth i (g2 (t + q)) 0 - 0) by ring. apply derivable_pt_lim_minus; [apply (shifted t i g1 g2 Hi D2)|apply derivable_pt_lim_const].
    - intros i. unfold r. rewrite (sub_nth n), Rplus_0_r by apply Lg1. ring. }
  unfold r in Q. replace (t + (s - t)) with s in Q by ring. exact Q.
Qed.
Lemma taylor_g : forall s t, nrm (sub (g s) (addv (s - t) (g1 t) (g t))) <= c2 * ((s - t) * (s - t)).
Proof.
  intros s t. set (r := fun s => sub (g (t + s)) (addv s (g1 t) (g t))).
  assert (La : forall s, length (addv s (g1 t) (g t)) = n) by (intros; apply addv_len; [apply Lg1|apply Lg]).
  assert (Q : nrm (r (s - t)) <= c2 * Rabs (s - t) * Rabs (s - t)).
  { apply (both_ways r (fun s => sub (g1 (t + s)) (g1 t))); [intros; apply sub_len; [apply Lg|apply La]|intros; apply sub_len; apply Lg1|apply Rmult_le_pos; [exact c2p|apply Rabs_pos]| | |].
    - intros q i Hi. apply (derivable_pt_lim_ext (fun s => nth i (g (t + s)) 0 - (nth i (g t) 0 + s * nth i (g1 t) 0))); [intros; unfold r; rewrite (sub_nth n), (addv_nth n) by (apply Lg || apply La || apply Lg1); reflexivity|].
      rewrite (sub_nth n) by apply Lg1. apply derivable_pt_lim_minus; [apply (shifted t i g g1 Hi D1)|].
      replace (nth i (g1 t) 0) with (0 + (1 * nth i (g1 t) 0 + q * 0)) at 1 by ring. apply derivable_pt_lim_plus; [apply derivable_pt_lim_const|]. apply (derivable_pt_lim_mult (fun s => s) (fun _ => nth i (g1 t) 0)); [apply derivable_pt_lim_id|apply derivable_pt_lim_const].
    - intros i. unfold r. rewrite (sub_nth n), (addv_nth n), Rplus_0_r by (apply Lg || apply La || apply Lg1). ring.
    - intros q Hq. eapply Rle_trans; [apply lip_g1|]. replace (t + q - t) with q by ring. apply Rmult_le_compat_l; [exact c2p|exact Hq]. }
  unfold r in Q. replace (t + (s - t)) with s in Q by ring.
  rewrite Rmult_assoc, <- Rabs_mult, (Rabs_pos_eq ((s - t) * (s - t))) in Q by apply Rle_0_sqr. exact Q.
Qed.
End Smooth.

Section Fin.
Variable N : nat.
Variable m : fmesh.
Variable dim : Z.
Variable alpha : R.
Variable gb gi : list (Z * cond).
Variable ob ib : list (cond * marker).
Variable Mass MInv D : Z -> mat.
Variable MSigma : mat.
Variable sm : marker.
Hypothesis DG : dgSpace N m dim Mass MInv D.
Hypothesis T : tables m gb gi ob ib.
Hypothesis MF : massForm N Mass.
Notation built A := (buildGlobalOperator R Rplus Rmult 1 (-1) (factoryRows N m dim alpha ob ib MInv D MSigma sm) dim (Z.of_nat N) 0
              (match ib with [] => false | _ => true end) = Ok A).
Hypothesis Ha : 0 <= alpha.
Hypothesis Pa : passive m gb gi.
Hypothesis Wt : nonnegWeights m.
Hypothesis Ps : forall v, 0 <= mform N MSigma v v.
Variable c : R.
Hypothesis Co : coercive N Mass c.
Notation n := (6 * N)%nat.
Notation B := (fieldRate N Mass).
Let BA := Badd' N Mass MF.
Let BS := Bsym' N Mass MF.
Let BP := Bpos' N Mass MF.
Lemma s2 : 0 < sqrt 2. Proof. apply sqrt_lt_R0. lra. Qed.
Lemma size_pos : forall x, 0 <= size N Mass x. Proof. intros. apply sqrt_pos. Qed.
Lemma of_size : forall x b, size N Mass x <= b -> nrm B x <= sqrt 2 * b.
Proof. intros x b H. rewrite size_nrm. apply Rmult_le_compat_l; [left; apply s2|exact H]. Qed.
Lemma to_size : forall x b, nrm B x <= sqrt 2 * b -> size N Mass x <= b.
Proof. intros x b H. rewrite size_nrm in H. apply Rmult_le_reg_l with (sqrt 2); [apply s2|exact H]. Qed.

Section Op.
Variable A : csr R.
Hypothesis EA : built A.
Variable f0 : R -> list R -> list R.
Hypothesis Ev : evaluates A N f0.
Variable imp0 : R -> R -> list R -> list R.
Hypothesis St : solvesStages A N imp0.
Notation F := (f0 0).
Let FL := Flen' N A f0 Ev.
Let FA := Fadd' N A f0 Ev.
Let FD := Diss' N Mass A f0 Ev (diss N m dim alpha gb gi ob ib Mass MInv D MSigma sm DG T Ha Pa Wt Ps A EA).
Lemma app_F : forall x y, length x = n -> applies A N x y -> y = F x.
Proof. intros x y Lx Y. apply (applies_unique N A x); [exact Y|apply Ev, Lx]. Qed.
Lemma rates_are : forall g f, (forall t, length (g t) = n) -> drivenRates A N g f -> forall t x, length x = n -> f t x = addv 1 (g t) (F x).
Proof.
  intros g f Lg Dr t x Lx. destruct (Dr t x Lx) as (Lf & y & Y & E). rewrite (app_F x y Lx Y) in E. apply (list_eq n); [exact Lf|apply addv_len; [apply Lg|apply FL, Lx]|].
  intros i. rewrite (addv_nth n), E by (apply Lg || apply FL, Lx). ring.
Qed.
Lemma stages_are : forall g imp, (forall t, length (g t) = n) -> drivenStages A N g imp -> forall t h x, length x = n -> 0 <= h ->
  length (imp t h x) = n /\ imp t h x = addv 1 (g t) (F (addv h (imp t h x) x)).
Proof.
  intros g imp Lg Dr t h x Lx Hh. destruct (Dr t h x Lx Hh) as (Lk & E). split; [exact Lk|].
  assert (Ly : length (addv h (imp t h x) x) = n) by (apply addv_len; assumption).
  destruct (E (addv h (imp t h x) x) Ly) as (z & Z & Ez); [intros i; rewrite (addv_nth n) by assumption; reflexivity|].
  rewrite (app_F _ z Ly Z) in Ez. apply (list_eq n); [exact Lk|apply addv_len; [apply Lg|apply FL, Ly]|].
  intros i. rewrite (addv_nth n) by (apply Lg || apply FL, Ly). rewrite Ez. ring.
Qed.
Lemma driven_is : forall g u, (forall t, length (g t) = n) -> drivenBy A N g u -> (forall t, length (u t) = n) /\
  forall t i, (i < n)%nat -> derivable_pt_lim (fun s => nth i (u s) 0) t (nth i (addv 1 (g t) (F (u t))) 0).
Proof.
  intros g u Lg Du. split; [intros t; apply Du|]. intros t i Hi. destruct (Du t) as (Lt & y & Y & E). rewrite (app_F _ y Lt Y) in E.
  rewrite (addv_nth n) by (apply Lg || apply FL, Lt). rewrite Rmult_1_l. apply E, Hi.
Qed.
Theorem bounded_run : forall K f imp g gam, 0 <= K -> boundedBy A N Mass K -> boundedSource N Mass g gam -> drivenRates A N g f -> drivenStages A N g imp ->
  forall ty s tr s', (0 <= ty <= 6)%Z -> 0 < s_dt s -> (1 <= ty)%Z \/ s_dt s * K <= 1 / 4 -> length (s_fields s) = n -> runR (list R) (odeStep f imp ty) s tr s' ->
  Forall (fun st => size N Mass (s_fields st) <= 2 * (size N Mass (s_fields s) + respC ty * gam * (s_time st - s_time s))) tr.
Proof.
  intros K f imp g gam K0 HK Bs Dr Ds ty s tr s' Hty Hd Sm Lf Rn. destruct Co as (c0 & Cq).
  assert (Lg : forall t, length (g t) = n) by (intros; apply Bs). assert (G0 : 0 <= gam) by (destruct (Bs 0) as (_ & Q); pose proof (size_pos (g 0)); lra).
  pose proof (run_bounded n B BA BS BP F FL FA FD c c0 (coercive_entry N Mass MF c c0 Cq) K K0 (HK' N Mass A f0 Ev K HK) f0 (fF' N A f0 Ev) imp0 (impS' N A f0 Ev imp0 St)
    g Lg f (rates_are g f Lg Dr) imp (stages_are g imp Lg Ds) (sqrt 2 * gam) (Rmult_le_pos _ _ (Rlt_le _ _ s2) G0) (fun s => of_size _ _ (proj2 (Bs s))) ty s tr s' Hty Hd Sm Lf Rn) as Q.
  eapply Forall_impl; [|exact Q]. intros st (_ & _ & Q1). apply to_size. eapply Rle_trans; [exact Q1|]. rewrite size_nrm. right. ring.
Qed.
Theorem growth : forall g gam u, boundedSource N Mass g gam -> drivenBy A N g u -> forall a b, a <= b -> size N Mass (u b) <= size N Mass (u a) + gam * (b - a).
Proof.
  intros g gam u Bs Du a b Hab. assert (Lg : forall t, length (g t) = n) by (intros; apply Bs). destruct (driven_is g u Lg Du) as (Lu & Du').
  pose proof (u_growth n B BA BS BP F FL FD g Lg (sqrt 2 * gam) (fun s => of_size _ _ (proj2 (Bs s))) u Lu Du' a b Hab) as Q.
  apply to_size. eapply Rle_trans; [exact Q|]. rewrite size_nrm. right. ring.
Qed.
Lemma respC_pos : forall ty, (0 <= ty <= 6)%Z -> 0 <= respC ty.
Proof.
  intros ty H. unfold respC. assert (G : forall a k z, 0 <= db k -> 0 <= db z -> 0 <= db (dadd a k z)) by (intros; cbn; pose proof (Rabs_pos a); assert (0 <= Rabs a * db k) by (apply Rmult_le_pos; assumption); lra).
  assert (GF : forall t th z, 0 <= db z -> 0 <= db (dF t th z)) by (intros; cbn; lra).
  assert (GS : forall a t th z, 0 < a -> 0 <= db z -> 0 <= db (dst a t th z)) by (intros; cbn; assert (0 <= 2 * db z / a) by (unfold Rdiv; apply Rmult_le_pos; [lra|left; apply Rinv_0_lt_compat; assumption]); lra).
  assert (Z0 : 0 <= db d0) by (cbn; lra).
  assert (A3 : 0 < a33) by (unfold a33; lra).
  assert (A2 : 0 < gamma23) by (unfold gamma23; assert (sqrt 2 < 2) by (rewrite <- (sqrt_square 2) at 2 by lra; apply sqrt_lt_1; lra); lra).
  assert (A4 : 0 < a34) by (unfold a34; assert (0 < 1 / sqrt 3) by (apply Rdiv_lt_0_compat; [lra|apply sqrt_lt_R0; lra]); assert (0 < cos (PI / 18)) by (apply cos_gt_0; pose proof PI_RGT_0; lra); assert (0 < 1 / sqrt 3 * cos (PI / 18)) by (apply Rmult_lt_0_compat; assumption); lra).
  assert (X : (ty = 0 \/ ty = 1 \/ ty = 2 \/ ty = 3 \/ ty = 4 \/ ty = 5 \/ ty = 6)%Z) by lia.
  destruct X as [-> | [-> | [-> | [-> | [-> | [-> | ->]]]]]]; cbn [dOf Z.eqb Pos.eqb]; unfold dk4, dBe, dTr, dMp, d33, d23, d34; cbv zeta; repeat first [exact Z0|exact A3|exact A2|exact A4|apply G|apply GF|apply GS|lra].
Qed.
Theorem error_run : forall K f imp g used c0 c1 c2 eta u, 0 <= K -> boundedBy A N Mass K -> smoothSource N Mass g c0 c1 c2 -> upTo N Mass eta used g ->
  drivenRates A N used f -> drivenStages A N used imp -> drivenBy A N g u ->
  forall ty s tr s', (0 <= ty <= 6)%Z -> 0 < s_dt s -> s_dt s * K <= 1 / 4 -> s_fields s = u (s_time s) -> runR (list R) (odeStep f imp ty) s tr s' ->
  Forall (fun st => size N Mass (difference (s_fields st) (u (s_time st))) <=
    2 * (forcedC ty + 1 + respC ty) * (s_time st - s_time s) * (driveError ty K c0 c1 c2 (size N Mass (u (s_time s)) + c0 * (s_final s - s_time s)) (s_dt s) + eta)) tr.
Proof.
  intros K f imp g used b0 b1 b2 eta u K0 HK (g1 & g2 & D1 & D2 & B0 & B1 & B2) Up Dr Ds Du ty s tr s' Hty Hd HdK Hf Rn. destruct Co as (c0 & Cq).
  assert (Lg : forall t, length (g t) = n) by (intros; apply B0). assert (Lg1 : forall t, length (g1 t) = n) by (intros; apply B1). assert (Lg2 : forall t, length (g2 t) = n) by (intros; apply B2).
  assert (Lr : forall t, length (used t) = n) by (intros; apply Up). destruct (driven_is g u Lg Du) as (Lu & Du').
  assert (P0 : 0 <= b0) by (destruct (B0 0) as (_ & Q); pose proof (size_pos (g 0)); lra).
  assert (P1 : 0 <= b1) by (destruct (B1 0) as (_ & Q); pose proof (size_pos (g1 0)); lra).
  assert (P2 : 0 <= b2) by (destruct (B2 0) as (_ & Q); pose proof (size_pos (g2 0)); lra).
  assert (Pe : 0 <= eta) by (destruct (Up 0) as (_ & Q); pose proof (size_pos (difference (used 0) (g 0))); lra).
  destruct (Rlt_le_dec (s_final s) (s_time s)) as [Late|Early].
  { destruct tr as [|st tr]; [constructor|]. exfalso. inversion Rn as [|s0 tr0 s0' G Rn' E1]; subst. unfold guardR in G. destruct (Rle_dec _ _); [lra|discriminate]. }
  set (U := size N Mass (u (s_time s)) + b0 * (s_final s - s_time s)).
  assert (HU : forall t, s_time s <= t <= s_final s -> nrm B (u t) <= sqrt 2 * U).
  { intros t Ht. apply of_size. eapply Rle_trans; [apply (growth g b0 u B0 Du (s_time s) t); lra|]. unfold U. assert (b0 * (t - s_time s) <= b0 * (s_final s - s_time s)) by (apply Rmult_le_compat_l; lra). lra. }
  assert (Hr : forall t, nrm B (sub (used t) (g t)) <= sqrt 2 * eta).
  { intros t. rewrite <- (difference_sub n) by (apply Lr || apply Lg). apply of_size, Up. }
  assert (W : forall x, 0 <= x -> 0 <= sqrt 2 * x) by (intros; apply Rmult_le_pos; [left; apply s2|assumption]).
  assert (H1 : forall t, nrm B (g1 t) <= sqrt 2 * b1) by (intros; apply of_size, B1). assert (H2 : forall t, nrm B (g2 t) <= sqrt 2 * b2) by (intros; apply of_size, B2).
  pose proof (run_forced n B BA BS BP F FL FA FD c c0 (coercive_entry N Mass MF c c0 Cq) K K0 (HK' N Mass A f0 Ev K HK) imp0 (impS' N A f0 Ev imp0 St)
    g Lg (sqrt 2 * b0) (sqrt 2 * b1) (sqrt 2 * b2) (sqrt 2 * eta) (W _ P0) (W _ P1) (W _ P2) (W _ Pe) (fun s => of_size _ _ (proj2 (B0 s))) g1 Lg1 H1
    (lip_g n B BA BS BP g g1 Lg Lg1 D1 (sqrt 2 * b1) H1) (taylor_g n B BA BS BP g g1 g2 Lg Lg1 Lg2 D1 D2 (sqrt 2 * b2) H2) u Lu Du'
    used Lr Hr f (rates_are used f Lr Dr) imp (stages_are used imp Lr Ds) ty s tr s' (sqrt 2 * U) Hty Hd HdK Hf HU Early Rn) as Q.
  assert (U0 : 0 <= U) by (unfold U; pose proof (size_pos (u (s_time s))); assert (0 <= b0 * (s_final s - s_time s)) by (apply Rmult_le_pos; lra); lra).
  eapply Forall_impl; [|exact Q]. intros st (Ls & Ht & Q1). apply to_size. rewrite (difference_sub n) by (exact Ls || apply Lu). eapply Rle_trans; [exact Q1|].
  set (dt := s_dt s) in *. unfold driveErr, driveError, M2, M1, M0. set (w := s_time st - s_time s). assert (W0 : 0 <= w) by (unfold w; lra).
  set (m1 := K * (K * U + b0) + b1). set (m2 := K * m1 + b2).
  assert (KU : 0 <= K * U) by (apply Rmult_le_pos; assumption). assert (KU2 : 0 <= K * (K * U + b0)) by (apply Rmult_le_pos; lra). assert (Q3 : 0 <= m1) by (unfold m1; lra). assert (KM : 0 <= K * m1) by (apply Rmult_le_pos; assumption). assert (Q4 : 0 <= m2) by (unfold m2; lra).
  replace (K * (K * (sqrt 2 * U) + sqrt 2 * b0) + sqrt 2 * b1) with (sqrt 2 * m1) by (unfold m1; ring).
  replace (K * (sqrt 2 * m1) + sqrt 2 * b2) with (sqrt 2 * m2) by (unfold m2; ring).
  pose proof (respC_pos ty Hty) as RP.
  assert (FC : 0 <= forcedC ty) by (unfold forcedC; pose proof (localC_pos ty); pose proof (Rabs_pos (de (dOf ty))); pose proof (Rabs_pos (de2 (dOf ty))); destruct (ty =? 1)%Z; lra).
  assert (E0 : excess ty * (dt * m1) = constantError ty (dt * m1)) by (unfold excess, constantError; destruct (ty =? 4)%Z; ring).
  assert (E1 : 0 <= constantError ty (dt * m1)) by (rewrite <- E0; apply Rmult_le_pos; [apply excess_pos|apply Rmult_le_pos; lra]).
  assert (T1 : 0 <= dt * m1) by (apply Rmult_le_pos; lra). assert (T2 : 0 <= dt * dt * m2) by (repeat apply Rmult_le_pos; lra).
  pose proof s2 as S2. clearbody m1 m2 w. 
  assert (Fin : forall X Y a, 0 <= Y -> X <= (forcedC ty + 1) * Y -> a = sqrt 2 * X -> 2 * ((a + respC ty * (sqrt 2 * eta)) * w) <= sqrt 2 * (2 * (forcedC ty + 1 + respC ty) * w * (Y + eta))).
  { intros X Y a HY HX ->. replace (2 * ((sqrt 2 * X + respC ty * (sqrt 2 * eta)) * w)) with (sqrt 2 * (2 * w * (X + respC ty * eta))) by ring. apply Rmult_le_compat_l; [lra|].
    replace (2 * (forcedC ty + 1 + respC ty) * w * (Y + eta)) with (2 * w * ((forcedC ty + 1 + respC ty) * (Y + eta))) by ring. apply Rmult_le_compat_l; [lra|].
    assert (0 <= respC ty * Y) by (apply Rmult_le_pos; lra). assert (0 <= (forcedC ty + 1) * eta) by (apply Rmult_le_pos; lra).
    replace ((forcedC ty + 1 + respC ty) * (Y + eta)) with ((forcedC ty + 1) * Y + respC ty * Y + (forcedC ty + 1) * eta + respC ty * eta) by ring. lra. }
  destruct (ty =? 1)%Z.
  - apply (Fin (forcedC ty * (dt * m1))); [exact T1| |ring]. apply Rmult_le_compat_r; lra.
  - apply (Fin (forcedC ty * (dt * dt * m2) + constantError ty (dt * m1))); [lra| |rewrite <- E0; ring].
    assert (0 <= forcedC ty * constantError ty (dt * m1)) by (apply Rmult_le_pos; lra).
    replace ((forcedC ty + 1) * (dt * dt * m2 + constantError ty (dt * m1))) with (forcedC ty * (dt * dt * m2) + dt * dt * m2 + forcedC ty * constantError ty (dt * m1) + constantError ty (dt * m1)) by ring. lra.
Qed.
(** Rates and stages with a source come from those without. *)
Lemma with_source : forall g, (forall t, length (g t) = n) -> (exists f, drivenRates A N g f) /\ exists imp, drivenStages A N g imp.
Proof.
  intros g Lg. split.
  - exists (fun t x => addv 1 (g t) (F x)). intros t x Lx. split; [apply addv_len; [apply Lg|apply FL, Lx]|]. exists (F x). split; [apply Ev, Lx|]. intros i. rewrite (addv_nth n) by (apply Lg || apply FL, Lx). ring.
  - exists (fun t h x => addv 1 (g t) (imp0 t h (addv h (g t) x))). intros t h x Lx Hh.
    destruct (isG n F imp0 (impS' N A f0 Ev imp0 St) g Lg t h x Lx Hh) as (Lk & E). cbv beta in Lk, E. set (k := addv 1 (g t) (imp0 t h (addv h (g t) x))) in *. split; [exact Lk|].
    intros y Ly Hy. exists (F y). split; [apply Ev, Ly|]. intros i. rewrite E. rewrite <- (addv_ext n h k x y Lk Lx Ly Hy). rewrite (addv_nth n) by (apply Lg || apply FL, Ly). ring.
Qed.
End Op.
End Fin.

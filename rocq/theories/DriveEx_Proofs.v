(** A driven run that meets every hypothesis of the statements about sources. *)
From Coq Require Import ZArith List Bool Reals Lia Lra.
From Verif Require Import Common Csr_Model Face_Model Face_Spec Setup_Model Setup_Spec Assembly_Model Form_Model Form_Spec Nodal_Spec NodalEnergy_Spec Global_Spec GlobalBalance_Proofs GlobalEx_Proofs Time_Model Ode_Model Ode_Spec Ode_Proofs OdeRk_Proofs OdeStep_Proofs OdeLin_Proofs OdeRun_Proofs OdeFin_Proofs OdeNorm_Proofs OdeEx_Proofs Conv_Spec ConvFin_Proofs Drive_Spec DriveFin_Proofs DriveRun_Proofs.
Import ListNotations.
Local Open Scope R_scope.

Section Wave.
Variable N : nat.
Variable Mass : Z -> mat.
Hypothesis MF : massForm N Mass.
Variable A : csr R.
Variable f0 : R -> list R -> list R.
Hypothesis Ev : evaluates A N f0.
Notation n := (6 * N)%nat.
Notation B := (fieldRate N Mass).
Notation zero := (repeat 0 n).
Variable x : list R.
Hypothesis Lx : length x = n.
Let y := f0 0 x.
Lemma Ly : length y = n. Proof. apply (Flen' N A f0 Ev x Lx). Qed.
Definition mix (a b : R) : list R := addv a x (addv b y zero).
Lemma mix_len : forall a b, length (mix a b) = n. Proof. intros. unfold mix. pose proof Ly. pose proof (repeat_length 0 n). repeat first [assumption|apply addv_len]. Qed.
Lemma mix_nth : forall a b i, nth i (mix a b) 0 = a * nth i x 0 + b * nth i y 0.
Proof. intros a b i. unfold mix. pose proof Ly. pose proof (repeat_length 0 n). rewrite (addv_nth n), (addv_nth n), nth_zero by (repeat first [assumption|apply addv_len]). ring. Qed.
Lemma mix_bound : forall a b, Rabs a <= 1 -> Rabs b <= 1 -> size N Mass (mix a b) <= size N Mass x + size N Mass y.
Proof.
  intros a b Ha Hb. apply to_size. rewrite Rmult_plus_distr_l, <- !size_nrm. unfold mix. pose proof Ly as L1. pose proof (repeat_length 0 n) as L0. pose proof (addv_len n b y zero L1 L0) as L2.
  eapply Rle_trans; [apply (nrm_add n B (Badd' N Mass MF) (Bsym' N Mass MF) (Bpos' N Mass MF)); assumption|]. rewrite (nrm_scal n B (Badd' N Mass MF) (Bsym' N Mass MF)) by exact L1.
  pose proof (nrm_pos B x). pose proof (nrm_pos B y). assert (Rabs a * nrm B x <= 1 * nrm B x) by (apply Rmult_le_compat_r; assumption). assert (Rabs b * nrm B y <= 1 * nrm B y) by (apply Rmult_le_compat_r; assumption). lra.
Qed.
Lemma mix_d : forall (a b : R -> R) a' b' t, derivable_pt_lim a t a' -> derivable_pt_lim b t b' -> forall i, derivable_pt_lim (fun s => nth i (mix (a s) (b s)) 0) t (nth i (mix a' b') 0).
Proof.
  intros a b a' b' t Da Db i. rewrite mix_nth. apply (derivable_pt_lim_ext (fun s => a s * nth i x 0 + b s * nth i y 0)); [intros; symmetry; apply mix_nth|].
  replace (a' * nth i x 0 + b' * nth i y 0) with ((a' * nth i x 0 + a t * 0) + (b' * nth i y 0 + b t * 0)) by ring.
  apply (derivable_pt_lim_plus (fun s => a s * nth i x 0) (fun s => b s * nth i y 0)); [apply (derivable_pt_lim_mult a (fun _ => nth i x 0))|apply (derivable_pt_lim_mult b (fun _ => nth i y 0))]; try assumption; apply derivable_pt_lim_const.
Qed.
Lemma sin1 : forall t, Rabs (sin t) <= 1. Proof. intros. apply Rabs_le. apply SIN_bound. Qed.
Lemma cos1 : forall t, Rabs (cos t) <= 1. Proof. intros. apply Rabs_le. apply COS_bound. Qed.
Lemma d_msin : forall t, derivable_pt_lim (fun s => - sin s) t (- cos t). Proof. intros. apply derivable_pt_lim_opp, derivable_pt_lim_sin. Qed.
Lemma d_mcos : forall t, derivable_pt_lim (fun s => - cos s) t (sin t). Proof. intros. replace (sin t) with (- - sin t) by ring. apply derivable_pt_lim_opp, derivable_pt_lim_cos. Qed.
(** The oscillation sin(t) x is the response to its own source. *)
Theorem wave : exists g c0, smoothSource N Mass g c0 c0 c0 /\ upTo N Mass 0 g g /\ exists u, drivenBy A N g u /\ u (PI / 2) = x.
Proof.
  exists (fun t => mix (cos t) (- sin t)), (size N Mass x + size N Mass y). split; [|split].
  - exists (fun t => mix (- sin t) (- cos t)), (fun t => mix (- cos t) (sin t)). repeat split; try apply mix_len.
    + intros t i _. apply (mix_d cos (fun s => - sin s)); [apply derivable_pt_lim_cos|apply d_msin].
    + intros t i _. apply (mix_d (fun s => - sin s) (fun s => - cos s)); [apply d_msin|apply d_mcos].
    + apply mix_bound; rewrite ?Rabs_Ropp; apply sin1 || apply cos1.
    + apply mix_bound; rewrite ?Rabs_Ropp; apply sin1 || apply cos1.
    + apply mix_bound; rewrite ?Rabs_Ropp; apply sin1 || apply cos1.
  - intros t. split; [apply mix_len|]. rewrite (difference_sub n) by apply mix_len. apply to_size. rewrite Rmult_0_r. right.
    rewrite (nrm_ext n B _ zero); [apply (nrm_zero n B (Badd' N Mass MF))|apply sub_len; apply mix_len|apply repeat_length|]. intros i. rewrite (sub_nth n), nth_zero by apply mix_len. ring.
  - exists (fun t => mix (sin t) 0). split.
    + intros t. split; [apply mix_len|]. exists (f0 0 (mix (sin t) 0)). split; [apply Ev, mix_len|]. intros i Hi.
      replace (nth i (f0 0 (mix (sin t) 0)) 0 + nth i (mix (cos t) (- sin t)) 0) with (nth i (mix (cos t) 0) 0); [apply (mix_d sin (fun _ => 0)); [apply derivable_pt_lim_sin|apply derivable_pt_lim_const]|].
      unfold mix at 2. pose proof Ly as L1. pose proof (repeat_length 0 n) as L0. pose proof (addv_len n 0 y zero L1 L0) as L2. pose proof (Flen' N A f0 Ev) as FL.
      assert (Z : forall z, length z = n -> (forall i, nth i z 0 = 0) -> forall i, nth i (f0 0 z) 0 = 0).
      { intros z Lz Hz j. replace z with zero by (apply (list_eq n); [exact L0|exact Lz|intros; rewrite Hz; apply nth_zero]). rewrite (F_zero n (f0 0) FL (Fadd' N A f0 Ev) zero L0). apply nth_zero. }
      rewrite (Fadd' N A f0 Ev) by assumption. rewrite (addv_nth n) by (apply FL; assumption). rewrite Z; [|exact L2|intros j; rewrite (addv_nth n), nth_zero by assumption; ring].
      fold y. rewrite !mix_nth. ring.
    + rewrite sin_PI2. apply (list_eq n); [apply mix_len|exact Lx|]. intros i. rewrite mix_nth. ring.
Qed.
End Wave.

Theorem driven_case : exists A, buildGlobalOperator R Rplus Rmult 1 (-1) (factoryRows 4 gMesh 1 1 gOb [] gMInv gD (sMass 1) []) 1 4 0 false = Ok A /\
  exists g c0 u f imp K, smoothSource 4 gMass g c0 c0 c0 /\ upTo 4 gMass 0 g g /\ drivenBy A 4 g u /\ u (PI / 2) = gX /\ drivenRates A 4 g f /\ drivenStages A 4 g imp /\
    0 <= K /\ boundedBy A 4 gMass K.
Proof.
  destruct (op 4 gMesh 1 1 gGb gGi gOb [] gMass gMInv gD (sMass 1) [] g_space g_tables g_mass Rle_0_1 (proj1 g_passive) (proj2 g_passive) (g_psd 1 Rle_0_1) (/ 2) g_coercive) as (A & EA & (f0 & Ev) & (imp0 & St) & (K & K0 & HK)).
  exists A. split; [exact EA|]. destruct (wave 4 gMass g_mass A f0 Ev gX (proj1 g_rate)) as (g & c0 & Sm & Up & u & Du & Hu).
  assert (Lg : forall t, length (g t) = 24%nat) by (destruct Sm as (? & ? & _ & _ & Q0 & _); intros; apply Q0).
  destruct (with_source 4 A f0 Ev imp0 St g Lg) as ((f & Dr) & imp & Ds). exists g, c0, u, f, imp, K. repeat (split; [assumption|]). assumption.
Qed.

(** A field in a cavity that swings, with and without the source that makes it swing. *)
From Coq Require Import ZArith List Bool Lia Reals Lra.
From Verif Require Import Common Csr_Model Geo_Spec Face_Model Face_Spec Face_Proofs Nodal_Model Nodal_Spec NodalEnergy_Spec Step_Model Setup_Model Setup_Spec Assembly_Model Form_Model Form_Spec Global_Spec Conn_Model Conn_Spec.
From Verif Require Import Nodal_Proofs NodalMult_Proofs GlobalEnergy_Proofs GlobalBalance_Proofs GlobalEx_Proofs Hest_Model Hest_Spec HestRun_Proofs HestEx_Proofs Twin_Spec TwinRun_Proofs TwinEx_Proofs Consist_Spec Consist_Proofs ConsistEx_Proofs Ode_Spec Conv_Spec Drive_Spec Acc_Spec.
Import ListNotations.
Local Open Scope R_scope.

Definition cvS (a : R) : list R := map (Rmult a) cvX.
Lemma cvS_len : forall a, length (cvS a) = 36%nat. Proof. reflexivity. Qed.
Lemma cvS_nth : forall a i, nth i (cvS a) 0 = a * nth i cvX 0.
Proof. intros. unfold cvS. replace 0 with (a * 0) at 1 by ring. apply map_nth. Qed.
Lemma cvS_fits : forall a, fits 6 twM cvGb [] (cvS a).
Proof. intros a. allFits. Qed.
Lemma cvS_fld : forall a f d k, fld 6 (cvS a) f d k = a * fld 6 cvX f d k. Proof. intros. apply cvS_nth. Qed.
Lemma cvS_curl : forall a v f d, (f = 0 \/ f = 1)%Z -> (0 <= d < 3)%Z -> weakCurl 6 2 twD (cvS a) v f d = 0.
Proof.
  intros a v f d Hf Hd. assert (d = 0 \/ d = 1 \/ d = 2)%Z as [->|[->| ->]] by lia; destruct Hf as [->| ->]; lazy -[IZR Rplus Rmult Rinv Ropp Rminus Rdiv]; ring.
Qed.
Lemma tw_mass : massForm 6 twMass /\ coercive 6 twMass (/ 24).
Proof.
  assert (C : forall g v, / 24 * sumN 6 (fun i => v i * v i) <= mform 6 (twMass g) v v).
  { intros g v. assert (E : mform 6 (twMass g) v v = / 24 * sumN 6 (fun i => v i * v i) + / 24 * ((v 0%nat + v 1%nat + v 2%nat) * (v 0%nat + v 1%nat + v 2%nat) + (v 3%nat + v 4%nat + v 5%nat) * (v 3%nat + v 4%nat + v 5%nat))).
    { lazy -[IZR Rplus Rmult Rinv Ropp Rminus Rdiv]. field. }
    rewrite E. pose proof (Rle_0_sqr (v 0%nat + v 1%nat + v 2%nat)). pose proof (Rle_0_sqr (v 3%nat + v 4%nat + v 5%nat)). unfold Rsqr in *. lra. }
  split; [split|split; [lra|exact C]].
  - intros g i j. unfold twMass. rewrite (Nat.eqb_sym (i / 3)). unfold p1Mass. rewrite (Nat.eqb_sym (i mod 3)). reflexivity.
  - intros g v. eapply Rle_trans; [|apply C]. apply Rmult_le_pos; [lra|]. lazy -[IZR Rplus Rmult Rinv Ropp Rminus Rdiv Rle].
    pose proof (Rle_0_sqr (v 0%nat)). pose proof (Rle_0_sqr (v 1%nat)). pose proof (Rle_0_sqr (v 2%nat)). pose proof (Rle_0_sqr (v 3%nat)). pose proof (Rle_0_sqr (v 4%nat)). pose proof (Rle_0_sqr (v 5%nat)). unfold Rsqr in *. lra.
Qed.
Lemma tw_weights : nonnegWeights twM.
Proof. unfold nonnegWeights, twM, twOut, twIn. cbn [fm_faces]. repeat constructor; cbn [mf_face f_pts map fst snd q_w]; lra. Qed.
Lemma cv_passive : passive twM cvGb [].
Proof. intros fi F E. fiveF fi F E; cbn; discriminate. Qed.
Lemma cvS_size : forall a, fieldEnergy 6 twMass (cvS a) = / 2 * (a * a).
Proof. intros a. lazy -[IZR Rplus Rmult Rinv Ropp Rminus Rdiv]. field. Qed.
Lemma cvS_bound : forall a, -1 <= a <= 1 -> size 6 twMass (cvS a) <= 1.
Proof.
  intros a Ha. unfold size. rewrite cvS_size. rewrite <- sqrt_1. apply sqrt_le_1_alt. nra.
Qed.
Lemma cvS_lim : forall (a a' : R -> R), (forall t, derivable_pt_lim a t (a' t)) -> changes 6 (fun t => cvS (a t)) (fun t => cvS (a' t)).
Proof.
  intros a a' Da t i _. rewrite cvS_nth. intros e He. destruct (derivable_pt_lim_scal a (nth i cvX 0) t (a' t) (Da t) e He) as (d & Hd). exists d. intros h Nh Hh. specialize (Hd h Nh Hh).
  rewrite !cvS_nth. unfold mult_real_fct in Hd. replace ((a (t + h) * nth i cvX 0 - a t * nth i cvX 0) / h - a' t * nth i cvX 0) with ((nth i cvX 0 * a (t + h) - nth i cvX 0 * a t) / h - nth i cvX 0 * a' t) by (field; exact Nh). exact Hd.
Qed.
Lemma d_cos : forall t, derivable_pt_lim cos t (- sin t). Proof. intros. apply derivable_pt_lim_cos. Qed.
Lemma d_msin : forall t, derivable_pt_lim (fun s => - sin s) t (- cos t). Proof. intros. apply (derivable_pt_lim_opp sin), derivable_pt_lim_sin. Qed.
Lemma d_mcos : forall t, derivable_pt_lim (fun s => - cos s) t (sin t). Proof. intros. replace (sin t) with (- - sin t) by ring. apply (derivable_pt_lim_opp cos), d_cos. Qed.
Lemma swing_weak : forall a b, maxwell 6 2 twMass twD noSigma (cvS a) (cvS b) (cvS b) (repeat 0 36) /\ maxwell 6 2 twMass twD noSigma (cvS a) (cvS b) (repeat 0 36) (cvS b).
Proof.
  intros a b.
  assert (Z : forall v f d, mform 6 (twMass f) v (fld 6 (repeat 0 36) f d) = 0).
  { intros. rewrite (mform_ext 6 _ v _ (fun _ => 0)); [apply mform_null|]. intros. unfold fld. apply nth_repeat. }
  assert (S : forall v u, mform 6 noSigma v u = 0) by (intros; lazy -[IZR Rplus Rmult Rinv Ropp Rminus Rdiv]; ring).
  split; intros v f d Hf Hd; rewrite cvS_curl, S, Z by assumption; destruct (f =? 0)%Z; ring.
Qed.
Lemma swing_free : nearMaxwell 6 twM 2 cvGb [] twMass twD noSigma (noSource 6) (fun t => cvS (cos t)) 1.
Proof.
  exists (fun t => cvS (- sin t)), (fun t => cvS (- sin t)). intros t. split; [reflexivity|]. split; [reflexivity|]. split; [reflexivity|]. split; [apply cvS_fits|].
  split; [intros i Hi; apply (cvS_lim cos (fun t => - sin t) d_cos t i Hi)|]. split; [apply swing_weak|]. apply cvS_bound. pose proof (SIN_bound t). lra.
Qed.
Lemma swing_driven : nearMaxwell 6 twM 2 cvGb [] twMass twD noSigma (fun t => cvS (- sin t)) (fun t => cvS (cos t)) 0 /\ smoothSource 6 twMass (fun t => cvS (- sin t)) 1 1 1.
Proof.
  split.
  - exists (fun t => cvS (- sin t)), (fun _ => repeat 0 36). intros t. split; [reflexivity|]. split; [reflexivity|]. split; [reflexivity|]. split; [apply cvS_fits|].
    split; [intros i Hi; apply (cvS_lim cos (fun t => - sin t) d_cos t i Hi)|]. split; [apply swing_weak|].
    unfold size. assert (E : fieldEnergy 6 twMass (repeat 0 36) = 0) by (lazy -[IZR Rplus Rmult Rinv Ropp Rminus Rdiv]; field). rewrite E, sqrt_0. lra.
  - exists (fun t => cvS (- cos t)), (fun t => cvS (sin t)). split; [apply cvS_lim, d_msin|]. split; [apply (cvS_lim (fun t => - cos t)), d_mcos|].
    split; [|split]; intros t; (split; [reflexivity|]); apply cvS_bound; pose proof (SIN_bound t); pose proof (COS_bound t); lra.
Qed.
Lemma sigma_psd : forall v, 0 <= mform 6 noSigma v v.
Proof. intros. right. lazy -[IZR Rplus Rmult Rinv Ropp Rminus Rdiv]. ring. Qed.
Lemma swing_case : dgSpace 6 twM 2 twMass twInv twD /\ tables twM cvGb [] cvOb [] /\ massForm 6 twMass /\ passive twM cvGb [] /\ nonnegWeights twM /\ (forall v, 0 <= mform 6 noSigma v v) /\ coercive 6 twMass (/ 24).
Proof. exact (conj tw_space (conj cv_tables (conj (proj1 tw_mass) (conj cv_passive (conj tw_weights (conj sigma_psd (proj2 tw_mass))))))). Qed.

(** Fields that fit on a square of two triangles. *)
From Coq Require Import ZArith List Bool Lia Reals Lra.
From Verif Require Import Common Csr_Model Geo_Spec Face_Model Face_Spec Face_Proofs Nodal_Model Nodal_Spec NodalEnergy_Spec Step_Model Setup_Model Setup_Spec Assembly_Model Form_Model Form_Spec Global_Spec Conn_Model Conn_Spec.
From Verif Require Import Nodal_Proofs NodalMult_Proofs GlobalEnergy_Proofs GlobalBalance_Proofs GlobalEx_Proofs Hest_Model Hest_Spec HestRun_Proofs HestEx_Proofs Twin_Spec TwinRun_Proofs TwinEx_Proofs Consist_Spec Consist_Proofs.
Import ListNotations.
Local Open Scope R_scope.

Lemma tw_flat : flatSpace 6 2 twMass twD.
Proof.
  split.
  - intros d v Hd. assert (d = 0 \/ d = 1)%Z as [-> | ->] by lia; lazy -[IZR Rplus Rmult Rinv Ropp Rminus Rdiv]; field.
  - intros f i j _ Hi Hj. unfold twMass. rewrite (Nat.eqb_sym (i / 3)). unfold p1Mass. rewrite (Nat.eqb_sym (i mod 3)). reflexivity.
Qed.

Definition cvGb : list (Z * cond) := [(1%Z, PEC); (2%Z, PEC)].
Definition cvOb : list (cond * marker) := [(PEC, [1; 1; 0]%Z)].
Lemma cv_rep : represents 3 cvGb cvOb.
Proof.
  split; [cbn; repeat (constructor; [cbn; intuition discriminate|]); constructor|split].
  - intros c mk [H|[]]; injection H as <- <-; (split; [unfold mapped; auto 10|]); (split; [reflexivity|]); intros k Hk; unfold cvGb;
      (assert (k = 0 \/ k = 1 \/ k = 2)%Z as [->|[->| ->]] by lia);
      first [left; split; [reflexivity|cbn; auto; fail] | right; split; [reflexivity|cbn; intuition discriminate]].
  - intros a c _ [H|[H|[]]]; injection H as _ <-; eexists; cbn; auto.
Qed.
Lemma cv_tables : tables twM cvGb [] cvOb [].
Proof.
  split; [constructor; [|constructor; [|constructor]]; cbn [In]; intros k a H; [destruct H as [H|[]]; injection H as <- _; lia|contradiction]|]. split; [constructor|].
  split; [exact cv_rep|split; [constructor|split; [intros c mk []|intros a c _ []]]].
Qed.
(** A steady magnetic field in the cavity, and a wave that leaves through the absorbing sides. *)
Definition cvX : list R := repeat 0 30 ++ repeat 1 6.
Definition wvX : list R := repeat 0 16 ++ [1] ++ repeat 0 5 ++ [1] ++ repeat 0 5 ++ [-1] ++ repeat 0 7.
Lemma w_one : sqrt (1 * 1 + 0 * 0) = 1 /\ sqrt (0 * 0 + -1 * -1) = 1 /\ sqrt (0 * 0 + 1 * 1) = 1 /\ sqrt (-1 * -1 + 0 * 0) = 1.
Proof. repeat split; (etransitivity; [|exact sqrt_1]); f_equal; ring. Qed.
Ltac ws := destruct w_one as [W1 [W3 [W4 W5]]]; rewrite ?W1, ?W3, ?W4, ?W5; destruct w_pos as [_ [W2 _]]; set (w2 := sqrt (-1 * -1 + 1 * 1)) in *; clearbody w2; clear W1 W3 W4 W5.
Ltac trip := apply (f_equal2 pair); [apply (f_equal2 pair)|]; field; lra.
Ltac fiveF fi F E := destruct fi as [|[|[|[|[|fi]]]]]; cbn [nth_error twM fm_faces] in E; [injection E as <- ..|exfalso; destruct fi; discriminate E].
Ltac allFits := intros fi F q E I; fiveF fi F E; cbn [twOut twIn mf_face f_pts map In] in I; repeat (destruct I as [<-|I]); try contradiction;
  lazy -[IZR Rplus Rmult Rinv Ropp Rminus Rdiv sqrt iff not]; ws; repeat match goal with |- _ /\ _ => split | |- _ -> _ => intros ? end; try discriminate; trip.
Lemma cv_fits : fits 6 twM cvGb [] cvX.
Proof. allFits. Qed.
Lemma wv_fits : fits 6 twM twGb [] wvX.
Proof. allFits. Qed.
Lemma cv_ex : dgSpace 6 twM 2 twMass twInv twD /\ tables twM cvGb [] cvOb [] /\ flatSpace 6 2 twMass twD /\ uniformField 6 cvX /\ fits 6 twM cvGb [] cvX /\ cvX <> repeat 0 36.
Proof.
  split; [exact tw_space|]. split; [exact cv_tables|]. split; [exact tw_flat|]. split; [|split; [exact cv_fits|intros E; apply (f_equal (fun l => nth 30 l 0)) in E; cbn in E; lra]].
  intros g d Hg Hd. exists (fld 6 cvX g d 0). intros i Hi. assert (i = 0 \/ i = 1 \/ i = 2 \/ i = 3 \/ i = 4 \/ i = 5)%nat as [->|[->|[->|[->|[->| ->]]]]] by lia; try reflexivity;
    (assert (d = 0 \/ d = 1 \/ d = 2)%Z as [->|[->| ->]] by lia; destruct Hg as [->| ->]; reflexivity).
Qed.
Lemma wv_ex : length wvX = 36%nat /\ fits 6 twM twGb [] wvX /\ wvX <> repeat 0 36 /\ exists v, weakCurl 6 2 twD wvX v 0 2 <> 0.
Proof.
  split; [reflexivity|]. split; [exact wv_fits|]. split; [intros E; apply (f_equal (fun l => nth 16 l 0)) in E; cbn in E; lra|].
  exists (fun _ => 1). lazy -[IZR Rplus Rmult Rinv Ropp Rminus Rdiv not]. lra.
Qed.
Lemma wv_excess : facesum twM (fun fi F q => excessAt 6 (/ 2) wvX (fun _ => 1) 0 2 (kindFrom twM twGb [] fi F) F q) = / 2.
Proof. faceSums. Qed.
Lemma wv_refuted : exists inv fc dim t nf ref elems posLin posCur m nodes bdrMk fm gb ob Mass MInv D MSigma N,
  sameProblem inv fc dim t nf ref elems posLin posCur m nodes bdrMk [] [] fm gb [] ob [] Mass MInv D MSigma N /\
  exists conn maps attrs s x out v, connectivities m bdrMk [] [] = Ok (conn, maps, attrs) /\
    buildNodal inv fc dim (cm_N m) elems posLin posCur [] [] (fun _ => []) (/ 2) conn maps [] = Ok s /\
    fits N fm gb [] x /\ nodalMult s x = Ok out /\ mform N (Mass 0%Z) v (fld N out 0 2) <> weakCurl N dim D x v 0 2.
Proof.
  exists p1Inv, p1, 2%Z, Triangle, 2%nat, p1Ref, sqE, sqPos, sqPos, sqM, sqN, sqMk, twM, twGb, twOb, twMass, twInv, twD, noSigma, 6%nat. split; [exact tw_problem|].
  destruct (tw_run [] (/ 2) sq_mesh) as [conn [maps [attrs [s [EC EB]]]]].
  destruct (difference_run p1Inv p1 2 Triangle 2 p1Ref sqE sqPos sqPos sqM sqN sqMk [] [] twM twGb [] twOb [] twMass twInv twD noSigma 6 tw_problem [] [] (fun _ => []) (/ 2) conn maps attrs [] EC rows_none s EB) as [A [EA Q]]; [left; lra|].
  destruct (Q wvX eq_refl) as [out [y [Eo [_ [Hy V]]]]]. exists conn, maps, attrs, s, wvX, out, (fun _ => 1). split; [exact EC|]. split; [exact EB|]. split; [exact wv_fits|]. split; [exact Eo|].
  rewrite (V (fun _ => 1) 0%Z 2%Z (or_introl eq_refl) ltac:(lia)), wv_excess.
  destruct (consistent 6 twM 2 (/ 2) twGb [] twOb [] twMass twInv twD noSigma [] tw_space tw_tables) as [A' [EA' Q']]. rewrite EA in EA'. injection EA' as <-.
  destruct (Q' wvX eq_refl wv_fits) as [y' [Hy' V']]. rewrite (applies_unique 6 A wvX y y' Hy Hy'), (V' (fun _ => 1) 0%Z 2%Z (or_introl eq_refl) ltac:(lia)).
  assert (S0 : forall v u, mform 6 noSigma v u = 0) by (intros; unfold mform; apply sumN_zero; intros; apply sumN_zero; intros; unfold noSigma; ring). rewrite S0. cbn [Z.eqb]. lra.
Qed.

(** Two elements of order one on a line: PEC on the left, absorbing on the right. *)
From Coq Require Import ZArith List Bool Reals Lia Lra.
From Verif Require Import Common Geo_Spec Csr_Model Face_Model Face_Spec Face_Proofs Setup_Model Setup_Spec Assembly_Model Assembly_Spec Form_Model Form_Spec FormEx_Proofs Nodal_Spec Nodal_Proofs NodalMult_Proofs NodalEnergy_Spec NodalEnergy_Proofs Global_Spec Global_Proofs GlobalEnergy_Proofs GlobalBalance_Proofs.
Import ListNotations.
Local Open Scope R_scope.

Definition gLeft := mkMF [0; 1]%nat [] (mkFace 2 None [mkQ 1 (G1 0) [1; 0] []]).
Definition gMid := mkMF [0; 1]%nat [2; 3]%nat (mkFace 2 (Some 2%nat) [mkQ 1 (G1 1) [0; 1] [1; 0]]).
Definition gRight := mkMF [2; 3]%nat [] (mkFace 2 None [mkQ 1 (G1 1) [0; 1] []]).
Definition gMesh := mkFM [gLeft; gMid; gRight] [(1%Z, 0%nat); (3%Z, 2%nat); (2%Z, 1%nat)] [1; 2; 3]%Z.
Definition gMass : Z -> mat := fun _ i j => if (i =? j)%nat then / 2 else 0.
Definition gMInv : Z -> mat := fun _ i j => if (i =? j)%nat then 2 else 0.
Definition gD : Z -> mat := fun _ i j =>
  if (i / 2 =? j / 2)%nat then (if (j mod 2 =? 0)%nat then - / 2 else / 2) else 0.
Definition gGb : list (Z * cond) := [(1%Z, PEC); (3%Z, SMA)].
Definition gGbR : list (Z * cond) := [(1%Z, PEC); (3%Z, PMC)].
Definition gGi : list (Z * cond) := [(2%Z, TotalFieldIn)].
Definition gOb : list (cond * marker) := [(PEC, [1; 0; 0]%Z); (SMA, [0; 0; 1]%Z)].
Definition gObR : list (cond * marker) := [(PEC, [1; 0; 0]%Z); (PMC, [0; 0; 1]%Z)].
Definition noSigma : mat := fun _ _ => 0.

Lemma g_space : dgSpace 4 gMesh 1 gMass gMInv gD.
Proof.
  assert (S : sqrt 1 = 1) by exact sqrt_1.
  split; [lia|]. split; [split; [|split]|split; [|split; [|split]]].
  - apply Forall_forall. intros f [<-|[<-|[<-|[]]]]; (split; [reflexivity|split; [reflexivity|]]); apply Forall_forall; cbn; intros d H; lia.
  - apply Forall_forall. intros a [<-|[<-|[<-|[]]]]; lia.
  - apply Forall_forall. intros b [<-|[<-|[<-|[]]]]; cbn; lia.
  - cbn [map snd gMesh fm_bdr]. repeat (constructor; [cbn; lia|]). constructor.
  - apply Forall_forall. intros f H. split.
    + apply Forall_forall. intros q I. destruct H as [<-|[<-|[<-|[]]]]; destruct I as [<-|[]]; repeat split; try (cbn; lra); try (left; reflexivity); try (right; reflexivity); try reflexivity; try lia; cbn; lra.
    + intros q d I Hd. destruct d as [|d]; [lia|]. unfold unitN, normalOf.
      destruct H as [<-|[<-|[<-|[]]]]; destruct I as [<-|[]]; cbn [q_geo calculateNormal weightOf nth]; destruct d; cbn; lra.
  - intros f i j _ Hi Hj. unfold gMass, gMInv, sumN, suml.
    destruct i as [|[|[|[|i]]]]; [| | | |lia]; (destruct j as [|[|[|[|j]]]]; [| | | |lia]); cbn -[IZR Rplus Rmult Rinv]; lra.
  - intros d v u Hd. assert (d = 0%Z) by lia. subst d. unfold mform, gD, sumN, suml, facesum, ds, unitN, side1, side2, local, suml. cbn -[IZR Rplus Rmult Rinv Ropp Rminus Rdiv]. field.
Qed.
Ltac mem := cbn [In]; intuition congruence.
Lemma g_tables : tables gMesh gGb gGi gOb [].
Proof.
  split; [|split; [|split]].
  - constructor; [|constructor; [|constructor]]; cbn [In]; intros k a H; [|contradiction]. destruct H as [H|[]]. injection H as <- _. lia.
  - constructor; [|constructor]. intros k a [].
  - change (markerSize (fm_battrs gMesh)) with 3%Z. split; [cbn; repeat (constructor; [cbn; intuition discriminate|]); constructor|split].
    + intros c mk [H|[H|[]]]; injection H as <- <-; (split; [unfold mapped; auto 10|]); (split; [reflexivity|]); intros k Hk; unfold gGb;
        (assert (k = 0 \/ k = 1 \/ k = 2)%Z as [->|[->| ->]] by lia);
        first [left; split; [reflexivity|cbn; auto; fail] | right; split; [reflexivity|cbn; intuition discriminate]].
    + intros a c _ [H|[H|[]]]; injection H as _ <-; eexists; cbn; auto.
  - change (markerSize (fm_battrs gMesh)) with 3%Z. split; [constructor|split].
    + intros c mk [].
    + intros a c Mc [H|[]]. injection H as _ <-. destruct Mc as [H|[H|[H|H]]]; discriminate.
Qed.
Lemma g_tablesR : tables gMesh gGbR gGi gObR [].
Proof.
  split; [|split; [|split]].
  - constructor; [|constructor; [|constructor]]; cbn [In]; intros k a H; [|contradiction]. destruct H as [H|[]]. injection H as <- _. lia.
  - constructor; [|constructor]. intros k a [].
  - change (markerSize (fm_battrs gMesh)) with 3%Z. split; [cbn; repeat (constructor; [cbn; intuition discriminate|]); constructor|split].
    + intros c mk [H|[H|[]]]; injection H as <- <-; (split; [unfold mapped; auto 10|]); (split; [reflexivity|]); intros k Hk; unfold gGbR;
        (assert (k = 0 \/ k = 1 \/ k = 2)%Z as [->|[->| ->]] by lia);
        first [left; split; [reflexivity|cbn; auto; fail] | right; split; [reflexivity|cbn; intuition discriminate]].
    + intros a c _ [H|[H|[]]]; injection H as _ <-; eexists; cbn; auto.
  - apply g_tables.
Qed.
Lemma g_tables0 : tables gMesh [] [] [] [].
Proof.
  assert (R0 : represents (markerSize (fm_battrs gMesh)) [] []) by (split; [constructor|split; [intros c mk []|intros a c _ []]]).
  split; [constructor|]. split; [constructor|]. split; exact R0.
Qed.
Lemma g_passive : passive gMesh gGb gGi /\ nonnegWeights gMesh.
Proof.
  split.
  - intros fi f E. destruct fi as [|[|[|fi]]]; cbn in E; try injection E as <-; [cbn; discriminate|cbn; discriminate|cbn; discriminate|destruct fi; discriminate].
  - apply Forall_forall. intros f [<-|[<-|[<-|[]]]]; apply Forall_forall; intros q [<-|[]]; cbn; lra.
Qed.
Lemma g_reflecting : reflecting gMesh gGbR gGi.
Proof. intros fi f E. destruct fi as [|[|[|fi]]]; cbn in E; try injection E as <-; [cbn; auto|cbn; auto|cbn; auto|destruct fi; discriminate]. Qed.

(** Ey is one everywhere. *)
Definition gX : list R := repeat 0 4 ++ repeat 1 4 ++ repeat 0 16.
Lemma g_rate : length gX = 24%nat /\ facesum gMesh (pointRate 4 1 gMesh gGb gGi gX) - ohmic 4 (gMass 0%Z) gX = - (7 / 2).
Proof.
  split; [reflexivity|]. unfold facesum, suml, ohmic, mform, sumN, suml.
  cbn -[IZR Rplus Rmult Rinv Ropp Rminus Rdiv sq tang outflow subp]. unfold sq, dotp, tang, subp, normalAt, fieldAt, side1, side2, local, fld, unitN, ds, gMass, gX.
  cbn -[IZR Rplus Rmult Rinv Ropp Rminus Rdiv].
  repeat match goal with |- context [Pos.to_nat ?p] => let v := eval compute in (Pos.to_nat p) in change (Pos.to_nat p) with v end. cbv beta iota. lra.
Qed.
(** Ey and -Hz are one everywhere: power flows in through faces without condition. *)
Definition gY : list R := repeat 0 4 ++ [0; 0; 0; 1] ++ repeat 0 4 ++ repeat 0 4 ++ repeat 0 4 ++ [0; 0; 0; -1].
Lemma untagged_grows : exists A, theOperator 4 gMesh 1 0 [] [] gMInv gD noSigma [] = Ok A /\ exists x y, length x = 24%nat /\ applies A 4 x y /\ 0 < fieldRate 4 gMass x y.
Proof.
  destruct (balance 4 gMesh 1 0 [] [] [] [] gMass gMInv gD noSigma [] g_space g_tables0) as (A & E & B). exists A. split; [exact E|].
  destruct (B gY eq_refl) as (y & Y & V). exists gY, y. split; [reflexivity|]. split; [exact Y|]. rewrite V.
  unfold facesum, suml, ohmic, mform, sumN, suml.
  cbn -[IZR Rplus Rmult Rinv Ropp Rminus Rdiv sq tang outflow subp]. unfold sq, outflow, crossp, dotp, tang, subp, normalAt, fieldAt, side1, side2, local, fld, unitN, ds, noSigma, gY.
  cbn -[IZR Rplus Rmult Rinv Ropp Rminus Rdiv].
  repeat match goal with |- context [Pos.to_nat ?p] => let v := eval compute in (Pos.to_nat p) in change (Pos.to_nat p) with v end. cbv beta iota. lra.
Qed.

(** A longitudinal field decays in a conductor of conductivity [s] and no face touches it. *)
Definition sMass (s : R) : mat := fun i j => s * gMass 0 i j.
Definition gZ (s t : R) : list R := repeat (exp (- s * t)) 4 ++ repeat 0 20.
Lemma z_fld : forall s t f d i, (0 <= f <= 1)%Z -> (0 <= d <= 2)%Z -> (i < 4)%nat ->
  fld 4 (gZ s t) f d i = if ((f =? 0) && (d =? 0))%Z then exp (- s * t) else 0.
Proof.
  intros s t f d i Hf Hd Hi. unfold fld, gZ.
  destruct ((f =? 0) && (d =? 0))%Z eqn:E.
  - apply andb_prop in E. destruct E as (E1 & E2). apply Z.eqb_eq in E1, E2. subst. rewrite app_nth1 by (rewrite repeat_length; lia).
    rewrite (nth_indep _ 0 (exp (- s * t))) by (rewrite repeat_length; lia). apply nth_repeat.
  - assert (3 * f + d <> 0)%Z. { intros X. assert (f = 0 /\ d = 0)%Z as (-> & ->) by lia. discriminate. }
    rewrite app_nth2 by (rewrite repeat_length; lia). apply nth_repeat.
Qed.
Section Longitudinal.
Variable alpha : R.
Variable gb gi : list (Z * cond).
Variable ob : list (cond * marker).
Variable s : R.
Variable smk : marker.
Hypothesis T : tables gMesh gb gi ob [].
Notation op := (factoryRows 4 gMesh 1 alpha ob [] gMInv gD (sMass s) smk).
Lemma app_null : forall o x f d i, (forall k, (k < 4)%nat -> fld 4 x f d k = 0) -> app op 4 0 o x f d i = 0.
Proof.
  intros o x f d i H. destruct (lt_dec i 4) as [Hi|Hi].
  - unfold app. assert (Q : forall e, In e (nth i (op o) []) -> snd e * comp 4 0 x f d (fst e) = 0).
    { intros e I. pose proof (rows_ok 4 gMesh 1 alpha ob [] gMInv gD (sMass s) smk o) as (L & R). specialize (R (nth i (op o) []) e).
      assert (B : (0 <= fst e < 4)%Z) by (change 4%Z with (Z.of_nat 4 + 0)%Z; apply R; [apply nth_In; rewrite L; exact Hi|exact I]).
      specialize (H (Z.to_nat (fst e)) ltac:(lia)). unfold fld in H. rewrite Z2Nat.id in H by lia. change (Z.of_nat 4) with 4%Z in H. unfold comp. rewrite Z.add_0_r, H. ring. }
    revert Q. generalize (nth i (op o) []). intros l Q. unfold Csr_Spec.rsum. induction l as [|e l IH]; [reflexivity|].
    cbn [map fold_right]. rewrite (Q e) by (left; reflexivity). rewrite IH by (intros e' I; apply Q; right; exact I). ring.
  - unfold app. rewrite nth_overflow; [reflexivity|]. destruct (rows_ok 4 gMesh 1 alpha ob [] gMInv gD (sMass s) smk o) as (L & _). rewrite L. cbn. lia.
Qed.
Lemma same_pen : forall x i, (i < 4)%nat -> app op 4 0 (OpZeroNormal 0) x 0 0 i = app op 4 0 (OpTwoNormal 0 0 0) x 0 0 i.
Proof.
  intros x i Hi. destruct (zero_sum 4 gMesh 1 alpha gb gi ob [] gMass gMInv gD g_space T 0 ltac:(auto)) as (A & E & V).
  destruct (two_sum 4 gMesh 1 alpha gb gi ob [] gMass gMInv gD g_space T 0 0 0 ltac:(auto) ltac:(lia) ltac:(lia)) as (B & E' & V').
  change 4%Z with (Z.of_nat 4).
  rewrite (app_rows 4 gMesh 1 alpha ob [] gMInv gD (sMass s) smk x (OpZeroNormal 0) (mmul 4 (gMInv 0%Z) A) 0 0 i); [|cbn [factoryMat]; rewrite E; reflexivity|exact Hi].
  rewrite (app_rows 4 gMesh 1 alpha ob [] gMInv gD (sMass s) smk x (OpTwoNormal 0 0 0) (mmul 4 (gMInv 0%Z) B) 0 0 i); [|cbn [factoryMat]; change (Z.to_nat 0) with 0%nat; rewrite E'; reflexivity|exact Hi].
  apply sumN_ext. intros k Hk. f_equal. unfold mmul. apply sumN_ext. intros j Hj. f_equal.
  rewrite <- (FormEx_Proofs.entry_form 4 A j k Hj Hk), <- (FormEx_Proofs.entry_form 4 B j k Hj Hk), V, V'. unfold fsum. apply facesum_ext.
  intros fi F q EF I. f_equal. destruct fi as [|[|[|fi]]]; cbn in EF; try injection EF as <-; try (destruct fi; discriminate); destruct I as [<-|[]]; unfold unitN; cbn; field.
Qed.
Lemma cond_row : forall t i, (i < 4)%nat -> app op 4 0 OpConductive (gZ s t) 0 0 i = s * exp (- s * t).
Proof.
  intros t i Hi. change 4%Z with (Z.of_nat 4). rewrite (app_rows 4 gMesh 1 alpha ob [] gMInv gD (sMass s) smk (gZ s t) OpConductive (mmul 4 (gMInv 0%Z) (sMass s)) 0 0 i eq_refl Hi).
  rewrite (sumN_ext 4 _ (fun k => mmul 4 (gMInv 0%Z) (sMass s) i k * exp (- s * t))).
  2:{ intros k Hk. rewrite z_fld by lia. reflexivity. }
  unfold mmul, sMass, gMass, gMInv, sumN, suml. destruct i as [|[|[|[|i]]]]; [| | | |lia]; cbn -[IZR Rplus Rmult Rinv exp Ropp]; field.
Qed.
Lemma long_evolves : exists A, theOperator 4 gMesh 1 alpha ob [] gMInv gD (sMass s) smk = Ok A /\ evolves A 4 (gZ s).
Proof.
  destruct (operator_rows 4 gMesh 1 alpha ob [] gMass gMInv gD (sMass s) smk g_space) as (A & EA & H). exists A. split; [exact EA|]. intros t.
  split; [reflexivity|]. destruct (H (gZ s t) eq_refl) as (y & Y & V). exists y. split; [exact Y|]. intros r Hr.
  destruct (row_split 4 r Hr) as (H1 & H2 & H3 & H4 & H5). specialize (V (Z.of_nat (r / 4 / 3)) (Z.of_nat (r / 4 mod 3)) (r mod 4)%nat ltac:(lia) ltac:(lia) H4).
  set (f := Z.of_nat (r / 4 / 3)) in *. set (d := Z.of_nat (r / 4 mod 3)) in *. set (i := (r mod 4)%nat) in *.
  assert (Rr : Z.to_nat ((3 * f + d) * Z.of_nat 4 + Z.of_nat i) = r) by (unfold f, d, i; lia).
  assert (Nr : forall t', nth r (gZ s t') 0 = fld 4 (gZ s t') f d i) by (intros; unfold fld; rewrite Rr; reflexivity).
  assert (Ny : nth r y 0 = fld 4 y f d i) by (unfold fld; rewrite Rr; reflexivity). rewrite Ny, V. change (Z.of_nat 4) with 4%Z.
  assert (Hf : (0 <= f <= 1)%Z) by (unfold f; lia). assert (Hd : (0 <= d <= 2)%Z) by (unfold d; lia).
  assert (NZ : forall o f d, (0 <= f <= 1)%Z -> (0 <= d <= 2)%Z -> ((f =? 0) && (d =? 0))%Z = false -> app op 4 0 o (gZ s t) f d i = 0).
  { intros o f' d' Hf' Hd' E. apply app_null. intros k Hk. rewrite z_fld, E by assumption. reflexivity. }
  unfold rhs. destruct ((f =? 0) && (d =? 0))%Z eqn:E.
  - apply andb_prop in E. destruct E as (E1 & E2). apply Z.eqb_eq in E1, E2. clearbody f d. subst f d.
    replace (curl_term op 1 4 0 (gZ s t) 0 0 i) with 0 by (unfold curl_term, ifdim; cbn [Z.ltb Z.compare Pos.compare Pos.compare_cont]; cbn; ring).
    replace (jump_term op 1 4 0 OpOneNormal (gZ s t) 0 0 i) with 0 by (unfold jump_term, ifdim; cbn; ring).
    unfold penalty_term, ifdim. cbn [Z.ltb Z.compare Pos.compare Pos.compare_cont]. rewrite (same_pen (gZ s t) i H4). unfold conductive_term. cbn [Z.eqb]. rewrite (cond_row t i H4).
    apply (derivable_pt_lim_ext (fun t' => exp (- s * t'))).
    { intros t'. rewrite Nr, z_fld by lia. reflexivity. }
    match goal with |- derivable_pt_lim _ _ ?a => replace a with (exp (- s * t) * (- s * 1)) by ring end.
    apply (derivable_pt_lim_comp (fun u => - s * u) exp t (- s * 1) (exp (- s * t))); [|apply derivable_pt_lim_exp].
    apply (derivable_pt_lim_scal (fun u => u) (- s)). apply derivable_pt_lim_id.
  - match goal with |- derivable_pt_lim _ _ ?a => replace a with 0 end.
    { apply (derivable_pt_lim_ext (fun _ => 0)); [|apply derivable_pt_lim_const]. intros t'. rewrite Nr, z_fld, E by assumption. reflexivity. }
    assert (fd : (f = 0 /\ (d = 1 \/ d = 2) \/ f = 1 /\ (d = 0 \/ d = 1 \/ d = 2))%Z) by (destruct (Z.eqb_spec f 0), (Z.eqb_spec d 0); try discriminate; lia).
    unfold curl_term, jump_term, penalty_term, conductive_term, ifdim. clearbody f d.
    destruct fd as [(-> & [->| ->])|(-> & [->|[->| ->]])];
    repeat match goal with |- context [((?a) mod 3)%Z] => let v := eval compute in (a mod 3)%Z in change (a mod 3)%Z with v end;
    cbn [Z.ltb Z.compare Pos.compare Pos.compare_cont Z.sub Z.add Z.opp Z.pos_sub Z.eqb]; rewrite ?NZ by (try reflexivity; lia); unfold sgn; cbn [Z.eqb]; try ring.
Qed.
End Longitudinal.
Lemma g_sym : forall f i j, gMass f i j = gMass f j i.
Proof. intros f i j. unfold gMass. rewrite Nat.eqb_sym. reflexivity. Qed.
Lemma s_form : forall s v, mform 4 (sMass s) v v = s / 2 * (v 0%nat * v 0%nat + v 1%nat * v 1%nat + v 2%nat * v 2%nat + v 3%nat * v 3%nat).
Proof. intros s v. unfold mform, sMass, gMass, sumN. cbn -[IZR Rplus Rmult Rinv Ropp Rdiv]. field. Qed.
Lemma g_psd : forall s, 0 <= s -> forall v, 0 <= mform 4 (sMass s) v v.
Proof.
  intros s Hs v. rewrite s_form. apply Rmult_le_pos; [lra|].
  pose proof (Rle_0_sqr (v 0%nat)). pose proof (Rle_0_sqr (v 1%nat)). pose proof (Rle_0_sqr (v 2%nat)). pose proof (Rle_0_sqr (v 3%nat)). unfold Rsqr in *. lra.
Qed.
Lemma g_zero : forall v, mform 4 (sMass 0) v v = 0.
Proof. intros v. rewrite s_form. field. Qed.
Lemma g_input : fm_battrs gMesh <> [] /\ ascending gGb /\ ascending gGi /\
  tagsFit (markerSize (fm_battrs gMesh)) gGb /\ tagsFit (markerSize (fm_battrs gMesh)) gGi.
Proof.
  split; [discriminate|]. split; [apply g_tables|]. split; [apply g_tables|]. change (markerSize (fm_battrs gMesh)) with 3%Z.
  split; apply Forall_forall.
  - intros p [<-|[<-|[]]]; cbn [fst snd]; (split; [lia|split; discriminate]).
  - intros p [<-|[]]; cbn [fst snd]; (split; [lia|split; discriminate]).
Qed.
Lemma untagged_refuted : exists N m dim Mass MInv D MSigma A, dgSpace N m dim Mass MInv D /\ tables m [] [] [] [] /\
  buildGlobalOperator R Rplus Rmult 1 (-1) (factoryRows N m dim 0 [] [] MInv D MSigma []) dim (Z.of_nat N) 0 false = Ok A /\
  exists x y, length x = (6 * N)%nat /\ applies A N x y /\ 0 < fieldRate N Mass x y.
Proof.
  destruct untagged_grows as (A & E & H). exists 4%nat, gMesh, 1%Z, gMass, gMInv, gD, noSigma, A.
  split; [exact g_space|]. split; [exact g_tables0|]. split; [exact E|exact H].
Qed.

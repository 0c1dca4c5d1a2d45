(** The matrix operator with the matrices the factory builds. *)
From Coq Require Import ZArith List Bool Reals Lia Lra.
From Verif Require Import Common Geo_Spec Csr_Model Csr_Spec Face_Model Face_Spec Face_Proofs Setup_Model Setup_Spec Assembly_Model Assembly_Spec Assembly_Proofs Form_Model Form_Spec Form_Proofs Nodal_Spec Nodal_Proofs NodalMult_Proofs NodalEnergy_Spec NodalEnergy_Proofs Global_Spec Global_Proofs GlobalEnergy_Proofs GlobalBalance_Proofs GlobalEx_Proofs Matrix_Model Matrix_Spec Matrix_Proofs.
Import ListNotations.
Local Open Scope R_scope.

Section Form.
Variable N : nat.
Variable m : fmesh.
Variable dim : Z.
Variable alpha : R.
Variable gb gi : list (Z * cond).
Variable ob ib : list (cond * marker).
Variable Mass MInv D : Z -> mat.
Variable MSigma : mat.
Variable sm : marker.
Hypothesis S : dgSpace N m dim Mass MInv D.
Hypothesis T : tables m gb gi ob ib.
Notation op := (factoryRows N m dim alpha ob ib MInv D MSigma sm).
Notation fmat := (factoryMat N m dim alpha ob ib MInv D MSigma sm).
Notation b := (match ib with [] => false | _ => true end).

Lemma act_rows : forall o A i u, fmat o = Ok A -> (i < N)%nat -> act op o i u = sumN N (fun k => A i k * u (Z.of_nat k)).
Proof.
  intros o A i u E Hi. unfold act, factoryRows. rewrite E. unfold rowsOf.
  rewrite (nth_indep _ [] ((fun i => map (fun j => (Z.of_nat j, A i j)) (seq 0 N)) 0%nat)) by (rewrite map_length, seq_length; exact Hi).
  rewrite (map_nth (fun i => map (fun j => (Z.of_nat j, A i j)) (seq 0 N)) (seq 0 N) 0%nat i), seq_nth by exact Hi.
  rewrite map_map. unfold rsum, sumN. f_equal.
Qed.
Lemma act_beyond : forall o i u, (N <= i)%nat -> act op o i u = 0.
Proof.
  intros o i u Hi. unfold act. rewrite nth_overflow; [reflexivity|]. destruct (rows_ok N m dim alpha ob ib MInv D MSigma sm o) as (L & _). rewrite L. lia.
Qed.
Lemma act_form : forall o g A i u, fmat o = Ok (mmul N (MInv g) A) -> (i < N)%nat -> act op o i u = mform N A (MInv g i) (fun k => u (Z.of_nat k)).
Proof.
  intros o g A i u E Hi. rewrite (act_rows o _ i u E Hi). unfold mform, mmul.
  transitivity (sumN N (fun k => sumN N (fun j => MInv g i j * A j k * u (Z.of_nat k)))).
  - apply sumN_ext. intros k _. change (fold_right Rplus 0 (map (fun j => MInv g i j * A j k) (seq 0 N))) with (sumN N (fun j => MInv g i j * A j k)).
    rewrite Rmult_comm, <- sumN_scal. apply sumN_ext. intros. ring.
  - apply sumN_swap.
Qed.

Lemma local_der : localDerivatives op (Z.of_nat N).
Proof.
  intros f d row e I1 I2. destruct (rows_ok N m dim alpha ob ib MInv D MSigma sm (OpDerivative f d)) as (_ & B). pose proof (B row e I1 I2). lia.
Qed.
Lemma swaps : swapsNormals op.
Proof.
  intros f d d2 i u Hf Hd Hd2. destruct (Nat.lt_ge_cases i N) as [Hi|Hi]; [|rewrite !act_beyond by exact Hi; split; reflexivity].
  assert (F : (f = 0 \/ f = 1)%Z) by lia.
  split.
  - destruct (two_sum N m dim alpha gb gi ob ib Mass MInv D S T f (Z.to_nat d) (Z.to_nat d2) F ltac:(lia) ltac:(lia)) as (A & EA & VA).
    destruct (two_sum N m dim alpha gb gi ob ib Mass MInv D S T f (Z.to_nat d2) (Z.to_nat d) F ltac:(lia) ltac:(lia)) as (B & EB & VB).
    rewrite (act_form (OpTwoNormal f d d2) f A i u), (act_form (OpTwoNormal f d2 d) f B i u); try exact Hi; try (cbn [factoryMat]; first [rewrite EA|rewrite EB]; reflexivity).
    rewrite VA, VB. apply fsum_ext; [reflexivity|]. intros. ring.
  - destruct (twoI_sum N m dim alpha gb gi ob ib Mass MInv D S T f (Z.to_nat d) (Z.to_nat d2) F ltac:(lia) ltac:(lia)) as (A & EA & VA).
    destruct (twoI_sum N m dim alpha gb gi ob ib Mass MInv D S T f (Z.to_nat d2) (Z.to_nat d) F ltac:(lia) ltac:(lia)) as (B & EB & VB).
    rewrite (act_form (OpTwoNormalIBFI f d d2) f A i u), (act_form (OpTwoNormalIBFI f d2 d) f B i u); try exact Hi; try (cbn [factoryMat]; first [rewrite EA|rewrite EB]; reflexivity).
    rewrite VA, VB. apply fsum_ext; [reflexivity|]. intros. ring.
Qed.
Lemma flat : flatBeyond op dim.
Proof.
  intros f d i u Hf Hd. destruct (Nat.lt_ge_cases i N) as [Hi|Hi]; [|rewrite !act_beyond by exact Hi; repeat split; rewrite act_beyond by exact Hi; reflexivity].
  assert (F : (f = 0 \/ f = 1)%Z) by lia. pose proof (proj1 S) as HD. assert (K : (d <? dim)%Z = false) by (apply Z.ltb_ge; lia).
  assert (NZ : forall fi F q, nth_error (fm_faces m) fi = Some F -> In q (f_pts (mf_face F)) -> unitN q (Z.to_nat d) = 0).
  { intros fi F' q EF I. apply (norm_zero N m dim Mass MInv D S fi F' q d EF I); [lia|exact K]. }
  split; [|split; [|split]].
  - rewrite (act_form (OpDerivative f d) f mzero i u); [|cbn [factoryMat]; unfold buildDerivativeSubOperator; destruct (Z.leb_spec dim d); [reflexivity|lia]|exact Hi].
    unfold mform, mzero. apply sumN_zero. intros. apply sumN_zero. intros. ring.
  - destruct (one_sum N m dim alpha gb gi ob ib Mass MInv D S T (1 - f) (Z.to_nat d) ltac:(lia) ltac:(lia)) as (A & EA & VA).
    rewrite (act_form (OpOneNormal f (1 - f) d) f A i u); [|cbn [factoryMat]; rewrite EA; reflexivity|exact Hi]. rewrite VA. apply fsum_zero. exact NZ.
  - destruct (oneI_sum N m dim alpha gb gi ob ib Mass MInv D S T (1 - f) (Z.to_nat d) ltac:(lia) ltac:(lia)) as (A & EA & VA).
    rewrite (act_form (OpOneNormalIBFI f (1 - f) d) f A i u); [|cbn [factoryMat]; rewrite EA; reflexivity|exact Hi]. rewrite VA. apply fsum_zero. exact NZ.
  - intros d2 Hd2. split.
    + destruct (two_sum N m dim alpha gb gi ob ib Mass MInv D S T f (Z.to_nat d2) (Z.to_nat d) F ltac:(lia) ltac:(lia)) as (A & EA & VA).
      rewrite (act_form (OpTwoNormal f d2 d) f A i u); [|cbn [factoryMat]; rewrite EA; reflexivity|exact Hi]. rewrite VA. apply fsum_zero.
      intros fi F' q EF I. rewrite (NZ fi F' q EF I). ring.
    + destruct (twoI_sum N m dim alpha gb gi ob ib Mass MInv D S T f (Z.to_nat d2) (Z.to_nat d) F ltac:(lia) ltac:(lia)) as (A & EA & VA).
      rewrite (act_form (OpTwoNormalIBFI f d2 d) f A i u); [|cbn [factoryMat]; rewrite EA; reflexivity|exact Hi]. rewrite VA. apply fsum_zero.
      intros fi F' q EF I. rewrite (NZ fi F' q EF I). ring.
Qed.

Theorem same_operator : exists A, theOperator N m dim alpha ob ib MInv D MSigma sm = Ok A /\
  forall inp out, length inp = (6 * N)%nat -> length out = (6 * N)%nat ->
  exists y g, matrixMult op (Z.of_nat N) (fun _ _ => []) b inp out = Ok y /\ applies A N inp g /\ length y = (6 * N)%nat /\
    forall f d i, (0 <= f <= 1)%Z -> (0 <= d <= 2)%Z -> (i < N)%nat ->
      fld N y f d i = fld N g f d i + if (f =? 0)%Z then sumN N (fun k => mmul N (MInv 0%Z) MSigma i k * fld N inp 0 d k) else 0.
Proof.
  destruct (operator_rows N m dim alpha ob ib Mass MInv D MSigma sm S) as (A & EA & HA). exists A. split; [exact EA|]. intros inp out LI LO.
  destruct (HA inp LI) as (g & AG & VG).
  destruct (matrix_is_global op (Z.of_nat N) 0 ltac:(lia) ltac:(lia) (rows_ok N m dim alpha ob ib MInv D MSigma sm) dim (proj1 S) local_der flat swaps inp inp out (fun _ _ => []) b) as (y & EY & LY & VY).
  - split; [lia|]. intros f d Hf Hd. split; [reflexivity|]. split; [|intros; lia]. intros k Hk. unfold comp. rewrite Z.add_0_r. reflexivity.
  - lia.
  - exists y, g. split; [exact EY|]. split; [exact AG|]. split; [congruence|]. intros f d i Hf Hd Hi. unfold fld at 1. rewrite (VY f d i Hf Hd) by lia. rewrite (VG f d i Hf Hd Hi).
    unfold conductive_term. destruct (f =? 0)%Z; [|lra].
    rewrite (app_rows N m dim alpha ob ib MInv D MSigma sm inp OpConductive (mmul N (MInv E) MSigma) 0 d i eq_refl Hi). unfold E. lra.
Qed.

Lemma nth_fld : forall (y : list R) r, (r < 6 * N)%nat -> nth r y 0 = fld N y (Z.of_nat (r / N / 3)) (Z.of_nat (r / N mod 3)) (r mod N).
Proof.
  intros y r Hr. destruct (row_split N r Hr) as (_ & _ & _ & _ & H5). unfold fld. f_equal. lia.
Qed.
Theorem lossless : (forall i j, MSigma i j = 0) -> exists A, theOperator N m dim alpha ob ib MInv D MSigma sm = Ok A /\
  forall inp out, length inp = (6 * N)%nat -> length out = (6 * N)%nat ->
  exists y, matrixMult op (Z.of_nat N) (fun _ _ => []) b inp out = Ok y /\ applies A N inp y.
Proof.
  intros Z0. destruct same_operator as (A & EA & HA). exists A. split; [exact EA|]. intros inp out LI LO.
  destruct (HA inp out LI LO) as (y & g & EY & AG & LY & V). exists y. split; [exact EY|].
  replace y with g; [exact AG|]. apply (nth_ext _ _ 0 0); [rewrite LY; apply AG|]. intros r Hr. rewrite (proj1 AG) in Hr.
  destruct (row_split N r Hr) as (_ & R1 & R2 & R3 & _). rewrite !(nth_fld _ r Hr), V by lia.
  destruct (_ =? 0)%Z; [|lra]. rewrite sumN_zero; [lra|]. intros k _. unfold mmul.
  change (fold_right Rplus 0 (map (fun j => MInv 0%Z (r mod N)%nat j * MSigma j k) (seq 0 N))) with (sumN N (fun j => MInv 0%Z (r mod N)%nat j * MSigma j k)).
  rewrite sumN_zero; [ring|]. intros j _. rewrite Z0. ring.
Qed.

Theorem matrix_energy : forall inp out, length inp = (6 * N)%nat -> length out = (6 * N)%nat ->
  exists y, matrixMult op (Z.of_nat N) (fun _ _ => []) b inp out = Ok y /\ length y = (6 * N)%nat /\
    fieldRate N Mass inp y = facesum m (pointRate N alpha m gb gi inp).
Proof.
  intros inp out LI LO. destruct same_operator as (A & EA & HA). destruct (HA inp out LI LO) as (y & g & EY & AG & LY & V).
  exists y. split; [exact EY|]. split; [exact LY|].
  destruct (balance N m dim alpha gb gi ob ib Mass MInv D MSigma sm S T) as (A' & EA' & HB). rewrite EA in EA'. injection EA' as <-.
  destruct (HB inp LI) as (g' & AG' & BG). rewrite <- (applies_unique N A inp g g' AG AG') in BG.
  assert (Q : fieldRate N Mass inp y = fieldRate N Mass inp g + ohmic N MSigma inp).
  { unfold fieldRate, ohmic, suml. cbn [map fold_right].
    assert (H1 : forall d, (0 <= d <= 2)%Z -> mform N (Mass 1%Z) (fld N inp 1 d) (fld N y 1 d) = mform N (Mass 1%Z) (fld N inp 1 d) (fld N g 1 d)).
    { intros d Hd. apply mform_ext. intros i Hi. rewrite (V 1%Z d i) by lia. cbn [Z.eqb]. lra. }
    assert (H0 : forall d, (0 <= d <= 2)%Z -> mform N (Mass 0%Z) (fld N inp 0 d) (fld N y 0 d) = mform N (Mass 0%Z) (fld N inp 0 d) (fld N g 0 d) + mform N MSigma (fld N inp 0 d) (fld N inp 0 d)).
    { intros d Hd. rewrite (mform_ext N _ _ _ (fun i => fld N g 0 d i + sumN N (fun k => mmul N (MInv 0%Z) MSigma i k * fld N inp 0 d k))).
      - rewrite mform_plus, mass_mul; [reflexivity|]. intros i j. destruct S as (_ & _ & _ & _ & I & _). apply I. left. reflexivity.
      - intros i Hi. rewrite (V 0%Z d i) by lia. reflexivity. }
    rewrite !H1, !H0 by lia. ring. }
  rewrite Q, BG. ring.
Qed.
End Form.

(** A conducting material: the two operators differ. *)
Theorem conductivity_refuted : exists N m dim gb gi ob Mass MInv D MSigma A, dgSpace N m dim Mass MInv D /\ tables m gb gi ob [] /\ (forall v, 0 <= mform N MSigma v v) /\
  buildGlobalOperator R Rplus Rmult 1 (-1) (factoryRows N m dim 1 ob [] MInv D MSigma []) dim (Z.of_nat N) 0 false = Ok A /\
  exists x y, length x = (6 * N)%nat /\ matrixMult (factoryRows N m dim 1 ob [] MInv D MSigma []) (Z.of_nat N) (fun _ _ => []) false x x = Ok y /\ ~ applies A N x y.
Proof.
  destruct (same_operator 4 gMesh 1 1 gGb gGi gOb [] gMass gMInv gD (sMass 1) [] g_space g_tables) as (A & EA & HA).
  exists 4%nat, gMesh, 1%Z, gGb, gGi, gOb, gMass, gMInv, gD, (sMass 1), A. split; [exact g_space|]. split; [exact g_tables|]. split; [exact (g_psd 1 Rle_0_1)|]. split; [exact EA|].
  set (x := repeat 1 24). assert (LX : length x = (6 * 4)%nat) by reflexivity.
  destruct (HA x x LX LX) as (y & g & EY & AG & LY & V). exists x, y. split; [exact LX|]. split; [exact EY|]. intros AY.
  pose proof (applies_unique 4 A x y g AY AG) as <-. specialize (V 0%Z 0%Z 0%nat ltac:(lia) ltac:(lia) ltac:(lia)). cbn [Z.eqb] in V.
  assert (Q : sumN 4 (fun k => mmul 4 (gMInv 0%Z) (sMass 1) 0%nat k * fld 4 x 0 0 k) = 0) by lra. revert Q.
  unfold sumN, mmul, fld, x, gMInv, sMass, gMass. cbn -[IZR Rplus Rmult Rinv Ropp Rminus Rdiv]. lra.
Qed.
Lemma m_hyps : dgSpace 4 gMesh 1 gMass gMInv gD /\ tables gMesh gGb gGi gOb [] /\ length gX = (6 * 4)%nat.
Proof. split; [exact g_space|]. split; [exact g_tables|reflexivity]. Qed.
(** One dof per process on a line, the other end of the face on the neighbour. *)
Definition rOp (o : opname) : list (list (Z * R)) :=
  match o with
  | OpDerivative _ 0%Z => [[(0%Z, 3)]]
  | OpOneNormal _ _ 0%Z | OpTwoNormal _ 0%Z 0%Z | OpZeroNormal _ => [[(0%Z, 1); (1%Z, -1)]]
  | OpConductive => [[(0%Z, 5)]]
  | _ => [[]]
  end.
Definition rX : list R := [1; 10; 2; 20; 3; 30; 4; 40; 5; 50; 6; 60].
Definition rInp : list R := [1; 2; 3; 4; 5; 6].
Definition rNbr (f d : Z) : list R := [10 * IZR (3 * f + d + 1)].
Lemma m_ranks : ops_ok rOp 1 1 /\ localDerivatives rOp 1 /\ flatBeyond rOp 1 /\ swapsNormals rOp /\
  length rX = Z.to_nat (6 * (1 + 1)) /\ together 1 1 rX rInp rNbr.
Proof.
  assert (NIL : forall i u, rsum (map (fun e : Z * R => snd e * u (fst e)) (nth i [[]] [])) = 0).
  { intros [|[|i]] u; reflexivity. }
  split; [|split; [|split; [|split; [|split]]]].
  - intros o. assert (C : rOp o = [[(0%Z, 3)]] \/ rOp o = [[(0%Z, 1); (1%Z, -1)]] \/ rOp o = [[(0%Z, 5)]] \/ rOp o = [[]]).
    { destruct o; cbn; repeat match goal with |- context [match ?v with _ => _ end] => destruct v end; auto. }
    destruct C as [->|[->|[->| ->]]]; (split; [reflexivity|]); intros row e [<-|[]] I; cbn in I; repeat destruct I as [<-|I]; cbn [fst]; try lia; contradiction.
  - intros f d row e I1 I2. cbn in I1. destruct d; cbn in I1; destruct I1 as [<-|[]]; cbn in I2; [|contradiction|contradiction]. destruct I2 as [<-|[]]. cbn. lia.
  - intros f d i u Hf Hd. assert (C : d = 1%Z \/ d = 2%Z) by lia. unfold act.
    destruct C as [->| ->]; (split; [apply NIL|split; [apply NIL|split; [apply NIL|]]]); intros d2 Hd2; (split; [|apply NIL]);
      assert (C2 : d2 = 0%Z \/ d2 = 1%Z \/ d2 = 2%Z) by lia; destruct C2 as [->|[->| ->]]; apply NIL.
  - intros f d d2 i u Hf Hd Hd2. split; [|reflexivity].
    assert (C1 : d = 0%Z \/ d = 1%Z \/ d = 2%Z) by lia. assert (C2 : d2 = 0%Z \/ d2 = 1%Z \/ d2 = 2%Z) by lia.
    destruct C1 as [->|[->| ->]], C2 as [->|[->| ->]]; reflexivity.
  - reflexivity.
  - split; [reflexivity|]. intros f d Hf Hd. split; [reflexivity|].
    assert (C1 : d = 0%Z \/ d = 1%Z \/ d = 2%Z) by lia. assert (C2 : f = 0%Z \/ f = 1%Z) by lia.
    split; intros k Hk; assert (k = 0%Z) by lia; subst k; destruct C1 as [->|[->| ->]], C2 as [->| ->]; cbv -[IZR Rmult]; try reflexivity; lra.
Qed.

(** Against the stored matrix, on every process. *)
Theorem matrix_ranks : forall op n nb dim, (0 <= n)%Z -> (0 <= nb)%Z -> (1 <= dim <= 3)%Z -> ops_ok op n nb ->
  localDerivatives op n -> flatBeyond op dim -> swapsNormals op ->
  forall x inp out nbr ib f d i, length x = Z.to_nat (6 * (n + nb)) -> together n nb x inp nbr -> length out = Z.to_nat (6 * n) ->
  (0 <= f <= 1)%Z -> (0 <= d <= 2)%Z -> (i < Z.to_nat n)%nat ->
  exists A y v, buildGlobalOperator R Rplus Rmult 1 (-1) op dim n nb ib = Ok A /\ matrixMult op n nbr ib inp out = Ok y /\
    csr_mult_row A x ((3 * f + d) * n + Z.of_nat i) = Ok v /\
    nth (Z.to_nat ((3 * f + d) * n + Z.of_nat i)) y 0 = v + if (f =? 0)%Z then act op OpConductive i (comp n nb x 0 d) else 0.
Proof.
  intros op n nb dim Hn Hnb Hdim OK LD FB SW x inp out nbr ib f d i LX TG LO Hf Hd Hi.
  destruct (global_action op n nb Hn Hnb OK dim ib x f d i Hdim Hf Hd Hi LX) as (A & EA & VA).
  destruct (matrix_is_global op n nb Hn Hnb OK dim Hdim LD FB SW x inp out nbr ib TG LO) as (y & EY & _ & VY).
  exists A, y, (rhs op dim n nb ib x f d i). split; [exact EA|]. split; [exact EY|]. split; [exact VA|].
  rewrite (VY f d i Hf Hd Hi). unfold conductive_term. change (act op OpConductive i (comp n nb x 0 d)) with (app op n nb OpConductive x 0 d i).
  destruct (f =? 0)%Z; lra.
Qed.

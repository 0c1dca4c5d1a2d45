(** Four elements on a line, two per process, with two surfaces of the total field zone; and a field
    that one process keeps and two processes drop. *)
From Coq Require Import ZArith List Bool Reals Lia Lra Permutation.
From Verif Require Import Common Csr_Model Csr_Spec Face_Model Face_Spec Face_Proofs Setup_Model Setup_Spec Assembly_Model Assembly_Spec Assembly_Proofs Form_Model Form_Spec FormEx_Proofs Nodal_Spec Nodal_Proofs NodalMult_Proofs NodalEnergy_Proofs Global_Spec Global_Proofs GlobalEnergy_Proofs GlobalBalance_Proofs GlobalEx_Proofs Evol_Model Evol_Spec EvolRhs_Proofs Tfsf_Spec TfsfLil_Proofs Tfsf_Proofs TfsfEx_Proofs Ode_Model Par_Model Par_Spec Par_Proofs ParRows_Proofs ParMult_Proofs ParEx_Proofs ParSrc_Model ParSrc_Spec ParSrc_Proofs ParSrcRun_Proofs.
Import ListNotations.
Local Open Scope R_scope.

Definition kFace := mkFace 1 (Some 1%nat) [mkQ 1 (G1 1) [1] [1]].
Definition kFlip := mkFace 1 (Some 1%nat) [mkQ 1 (G1 0) [1] [1]].
Definition kF (i : nat) := mkMF [i] [S i] kFace.
(** The first and the last face belong to the surface. *)
Definition kMesh := mkFM [kF 0; kF 1; kF 2] [(2%Z, 0%nat); (2%Z, 2%nat)] [1; 2; 3]%Z.
Definition kI : Z -> mat := fun _ i j => if (i =? j)%nat then 1 else 0.
Definition kD : Z -> mat := fun _ i j => if (i =? j)%nat then (if (i =? 0)%nat then / 2 else if (i =? 3)%nat then - / 2 else 0) else 0.
Definition kZ : mat := fun _ _ => 0.
Definition kOwns : list (list nat) := [[0; 1]; [2; 3]]%nat.
Definition kR0 := mkPR 2 [(1, 0)]%nat (mkFM [kF 0] [(2%Z, 0%nat)] [1; 2; 3]%Z) [kF 1] kI kD kZ.
Definition kR1 := mkPR 2 [(0, 1)]%nat (mkFM [kF 0] [(2%Z, 0%nat)] [1; 2; 3]%Z) [mkMF [0]%nat [2]%nat kFlip] kI (fun d i j => kD d (S (S i)) (S (S j))) kZ.
Definition kRanks : list prank := [kR0; kR1].
Definition kSub : list nat := [0; 1; 2; 3]%nat.
(** Ey, of size [a] and with opposite signs on the two sides of the surface. *)
Definition kInc (a : R) (t : R) (c d : nat) : R := if (c =? 1)%nat then (if Nat.even d then a else - a) else 0.
Definition kSS (a : R) : list psource := [mkPS true [0; 1]%Z (sampled (kInc a) [0; 1]%nat); mkPS true [0; 1]%Z (sampled (kInc a) [2; 3]%nat)].

Lemma k_space : dgSpace 4 kMesh 1 kI kI kD.
Proof.
  assert (S : sqrt 1 = 1) by exact sqrt_1.
  split; [lia|]. split; [split; [|split]|split; [|split; [|split]]].
  - apply Forall_forall. intros f [<-|[<-|[<-|[]]]]; (split; [reflexivity|split; [reflexivity|]]); apply Forall_forall; cbn; intros d H; lia.
  - apply Forall_forall. intros a [<-|[<-|[<-|[]]]]; lia.
  - apply Forall_forall. intros b [<-|[<-|[]]]; cbn; lia.
  - cbn [map snd kMesh fm_bdr]. repeat (constructor; [cbn; lia|]). constructor.
  - apply Forall_forall. intros f H. split.
    + apply Forall_forall. intros q I. destruct H as [<-|[<-|[<-|[]]]]; destruct I as [<-|[]]; repeat split; try (cbn; lra); try (left; reflexivity); try (right; reflexivity); try reflexivity; try lia; cbn; lra.
    + intros q d I Hd. destruct d as [|d]; [lia|]. unfold unitN, normalOf.
      destruct H as [<-|[<-|[<-|[]]]]; destruct I as [<-|[]]; cbn [q_geo calculateNormal weightOf nth]; destruct d; cbn; lra.
  - intros f i j _ Hi Hj. unfold kI, sumN, suml.
    destruct i as [|[|[|[|i]]]]; [| | | |lia]; (destruct j as [|[|[|[|j]]]]; [| | | |lia]); cbn -[IZR Rplus Rmult Rinv]; lra.
  - intros d v u Hd. assert (d = 0%Z) by lia. subst d. unfold mform, kD, sumN, suml, facesum, ds, unitN, side1, side2, local, suml. cbn -[IZR Rplus Rmult Rinv Ropp Rminus Rdiv]. field.
Qed.
Lemma k_good : goodMesh 4 kMesh 1.
Proof.
  destruct k_space as (A & W & B & C & _). split; [exact A|]. split; [exact W|]. split; [exact B|].
  rewrite Forall_forall in C. apply Forall_forall. intros f I. exact (proj1 (C f I)).
Qed.
Lemma k_tables : tables kMesh gGb gGi gOb [].
Proof. exact g_tables. Qed.
Lemma k_flip : flippedFace kFace kFlip.
Proof.
  split; [reflexivity|]. split; [reflexivity|]. split.
  - apply Forall_forall. intros q [<-|[]]. repeat split; try (cbn; lra); try (left; reflexivity); try (right; reflexivity); try reflexivity; try lia; cbn; lra.
  - exists (f_pts kFlip). split; [apply Permutation_refl|]. constructor; [|constructor]. split; [reflexivity|]. split; [|split; reflexivity].
    intros d. unfold unitN, normalOf. cbn [q_geo weightOf]. destruct d as [|d]; cbn; lra.
Qed.
Ltac kfaces E fi := destruct fi as [|[|[|fi]]]; cbn in E; [| | |destruct fi; discriminate]; injection E as <-; cbn.
Ltac notin I := exfalso; cbn in I; repeat (destruct I as [I|I]; [discriminate|]); exact I.
Lemma k_process0 : process kMesh kOwns [0; 1]%nat kR0.
Proof.
  split; [reflexivity|]. split; [repeat constructor|]. split; [reflexivity|]. exists [0%nat], [1%nat].
  split; [repeat constructor; intros []|]. split; [repeat constructor; intros []|]. split; [|split; [|split; [|split; [|split; [|split]]]]].
  - intros fi F E. kfaces E fi; (split; intros I).
    + intros d J. exact J.
    + left. reflexivity.
    + notin I.
    + specialize (I 2%nat ltac:(cbn; auto)). notin I.
    + notin I.
    + specialize (I 2%nat ltac:(cbn; auto)). notin I.
  - intros fi F E. kfaces E fi; (split; [intros I|intros (I & d & J & K)]).
    + notin I.
    + exfalso. apply I. intros z Z. exact Z.
    + split; [|exists 1%nat; auto]. intros X. specialize (X 2%nat ltac:(cbn; auto)). notin X.
    + left. reflexivity.
    + notin I.
    + exfalso. lia.
  - constructor; [|constructor]. exists (kF 0). split; [reflexivity|]. split; [reflexivity|]. split; [repeat constructor|]. split; reflexivity.
  - constructor; [|constructor]. exists (kF 1). split; [reflexivity|]. split; [repeat constructor|]. left. split; [reflexivity|]. split; [repeat constructor|]. split; reflexivity.
  - repeat constructor. intros [].
  - intros a k. cbn. split.
    + intros [I|[]]. injection I as <- <-. exists 0%nat. auto.
    + intros (fi & E & I). destruct k as [|k]; [|destruct k; discriminate]. cbn in E. injection E as <-. destruct I as [I|[I|[]]]; [left; congruence|discriminate].
  - intros a fi [<-|[]] [I|[I|[]]]; discriminate.
Qed.
Lemma k_process1 : process kMesh kOwns [2; 3]%nat kR1.
Proof.
  split; [reflexivity|]. split; [repeat constructor|]. split; [reflexivity|]. exists [2%nat], [1%nat].
  split; [repeat constructor; intros []|]. split; [repeat constructor; intros []|]. split; [|split; [|split; [|split; [|split; [|split]]]]].
  - intros fi F E. kfaces E fi; (split; intros I).
    + notin I.
    + specialize (I 0%nat ltac:(cbn; auto)). notin I.
    + notin I.
    + specialize (I 1%nat ltac:(cbn; auto)). notin I.
    + intros d J. exact J.
    + left. reflexivity.
  - intros fi F E. kfaces E fi; (split; [intros I|intros (I & d & J & K)]).
    + notin I.
    + exfalso. lia.
    + split; [|exists 2%nat; auto]. intros X. specialize (X 1%nat ltac:(cbn; auto)). notin X.
    + left. reflexivity.
    + notin I.
    + exfalso. apply I. intros z Z. exact Z.
  - constructor; [|constructor]. exists (kF 2). split; [reflexivity|]. split; [reflexivity|]. split; [repeat constructor|]. split; reflexivity.
  - constructor; [|constructor]. exists (kF 1). split; [reflexivity|]. split; [repeat constructor|]. right. split; [exact k_flip|]. split; [repeat constructor|]. split; reflexivity.
  - repeat constructor. intros [].
  - intros a k. cbn. split.
    + intros [I|[]]. injection I as <- <-. exists 2%nat. auto.
    + intros (fi & E & I). destruct k as [|k]; [|destruct k; discriminate]. cbn in E. injection E as <-. destruct I as [I|[I|[]]]; [discriminate|left; congruence].
  - intros a fi [<-|[]] [I|[I|[]]]; discriminate.
Qed.
Lemma k_within : forall own (M M' : mat), (forall i j, i <> j -> M i j = 0) -> (forall i j, (i < length own)%nat -> (j < length own)%nat -> M' i j = M (nth i own 0%nat) (nth j own 0%nat)) -> within 4 own M M'.
Proof. intros own M M' H1 H2. split; [|exact H2]. intros i j I Hj Nj. apply H1. intros ->. contradiction. Qed.
Lemma k_distributed : distributed 4 kMesh 1 kI kD kZ kOwns kRanks.
Proof.
  assert (DI : forall g i j, i <> j -> kI g i j = 0) by (intros g i j H; unfold kI; apply Nat.eqb_neq in H; rewrite H; reflexivity).
  assert (DD : forall g i j, i <> j -> kD g i j = 0) by (intros g i j H; unfold kD; apply Nat.eqb_neq in H; rewrite H; reflexivity).
  split; [apply Permutation_refl|]. split.
  - intros F own IF Io.
    destruct IF as [<-|[<-|[<-|[]]]]; destruct Io as [<-|[<-|[]]]; cbn [kF mf_dofs1 mf_dofs2]; split;
      first [left; intros z [<-|[]]; cbn; auto; fail | right; intros d J K; cbn [In] in J, K; lia].
  - constructor; [|constructor; [|constructor]].
    + split; [exact k_process0|]. split; [intros; apply k_within; [apply DI|]|split; [intros; apply k_within; [apply DD|]|apply k_within; [reflexivity|]]];
        intros i j Hi Hj; cbn [length] in *; destruct i as [|[|i]]; try lia; destruct j as [|[|j]]; try lia; reflexivity.
    + split; [exact k_process1|]. split; [intros; apply k_within; [apply DI|]|split; [intros; apply k_within; [apply DD|]|apply k_within; [reflexivity|]]];
        intros i j Hi Hj; cbn [length] in *; destruct i as [|[|i]]; try lia; destruct j as [|[|j]]; try lia; reflexivity.
Qed.
Lemma k_shared : forall a, sourcesShared 4 kOwns kSub (kInc a) (kSS a).
Proof.
  intros a. split; [repeat constructor; cbn; lia|]. split; [intros d I; cbn in I; lia|].
  assert (X : forall own, (own = [0; 1] \/ own = [2; 3])%nat -> sourceOf own kSub (kInc a) (mkPS true [0; 1]%Z (sampled (kInc a) own))).
  { intros own Ho. exists [0; 1]%nat. split; [reflexivity|]. split; [repeat constructor; cbn; lia|]. split; [|split; [reflexivity|]].
    - intros k. destruct Ho as [-> | ->]; cbn [length]; (split; [intros [<-|[<-|[]]]; cbn; auto 10|intros (Hk & _); cbn; lia]).
    - intros t. destruct Ho as [-> | ->]; reflexivity. }
  constructor; [apply X; left; reflexivity|]. constructor; [apply X; right; reflexivity|constructor].
Qed.
Lemma k_sizes : forall a t, sizeAt (kInc a) t kSub = 4 * (a * a) /\ sizeAt (kInc a) t (inside [0; 1]%nat kSub) = 2 * (a * a) /\ sizeAt (kInc a) t (inside [2; 3]%nat kSub) = 2 * (a * a).
Proof. intros a t. unfold sizeAt, suml, inside, kSub, kInc. cbn -[IZR Rplus Rmult Ropp]. repeat split; ring. Qed.
Lemma k_same : forall t, sameVerdict kOwns kSub (kInc 1) t.
Proof. intros t. right. destruct (k_sizes 1 t) as (_ & E1 & E2). intros own [<-|[<-|[]]]; right; unfold quiet; rewrite ?E1, ?E2; lra. Qed.
Lemma k_marks : marks (markerSize (fm_battrs kMesh)) gGi TotalFieldIn tSm.
Proof. exact t_marks. Qed.

Notation kT := (buildSourceFaceOperator R Rplus Rmult 1 (-1) (factoryRows 4 kMesh 1 1 gOb [] kI kD kZ tSm) 1 (Z.of_nat 4) 0).
Definition k0 (i : nat) : R := if (i =? 0)%nat then 1 else 0.
Lemma k_first : forall w, mform 4 (kI 0%Z) k0 w = w 0%nat.
Proof. intros w. unfold mform, sumN, suml, kI, k0. cbn -[IZR Rplus Rmult]. ring. Qed.
Lemma k_row : forall a t h, fieldOn 4 kSub (kInc a) t h -> rowval kT h 4 = - a.
Proof.
  intros a t h (Lh & Hh).
  assert (V : forall c d, (c < 6)%nat -> (d < 4)%nat -> nth (c * 4 + d) h 0 = kInc a t c d).
  { intros c d Hc Hd. apply (Hh c d Hc Hd). unfold kSub. cbn. lia. }
  pose proof (source_action_nbr (factoryRows 4 kMesh 1 1 gOb [] kI kD kZ tSm) (Z.of_nat 4) 0 1 h 0 1 0 ltac:(lia) ltac:(lia)) as X.
  specialize (X (rows_ok 4 kMesh 1 1 gOb [] kI kD kZ tSm) ltac:(lia) ltac:(lia) ltac:(lia) ltac:(cbn; lia) ltac:(rewrite Lh; reflexivity)).
  change (Z.to_nat ((3 * 0 + 1) * Z.of_nat 4 + Z.of_nat 0)) with 4%nat in X. rewrite X. clear X.
  unfold jump_term, penalty_term, ifdim. cbn [Z.ltb Z.compare Z.add Z.modulo Z.div_eucl Z.pos_div_eucl Z.sub Pos.compare Pos.compare_cont Z.opp Z.leb Pos.add]. unfold sgn.
  change ((0 + 1 + 2) mod 3)%Z with 0%Z. change ((1 + 2) mod 3)%Z with 0%Z. change ((1 + 1) mod 3)%Z with 2%Z.
  destruct (srcZ 4 kMesh 1 1 gGi kI kI kD tSm k_space k_marks) as (A & EA & VA).
  destruct (srcO 4 kMesh 1 gGi kI kI kD tSm k_space k_marks 0 ltac:(lia)) as (B & EB & VB).
  pose proof (op_form 4 kMesh 1 1 gOb [] kI kI kD kZ tSm k_space h (OpSourceZeroNormal 0) 0 A k0 0 1 ltac:(auto) ltac:(cbn [factoryMat]; rewrite EA; reflexivity)) as E1.
  pose proof (op_form 4 kMesh 1 1 gOb [] kI kI kD kZ tSm k_space h (OpSourceOneNormal 0 1 0) 0 B k0 1 2 ltac:(auto) ltac:(cbn [factoryMat]; change (Z.to_nat 0) with 0%nat; rewrite EB; reflexivity)) as E2.
  rewrite k_first in E1, E2. rewrite VA in E1. rewrite VB in E2.
  change (2 mod 3)%Z with 2%Z. change (3 mod 3)%Z with 0%Z. change (2 <? 1)%Z with false. change (0 <? 1)%Z with true. change (0 =? 0)%Z with true. cbv iota.
  rewrite E1, E2. clear E1 E2.
  assert (F1 : forall d, (d < 4)%nat -> fld 4 h 0 1 d = kInc a t 1 d).
  { intros d Hd. rewrite <- V by lia. unfold fld. f_equal. lia. }
  assert (F2 : forall d, (d < 4)%nat -> fld 4 h 1 2 d = 0).
  { intros d Hd. transitivity (kInc a t 5 d); [|reflexivity]. rewrite <- V by lia. unfold fld. f_equal. lia. }
  unfold fsum, facesum, suml, PSpt, OSpt, markedb, ds, t1, t2, side1, side2, local, suml, k0.
  cbn -[IZR Rplus Rmult Rinv Ropp Rminus Rdiv fld kInc]. rewrite !F1, !F2 by lia. unfold kInc. cbn -[IZR Rplus Rmult Rinv Ropp Rminus Rdiv]. change (Pos.to_nat 1) with 1%nat. cbn [negb Z.eqb]. field.
Qed.
(** Neither process hears the field, one process alone does. *)
Lemma threshold : ~ (forall N m dim alpha gb gi ob ib MInv D MSigma sm owns rks sub inc ss,
  goodMesh N m dim -> tables m gb gi ob ib -> Z.of_nat (length sm) = markerSize (fm_battrs m) -> distributed N m dim MInv D MSigma owns rks -> sourcesShared N owns sub inc ss ->
  forall junk : nat -> list R, (forall n, length (junk n) = n) ->
  forall A Ps, buildGlobalOperator R Rplus Rmult 1 (-1) (factoryRows N m dim alpha ob ib MInv D MSigma sm) dim (Z.of_nat N) 0
      (match ib with [] => false | _ => true end) = Ok A ->
    mapM (rankOperator dim alpha ob ib sm) rks = Ok Ps ->
    forall t works x y z, length x = (6 * N)%nat -> length works = length rks -> applies A N x y ->
      oneSource N (finalized (6 * N) (6 * N) (buildSourceFaceOperator R Rplus Rmult 1 (-1) (factoryRows N m dim alpha ob ib MInv D MSigma sm) dim (Z.of_nat N) 0))
        (map Z.of_nat sub) (sampled inc sub) t y = Ok z ->
      allMultS junk rks Ps (map (rankSource dim alpha ob ib sm) rks) ss t works (spread N owns x) = Ok (spread N owns z)).
Proof.
  intros H. set (a := 6 / 1000000000).
  pose proof (H 4%nat kMesh 1%Z 1 gGb gGi gOb [] kI kD kZ tSm kOwns kRanks kSub (kInc a) (kSS a) k_good k_tables eq_refl k_distributed (k_shared a) (fun n => repeat 0 n) ltac:(intros; apply repeat_length)) as H'.
  destruct (eval_ok 4 kMesh 1 1 gGb gGi gOb [] kI kD kZ tSm kOwns kRanks kSub (kInc a) (kSS a) k_good k_tables eq_refl k_distributed (k_shared a) (fun n => repeat 0 n) ltac:(intros; apply repeat_length)) as (A & Ps & EA & EP & V1 & V2).
  specialize (H' A Ps EA EP 0 [[]; []] (zeros (6 * 4))).
  destruct (V2 0 (zeros (6 * 4)) ltac:(apply repeat_length)) as (y & z & HY & EZ & _).
  specialize (H' y z ltac:(apply repeat_length) eq_refl HY EZ).
  destruct (k_sizes a 0) as (S0 & S1 & S2).
  assert (Hz : heard 4 kOwns kSub (kInc a) 0 (zeros (6 * 4))).
  { split; [apply repeat_length|]. intros own c d Io Id Hc. split; [|intros _; unfold zeros; apply nth_repeat].
    intros _ Nq. exfalso. apply Nq. unfold quiet. destruct Io as [<-|[<-|[]]]; rewrite ?S1, ?S2; unfold a; lra. }
  destruct (lil_act 4 kMesh 1 1 gOb [] kI kD kZ tSm (zeros (6 * 4))) as (w & Hw).
  specialize (V1 0 (zeros (6 * 4)) (zeros (6 * 4)) y w [[]; []] Hz ltac:(apply repeat_length) HY Hw eq_refl).
  rewrite V1 in H'. apply ok_inj in H'. pose proof Hw as (Lw & Vw). pose proof HY as (Ly & _).
  destruct (serial_source 4 kMesh 1 1 gOb [] kI kD kZ tSm kOwns kSub (kInc a) (kSS a) (k_shared a) 0 (fieldV 4 kSub (kInc a) 0) y Ly (field_ok 4 kSub (kInc a) 0)) as (z' & EZ' & _ & Z2).
  rewrite EZ in EZ'. apply ok_inj in EZ'. subst z'.
  destruct (lil_act 4 kMesh 1 1 gOb [] kI kD kZ tSm (fieldV 4 kSub (kInc a) 0)) as (w' & Hw'). pose proof Hw' as (Lw' & Vw').
  assert (Nq : ~ quiet (sizeAt (kInc a) 0 kSub)) by (unfold quiet; rewrite S0; unfold a; lra).
  specialize (Z2 Nq w' Hw'). subst z.
  apply (spread_inj 4 kOwns) in H'; [|apply Permutation_refl|rewrite addv_len; congruence|rewrite addv_len; congruence].
  assert (Q : nth 4 (addv (-1) w y) 0 = nth 4 (addv (-1) w' y) 0) by (rewrite H'; reflexivity).
  rewrite !addv_nth in Q by congruence. rewrite Vw, Vw' in Q by lia.
  rewrite sumN_zero in Q by (intros c _; unfold zeros; rewrite nth_repeat; ring).
  pose proof (k_row a 0 _ (field_ok 4 kSub (kInc a) 0)) as K. unfold rowval in K. rewrite (proj1 (field_ok 4 kSub (kInc a) 0)) in K. change (6 * 4)%nat with 24%nat in K, Q.
  rewrite K in Q. unfold a in Q. lra.
Qed.

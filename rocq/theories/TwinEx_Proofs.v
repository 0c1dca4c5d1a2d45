(** The two operators on a square of two triangles. *)
From Coq Require Import ZArith List Bool Lia Reals Lra Sorted Permutation.
From Verif Require Import Common Csr_Model Geo_Spec Face_Model Face_Spec Face_Proofs Nodal_Model Nodal_Spec NodalEnergy_Spec Step_Model Setup_Model Setup_Spec Assembly_Model Form_Model Form_Spec Global_Spec Conn_Model Conn_Spec.
From Verif Require Import Nodal_Proofs NodalMult_Proofs NodalEnergy_Proofs GlobalEnergy_Proofs GlobalBalance_Proofs GlobalEx_Proofs ConnInt_Proofs ConnEx_Proofs Hest_Model Hest_Spec Hest_Proofs HestElem_Proofs HestBuild_Proofs HestMesh_Proofs HestEnergy_Proofs HestRun_Proofs HestEx_Proofs Twin_Spec TwinRun_Proofs.
Import ListNotations.
Local Open Scope R_scope.

Definition twOut (g : geo) (ds : list nat) (a b : nat) : mface :=
  mkMF ds [] (mkFace 3 None (map (fun wt => mkQ (fst wt) g (edge a b (snd wt)) []) [(1/6, 0); (2/3, 1/2); (1/6, 1)])).
Definition twIn : mface :=
  mkMF [0; 1; 2]%nat [3; 4; 5]%nat (mkFace 3 (Some 3%nat)
    [mkQ (1/6) (G2 (-1) 1) (edge 1 2 0) (edge 2 0 1); mkQ (2/3) (G2 (-1) 1) (edge 1 2 (1/2)) (edge 2 0 (1/2)); mkQ (1/6) (G2 (-1) 1) (edge 1 2 1) (edge 2 0 0)]).
Definition twM : fmesh :=
  mkFM [twOut (G2 1 0) [0; 1; 2]%nat 0 1; twIn; twOut (G2 0 (-1)) [0; 1; 2]%nat 2 0; twOut (G2 0 1) [3; 4; 5]%nat 0 1; twOut (G2 (-1) 0) [3; 4; 5]%nat 1 2]
    [(1%Z, 0%nat); (1%Z, 2%nat); (2%Z, 3%nat); (2%Z, 4%nat); (3%Z, 1%nat)] [1; 2; 3]%Z.
Definition twMass : Z -> mat := fun _ i j => if (i / 3 =? j / 3)%nat then p1Mass (i mod 3) (j mod 3) else 0.
Definition twInv : Z -> mat := fun _ i j => if (i / 3 =? j / 3)%nat then (if (i mod 3 =? j mod 3)%nat then 18 else -6) else 0.
Definition twD : Z -> mat := fun d i j => if (i / 3 =? j / 3)%nat then ge_D (nth (i / 3) sqE noEl) (Z.to_nat d) (i mod 3) (j mod 3) else 0.

Lemma w_pos : 0 < sqrt (1 * 1 + 0 * 0) /\ 0 < sqrt (-1 * -1 + 1 * 1) /\ 0 < sqrt (0 * 0 + -1 * -1) /\ 0 < sqrt (0 * 0 + 1 * 1) /\ 0 < sqrt (-1 * -1 + 0 * 0).
Proof. repeat split; apply sqrt_lt_R0; lra. Qed.
Lemma six : forall i, (i < 6)%nat -> i = 0%nat \/ i = 1%nat \/ i = 2%nat \/ i = 3%nat \/ i = 4%nat \/ i = 5%nat. Proof. intros; lia. Qed.

Lemma tw_space : dgSpace 6 twM 2 twMass twInv twD.
Proof.
  destruct w_pos as [W1 [W2 [W3 [W4 W5]]]].
  split; [lia|]. split; [split; [|split]|split; [|split; [|split]]].
  - unfold twM, twOut, twIn. cbn [fm_faces]. repeat (constructor; [split; [reflexivity|split; [reflexivity|]]; cbn; repeat constructor; lia|]). constructor.
  - cbn [fm_battrs twM]. repeat constructor; lia.
  - cbn [fm_bdr twM]. repeat (constructor; [cbn; lia|]). constructor.
  - cbn [map snd twM fm_bdr]. repeat (constructor; [cbn; lia|]). constructor.
  - unfold twM, twOut, twIn. cbn [fm_faces]. apply Forall_forall. intros f H. split.
    + apply Forall_forall. intros q I. cbn [In] in H. destruct H as [<-|[<-|[<-|[<-|[<-|[]]]]]]; cbn [mf_face f_pts map fst snd In] in I; destruct I as [<-|[<-|[<-|[]]]];
        (split; [cbn [q_geo geoOk weightOf]; assumption|split; reflexivity]).
    + intros q d I Hd. destruct d as [|[|d]]; [lia|lia|]. unfold unitN, normalOf.
      cbn [In] in H. destruct H as [<-|[<-|[<-|[<-|[<-|[]]]]]]; cbn [mf_face f_pts map fst snd In] in I; destruct I as [<-|[<-|[<-|[]]]]; cbn [q_geo calculateNormal nth]; destruct d; unfold Rdiv; ring.
  - intros f i j _ Hi Hj. unfold twMass, twInv, p1Mass, sumN, suml.
    destruct (six i Hi) as [->|[->|[->|[->|[->| ->]]]]]; destruct (six j Hj) as [->|[->|[->|[->|[->| ->]]]]]; cbn -[IZR Rplus Rmult Rinv]; lra.
  - intros d v u Hd. assert (d = 0 \/ d = 1)%Z as [-> | ->] by lia;
    unfold mform, twD, sumN, suml, facesum, ds, unitN, normalOf, side1, side2, local, tr, twM, twOut, twIn, sqE, sqE0, sqE1, grad, edge, suml;
    change (Z.to_nat 0) with 0%nat; change (Z.to_nat 1) with 1%nat; cbn -[IZR Rplus Rmult Rinv Ropp Rminus Rdiv sqrt];
    set (w1 := sqrt (1 * 1 + 0 * 0)) in *; set (w2 := sqrt (-1 * -1 + 1 * 1)) in *; set (w3 := sqrt (0 * 0 + -1 * -1)) in *; set (w4 := sqrt (0 * 0 + 1 * 1)) in *; set (w5 := sqrt (-1 * -1 + 0 * 0)) in *;
    clearbody w1 w2 w3 w4 w5; field; lra.
Qed.

Ltac nums := repeat match goal with |- context [Z.to_nat ?x] => let v := eval vm_compute in (Z.to_nat x) in change (Z.to_nat x) with v end.
Ltac two e He := assert (e = 0 \/ e = 1)%Z as [-> | ->] by (unfold inR in He; cbn in He; lia).
Lemma tw_blocks : (forall g, (g = 0 \/ g = 1)%Z -> inBlocks 3 sqE (ownMass p1 Triangle) (twMass g)) /\
  (forall d, (0 <= d < 2)%Z -> inBlocks 3 sqE (fun g => ge_D g (Z.to_nat d)) (twD d)).
Proof.
  split.
  - intros g _ e e' i j ge Hz He' Hi Hj. pose proof (Sub_Proofs.zget_len _ _ _ Hz) as He. cbn [sqE length] in He. two e He; two e' He'; injection Hz as <-;
      destruct (three_lt i Hi) as [-> |[-> | ->]]; destruct (three_lt j Hj) as [-> |[-> | ->]]; nums; unfold twMass, p1Mass, ownMass; cbn -[IZR Rmult Rinv Rdiv]; unfold p1Mass; cbn -[IZR Rmult Rinv Rdiv]; try reflexivity; lra.
  - intros d Hd e e' i j ge Hz He' Hi Hj. pose proof (Sub_Proofs.zget_len _ _ _ Hz) as He. cbn [sqE length] in He. two e He; two e' He'; injection Hz as <-;
      destruct (three_lt i Hi) as [-> |[-> | ->]]; destruct (three_lt j Hj) as [-> |[-> | ->]]; reflexivity.
Qed.

Ltac five f H := unfold inF, sqM in H; cbn [cm_face sqF length] in H; assert (f = 0 \/ f = 1 \/ f = 2 \/ f = 3 \/ f = 4)%Z as [-> |[-> |[-> |[-> | -> ]]]] by lia.
Lemma tw_faces : sameFaces sqM sqN p1 Triangle sqE twM.
Proof.
  split; [reflexivity|]. intros f F Hf EF. cbv zeta. five f Hf; injection EF as <-.
  - exists 0%nat, sqE0. split; [reflexivity|]. split; [reflexivity|]. split; [reflexivity|]. split; [reflexivity|]. split; [|intros I; exfalso; vm_compute in I; apply I; reflexivity].
    intros _. split; [reflexivity|]. unfold twOut, faceN, qs. cbn [mf_face f_pts map fst snd p1 fc_faces nth]. repeat (constructor; [split; [reflexivity|split; reflexivity]|]). constructor.
  - exists 1%nat, sqE0. split; [reflexivity|]. split; [reflexivity|]. split; [reflexivity|]. split; [reflexivity|]. split; [intros I; exfalso; apply I; vm_compute; discriminate|].
    intros _. exists 2%nat, sqE1, (combine (qs 1 2 1 2) (rev (qs 2 0 2 0))). split; [discriminate|]. split; [reflexivity|]. split; [reflexivity|]. split; [reflexivity|]. split; [reflexivity|].
    split; [cbn [qs map combine rev app snd]; apply Permutation_sym, Permutation_rev|].
    split.
    + intros r Hr ij Hij. unfold qs in Hr. cbn [map rev app combine In] in Hr. change (sqN 1) with [(1, 0); (2, 2)]%nat in Hij.
      destruct Hr as [<-|[<-|[<-|[]]]]; destruct Hij as [<-|[<-|[]]]; unfold sh1; cbn [q_s1 fst snd]; unfold edge; cbn [map nth Nat.eqb]; lra.
    + assert (EW : weightOf (G2 1 (-1)) = weightOf (G2 (-1) 1)) by (cbn [weightOf]; f_equal; lra).
      assert (EU : forall q, q_geo q = G2 (-1) 1 -> scalep (-1) (normalAt q) = unit3 (geoN sqE1 2)).
      { intros q E. unfold normalAt, unitN, normalOf, unit3. rewrite E. change (geoN sqE1 2) with (G2 1 (-1)). rewrite EW. cbn [calculateNormal nth scalep].
        destruct w_pos as [_ [W2 _]]. cbn [weightOf]. f_equal; [f_equal|]; field; lra. }
      unfold twIn, qs. cbn [mf_face f_pts map combine rev app fst snd].
      repeat (constructor; [split; [split; [reflexivity|split; reflexivity]|split; [|split; [apply EU; reflexivity|reflexivity]]];
        unfold ds; cbn [q_w q_geo fst snd]; change (geoN sqE1 2) with (G2 1 (-1)); rewrite EW; reflexivity|]). constructor.
  - exists 2%nat, sqE0. split; [reflexivity|]. split; [reflexivity|]. split; [reflexivity|]. split; [reflexivity|]. split; [|intros I; exfalso; vm_compute in I; apply I; reflexivity].
    intros _. split; [reflexivity|]. unfold twOut, faceN, qs. cbn [mf_face f_pts map fst snd p1 fc_faces nth]. repeat (constructor; [split; [reflexivity|split; reflexivity]|]). constructor.
  - exists 0%nat, sqE1. split; [reflexivity|]. split; [reflexivity|]. split; [reflexivity|]. split; [reflexivity|]. split; [|intros I; exfalso; vm_compute in I; apply I; reflexivity].
    intros _. split; [reflexivity|]. unfold twOut, faceN, qs. cbn [mf_face f_pts map fst snd p1 fc_faces nth]. repeat (constructor; [split; [reflexivity|split; reflexivity]|]). constructor.
  - exists 1%nat, sqE1. split; [reflexivity|]. split; [reflexivity|]. split; [reflexivity|]. split; [reflexivity|]. split; [|intros I; exfalso; vm_compute in I; apply I; reflexivity].
    intros _. split; [reflexivity|]. unfold twOut, faceN, qs. cbn [mf_face f_pts map fst snd p1 fc_faces nth]. repeat (constructor; [split; [reflexivity|split; reflexivity]|]). constructor.
Qed.

Definition twGb : list (Z * cond) := [(1%Z, PEC); (2%Z, SMA)].
Definition twGi : list (Z * cond) := [(3%Z, PEC)].
Definition twWall : list (cond * list Z) := [(PEC, [0; 0; 1]%Z)].
Ltac b5 b Hb := unfold inB in Hb; cbn [cm_bdr sqM length] in Hb; assert (b = 0 \/ b = 1 \/ b = 2 \/ b = 3 \/ b = 4)%Z as [-> |[-> |[-> |[-> | -> ]]]] by lia.
Ltac carr b mk := let Ib := fresh "Ib" in let Ef := fresh "Ef" in let Im := fresh "Im" in let Ec := fresh "Ec" in let Hm := fresh "Hm" in
  intros [b [mk [Ib [Ef [Im [Ec Hm]]]]]]; b5 b Ib; try discriminate Ef.
Lemma tw_conds : sameConds sqM twM twGb [] sqMk ([] ++ []).
Proof.
  intros f F Hf EF. five f Hf; injection EF as <-.
  - split; [|split; [discriminate|discriminate]]. intros c Hc. change (Some PEC = Some c <-> carries sqM sqMk c 0). split.
    + intros E. injection E as <-. exists 0%Z, (PEC, [1; 0; 0]%Z). repeat split; try reflexivity; try lia; left; reflexivity.
    + carr b mk. destruct Im as [<-|[<-|[]]]; [rewrite <- Ec; reflexivity|discriminate Hm].
  - split; [|split; [discriminate|intros X; exfalso; apply X; vm_compute; discriminate]]. intros c Hc. change (None = Some c <-> carries sqM [] c 1). split; [discriminate|]. intros [b [mk [_ [_ [[] _]]]]].
  - split; [|split; [discriminate|discriminate]]. intros c Hc. change (Some PEC = Some c <-> carries sqM sqMk c 2). split.
    + intros E. injection E as <-. exists 1%Z, (PEC, [1; 0; 0]%Z). repeat split; try reflexivity; try lia; left; reflexivity.
    + carr b mk. destruct Im as [<-|[<-|[]]]; [rewrite <- Ec; reflexivity|discriminate Hm].
  - split; [|split; [discriminate|discriminate]]. intros c Hc. change (Some SMA = Some c <-> carries sqM sqMk c 3). split.
    + intros E. injection E as <-. exists 2%Z, (SMA, [0; 1; 0]%Z). repeat split; try reflexivity; try lia; right; left; reflexivity.
    + carr b mk. destruct Im as [<-|[<-|[]]]; [discriminate Hm|rewrite <- Ec; reflexivity].
  - split; [|split; [discriminate|discriminate]]. intros c Hc. change (Some SMA = Some c <-> carries sqM sqMk c 4). split.
    + intros E. injection E as <-. exists 3%Z, (SMA, [0; 1; 0]%Z). repeat split; try reflexivity; try lia; right; left; reflexivity.
    + carr b mk. destruct Im as [<-|[<-|[]]]; [discriminate Hm|rewrite <- Ec; reflexivity].
Qed.
Lemma tw_condsW : sameConds sqM twM twGb twGi sqMk (twWall ++ []).
Proof.
  intros f F Hf EF. pose proof (tw_conds f F Hf EF) as Q. five f Hf; injection EF as <-; try exact Q. clear Q.
  split; [|split; [discriminate|intros X; exfalso; apply X; vm_compute; discriminate]]. intros c Hc. change (Some PEC = Some c <-> carries sqM twWall c 1). split.
  - intros E. injection E as <-. exists 4%Z, (PEC, [0; 0; 1]%Z). repeat split; try reflexivity; try lia; left; reflexivity.
  - carr b mk. destruct Im as [<-|[]]. rewrite <- Ec. reflexivity.
Qed.
Definition twOb : list (cond * marker) := [(PEC, [1; 0; 0]%Z); (SMA, [0; 1; 0]%Z)].
Lemma tw_rep1 : represents 3 twGb twOb.
Proof.
  split; [cbn; repeat (constructor; [cbn; intuition discriminate|]); constructor|split].
  - intros c mk [H|[H|[]]]; injection H as <- <-; (split; [unfold mapped; auto 10|]); (split; [reflexivity|]); intros k Hk; unfold twGb;
      (assert (k = 0 \/ k = 1 \/ k = 2)%Z as [->|[->| ->]] by lia);
      first [left; split; [reflexivity|cbn; auto; fail] | right; split; [reflexivity|cbn; intuition discriminate]].
  - intros a c _ [H|[H|[]]]; injection H as _ <-; eexists; cbn; auto.
Qed.
Lemma tw_rep2 : represents 3 twGi twWall.
Proof.
  split; [cbn; repeat (constructor; [cbn; intuition discriminate|]); constructor|split].
  - intros c mk [H|[]]; injection H as <- <-; (split; [unfold mapped; auto 10|]); (split; [reflexivity|]); intros k Hk; unfold twGi;
      (assert (k = 0 \/ k = 1 \/ k = 2)%Z as [->|[->| ->]] by lia);
      first [left; split; [reflexivity|cbn; auto; fail] | right; split; [reflexivity|cbn; intuition discriminate]].
  - intros a c _ [H|[]]; injection H as _ <-; eexists; cbn; auto.
Qed.
Lemma tw_asc : ascending twGb /\ ascending twGi /\ ascending ([] : list (Z * cond)).
Proof.
  split; [|split]; [|constructor; [intros k a []|constructor]|constructor].
  constructor; [|constructor; [|constructor]]; cbn [In]; intros k a H; [|contradiction]. destruct H as [H|[]]. injection H as <- _. lia.
Qed.
Lemma tw_tables : tables twM twGb [] twOb [].
Proof. split; [apply tw_asc|]. split; [apply tw_asc|]. split; [exact tw_rep1|]. split; [constructor|]. split; [intros c mk []|intros a c _ []]. Qed.
Lemma tw_tablesW : tables twM twGb twGi twOb twWall.
Proof. split; [apply tw_asc|]. split; [apply tw_asc|]. split; [exact tw_rep1|exact tw_rep2]. Qed.

Lemma tw_straight : Forall (fun g => ~ curvedBy sqPos sqPos g) sqE.
Proof. apply Forall_forall. intros g _. apply same_pos. Qed.
Lemma tw_problem : sameProblem p1Inv p1 2 Triangle 2 p1Ref sqE sqPos sqPos sqM sqN sqMk [] [] twM twGb [] twOb [] twMass twInv twD noSigma 6.
Proof.
  constructor; try (exact p1_ref || exact sq_local || exact tw_straight || exact sq_mesh || exact sq_same || exact tw_faces || exact tw_conds || exact tw_space || exact tw_tables || reflexivity).
  - left. auto.
  - apply tw_blocks.
  - apply tw_blocks.
  - intros i j. cbn [p1 fc_mass]. unfold p1Mass. rewrite Nat.eqb_sym. reflexivity.
Qed.

Lemma tw_meshW : operatorMesh sqM 3 sqN sqMk twWall [].
Proof.
  destruct sq_mesh as [M1 M2 M3 M4 M5 M6 M7 M8 M9]. constructor; try assumption.
  - destruct M3 as [A [B _]]. split; [exact A|]. split; [exact B|]. intros b mk Hb [<-|[]]. b5 b Hb; vm_compute; split; discriminate.
  - intros b mk Hb [<-|[]] H. b5 b Hb; try discriminate H. split; [vm_compute; discriminate|auto].
Qed.
Lemma tw_problemW : sameProblem p1Inv p1 2 Triangle 2 p1Ref sqE sqPos sqPos sqM sqN sqMk twWall [] twM twGb twGi twOb twWall twMass twInv twD noSigma 6.
Proof.
  constructor; try (exact p1_ref || exact sq_local || exact tw_straight || exact tw_meshW || exact sq_same || exact tw_faces || exact tw_condsW || exact tw_space || exact tw_tablesW || reflexivity).
  - left. auto.
  - apply tw_blocks.
  - apply tw_blocks.
  - intros i j. cbn [p1 fc_mass]. unfold p1Mass. rewrite Nat.eqb_sym. reflexivity.
Qed.
(** Fields on the second triangle only: a magnetic one, an electric one. *)
Definition twX : list R := repeat 0 27 ++ [1; 1; 1] ++ repeat 0 6.
Definition twY : list R := repeat 0 15 ++ [1; 1; 1] ++ repeat 0 18.
Ltac faceSums := lazy -[IZR Rplus Rmult Rinv Ropp Rminus Rdiv sqrt]; destruct w_pos as [W1 [W2 [W3 [W4 W5]]]];
    set (w1 := sqrt (1 * 1 + 0 * 0)) in *; set (w2 := sqrt (-1 * -1 + 1 * 1)) in *; set (w3 := sqrt (0 * 0 + -1 * -1)) in *; set (w4 := sqrt (0 * 0 + 1 * 1)) in *; set (w5 := sqrt (-1 * -1 + 0 * 0)) in *;
    clearbody w1 w2 w3 w4 w5; field; lra.
Lemma tw_excess : facesum twM (fun fi F q => excessAt 6 (/ 2) twX (fun _ => 1) 0 2 (kindFrom twM twGb [] fi F) F q) = - / 2.
Proof. faceSums. Qed.
Lemma tw_excessW : facesum twM (fun fi F q => excessAt 6 1 twY (fun _ => 1) 1 1 (kindFrom twM twGb twGi fi F) F q) = - / 2.
Proof. faceSums. Qed.

Lemma tw_run : forall int alpha, operatorMesh sqM 3 sqN sqMk int [] -> exists conn maps attrs s, connectivities sqM sqMk int [] = Ok (conn, maps, attrs) /\
  buildNodal p1Inv p1 2 6 sqE sqPos sqPos [] [] (fun _ => []) alpha conn maps [] = Ok s.
Proof.
  intros int alpha [M1 M2 M3 M4 M5 M6 M7 M8 M9].
  destruct (connectivities_right sqM 3 sqN sqMk int [] M1 M2 M3 M4 M5 M6 M7 M8 M9) as [conn [maps [E _]]].
  destruct (build_outcome p1Inv p1 2 Triangle 2 p1Ref sqE sqPos sqPos [] [] (fun _ => []) alpha conn maps [] 6) as [lin [cur [E1 [[[s [E2 [E3 _]]] _]|[_ [mk [b [[] _]]]]]]]];
    [left; auto|exact p1_ref|exact sq_local|constructor|].
  exists conn, maps, (cm_attr sqM), s. split; [exact E|exact E2].
Qed.
Lemma rows_none : rowsIn 6 (fun _ => []). Proof. intros r. constructor. Qed.
Lemma tw_ex : sameProblem p1Inv p1 2 Triangle 2 p1Ref sqE sqPos sqPos sqM sqN sqMk [] [] twM twGb [] twOb [] twMass twInv twD noSigma 6 /\
  (forall f c, ~ carries sqM ([] ++ []) c f) /\ (exists f, carries sqM sqMk PEC f) /\ (exists f, carries sqM sqMk SMA f) /\ rowsIn (cm_N sqM) (fun _ => []) /\
  exists conn maps attrs s, connectivities sqM sqMk [] [] = Ok (conn, maps, attrs) /\
    buildNodal p1Inv p1 2 (cm_N sqM) sqE sqPos sqPos [] [] (fun _ => []) 1 conn maps [] = Ok s.
Proof.
  split; [exact tw_problem|]. split; [intros f c [b [mk [_ [_ [[] _]]]]]|].
  split; [exists 0%Z; exists 0%Z, (PEC, [1; 0; 0]%Z); repeat split; try reflexivity; try lia; left; reflexivity|].
  split; [exists 3%Z; exists 2%Z, (SMA, [0; 1; 0]%Z); repeat split; try reflexivity; try lia; right; left; reflexivity|].
  split; [exact rows_none|]. exact (tw_run [] 1 sq_mesh).
Qed.
Lemma differ : forall Mass out y g d (e : R), mform 6 (Mass g) (fun _ => 1) (fld 6 out g d) = mform 6 (Mass g) (fun _ => 1) (fld 6 y g d) + e -> e <> 0 -> out <> y.
Proof. intros Mass out y g d e H He ->. lra. Qed.
Lemma tw_absorbing : exists inv fc dim t nf ref elems posLin posCur m nodes bdrMk fm gb ob Mass MInv D MSigma N,
  sameProblem inv fc dim t nf ref elems posLin posCur m nodes bdrMk [] [] fm gb [] ob [] Mass MInv D MSigma N /\
  exists conn maps attrs s A x out y, connectivities m bdrMk [] [] = Ok (conn, maps, attrs) /\
    buildNodal inv fc dim (cm_N m) elems posLin posCur [] [] (fun _ => []) (/ 2) conn maps [] = Ok s /\
    theOperator N fm dim (/ 2) ob [] MInv D MSigma [] = Ok A /\
    nodalMult s x = Ok out /\ applies A N x y /\ out <> y.
Proof.
  exists p1Inv, p1, 2%Z, Triangle, 2%nat, p1Ref, sqE, sqPos, sqPos, sqM, sqN, sqMk, twM, twGb, twOb, twMass, twInv, twD, noSigma, 6%nat. split; [exact tw_problem|].
  destruct (tw_run [] (/ 2) sq_mesh) as [conn [maps [attrs [s [EC EB]]]]].
  destruct (difference_run p1Inv p1 2 Triangle 2 p1Ref sqE sqPos sqPos sqM sqN sqMk [] [] twM twGb [] twOb [] twMass twInv twD noSigma 6 tw_problem [] [] (fun _ => []) (/ 2) conn maps attrs [] EC rows_none s EB) as [A [EA Q]]; [left; lra|].
  destruct (Q twX eq_refl) as [out [y [Eo [_ [Hy V]]]]]. exists conn, maps, attrs, s, A, twX, out, y. split; [exact EC|]. split; [exact EB|]. split; [exact EA|]. split; [exact Eo|]. split; [exact Hy|].
  specialize (V (fun _ => 1) 0%Z 2%Z (or_introl eq_refl) ltac:(lia)). rewrite tw_excess in V. apply (differ _ _ _ _ _ _ V). lra.
Qed.
Lemma tw_wall : exists inv fc dim t nf ref elems posLin posCur m nodes bdrMk intMk fm gb gi ob ib Mass MInv D MSigma N,
  (forall c f, carries m intMk c f -> c = PEC) /\
  sameProblem inv fc dim t nf ref elems posLin posCur m nodes bdrMk intMk [] fm gb gi ob ib Mass MInv D MSigma N /\
  exists conn maps attrs s A x out y, connectivities m bdrMk intMk [] = Ok (conn, maps, attrs) /\
    buildNodal inv fc dim (cm_N m) elems posLin posCur [] [] (fun _ => []) 1 conn maps [] = Ok s /\
    theOperator N fm dim 1 ob ib MInv D MSigma [] = Ok A /\
    nodalMult s x = Ok out /\ applies A N x y /\ out <> y.
Proof.
  exists p1Inv, p1, 2%Z, Triangle, 2%nat, p1Ref, sqE, sqPos, sqPos, sqM, sqN, sqMk, twWall, twM, twGb, twGi, twOb, twWall, twMass, twInv, twD, noSigma, 6%nat.
  split; [intros c f [b [mk [_ [_ [[<-|[]] [<- _]]]]]]; reflexivity|]. split; [exact tw_problemW|].
  destruct (tw_run twWall 1 tw_meshW) as [conn [maps [attrs [s [EC EB]]]]].
  destruct (difference_run p1Inv p1 2 Triangle 2 p1Ref sqE sqPos sqPos sqM sqN sqMk twWall [] twM twGb twGi twOb twWall twMass twInv twD noSigma 6 tw_problemW [] [] (fun _ => []) 1 conn maps attrs [] EC rows_none s EB) as [A [EA Q]]; [left; lra|].
  destruct (Q twY eq_refl) as [out [y [Eo [_ [Hy V]]]]]. exists conn, maps, attrs, s, A, twY, out, y. split; [exact EC|]. split; [exact EB|]. split; [exact EA|]. split; [exact Eo|]. split; [exact Hy|].
  specialize (V (fun _ => 1) 1%Z 1%Z (or_intror eq_refl) ltac:(lia)). rewrite tw_excessW in V. apply (differ _ _ _ _ _ _ V). lra.
Qed.

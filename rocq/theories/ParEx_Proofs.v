(** Two elements on a line, one per process; and a tagged face that the partition cuts. *)
From Coq Require Import ZArith List Bool Reals Lia Lra Permutation.
From Verif Require Import Common Csr_Model Face_Model Face_Spec Face_Proofs Setup_Model Setup_Spec Assembly_Model Assembly_Spec Form_Model Form_Spec FormEx_Proofs Nodal_Spec Nodal_Proofs Global_Spec Global_Proofs GlobalBalance_Proofs GlobalEx_Proofs Ode_Model Partition_Model Partition_Spec Partition_Proofs Par_Model Par_Spec Par_Proofs ParRows_Proofs ParMult_Proofs.
Import ListNotations.
Local Open Scope R_scope.

(** PEC on the left, absorbing on the right, nothing on the face between the elements. *)
Definition hMesh := mkFM [gLeft; gMid; gRight] [(1%Z, 0%nat); (3%Z, 2%nat)] [1; 2; 3]%Z.
Definition hFlip := mkFace 2 (Some 2%nat) [mkQ 1 (G1 0) [1; 0] [0; 1]].
Definition hRanks : list prank :=
  [ mkPR 2 [(1, 0); (1, 1)]%nat (mkFM [mkMF [0; 1]%nat [] (mf_face gLeft)] [(1%Z, 0%nat)] [1; 2; 3]%Z) [mkMF [0; 1]%nat [2; 3]%nat (mf_face gMid)] gMInv gD (gMass 0%Z);
    mkPR 2 [(0, 0); (0, 1)]%nat (mkFM [mkMF [0; 1]%nat [] (mf_face gRight)] [(3%Z, 0%nat)] [1; 2; 3]%Z) [mkMF [0; 1]%nat [2; 3]%nat hFlip] gMInv gD (gMass 0%Z) ].
Definition hOwns : list (list nat) := [[0; 1]; [2; 3]]%nat.

Lemma h_good : goodMesh 4 hMesh 1.
Proof.
  destruct g_space as (A & (W1 & W2 & W3) & B & C & _). split; [exact A|]. split; [split; [exact W1|split; [exact W2|]]|split].
  - apply Forall_forall. intros b [<-|[<-|[]]]; cbn; lia.
  - cbn. repeat (constructor; [cbn; lia|]). constructor.
  - rewrite Forall_forall in C. apply Forall_forall. intros f I. exact (proj1 (C f I)).
Qed.
Lemma h_tables : tables hMesh gGb gGi gOb [].
Proof. exact g_tables. Qed.
Lemma h_flip : flippedFace (mf_face gMid) hFlip.
Proof.
  split; [reflexivity|]. split; [reflexivity|]. split.
  - apply Forall_forall. intros q [<-|[]]. repeat split; try (cbn; lra); try (left; reflexivity); try (right; reflexivity); try reflexivity; try lia; cbn; lra.
  - exists (f_pts hFlip). split; [apply Permutation_refl|]. constructor; [|constructor]. split; [reflexivity|]. split; [|split; reflexivity].
    intros d. unfold unitN, normalOf. cbn [q_geo weightOf]. destruct d as [|d]; cbn; lra.
Qed.
Ltac cases I := cbn [In] in I; repeat (destruct I as [<-|I] || destruct I as [I|I]); try contradiction.
Lemma h_within : forall f (M : mat), (forall i j, (i / 2 =? j / 2)%nat = false -> M i j = 0) -> (forall i j, M (S (S i)) (S (S j)) = M i j) ->
  (f < 2)%nat -> within 4 (nth f hOwns []) M M.
Proof.
  intros f M H1 H2 Hf. destruct f as [|[|f]]; [| |lia]; cbn [nth hOwns]; split.
  - intros i j I Hj Nj. destruct j as [|[|[|[|j]]]]; try lia; try (exfalso; apply Nj; cbn; tauto); apply H1; destruct I as [<-|[<-|[]]]; reflexivity.
  - intros i j Hi Hj. cbn [length] in *. destruct i as [|[|i]]; try lia; destruct j as [|[|j]]; try lia; reflexivity.
  - intros i j I Hj Nj. destruct j as [|[|[|[|j]]]]; try lia; try (exfalso; apply Nj; cbn; tauto); apply H1; destruct I as [<-|[<-|[]]]; reflexivity.
  - intros i j Hi Hj. cbn [length] in *. destruct i as [|[|i]]; try lia; destruct j as [|[|j]]; try lia; cbn [nth]; symmetry; apply H2.
Qed.
Lemma h_mats : forall f, (f < 2)%nat -> (forall g, within 4 (nth f hOwns []) (gMInv g) (gMInv g)) /\ (forall d, within 4 (nth f hOwns []) (gD d) (gD d)) /\ within 4 (nth f hOwns []) (gMass 0%Z) (gMass 0%Z).
Proof.
  assert (S2 : forall i, (S (S i) / 2 = S (i / 2))%nat) by (intros i; replace (S (S i)) with (i + 1 * 2)%nat by lia; rewrite Nat.div_add by lia; lia).
  assert (M2 : forall i, (S (S i) mod 2 = i mod 2)%nat) by (intros i; replace (S (S i)) with (i + 1 * 2)%nat by lia; apply Nat.mod_add; lia).
  assert (D2 : forall i j, (i / 2 =? j / 2)%nat = false -> (i =? j)%nat = false).
  { intros i j H. destruct (Nat.eqb_spec i j) as [->|]; [rewrite Nat.eqb_refl in H; discriminate|reflexivity]. }
  intros f Hf. split; [|split].
  - intros g. apply h_within; [|reflexivity|exact Hf]. intros i j H. unfold gMInv. rewrite (D2 i j H). reflexivity.
  - intros d. apply h_within; [| |exact Hf].
    + intros i j H. unfold gD. rewrite H. reflexivity.
    + intros i j. unfold gD. rewrite !S2, !M2. reflexivity.
  - apply h_within; [|reflexivity|exact Hf]. intros i j H. unfold gMass. rewrite (D2 i j H). reflexivity.
Qed.
Ltac faces E := repeat match type of E with nth_error _ ?k = Some _ => destruct k as [|k]; cbn [nth_error hMesh fm_faces] in E; [injection E as <-|] end; try discriminate.
Lemma no4 : forall fi F, nth_error (fm_faces hMesh) (S (S (S fi))) = Some F -> False.
Proof. intros fi F E. cbn in E. destruct fi; discriminate. Qed.
Lemma h_process0 : process hMesh hOwns [0; 1]%nat (nth 0 hRanks (mkPR 0 [] hMesh [] gMInv gD (gMass 0%Z))).
Proof.
  split; [reflexivity|]. split; [repeat constructor|]. split; [reflexivity|]. exists [0%nat], [1%nat].
  split; [repeat constructor; intros []|]. split; [repeat constructor; intros []|]. split; [|split; [|split; [|split; [|split; [|split]]]]].
  - intros fi F E. destruct fi as [|[|[|fi]]]; [| | |destruct (no4 _ _ E)]; cbn in E; injection E as <-; cbn; (split; [intros I|intros I]).
    + intros d J. exact J.
    + left. reflexivity.
    + destruct I as [I|[]]; discriminate.
    + exfalso. specialize (I 2%nat ltac:(cbn; auto)). destruct I as [I|[I|[]]]; discriminate.
    + destruct I as [I|[]]; discriminate.
    + exfalso. specialize (I 2%nat ltac:(cbn; auto)). destruct I as [I|[I|[]]]; discriminate.
  - intros fi F E. destruct fi as [|[|[|fi]]]; [| | |destruct (no4 _ _ E)]; cbn in E; injection E as <-; cbn; (split; [intros I|intros (I & d & J & K)]).
    + destruct I as [I|[]]; discriminate.
    + exfalso. apply I. intros z Z. exact Z.
    + split; [|exists 0%nat; auto]. intros X. specialize (X 2%nat ltac:(cbn; auto)). destruct X as [X|[X|[]]]; discriminate.
    + left. reflexivity.
    + destruct I as [I|[]]; discriminate.
    + exfalso. lia.
  - constructor; [|constructor]. exists gLeft. split; [reflexivity|]. split; [reflexivity|]. split; [repeat constructor|]. split; reflexivity.
  - constructor; [|constructor]. exists gMid. split; [reflexivity|]. split; [repeat constructor|]. left. split; [reflexivity|]. split; [repeat constructor|]. split; reflexivity.
  - repeat constructor. intros [].
  - intros a k. cbn. split.
    + intros [I|[]]. injection I as <- <-. exists 0%nat. auto.
    + intros (fi & E & I). destruct k as [|k]; [|destruct k; discriminate]. cbn in E. injection E as <-. destruct I as [I|[I|[]]]; [left; congruence|discriminate].
  - intros a fi [<-|[]] [I|[I|[]]]; discriminate.
Qed.
Lemma h_process1 : process hMesh hOwns [2; 3]%nat (nth 1 hRanks (mkPR 0 [] hMesh [] gMInv gD (gMass 0%Z))).
Proof.
  split; [reflexivity|]. split; [repeat constructor|]. split; [reflexivity|]. exists [2%nat], [1%nat].
  split; [repeat constructor; intros []|]. split; [repeat constructor; intros []|]. split; [|split; [|split; [|split; [|split; [|split]]]]].
  - intros fi F E. destruct fi as [|[|[|fi]]]; [| | |destruct (no4 _ _ E)]; cbn in E; injection E as <-; cbn; (split; [intros I|intros I]).
    + destruct I as [I|[]]; discriminate.
    + exfalso. specialize (I 0%nat ltac:(cbn; auto)). destruct I as [I|[I|[]]]; discriminate.
    + destruct I as [I|[]]; discriminate.
    + exfalso. specialize (I 0%nat ltac:(cbn; auto)). destruct I as [I|[I|[]]]; discriminate.
    + intros d J. exact J.
    + left. reflexivity.
  - intros fi F E. destruct fi as [|[|[|fi]]]; [| | |destruct (no4 _ _ E)]; cbn in E; injection E as <-; cbn; (split; [intros I|intros (I & d & J & K)]).
    + destruct I as [I|[]]; discriminate.
    + exfalso. lia.
    + split; [|exists 2%nat; auto]. intros X. specialize (X 0%nat ltac:(cbn; auto)). destruct X as [X|[X|[]]]; discriminate.
    + left. reflexivity.
    + destruct I as [I|[]]; discriminate.
    + exfalso. apply I. intros z Z. exact Z.
  - constructor; [|constructor]. exists gRight. split; [reflexivity|]. split; [reflexivity|]. split; [repeat constructor|]. split; reflexivity.
  - constructor; [|constructor]. exists gMid. split; [reflexivity|]. split; [repeat constructor|]. right. split; [exact h_flip|]. split; [repeat constructor|]. split; reflexivity.
  - repeat constructor. intros [].
  - intros a k. cbn. split.
    + intros [I|[]]. injection I as <- <-. exists 2%nat. auto.
    + intros (fi & E & I). destruct k as [|k]; [|destruct k; discriminate]. cbn in E. injection E as <-. destruct I as [I|[I|[]]]; [discriminate|left; congruence].
  - intros a fi [<-|[]] [I|[I|[]]]; discriminate.
Qed.
Lemma h_distributed : distributed 4 hMesh 1 gMInv gD (gMass 0%Z) hOwns hRanks.
Proof.
  split; [apply Permutation_refl|]. split.
  - intros F own IF Io.
    destruct IF as [<-|[<-|[<-|[]]]]; destruct Io as [<-|[<-|[]]]; cbn [gLeft gMid gRight mf_dofs1 mf_dofs2]; split;
      first [left; intros z Z; exact Z | right; intros d J K; cbn [In] in J, K; lia | left; intros z []].
  - constructor; [|constructor; [|constructor]].
    + split; [exact h_process0|]. destruct (h_mats 0 ltac:(lia)) as (A & B & C). split; [intros; apply A|]. split; [intros; apply B|exact C].
    + split; [exact h_process1|]. destruct (h_mats 1 ltac:(lia)) as (A & B & C). split; [intros; apply A|]. split; [intros; apply B|exact C].
Qed.

(** Elements 0 and 1 share a face with tag 5 (a conductor, say); only face 3 belongs to a source. *)
Lemma tag_cut : ~ (forall NE P mesh part tf sg part', (0 <= NE)%Z -> length part = Z.to_nat NE ->
  (forall t a b, In (mkBdr t (Some (a, b))) mesh -> (0 <= a < NE)%Z /\ (0 <= b < NE)%Z) ->
  applyPairwiseConstraintsPartitioning (fun m => m) (fun l => l) NE P true mesh part tf sg = Ok part' ->
  forall t a b, In (mkBdr t (Some (a, b))) mesh -> rank_of part' a = rank_of part' b).
Proof.
  intros H. specialize (H 4%Z 2%Z [mkBdr 5 (Some (0, 1)%Z); mkBdr 3 (Some (2, 3)%Z)] [0; 1; 0; 1]%Z [3%Z] [] [0; 1; 0; 0]%Z ltac:(lia) eq_refl).
  assert (X : rank_of [0; 1; 0; 0]%Z 0 = rank_of [0; 1; 0; 0]%Z 1).
  { apply (H ltac:(intros t a b [I|[I|[]]]; injection I as <- <- <-; lia) ltac:(vm_compute; reflexivity) 5%Z 0%Z 1%Z). left. reflexivity. }
  vm_compute in X. discriminate.
Qed.

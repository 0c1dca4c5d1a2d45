(** Product of a vector with a matrix assembled entry by entry. *)
From Coq Require Import ZArith List Bool Reals Lia Lra.
From Verif Require Import Common Csr_Model Csr_Spec Assembly_Model Assembly_Spec Assembly_Proofs Nodal_Spec Nodal_Proofs NodalMult_Proofs NodalEnergy_Proofs Face_Proofs Tfsf_Spec.
Import ListNotations.
Local Open Scope R_scope.

Definition rowval (T : lil R) (x : list R) (r : nat) : R := sumN (length x) (fun c => entry T r c * nth c x 0).
Lemma rowval_add : forall d r0 c0 v x r, (0 <= c0 < Z.of_nat (length x))%Z ->
  rowval (lil_add R Rplus d r0 c0 v) x r = rowval d x r + if (Z.of_nat r =? r0)%Z then v * nth (Z.to_nat c0) x 0 else 0.
Proof.
  intros d r0 c0 v x r Hc. unfold rowval.
  rewrite (sumN_ext _ _ (fun c => entry d r c * nth c x 0 + (if (c =? Z.to_nat c0)%nat then (if (Z.of_nat r =? r0)%Z then v * nth c x 0 else 0) else 0))).
  - rewrite sumN_plus. f_equal. apply (sumN_delta (length x) (Z.to_nat c0) (fun c => if (Z.of_nat r =? r0)%Z then v * nth c x 0 else 0)). lia.
  - intros c Hcc. unfold entry, lil_add. destruct (Z.eqb_spec (Z.of_nat r) r0) as [->|].
    + destruct (Z.eqb_spec (Z.of_nat c) c0) as [<-|].
      * rewrite Nat2Z.id, Nat.eqb_refl. cbn [andb]. destruct (d r0 (Z.of_nat c)); ring.
      * replace (c =? Z.to_nat c0)%nat with false by (symmetry; apply Nat.eqb_neq; lia). cbn [andb]. ring.
    + cbn [andb]. destruct (c =? Z.to_nat c0)%nat; ring.
Qed.
Lemma rowval_other : forall d r0 c0 v x r, Z.of_nat r <> r0 -> rowval (lil_add R Rplus d r0 c0 v) x r = rowval d x r.
Proof.
  intros d r0 c0 v x r H. unfold rowval. apply sumN_ext. intros c _. unfold entry, lil_add.
  replace (Z.of_nat r =? r0)%Z with false by (symmetry; apply Z.eqb_neq; exact H). reflexivity.
Qed.
Lemma fold_row : forall r0 off sg x r es d,
  (Z.of_nat r = r0 -> forall e, In e es -> (0 <= fst e + off < Z.of_nat (length x))%Z) ->
  rowval (fold_left (fun d cv => lil_add R Rplus d r0 (off + fst cv) (snd cv * sg)) es d) x r =
  rowval d x r + if (Z.of_nat r =? r0)%Z then sg * rsum (map (fun e => snd e * nth (Z.to_nat (fst e + off)) x 0) es) else 0.
Proof.
  intros r0 off sg x r. induction es as [|e es IH]; intros d H.
  - cbn [fold_left map rsum fold_right]. destruct (Z.of_nat r =? r0)%Z; ring.
  - cbn [fold_left]. rewrite IH by (intros E e' I; apply H; [exact E|right; exact I]). unfold rsum. cbn [map fold_right].
    destruct (Z.eqb_spec (Z.of_nat r) r0) as [E|E].
    + rewrite rowval_add by (specialize (H E e (or_introl eq_refl)); lia). rewrite E, Z.eqb_refl, (Z.add_comm off). ring.
    + rewrite rowval_other by exact E. ring.
Qed.
Lemma load_rows : forall (b : block R) x r (is : list Z), NoDup is -> (forall i, In i is -> (0 <= i < Z.of_nat (length (b_rows b)))%Z) ->
  (forall i row e, nth_error (b_rows b) i = Some row -> (b_rowOffset b + Z.of_nat i = Z.of_nat r)%Z -> In e row -> (0 <= fst e + b_colOffset b < Z.of_nat (length x))%Z) ->
  forall d, rowval (fold_left (load_row R Rplus Rmult b) is d) x r =
  rowval d x r + if existsb (fun i => (b_rowOffset b + i =? Z.of_nat r)%Z) is then b_sign b * rsum (map (fun e => snd e * nth (Z.to_nat (fst e + b_colOffset b)) x 0) (nth (Z.to_nat (Z.of_nat r - b_rowOffset b)) (b_rows b) [])) else 0.
Proof.
  intros b x r. induction is as [|i is IH]; intros ND Hr Hf d.
  - cbn [fold_left existsb]. ring.
  - cbn [fold_left existsb]. inversion ND; subst. rewrite IH; [|assumption|intros j J; apply Hr; right; exact J|exact Hf].
    assert (Hi := Hr i (or_introl eq_refl)). unfold load_row at 1.
    destruct (nth_error (b_rows b) (Z.to_nat i)) as [es|] eqn:E; [|apply nth_error_None in E; lia].
    assert (Z1 : zget (b_rows b) i = Ok es) by (unfold zget; replace (i <? 0)%Z with false by (symmetry; apply Z.ltb_ge; lia); rewrite E; reflexivity).
    rewrite Z1. rewrite fold_row.
    2:{ intros Er e Ie. apply (Hf (Z.to_nat i) es e E); [lia|exact Ie]. }
    rewrite (Z.eqb_sym (Z.of_nat r)). destruct (Z.eqb_spec (b_rowOffset b + i) (Z.of_nat r)) as [Er|Er]; cbn [orb].
    + replace (existsb _ is) with false. 2:{ symmetry. apply not_true_is_false. intros X. apply existsb_exists in X. destruct X as (j & J & Ej). apply Z.eqb_eq in Ej. assert (i = j) by lia. subst. contradiction. }
      replace (Z.of_nat r - b_rowOffset b)%Z with i by lia. rewrite (nth_error_nth _ _ [] E). ring.
    + ring.
Qed.
Lemma load_block : forall (b : block R) x r d,
  (forall i row e, nth_error (b_rows b) i = Some row -> (b_rowOffset b + Z.of_nat i = Z.of_nat r)%Z -> In e row -> (0 <= fst e + b_colOffset b < Z.of_nat (length x))%Z) ->
  rowval (loadBlock R Rplus Rmult d b) x r = rowval d x r + block_mult_row b x (Z.of_nat r).
Proof.
  intros b x r d H. unfold loadBlock. rewrite load_rows; [|apply FinFun.Injective_map_NoDup; [intros a c; apply Nat2Z.inj|apply seq_NoDup]|intros i I; apply in_zseq in I; lia|exact H].
  f_equal. unfold block_mult_row. destruct (Z.ltb_spec (Z.of_nat r) (b_rowOffset b)) as [L|L].
  - replace (existsb _ _) with false; [reflexivity|]. symmetry. apply not_true_is_false. intros X. apply existsb_exists in X. destruct X as (j & J & Ej). apply Z.eqb_eq in Ej. apply in_zseq in J. lia.
  - destruct (existsb _ _) eqn:X; [reflexivity|].
    rewrite (nth_overflow (b_rows b)); [unfold rsum; cbn [map fold_right]; ring|].
    destruct (le_lt_dec (length (b_rows b)) (Z.to_nat (Z.of_nat r - b_rowOffset b))) as [Y|Y]; [exact Y|exfalso].
    assert (Hx : existsb (fun i => (b_rowOffset b + i =? Z.of_nat r)%Z) (zseq (length (b_rows b))) = true); [|congruence].
    apply existsb_exists. exists (Z.of_nat r - b_rowOffset b)%Z. split; [apply in_zseq; lia|apply Z.eqb_eq; lia].
Qed.
Lemma load_action : forall (bs : list (block R)) rows x r, fits bs rows (length x) -> (r < rows)%nat ->
  rowval (loadBlocks R Rplus Rmult bs) x r = rsum (map (fun b => block_mult_row b x (Z.of_nat r)) bs).
Proof.
  intros bs rows x r F Hr. unfold loadBlocks.
  assert (G : forall bs', incl bs' bs -> forall d, rowval (fold_left (loadBlock R Rplus Rmult) bs' d) x r = rowval d x r + rsum (map (fun b => block_mult_row b x (Z.of_nat r)) bs')).
  { induction bs' as [|b bs' IH]; intros Inc d; [cbn; ring|]. cbn [fold_left]. rewrite IH by (intros y Y; apply Inc; right; exact Y).
    rewrite load_block; [unfold rsum; cbn [map fold_right]; ring|]. intros i row e E Er Ie. apply (F b i row e); [apply Inc; left; reflexivity|exact E|lia|exact Ie]. }
  rewrite G by (intros y Y; exact Y). replace (rowval (fun _ _ => None) x r) with 0; [ring|].
  symmetry. unfold rowval. apply sumN_zero. intros c _. unfold entry. ring.
Qed.
(** The source operator acts as jump and penalty terms on the marked faces. *)
Lemma source_action : forall op n dim x f d i, (0 <= n)%Z -> ops_ok op n 0 -> (1 <= dim <= 3)%Z -> (0 <= f <= 1)%Z -> (0 <= d <= 2)%Z -> (i < Z.to_nat n)%nat ->
  length x = Z.to_nat (6 * n) ->
  rowval (buildSourceFaceOperator R Rplus Rmult 1 (-1) op dim n 0) x (Z.to_nat ((3 * f + d) * n + Z.of_nat i)) =
  jump_term op dim n 0 OpSourceOneNormal x f d i + penalty_term op dim n 0 OpSourceZeroNormal OpSourceTwoNormal x f d i.
Proof.
  intros op n dim x f d i Hn Hop Hdim Hf Hd Hi Hx. rewrite source_collect.
  rewrite (load_action _ (globalRows n)).
  - rewrite Z2Nat.id by nia. change (rsum _) with (rowsum n x i f d (collectSourceFace R 1 (-1) op dim n 0)). unfold collectSourceFace.
    rewrite !rowsum_app, (one_row op n 0 Hn Hop x i Hi) by assumption. f_equal. apply (zero_two_row op n 0 Hn Hop x i Hi); assumption.
  - replace (length x) with (globalCols n 0) by (unfold globalCols; rewrite Z.add_0_r, Hx; reflexivity).
    apply legal_fits with (op := op); [exact Hn|lia| |apply collectSource_legal].
    intros o. destruct (Hop o) as (Hl & Hc). split; [lia|exact Hc].
  - unfold globalRows. nia.
Qed.

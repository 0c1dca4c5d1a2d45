(** Proofs about the element matrices: each call adds one block, and the product of the matrix
    with a vector is the sum of the products of the blocks. *)
From Coq Require Import ZArith List Bool Reals Lia Lra ZifyBool.
From Verif Require Import Common Csr_Model Csr_Spec Assembly_Model Assembly_Spec Assembly_Proofs Spectral_Model Spectral_Spec.
Import ListNotations.
Local Open Scope Z_scope.

(** ** Sums *)
Lemma rsum_plus : forall {A} (f g : A -> R) l,
  rsum (map (fun a => f a + g a)%R l) = (rsum (map f l) + rsum (map g l))%R.
Proof. induction l as [|a l IH]; cbn [map rsum fold_right]; [lra|]. fold (rsum (map (fun a => f a + g a)%R l)). rewrite IH. unfold rsum. lra. Qed.

Lemma rsum_ext : forall {A} (f g : A -> R) l, (forall a, In a l -> f a = g a) -> rsum (map f l) = rsum (map g l).
Proof. intros A f g l E. f_equal. now apply map_ext_in. Qed.

Lemma rsum_zero : forall {A} (f : A -> R) l, (forall a, In a l -> f a = 0%R) -> rsum (map f l) = 0%R.
Proof.
  induction l as [|a l IH]; intros E; [reflexivity|]. cbn [map]. unfold rsum in *. cbn [fold_right].
  rewrite IH by (intros; apply E; now right). rewrite E by now left. lra.
Qed.

Lemma rsum_scal : forall {A} (f : A -> R) s l, rsum (map (fun a => s * f a)%R l) = (s * rsum (map f l))%R.
Proof.
  induction l as [|a l IH]; unfold rsum in *; cbn [map fold_right]; [lra|]. rewrite IH. lra.
Qed.

Lemma rsum_swap : forall {A B} (f : A -> B -> R) la lb,
  rsum (map (fun a => rsum (map (fun b => f a b) lb)) la) = rsum (map (fun b => rsum (map (fun a => f a b) la)) lb).
Proof.
  intros A B f la lb. induction la as [|a la IH].
  - cbn [map]. symmetry. apply rsum_zero. reflexivity.
  - cbn [map]. change (rsum (?x :: ?l)) with (x + rsum l)%R. rewrite IH.
    rewrite <- rsum_plus. apply rsum_ext. intros b _. reflexivity.
Qed.

Lemma rsum_delta : forall (v : nat -> R) (k N : nat), (k < N)%nat ->
  rsum (map (fun c => if Nat.eq_dec c k then v c else 0%R) (seq 0 N)) = v k.
Proof.
  intros v k N. induction N as [|N IH]; intros L; [lia|].
  rewrite seq_S, map_app. unfold rsum in *. rewrite fold_right_app. cbn [Nat.add map fold_right].
  assert (G : forall l z, fold_right Rplus z l = (fold_right Rplus 0 l + z)%R).
  { induction l as [|a l I]; intros z; cbn [fold_right]; [lra|]. rewrite I. lra. }
  rewrite G. destruct (Nat.eq_dec N k) as [->|D].
  - assert (E : fold_right Rplus 0%R (map (fun c => if Nat.eq_dec c k then v c else 0%R) (seq 0 k)) = 0%R).
    { apply (rsum_zero (fun c => if Nat.eq_dec c k then v c else 0%R)). intros a Ia. apply in_seq in Ia.
      destruct (Nat.eq_dec a k); [lia|reflexivity]. }
    rewrite E. lra.
  - rewrite IH by lia. lra.
Qed.

(** ** A block *)
Definition blk (n : Z) (rows : list (list (Z * R))) (R0 C0 : Z) (s : R) : mat :=
  fun r c => if (R0 <=? r) && (r <? R0 + n) && (C0 <=? c) && (c <? C0 + n)
             then (s * denseEntry rows (r - R0) (c - C0))%R else 0%R.

Lemma addDense_blk : forall n M r c s rows r' c',
  addDense n M r c s rows r' c' = (M r' c' + blk n rows r c s r' c')%R.
Proof.
  intros. unfold addDense, blk.
  destruct ((r <=? r') && (r' <? r + n) && (c <=? c') && (c' <? c + n)); lra.
Qed.

Lemma inner_loop : forall rows i R0 C0 s k M r c,
  fold_left (fun M j =>
     if nonZero (denseEntry rows i j)
     then addAt M (i + R0) (j + C0) (s * denseEntry rows i j)%R else M) (zseq k) M r c =
  (M r c + (if (r =? i + R0) && (C0 <=? c) && (c <? C0 + Z.of_nat k) then s * denseEntry rows i (c - C0) else 0))%R.
Proof.
  intros rows i R0 C0 s k. induction k as [|k IH]; intros M r c.
  - cbn [zseq seq map fold_left].
    replace ((r =? i + R0) && (C0 <=? c) && (c <? C0 + Z.of_nat 0)) with false; [lra|].
    symmetry. apply not_true_is_false. intros Q. rewrite !andb_true_iff in Q. lia.
  - rewrite zseq_S, fold_left_app. cbn [fold_left].
    set (M1 := fold_left _ (zseq k) M) in *.
    assert (E1 : M1 r c = (M r c + (if (r =? i + R0) && (C0 <=? c) && (c <? C0 + Z.of_nat k) then s * denseEntry rows i (c - C0) else 0))%R)
      by apply IH.
    unfold nonZero. destruct (Req_EM_T (denseEntry rows i (Z.of_nat k)) 0) as [Zr|NZ].
    + rewrite E1. f_equal.
      destruct (Z.eq_dec c (C0 + Z.of_nat k)) as [->|D].
      * replace (C0 + Z.of_nat k - C0) with (Z.of_nat k) by lia. rewrite Zr.
        destruct ((r =? i + R0) && (C0 <=? C0 + Z.of_nat k) && (C0 + Z.of_nat k <? C0 + Z.of_nat (S k))),
                 ((r =? i + R0) && (C0 <=? C0 + Z.of_nat k) && (C0 + Z.of_nat k <? C0 + Z.of_nat k)); lra.
      * replace (c <? C0 + Z.of_nat (S k)) with (c <? C0 + Z.of_nat k); [reflexivity|].
        destruct (Z.ltb_spec c (C0 + Z.of_nat k)), (Z.ltb_spec c (C0 + Z.of_nat (S k))); try reflexivity; lia.
    + unfold addAt. rewrite E1. rewrite (Z.add_comm (Z.of_nat k) C0).
      destruct (Z.eqb_spec r (i + R0)) as [->|Dr]; cbn [andb].
      * destruct (Z.eqb_spec c (C0 + Z.of_nat k)) as [->|Dc].
        -- replace (C0 + Z.of_nat k - C0) with (Z.of_nat k) by lia.
           replace (C0 + Z.of_nat k <? C0 + Z.of_nat k) with false by (symmetry; apply Z.ltb_irrefl).
           replace (C0 <=? C0 + Z.of_nat k) with true by (symmetry; apply Z.leb_le; lia).
           replace (C0 + Z.of_nat k <? C0 + Z.of_nat (S k)) with true by (symmetry; apply Z.ltb_lt; lia).
           cbn [andb]. lra.
        -- replace (c <? C0 + Z.of_nat (S k)) with (c <? C0 + Z.of_nat k); [lra|].
           destruct (Z.ltb_spec c (C0 + Z.of_nat k)), (Z.ltb_spec c (C0 + Z.of_nat (S k))); try reflexivity; lia.
      * lra.
Qed.

Lemma outer_loop : forall n rows R0 C0 s k M r c, (k <= Z.to_nat n)%nat ->
  fold_left (fun M i =>
    fold_left (fun M j =>
     if nonZero (denseEntry rows i j)
     then addAt M (i + R0) (j + C0) (s * denseEntry rows i j)%R else M) (zseq (Z.to_nat n)) M) (zseq k) M r c =
  (M r c + (if (R0 <=? r) && (r <? R0 + Z.of_nat k) && (C0 <=? c) && (c <? C0 + n) then s * denseEntry rows (r - R0) (c - C0) else 0))%R.
Proof.
  intros n rows R0 C0 s k. induction k as [|k IH]; intros M r c L.
  - cbn [zseq seq map fold_left].
    replace ((R0 <=? r) && (r <? R0 + Z.of_nat 0) && (C0 <=? c) && (c <? C0 + n)) with false; [lra|].
    symmetry. apply not_true_is_false. intros Q. rewrite !andb_true_iff in Q. lia.
  - rewrite zseq_S, fold_left_app. cbn [fold_left]. rewrite inner_loop, IH by lia.
    rewrite Z2Nat.id by lia.
    destruct (Z.eqb_spec r (Z.of_nat k + R0)) as [->|D]; cbn [andb].
    + replace (R0 <=? Z.of_nat k + R0) with true by (symmetry; apply Z.leb_le; lia).
      replace (Z.of_nat k + R0 <? R0 + Z.of_nat k) with false by (symmetry; apply Z.ltb_ge; lia).
      replace (Z.of_nat k + R0 <? R0 + Z.of_nat (S k)) with true by (symmetry; apply Z.ltb_lt; lia).
      replace (Z.of_nat k + R0 - R0) with (Z.of_nat k) by lia. cbn [andb].
      destruct ((C0 <=? c) && (c <? C0 + n)); lra.
    + replace (r <? R0 + Z.of_nat (S k)) with (r <? R0 + Z.of_nat k); [lra|].
      destruct (Z.ltb_spec r (R0 + Z.of_nat k)), (Z.ltb_spec r (R0 + Z.of_nat (S k))); try reflexivity; lia.
Qed.

Lemma alloc_two : forall n rows M f0 f1 d0 d1 s, 0 <= n ->
  exists M', allocateDenseInEigen n rows M [f0; f1] [d0; d1] s = Ok M' /\
    forall r c, M' r c = (M r c + blk n rows (n * (3 * f0 + d0)) (n * (3 * f1 + d1)) s r c)%R.
Proof.
  intros n rows M f0 f1 d0 d1 s Hn. eexists. split; [reflexivity|]. intros r c.
  cbv beta. rewrite outer_loop by lia. rewrite Z2Nat.id by lia. reflexivity.
Qed.

Lemma alloc_one : forall n rows M f0 f1 d0 s, 0 <= n ->
  exists M', allocateDenseInEigen n rows M [f0; f1] [d0] s = Ok M' /\
    forall r c, M' r c = (M r c + blk n rows (n * (3 * f0 + d0)) (n * (3 * f0 + d0)) s r c)%R.
Proof.
  intros n rows M f0 f1 d0 s Hn. eexists. split; [reflexivity|]. intros r c.
  cbv beta. rewrite outer_loop by lia. rewrite Z2Nat.id by lia. reflexivity.
Qed.

(** ** Products *)
Lemma matVec_plus : forall n (M B M' : mat) x r, (forall r c, M' r c = (M r c + B r c)%R) ->
  matVecRow n M' x r = (matVecRow n M x r + matVecRow n B x r)%R.
Proof.
  intros n M B M' x r Hm. unfold matVecRow. rewrite <- rsum_plus. apply rsum_ext. intros c _. rewrite Hm. lra.
Qed.

Lemma matVec_zero : forall n x r, matVecRow n zeroMat x r = 0%R.
Proof. intros. apply rsum_zero. intros. unfold zeroMat. lra. Qed.

Section Block.
Variable op : opname -> list (list (Z * R)).
Variable n : Z.
Hypothesis Hn : 0 <= n.

Lemma blk_other : forall rows f d f' d' s x f0 d0 i,
  0 <= f <= 1 -> 0 <= d <= 2 -> 0 <= f0 <= 1 -> 0 <= d0 <= 2 -> (i < Z.to_nat n)%nat ->
  (f, d) <> (f0, d0) ->
  matVecRow n (blk n rows (n * (3 * f + d)) (n * (3 * f' + d')) s) x ((3 * f0 + d0) * n + Z.of_nat i) = 0%R.
Proof.
  intros rows f d f' d' s x f0 d0 i Hf Hd Hf0 Hd0 Hi D. apply rsum_zero. intros c _.
  unfold blk.
  assert (K : 3 * f + d <> 3 * f0 + d0).
  { intros Q. apply D. assert (f = f0 /\ d = d0) by lia. destruct H; subst; reflexivity. }
  destruct ((n * (3 * f + d) <=? (3 * f0 + d0) * n + Z.of_nat i) && ((3 * f0 + d0) * n + Z.of_nat i <? n * (3 * f + d) + n)) eqn:Q;
    cbn [andb]; [|lra].
  exfalso. rewrite andb_true_iff in Q. destruct Q as [Q1 Q2]. apply Z.leb_le in Q1. apply Z.ltb_lt in Q2.
  destruct (Z.lt_ge_cases (3 * f + d) (3 * f0 + d0)); nia.
Qed.

Lemma blk_same : forall rows f d f' d' s x i,
  (forall row e, In row rows -> In e row -> 0 <= fst e < n) ->
  0 <= f <= 1 -> 0 <= d <= 2 -> 0 <= f' <= 1 -> 0 <= d' <= 2 -> (i < Z.to_nat n)%nat ->
  matVecRow n (blk n rows (n * (3 * f + d)) (n * (3 * f' + d')) s) x ((3 * f + d) * n + Z.of_nat i) =
  (s * rsum (map (fun e => snd e * comp n 0 x f' d' (fst e)) (nth i rows [])))%R.
Proof.
  intros rows f d f' d' s x i Hr Hf Hd Hf' Hd' Hi.
  rewrite <- rsum_scal. unfold matVecRow.
  set (row := nth i rows []).
  assert (Hrow : forall e, In e row -> 0 <= fst e < n).
  { intros e He. unfold row in He. destruct (nth_in_or_default i rows []) as [Q|Q].
    - eapply Hr; eassumption.
    - rewrite Q in He. destruct He. }
  transitivity (rsum (map (fun c => rsum (map (fun e =>
       if Nat.eq_dec c (Z.to_nat (n * (3 * f' + d') + fst e)) then s * (snd e * nth c x 0) else 0) row))%R (seq 0 (Z.to_nat (6 * n))))).
  - apply rsum_ext. intros c Ic. apply in_seq in Ic. unfold blk.
    replace (n * (3 * f + d) <=? (3 * f + d) * n + Z.of_nat i) with true by (symmetry; apply Z.leb_le; lia).
    replace ((3 * f + d) * n + Z.of_nat i <? n * (3 * f + d) + n) with true by (symmetry; apply Z.ltb_lt; lia).
    cbn [andb].
    replace ((3 * f + d) * n + Z.of_nat i - n * (3 * f + d)) with (Z.of_nat i) by lia.
    destruct ((n * (3 * f' + d') <=? Z.of_nat c) && (Z.of_nat c <? n * (3 * f' + d') + n)) eqn:Q.
    + rewrite andb_true_iff in Q. destruct Q as [Q1 Q2]. apply Z.leb_le in Q1. apply Z.ltb_lt in Q2.
      unfold denseEntry. rewrite Nat2Z.id. fold row.
      rewrite Rmult_assoc, (Rmult_comm (rsum _)), <- Rmult_assoc.
      rewrite <- rsum_scal. apply rsum_ext. intros e He.
      specialize (Hrow e He).
      destruct (Z.eqb_spec (fst e) (Z.of_nat c - n * (3 * f' + d'))), (Nat.eq_dec c (Z.to_nat (n * (3 * f' + d') + fst e))); try lra; lia.
    + rewrite Rmult_0_l. symmetry. apply rsum_zero. intros e He. specialize (Hrow e He).
      destruct (Nat.eq_dec c (Z.to_nat (n * (3 * f' + d') + fst e))) as [->|]; [|reflexivity].
      exfalso. rewrite Z2Nat.id in Q by nia.
      rewrite andb_false_iff in Q. destruct Q as [Q|Q]; [apply Z.leb_gt in Q|apply Z.ltb_ge in Q]; nia.
  - rewrite rsum_swap. apply rsum_ext. intros e He. specialize (Hrow e He).
    rewrite (rsum_delta (fun c => s * (snd e * nth c x 0))%R) by nia.
    unfold comp. rewrite Z.add_0_r. rewrite (Z.mul_comm n). reflexivity.
Qed.

End Block.

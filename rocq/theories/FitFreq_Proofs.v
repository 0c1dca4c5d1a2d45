(** The frequencies sampled. *)
From Coq Require Import ZArith List Bool Reals Lra Lia.
From Coquelicot Require Import Complex.
From Verif Require Import Common Fit_Model Fit_Spec.
Import ListNotations.
Local Open Scope R_scope.

Lemma geo_fold : forall (step a : R) (n m : nat),
  fold_left (fun l (_ : nat) => l ++ [last l 0 * step]) (seq m n) (map (fun i => a * step ^ i) (seq 0 (S m))) =
  map (fun i => a * step ^ i) (seq 0 (S (m + n))).
Proof.
  intros step a n. induction n as [|n IH]; intros m.
  - rewrite Nat.add_0_r. reflexivity.
  - change (seq m (S n)) with (m :: seq (S m) n). cbn [fold_left]. replace (m + S n)%nat with (S m + n)%nat by lia. rewrite <- IH. f_equal.
    rewrite (seq_S (S m) 0), map_app. cbn [map]. f_equal. f_equal.
    rewrite seq_S, map_app. cbn [map]. rewrite last_last. cbn [Nat.add pow]. ring.
Qed.
Lemma frequencies_geometric : forall (a b : R) (n : nat), 0 < a -> a < b -> (1 <= n)%nat ->
  exists l, frequencies a b (S n) = Ok l /\ length l = S n /\ nth 0 l 0 = a /\ nth n l 0 = b /\ NoDup l /\
    (forall i, (i < n)%nat -> nth i l 0 < nth (S i) l 0) /\
    forall i, (S i < n)%nat -> nth (S i) l 0 * nth (S i) l 0 = nth i l 0 * nth (S (S i)) l 0.
Proof.
  intros a b n Ha Hab Hn. unfold frequencies. set (step := Rpower (b / a) (1 / INR n)).
  assert (Hn0 : 0 < INR n) by (apply lt_0_INR; lia).
  assert (Hq : 1 < b / a) by (apply (Rmult_lt_reg_r a); [exact Ha|]; unfold Rdiv; rewrite Rmult_assoc, Rinv_l; lra).
  assert (Hs : 1 < step).
  { unfold step, Rpower. apply (Rle_lt_trans _ (exp 0)); [rewrite exp_0; lra|]. apply exp_increasing. apply Rmult_lt_0_compat.
    - apply Rdiv_lt_0_compat; lra.
    - apply (Rle_lt_trans _ (ln 1)); [rewrite ln_1; lra|]. apply ln_increasing; lra. }
  assert (Hp : step ^ n = b / a).
  { unfold step. rewrite <- Rpower_pow by (unfold Rpower; apply exp_pos). rewrite Rpower_mult.
    replace (1 / INR n * INR n) with 1 by (field; lra). apply Rpower_1. lra. }
  assert (Hlt : forall i j, (i < j)%nat -> a * step ^ i < a * step ^ j).
  { intros i j H. apply Rmult_lt_compat_l; [exact Ha|]. apply Rlt_pow; assumption. }
  exists (map (fun i => a * step ^ i) (seq 0 (S n))).
  assert (N : forall i, (i < S n)%nat -> nth i (map (fun i => a * step ^ i) (seq 0 (S n))) 0 = a * step ^ i).
  { intros i Hi. rewrite (nth_indep _ 0 (a * step ^ 0)) by (rewrite map_length, seq_length; exact Hi).
    rewrite (map_nth (fun i => a * step ^ i)), seq_nth by exact Hi. reflexivity. }
  split.
  { f_equal. pose proof (geo_fold step a n 0) as E. cbn [seq map pow] in E. rewrite Rmult_1_r in E. cbn [Nat.add] in E. rewrite E. cbn [seq map pow]. rewrite Rmult_1_r. reflexivity. }
  split; [rewrite map_length, seq_length; reflexivity|].
  split; [rewrite N by lia; cbn [pow]; ring|].
  split; [rewrite N by lia; rewrite Hp; field; lra|].
  split; [|split].
  - apply FinFun.Injective_map_NoDup; [|apply seq_NoDup]. intros i j E.
    destruct (lt_eq_lt_dec i j) as [[H|H]|H]; [|exact H|]; apply Hlt in H; lra.
  - intros i Hi. rewrite !N by lia. apply Hlt. lia.
  - intros i Hi. rewrite !N by lia. cbn [pow]. ring.
Qed.

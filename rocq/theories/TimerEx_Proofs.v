(** Timing reports: runs that print, runs that end, and a second solver in the same process that prints nothing. *)
From Coq Require Import ZArith List Bool Reals Lia Lra Classical.
From Verif Require Import Common Timer_Model Timer_Spec Timer_Proofs.
Import ListNotations.
Local Open Scope R_scope.

(** Every run can be continued until nothing moves. *)
Lemma can_end : forall P l ss, (1 <= P)%nat -> exists n w, cmoves P n (cstart (fun i => timed P i (seenBy i l) (ss i) [])) w /\ forall w', ~ cmove P w w'.
Proof.
  intros P l ss HP. destruct (same_reports P l ss HP) as (fin & out & H). set (B := (P * (2 * length l))%nat) in *. set (w0 := cstart _) in *.
  assert (X : forall k n w, cmoves P n w0 w -> (B - n = k)%nat -> exists n w, cmoves P n w0 w /\ forall w', ~ cmove P w w').
  { induction k as [|k IH]; intros n w M E; (destruct (classic (exists w', cmove P w w')) as [(w' & Mv)|No]; [|exists n, w; split; [exact M|]; intros w' Mv; apply No; exists w'; exact Mv]).
    - exfalso. pose proof (CS P n w0 w w' M Mv) as M'. pose proof (proj1 (H _ _ M')). lia.
    - pose proof (CS P n w0 w w' M Mv) as M'. pose proof (proj1 (H _ _ M')). apply (IH (S n) w' M'). lia. }
  exact (X _ 0%nat w0 (C0 P w0) eq_refl).
Qed.
Lemma fifty : forall P l out, reports P None l out -> (50 <= length l)%nat -> out <> [].
Proof. intros P l out H L E. subst out. inversion H as [? ? No|]; subst. apply (No 49%nat ltac:(lia)). split; [lia|exact I]. Qed.
(** Two processes, one of which takes longer. *)
Definition two : evals := repeat (1, [[1; 0; 0; 1; 0]; [1; 0; 1; 0; 0]]) 50.
Lemma two_measured : measured 2 two.
Proof. apply Forall_forall. intros c Hc. apply repeat_spec in Hc. subst c. cbn [fst snd]. split; [lra|]. split; [reflexivity|]. repeat constructor. Qed.
Lemma two_example : measured 2 two /\ exists out, reports 2 None two out /\ out <> [].
Proof.
  split; [exact two_measured|]. destruct (timing_reports 2 two ltac:(lia) two_measured) as (fin & out & H & _). exists out. split; [exact H|]. apply (fifty 2 two out H). unfold two. rewrite repeat_length. lia.
Qed.

Lemma few : forall l l' s out, (tm_count s + Z.of_nat (length l) < 50)%Z -> exists s', tm_count s' = (tm_count s + Z.of_nat (length l))%Z /\ tm_last s' = tm_last s /\ timed 1 0 (l ++ l') s out = timed 1 0 l' s' out.
Proof.
  induction l as [|[now d] l IH]; intros l' s out L; [exists s; split; [cbn; lia|]; split; reflexivity|].
  cbn [app timed length] in *. change (1 <? 1)%nat with false. cbv iota. assert (W : wants now (tick d s) = false). { unfold wants, tick. cbn [tm_count]. destruct (Z.leb_spec 50 (tm_count s + 1)); [lia|reflexivity]. }
  rewrite W. destruct (IH l' (tick d s) out ltac:(unfold tick; cbn [tm_count]; lia)) as (s' & A & B & C). exists s'. unfold tick in A, B. cbn [tm_count tm_last] in A, B. split; [lia|]. split; [exact B|exact C].
Qed.
Lemma hushed : forall l s out, 0 <= tm_last s -> Forall (fun c => fst c < tm_last s + 5 / 100) l -> exists s', timed 1 0 l s out = End s' out.
Proof.
  induction l as [|[now d] l IH]; intros s out L F; [exists s; reflexivity|]. apply Forall_cons_iff in F. destruct F as (F1 & F). cbn [fst] in F1. cbn [timed]. change (1 <? 1)%nat with false. cbv iota.
  assert (W : wants now (tick d s) = false). { unfold wants, tick. cbn [tm_last tm_count]. destruct (Rlt_dec (tm_last s) 0); [lra|]. destruct (Rle_dec (tm_last s + 5 / 100) now); [lra|]. apply andb_false_r. }
  rewrite W. exact (IH (tick d s) out L F).
Qed.
Definition zeros (t : R) (n : nat) : evals := repeat (t, [[0; 0; 0; 0; 0]]) n.
Lemma zeros_measured : forall t n, 0 <= t -> measured 1 (zeros t n).
Proof. intros t n Ht. apply Forall_forall. intros c Hc. apply repeat_spec in Hc. subst c. cbn [fst snd]. split; [exact Ht|]. split; [reflexivity|]. repeat constructor. Qed.
Lemma seen_zeros : forall t n, seenBy 0 (zeros t n) = repeat (t, [0; 0; 0; 0; 0]) n.
Proof. intros t n. induction n as [|n IH]; [reflexivity|]. cbn [zeros repeat]. unfold seenBy in *. cbn [map fst snd nth]. f_equal. exact IH. Qed.
Theorem second_refuted : ~ forall l1 l2 s1 o1 s2 o2, measured 1 l1 -> measured 1 l2 ->
  timed 1 0 (seenBy 0 l1) timer0 [] = End s1 o1 -> timed 1 0 (seenBy 0 l2) s1 [] = End s2 o2 -> reports 1 None l2 o2.
Proof.
  intros H.
  assert (X : exists s1 o1, timed 1 0 (seenBy 0 (zeros 10 50)) timer0 [] = End s1 o1 /\ tm_last s1 = 10).
  { rewrite seen_zeros. change (repeat (10, [0; 0; 0; 0; 0]) 50) with (repeat (10, [0; 0; 0; 0; 0]) 49 ++ [(10, [0; 0; 0; 0; 0])]).
    destruct (few (repeat (10, [0; 0; 0; 0; 0]) 49) [(10, [0; 0; 0; 0; 0])] timer0 [] ltac:(rewrite repeat_length; cbn; lia)) as (s & A & B & ->). rewrite repeat_length in A. cbn in A, B.
    cbn [timed]. change (1 <? 1)%nat with false. cbv iota.
    assert (W : wants 10 (tick [0; 0; 0; 0; 0] s) = true). { unfold wants, tick. cbn [tm_last tm_count]. rewrite A, B. destruct (Rlt_dec (-1) 0); [reflexivity|lra]. }
    rewrite W. eexists. eexists. split; reflexivity. }
  destruct X as (s1 & o1 & E1 & L1).
  destruct (hushed (seenBy 0 (zeros 1 60)) s1 [] ltac:(lra)) as (s2 & E2).
  { rewrite seen_zeros. apply Forall_forall. intros c Hc. apply repeat_spec in Hc. subst c. cbn [fst]. lra. }
  pose proof (H _ _ s1 o1 s2 [] (zeros_measured 10 50 ltac:(lra)) (zeros_measured 1 60 ltac:(lra)) E1 E2) as R.
  apply (fifty 1 _ _ R); [unfold zeros; rewrite repeat_length; lia|reflexivity].
Qed.

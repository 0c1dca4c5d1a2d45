(** Timing reports on several processes, in any order of the processes. *)
From Coq Require Import ZArith List Bool Reals Lia Lra.
From Verif Require Import Common Timer_Model Timer_Spec.
Import ListNotations.
Local Open Scope R_scope.

(** ** Collective calls at any pace *)
Section Pace.
Variable P : nat.
Notation zmax := (fold_right Z.max 0%Z).
(** All the processes go through [T] calls together. *)
Inductive sync : (nat -> coll) -> nat -> (nat -> coll) -> Prop :=
| sync0 S S' : (forall i, (i < P)%nat -> S i = S' i) -> sync S 0 S'
| syncR S vs ks T S' : length vs = P -> (forall i, (i < P)%nat -> S i = Allreduce (nth i vs 0%Z) (ks i)) -> sync (fun i => ks i (zmax vs)) T S' -> sync S (Datatypes.S T) S'
| syncG S vs ks T S' : length vs = P -> (forall i, (i < P)%nat -> S i = Gather (nth i vs []) (ks i)) ->
    sync (fun i => ks i (if (i =? 0)%nat then vs else [])) T S' -> sync S (Datatypes.S T) S'.
Lemma sync_post : forall S T S1 S2, sync S T S1 -> (forall i, (i < P)%nat -> S1 i = S2 i) -> sync S T S2.
Proof.
  intros S T S1 S2 H. induction H as [S S' E|S vs ks T S' L E H IH|S vs ks T S' L E H IH]; intros Q.
  - apply sync0. intros i Hi. rewrite (E i Hi). exact (Q i Hi).
  - exact (syncR S vs ks T S2 L E (IH Q)).
  - exact (syncG S vs ks T S2 L E (IH Q)).
Qed.
Definition phase (A B : nat -> coll) : Prop :=
  (exists vs ks, length vs = P /\ forall i, (i < P)%nat -> A i = Allreduce (nth i vs 0%Z) (ks i) /\ B i = ks i (zmax vs)) \/
  (exists vs ks, length vs = P /\ forall i, (i < P)%nat -> A i = Gather (nth i vs []) (ks i) /\ B i = ks i (if (i =? 0)%nat then vs else [])).
Lemma phase_pre : forall A A' B, (forall i, (i < P)%nat -> A' i = A i) -> phase A B -> phase A' B.
Proof. intros A A' B H [(vs & ks & L & K)|(vs & ks & L & K)]; [left|right]; exists vs, ks; (split; [exact L|]); intros i Hi; rewrite (H i Hi); exact (K i Hi). Qed.
Lemma sync_ideal : forall S T S', sync S T S' -> exists ideal : nat -> nat -> coll,
  (forall i, ideal 0%nat i = S i) /\ (forall c, (c < T)%nat -> phase (ideal c) (ideal (Datatypes.S c))) /\ forall i, (i < P)%nat -> ideal T i = S' i.
Proof.
  intros S T S' H. induction H as [S S' E|S vs ks T S' L E H (id & I0 & Ph & IT)|S vs ks T S' L E H (id & I0 & Ph & IT)].
  - exists (fun _ => S). split; [reflexivity|]. split; [intros c Hc; lia|exact E].
  - exists (fun c => match c with O => S | Datatypes.S c => id c end). split; [reflexivity|]. split; [|exact IT]. intros [|c] Hc; [|apply Ph; lia].
    left. exists vs, ks. split; [exact L|]. intros i Hi. split; [exact (E i Hi)|apply I0].
  - exists (fun c => match c with O => S | Datatypes.S c => id c end). split; [reflexivity|]. split; [|exact IT]. intros [|c] Hc; [|apply Ph; lia].
    right. exists vs, ks. split; [exact L|]. intros i Hi. split; [exact (E i Hi)|apply I0].
Qed.
Definition isEnd (a : coll) : Prop := match a with End _ _ => True | _ => False end.
Definition entryOf (a : coll) : entry := match a with Allreduce v _ => ERed v | Gather v _ => EGat v | End _ _ => ERed 0 end.

Section Run.
Variable progs : nat -> coll.
Variable T : nat.
Variable ideal : nat -> nat -> coll.
Hypothesis I0 : forall i, ideal 0%nat i = progs i.
Hypothesis Ph : forall c, (c < T)%nat -> phase (ideal c) (ideal (Datatypes.S c)).
Hypothesis ET : forall i, (i < P)%nat -> isEnd (ideal T i).
Definition entries (i c : nat) : list entry := map (fun j => entryOf (ideal j i)) (seq 0 c).
Definition inPhase (w : nat -> cproc) (i c : nat) : Prop := (c <= T)%nat /\ c_act (w i) = ideal c i /\ c_in (w i) = entries i (Nat.min (S c) T).
Lemma entries_len : forall i c, length (entries i c) = c.
Proof. intros. unfold entries. rewrite map_length. apply seq_length. Qed.
Lemma entries_nth : forall i n c, (c < n)%nat -> nth_error (entries i n) c = Some (entryOf (ideal c i)).
Proof. intros i n c H. unfold entries. rewrite nth_error_map. rewrite (nth_error_nth' _ 0%nat) by (rewrite seq_length; exact H). rewrite seq_nth by exact H. reflexivity. Qed.
Lemma enter_phase : forall w' i c l, (i < P)%nat -> (c <= T)%nat -> l = entries i c -> w' i = entering (ideal c i) l -> inPhase w' i c.
Proof.
  intros w' i c l Hi Hc -> E. split; [exact Hc|]. rewrite E. cbn [entering c_act c_in]. split; [reflexivity|]. destruct (Nat.lt_ge_cases c T) as [L|L].
  - replace (Nat.min (S c) T) with (S c) by lia. unfold entries. rewrite seq_S, map_app. cbn [map plus]. destruct (Ph c L) as [(vs & ks & _ & K)|(vs & ks & _ & K)]; destruct (K i Hi) as (-> & _); reflexivity.
  - replace c with T in * by lia. replace (Nat.min (S T) T) with T by lia. pose proof (ET i Hi) as X. destruct (ideal T i); try destruct X. reflexivity.
Qed.
Lemma not_end : forall w i c, (i < P)%nat -> inPhase w i c -> ~ isEnd (c_act (w i)) -> (c < T)%nat /\ c_in (w i) = entries i (S c).
Proof.
  intros w i c Hi (Hc & Ea & Ei) N. assert (L : (c < T)%nat). { destruct (Nat.lt_ge_cases c T) as [L|L]; [exact L|]. exfalso. apply N. rewrite Ea. replace c with T by lia. exact (ET i Hi). }
  split; [exact L|]. rewrite Ei. f_equal. lia.
Qed.
Lemma in_at : forall w j c k e, inPhase w j c -> nth_error (c_in (w j)) k = Some e -> (k < Nat.min (S c) T)%nat /\ e = entryOf (ideal k j).
Proof.
  intros w j c k e (_ & _ & E) H. rewrite E in H. assert (L : (k < Nat.min (S c) T)%nat) by (rewrite <- (entries_len j (Nat.min (S c) T)); apply nth_error_Some; rewrite H; discriminate).
  split; [exact L|]. rewrite (entries_nth j _ k L) in H. congruence.
Qed.
Fixpoint sum (cs : nat -> nat) (n : nat) : nat := match n with O => 0 | S n => sum cs n + cs n end.
Lemma sum_le : forall cs n, (forall i, (i < n)%nat -> (cs i <= T)%nat) -> (sum cs n <= n * T)%nat.
Proof. intros cs n. induction n as [|n IH]; intros H; [cbn; lia|]. cbn [sum]. specialize (IH ltac:(intros; apply H; lia)). specialize (H n ltac:(lia)). lia. Qed.
Lemma sum_up : forall cs i n, (i < n)%nat -> sum (fun j => if (j =? i)%nat then S (cs j) else cs j) n = S (sum cs n).
Proof.
  intros cs i n. induction n as [|n IH]; intros H; [lia|]. cbn [sum]. destruct (Nat.eqb_spec n i) as [->|Ne].
  - assert (X : forall k, (k <= i)%nat -> sum (fun j => if (j =? i)%nat then S (cs j) else cs j) k = sum cs k).
    { induction k as [|k IHk]; intros Hk; [reflexivity|]. cbn [sum]. rewrite IHk by lia. destruct (Nat.eqb_spec k i); [lia|reflexivity]. }
    rewrite X by lia. lia.
  - rewrite IH by lia. lia.
Qed.
(** A move is a step of the ideal run. *)
Lemma move_ideal : forall w w', (forall i, (i < P)%nat -> exists c, inPhase w i c) -> cmove P w w' ->
  exists i, (i < P)%nat /\ (forall j, j <> i -> w' j = w j) /\ forall c, inPhase w i c -> inPhase w' i (S c).
Proof.
  intros w w' H M. destruct M as [i v k vs Hi Ea Ha Ew Eo|v k vs Hi Ea Ha Ew Eo|i v k Hi Ea Ew Eo].
  - exists i. split; [exact Hi|]. split; [exact Eo|]. intros c Hc. destruct (not_end w i c Hi Hc ltac:(rewrite Ea; intros [])) as (L & Ei). rewrite Ei, entries_len in Ha. replace (S c - 1)%nat with c in Ha by lia.
    destruct Hc as (_ & Ec & _). rewrite Ea in Ec. destruct (Ph c L) as [(us & ks & Lu & K)|(us & ks & Lu & K)]; [|destruct (K i Hi) as (X & _); congruence].
    assert (vs = us). { destruct Ha as (Lv & Hv). apply (nth_ext _ _ 0%Z 0%Z); [congruence|]. intros j Hj. rewrite Lv in Hj. destruct (H j Hj) as (cj & Pj). destruct (in_at w j cj c _ Pj (Hv j Hj)) as (_ & E). rewrite (proj1 (K j Hj)) in E. cbn in E. congruence. }
    subst us. destruct (K i Hi) as (X1 & X2). rewrite <- Ec in X1. injection X1 as _ Ek. rewrite Ek, <- X2 in Ew. exact (enter_phase w' i (S c) _ Hi ltac:(lia) Ei Ew).
  - exists 0%nat. split; [exact Hi|]. split; [exact Eo|]. intros c Hc. destruct (not_end w 0%nat c Hi Hc ltac:(rewrite Ea; intros [])) as (L & Ei). rewrite Ei, entries_len in Ha. replace (S c - 1)%nat with c in Ha by lia.
    destruct Hc as (_ & Ec & _). rewrite Ea in Ec. destruct (Ph c L) as [(us & ks & Lu & K)|(us & ks & Lu & K)]; [destruct (K 0%nat Hi) as (X & _); congruence|].
    assert (vs = us). { destruct Ha as (Lv & Hv). apply (nth_ext _ _ [] []); [congruence|]. intros j Hj. rewrite Lv in Hj. destruct (H j Hj) as (cj & Pj). destruct (in_at w j cj c _ Pj (Hv j Hj)) as (_ & E). rewrite (proj1 (K j Hj)) in E. cbn in E. congruence. }
    subst us. destruct (K 0%nat Hi) as (X1 & X2). rewrite <- Ec in X1. injection X1 as _ Ek. cbn in X2. rewrite Ek, <- X2 in Ew. exact (enter_phase w' 0%nat (S c) _ Hi ltac:(lia) Ei Ew).
  - destruct Hi as (Hp & Hi). exists i. split; [exact Hi|]. split; [exact Eo|]. intros c Hc. destruct (not_end w i c Hi Hc ltac:(rewrite Ea; intros [])) as (L & Ei).
    destruct Hc as (_ & Ec & _). rewrite Ea in Ec. destruct (Ph c L) as [(us & ks & Lu & K)|(us & ks & Lu & K)]; [destruct (K i Hi) as (X & _); congruence|].
    destruct (K i Hi) as (X1 & X2). rewrite <- Ec in X1. injection X1 as _ Ek. destruct (Nat.eqb_spec i 0); [lia|]. rewrite Ek, <- X2 in Ew. exact (enter_phase w' i (S c) _ Hi ltac:(lia) Ei Ew).
Qed.
Lemma pace_inv : forall n w, cmoves P n (cstart progs) w -> exists cs, (forall i, (i < P)%nat -> inPhase w i (cs i)) /\ n = sum cs P.
Proof.
  intros n w M. remember (cstart progs) as w0 eqn:E0. induction M as [w|n w w' w'' M IH Mv].
  - subst w. exists (fun _ => 0%nat). split; [|clear; induction P as [|n IH]; [reflexivity|]; cbn [sum]; lia].
    intros i Hi. apply (enter_phase _ i 0%nat [] Hi ltac:(lia) eq_refl). unfold cstart. rewrite I0. reflexivity.
  - destruct (IH E0) as (cs & H & En). destruct (move_ideal w' w'' (fun i Hi => ex_intro _ (cs i) (H i Hi)) Mv) as (i & Hi & Eo & Up).
    exists (fun j => if (j =? i)%nat then S (cs j) else cs j). split; [|rewrite sum_up by exact Hi; lia].
    intros j Hj. destruct (Nat.eqb_spec j i) as [->|Ne]; [exact (Up (cs i) (H i Hi))|]. unfold inPhase. rewrite (Eo j Ne). exact (H j Hj).
Qed.
Lemma pace_ends : forall n w, cmoves P n (cstart progs) w -> (n <= P * T)%nat /\ ((forall w', ~ cmove P w w') -> forall i, (i < P)%nat -> c_act (w i) = ideal T i).
Proof.
  intros n w M. destruct (pace_inv n w M) as (cs & H & ->). split; [apply sum_le; intros i Hi; apply (H i Hi)|]. intros Stuck.
  assert (X : forall c, (c <= T)%nat -> forall i, (i < P)%nat -> (c <= cs i)%nat).
  { induction c as [|c IH]; intros Hc i Hi; [lia|]. specialize (IH ltac:(lia)). destruct (Nat.lt_ge_cases c (cs i)) as [L|L]; [lia|]. exfalso.
    assert (Ec : cs i = c) by (specialize (IH i Hi); lia). pose proof (H i Hi) as (_ & Ea & Ei). rewrite Ec in Ea, Ei. replace (Nat.min (S c) T) with (S c) in Ei by lia.
    assert (En : (length (c_in (w i)) - 1)%nat = c) by (rewrite Ei, entries_len; lia).
    assert (Ent : forall j, (j < P)%nat -> nth_error (c_in (w j)) c = Some (entryOf (ideal c j))). { intros j Hj. destruct (H j Hj) as (_ & _ & Ej). rewrite Ej. apply entries_nth. specialize (IH j Hj). lia. }
    destruct (Ph c ltac:(lia)) as [(vs & ks & Lv & K)|(vs & ks & Lv & K)].
    - apply (Stuck (fun j => if (j =? i)%nat then entering (ks i (zmax vs)) (c_in (w i)) else w j)). apply (LeaveReduce P w _ i (nth i vs 0%Z) (ks i) vs Hi).
      + rewrite Ea. apply (K i Hi).
      + rewrite En. split; [exact Lv|]. intros j Hj. rewrite (Ent j Hj), (proj1 (K j Hj)). reflexivity.
      + rewrite Nat.eqb_refl. reflexivity.
      + intros j Ne. destruct (Nat.eqb_spec j i); [contradiction|reflexivity].
    - destruct (Nat.eq_dec i 0) as [->|Ne0].
      + apply (Stuck (fun j => if (j =? 0)%nat then entering (ks 0%nat vs) (c_in (w 0%nat)) else w j)). apply (LeaveRoot P w _ (nth 0 vs []) (ks 0%nat) vs Hi).
        * rewrite Ea. apply (K 0%nat Hi).
        * rewrite En. split; [exact Lv|]. intros j Hj. rewrite (Ent j Hj), (proj1 (K j Hj)). reflexivity.
        * reflexivity.
        * intros j Ne. destruct (Nat.eqb_spec j 0); [contradiction|reflexivity].
      + apply (Stuck (fun j => if (j =? i)%nat then entering (ks i []) (c_in (w i)) else w j)). apply (LeaveOther P w _ i (nth i vs []) (ks i)); [lia| | |].
        * rewrite Ea. apply (K i Hi).
        * rewrite Nat.eqb_refl. reflexivity.
        * intros j Ne. destruct (Nat.eqb_spec j i); [contradiction|reflexivity]. }
  intros i Hi. pose proof (H i Hi) as (Ci & Ea & _). rewrite Ea. replace (cs i) with T by (specialize (X T (le_n _) i Hi); lia). reflexivity.
Qed.
End Run.
Lemma sync_ends : forall progs T S', sync progs T S' -> (forall i, (i < P)%nat -> isEnd (S' i)) ->
  forall n w, cmoves P n (cstart progs) w -> (n <= P * T)%nat /\ ((forall w', ~ cmove P w w') -> forall i, (i < P)%nat -> c_act (w i) = S' i).
Proof.
  intros progs T S' H E n w M. destruct (sync_ideal progs T S' H) as (id & I0 & Ph & IT).
  destruct (pace_ends progs T id I0 Ph (fun i Hi => eq_ind_r isEnd (E i Hi) (IT i Hi)) n w M) as (A & B). split; [exact A|]. intros St i Hi. rewrite (B St i Hi). exact (IT i Hi).
Qed.
End Pace.

(** ** The reports *)
Definition ticked (ds : list (list R)) (ss : nat -> timer) (i : nat) : timer := tick (nth i ds []) (ss i).
Definition anyWants (P : nat) (now : R) (ss : nat -> timer) : bool := existsb (fun i => wants now (ss i)) (seq 0 P).
Fixpoint lock (P : nat) (l : evals) (ss : nat -> timer) : list report :=
  match l with
  | [] => []
  | (now, ds) :: l => if anyWants P now (ticked ds ss)
      then printed now (ticked ds ss 0%nat) (map (fun i => averages (ticked ds ss i)) (seq 0 P)) :: lock P l (fun _ => rested now)
      else lock P l (ticked ds ss)
  end.
Definition flags (P : nat) (now : R) (ss : nat -> timer) : list Z := map (fun i => if wants now (ss i) then 1 else 0)%Z (seq 0 P).
Lemma flags_max : forall P now ss, negb (fold_right Z.max 0%Z (flags P now ss) =? 0)%Z = anyWants P now ss.
Proof.
  intros P now ss. unfold flags, anyWants. assert (X : forall l, (0 <= fold_right Z.max 0 (map (fun i => if wants now (ss i) then 1 else 0) l))%Z /\ negb (fold_right Z.max 0 (map (fun i => if wants now (ss i) then 1 else 0) l) =? 0)%Z = existsb (fun i => wants now (ss i)) l).
  { induction l as [|i l (I1 & I2)]; [split; [cbn; lia|reflexivity]|]. cbn [map fold_right existsb]. destruct (wants now (ss i)); cbn [orb].
    - split; [lia|]. destruct (Z.eqb_spec (Z.max 1 (fold_right Z.max 0 (map (fun i => if wants now (ss i) then 1 else 0) l))) 0)%Z; [lia|reflexivity].
    - rewrite Z.max_r by exact I1. auto. }
  apply X.
Qed.
Lemma nth_seq_map : forall {A} (f : nat -> A) P i d, (i < P)%nat -> nth i (map f (seq 0 P)) d = f i.
Proof. intros A f P i d H. rewrite (nth_indep _ d (f 0%nat)) by (rewrite map_length, seq_length; exact H). rewrite map_nth, seq_nth by exact H. reflexivity. Qed.
Lemma timed_sync : forall P l ss outs, (1 < P)%nat -> exists T fin, (T <= 2 * length l)%nat /\
  sync P (fun i => timed P i (seenBy i l) (ss i) (outs i)) T (fun i => End (fin i) (if (i =? 0)%nat then outs i ++ lock P l ss else outs i)).
Proof.
  intros P l. induction l as [|[now ds] l IH]; intros ss outs HP.
  - exists 0%nat, ss. split; [cbn; lia|]. apply sync0. intros i Hi. cbn. destruct (i =? 0)%nat; [rewrite app_nil_r|]; reflexivity.
  - cbn [seenBy map timed lock length fst snd]. fold (seenBy). rewrite (proj2 (Nat.ltb_lt 1 P) HP). rewrite <- flags_max.
    destruct (negb (fold_right Z.max 0 (flags P now (ticked ds ss)) =? 0)%Z) eqn:E.
    + set (rows := map (fun i => averages (ticked ds ss i)) (seq 0 P)).
      destruct (IH (fun _ => rested now) (fun i => if (i =? 0)%nat then outs i ++ [printed now (ticked ds ss i) (if (i =? 0)%nat then rows else [])] else outs i) HP) as (T & fin & LT & H). exists (S (S T)), fin. split; [lia|].
      eapply (syncR P _ (flags P now (ticked ds ss)) (fun i g => _)); [unfold flags; rewrite map_length; apply seq_length|intros i Hi; unfold flags; rewrite nth_seq_map by exact Hi; reflexivity|]. cbv beta. rewrite E.
      eapply (syncG P _ rows (fun i all => _)); [unfold rows; rewrite map_length; apply seq_length|intros i Hi; unfold rows; rewrite nth_seq_map by exact Hi; reflexivity|]. cbv beta.
      eapply sync_post; [exact H|]. intros i Hi. cbv beta. destruct (Nat.eqb_spec i 0) as [->|Ne]; [|reflexivity]. rewrite <- app_assoc. reflexivity.
    + destruct (IH (ticked ds ss) outs HP) as (T & fin & LT & H). exists (S T), fin. split; [lia|].
      eapply (syncR P _ (flags P now (ticked ds ss)) (fun i g => _)); [unfold flags; rewrite map_length; apply seq_length|intros i Hi; unfold flags; rewrite nth_seq_map by exact Hi; reflexivity|]. cbv beta. rewrite E. exact H.
Qed.

Lemma timed_one : forall l ss out, exists fin, timed 1 0 (seenBy 0 l) (ss 0%nat) out = End fin (out ++ lock 1 l ss).
Proof.
  induction l as [|[now ds] l IH]; intros ss out; [exists (ss 0%nat); cbn; rewrite app_nil_r; reflexivity|].
  cbn [seenBy map timed lock fst snd]. change (1 <? 1)%nat with false. cbv iota. unfold anyWants. cbn [seq existsb map]. rewrite orb_false_r. change (tick (nth 0 ds []) (ss 0%nat)) with (ticked ds ss 0%nat).
  destruct (wants now (ticked ds ss 0%nat)).
  - destruct (IH (fun _ => rested now) (out ++ [printed now (ticked ds ss 0%nat) [averages (ticked ds ss 0%nat)]])) as (fin & E). exists fin. cbn [Nat.eqb]. unfold seenBy in E. rewrite E, <- app_assoc. reflexivity.
  - exact (IH (ticked ds ss) out).
Qed.
(** Any schedule, any values of the variables at the start. *)
Theorem any_schedule : forall P l ss, (1 <= P)%nat -> exists fin, forall n w, cmoves P n (cstart (fun i => timed P i (seenBy i l) (ss i) [])) w ->
  (n <= P * (2 * length l))%nat /\ ((forall w', ~ cmove P w w') -> forall i, (i < P)%nat -> c_act (w i) = End (fin i) (if (i =? 0)%nat then lock P l ss else [])).
Proof.
  intros P l ss HP. assert (X : exists T fin, (T <= 2 * length l)%nat /\ sync P (fun i => timed P i (seenBy i l) (ss i) []) T (fun i => End (fin i) (if (i =? 0)%nat then lock P l ss else []))).
  { destruct (Nat.eq_dec P 1) as [->|Ne]; [|exact (timed_sync P l ss (fun _ => []) ltac:(lia))].
    destruct (timed_one l ss []) as (fin & E). exists 0%nat, (fun _ => fin). split; [lia|]. apply sync0. intros i Hi. replace i with 0%nat by lia. exact E. }
  destruct X as (T & fin & LT & H). exists fin. intros n w M. destruct (sync_ends P _ T _ H (fun i Hi => I) n w M) as (A & B). split; [|exact B]. eapply Nat.le_trans; [exact A|]. apply Nat.mul_le_mono_l. exact LT.
Qed.

(** ** What they say *)
Definition sums (i : nat) (l : evals) : list R := map (fun k => 1000 * sumUp i k l) (seq 0 5).
Lemma sumUp_app : forall i k a b, sumUp i k (a ++ b) = sumUp i k a + sumUp i k b.
Proof. intros i k a b. induction a as [|c a IH]; cbn [app sumUp]; [ring|rewrite IH; ring]. Qed.
Definition asLast (last : option R) : R := match last with None => -1 | Some t => t end.
Definition okLast (last : option R) : Prop := match last with None => True | Some t => 0 <= t end.
Lemma tick_sums : forall i pre c last, length (nth i (snd c) []) = 5%nat ->
  tick (nth i (snd c) []) (mkTimer (sums i pre) (Z.of_nat (length pre)) last) = mkTimer (sums i (pre ++ [c])) (Z.of_nat (length (pre ++ [c]))) last.
Proof.
  intros i pre c last L. unfold tick. cbn [tm_acc tm_count tm_last]. rewrite app_length. cbn [length]. f_equal; [|lia].
  unfold sums. cbn [seq map]. rewrite !sumUp_app. cbn [sumUp]. destruct (nth i (snd c) []) as [|a [|b [|d [|e [|f [|g q]]]]]]; cbn in L; try discriminate. cbn [combine map fst snd nth]. do 5 (apply (f_equal2 (@cons R)); [ring|]). reflexivity.
Qed.
Lemma wants_due : forall last l n now acc, okLast last -> fst (nth n l (0, [])) = now -> wants now (mkTimer acc (Z.of_nat (n + 1)) (asLast last)) = true <-> due last l n.
Proof.
  intros last l n now acc Hl <-. unfold wants, due. cbn [tm_count tm_last]. rewrite andb_true_iff, orb_true_iff, Z.leb_le. destruct last as [t|]; cbn [asLast okLast] in *.
  - destruct (Rlt_dec t 0); [lra|]. destruct (Rle_dec (t + 5 / 100) (fst (nth n l (0, [])))).
    + split; [intros (A & B); split; [lia|assumption]|intros (A & B); split; [lia|right; reflexivity]].
    + split; [intros (A & [B|B]); discriminate|intros (A & B); contradiction].
  - destruct (Rlt_dec (-1) 0); [|lra]. split; [intros (A & B); split; [lia|exact I]|intros (A & B); split; [lia|left; reflexivity]].
Qed.
Lemma map_ext_seq : forall {A} (f g : nat -> A) P, (forall i, (i < P)%nat -> f i = g i) -> map f (seq 0 P) = map g (seq 0 P).
Proof. intros A f g P H. apply map_ext_in. intros i Hi. apply H. apply in_seq in Hi. lia. Qed.
Lemma averages_mean : forall i pre last, averages (mkTimer (sums i pre) (Z.of_nat (length pre)) last) = map (fun k => mean i k pre) (seq 0 5).
Proof. intros i pre last. unfold averages, sums, mean. cbn [tm_acc tm_count]. rewrite map_map. apply map_ext. intros k. rewrite INR_IZR_INZ. reflexivity. Qed.
Lemma printed_named : forall all, Forall (fun p => named (fst p) (snd p)) (map (fun row => (row, bottleneck row)) all).
Proof.
  intros all. apply Forall_forall. intros p Hp. apply in_map_iff in Hp. destruct Hp as (row & <- & _). cbn [fst snd]. unfold bottleneck, named. cbv zeta.
  destruct (Rlt_dec (7 / 10 * nth 0 row 0) (nth 2 row 0)); [lra|]. destruct (Rlt_dec (5 / 10 * nth 0 row 0) (nth 1 row 0)); lra.
Qed.
Lemma named_one : forall a b, Forall (fun p => named (fst p) (snd p)) a -> Forall (fun p => named (fst p) (snd p)) b -> map fst a = map fst b -> a = b.
Proof.
  induction a as [|[r x] a IH]; intros [|[r' y] b] A B E; cbn [map fst] in E; try discriminate; [reflexivity|]. apply Forall_cons_iff in A, B. destruct A as (A1 & A), B as (B1 & B). injection E as -> E.
  f_equal; [|exact (IH b A B E)]. f_equal. cbn [fst snd] in A1, B1. destruct x, y; try reflexivity; unfold named in A1, B1; exfalso; lra.
Qed.
Lemma lock_reports : forall P, (1 <= P)%nat -> forall l pre last ss, measured P l -> okLast last ->
  (forall i, (i < P)%nat -> ss i = mkTimer (sums i pre) (Z.of_nat (length pre)) (asLast last)) ->
  (forall n, (n < length pre)%nat -> ~ due last (pre ++ l) n) -> reports P last (pre ++ l) (lock P l ss).
Proof.
  intros P HP l. induction l as [|c l IH]; intros pre last ss Me Hl E Nd.
  - cbn [lock]. rewrite app_nil_r in *. apply NoMore. exact Nd.
  - destruct c as [now ds]. apply Forall_cons_iff in Me. destruct Me as ((Hn & Lds & Fd) & Me'). cbn [fst snd] in Hn, Lds, Fd.
    assert (E' : forall i, (i < P)%nat -> ticked ds ss i = mkTimer (sums i (pre ++ [(now, ds)])) (Z.of_nat (length (pre ++ [(now, ds)]))) (asLast last)).
    { intros i Hi. unfold ticked. rewrite (E i Hi). apply (tick_sums i pre (now, ds)). cbn [snd]. rewrite Forall_forall in Fd. apply Fd. apply nth_In. lia. }
    assert (At : fst (nth (length pre) (pre ++ (now, ds) :: l) (0, [])) = now) by (rewrite app_nth2 by lia; rewrite Nat.sub_diag; reflexivity).
    assert (Lp : length (pre ++ [(now, ds)]) = (length pre + 1)%nat) by (rewrite app_length; reflexivity).
    assert (W : forall i, (i < P)%nat -> wants now (ticked ds ss i) = true <-> due last (pre ++ (now, ds) :: l) (length pre)).
    { intros i Hi. rewrite (E' i Hi), Lp. apply wants_due; assumption. }
    cbn [lock]. destruct (anyWants P now (ticked ds ss)) eqn:An.
    + apply existsb_exists in An. destruct An as (i & Hi & Wi). apply in_seq in Hi. pose proof (proj1 (W i ltac:(lia)) Wi) as Due.
      apply (Next P last _ (length pre)); [rewrite app_length; cbn; lia|exact Due|exact Nd| |].
      * unfold tells, printed. cbn [r_time r_calls r_rows]. split; [symmetry; exact At|]. split; [rewrite (E' 0%nat ltac:(lia)); cbn [tm_count]; rewrite Lp; reflexivity|].
        split; [|apply printed_named]. rewrite !map_map. apply map_ext_seq. intros j Hj. cbn [fst]. rewrite (E' j Hj), averages_mean.
        replace (firstn (length pre + 1) (pre ++ (now, ds) :: l)) with (pre ++ [(now, ds)]); [reflexivity|]. rewrite <- Lp. change (pre ++ (now, ds) :: l) with (pre ++ [(now, ds)] ++ l). rewrite app_assoc, firstn_app, firstn_all, Nat.sub_diag. cbn [firstn]. rewrite app_nil_r. reflexivity.
      * rewrite At. replace (skipn (length pre + 1) (pre ++ (now, ds) :: l)) with l.
        { apply (IH [] (Some now) (fun _ => rested now) Me' Hn).
          - intros j Hj. unfold rested, sums. cbn [length asLast Z.of_nat seq map sumUp]. rewrite !Rmult_0_r. reflexivity.
          - intros m Hm. cbn in Hm. lia. }
        rewrite <- Lp. change (pre ++ (now, ds) :: l) with (pre ++ [(now, ds)] ++ l). rewrite app_assoc, skipn_app, skipn_all, Nat.sub_diag. reflexivity.
    + assert (No : ~ due last (pre ++ (now, ds) :: l) (length pre)).
      { intros D. unfold anyWants in An. assert (X : existsb (fun i => wants now (ticked ds ss i)) (seq 0 P) = true) by (apply existsb_exists; exists 0%nat; split; [apply in_seq; lia|apply (W 0%nat ltac:(lia)); exact D]). congruence. }
      specialize (IH (pre ++ [(now, ds)]) last (ticked ds ss) Me' Hl E'). rewrite <- app_assoc in IH. cbn [app] in IH. apply IH.
      intros n Hn'. rewrite Lp in Hn'. destruct (Nat.eq_dec n (length pre)) as [->|Ne]; [exact No|apply Nd; lia].
Qed.
Theorem fresh_reports : forall P l, (1 <= P)%nat -> measured P l -> reports P None l (lock P l (fun _ => timer0)).
Proof.
  intros P l HP Me. apply (lock_reports P HP l [] None (fun _ => timer0) Me I).
  - intros i _. unfold timer0, sums. cbn [length asLast Z.of_nat seq map sumUp]. rewrite !Rmult_0_r. reflexivity.
  - intros n Hn. cbn in Hn. lia.
Qed.
(** The specification leaves no choice. *)
Theorem reports_unique : forall P last l out, reports P last l out -> forall out', reports P last l out' -> out = out'.
Proof.
  intros P last l out H. induction H as [last l No|last l n r out Ln D F Te R IH]; intros out' H'; inversion H' as [? ? No'|? ? n' r' out2 Ln' D' F' Te' R']; subst.
  - reflexivity.
  - exfalso. exact (No n' Ln' D').
  - exfalso. exact (No' n Ln D).
  - assert (n' = n). { destruct (Nat.lt_trichotomy n n') as [X|[X|X]]; [|congruence|]; exfalso; [exact (F' n X D)|exact (F n' X D')]. }
    subst n'. f_equal; [|exact (IH out2 R')]. destruct r as [r1 r2 r3], r' as [q1 q2 q3], Te as (A & B & C & D1), Te' as (A' & B' & C' & D2). cbn [r_time r_calls r_rows] in *. rewrite (named_one _ _ D1 D2 (eq_trans C (eq_sym C'))). congruence.
Qed.
Theorem timing_reports : forall P l, (1 <= P)%nat -> measured P l -> exists fin out, reports P None l out /\
  forall n w, cmoves P n (cstart (fun i => timed P i (seenBy i l) timer0 [])) w ->
  (n <= P * (2 * length l))%nat /\ ((forall w', ~ cmove P w w') -> forall i, (i < P)%nat -> c_act (w i) = End (fin i) (if (i =? 0)%nat then out else [])).
Proof.
  intros P l HP Me. destruct (any_schedule P l (fun _ => timer0) HP) as (fin & H). exists fin, (lock P l (fun _ => timer0)). split; [exact (fresh_reports P l HP Me)|exact H].
Qed.
Theorem same_reports : forall P l ss, (1 <= P)%nat -> exists fin out,
  forall n w, cmoves P n (cstart (fun i => timed P i (seenBy i l) (ss i) [])) w ->
  (n <= P * (2 * length l))%nat /\ ((forall w', ~ cmove P w w') -> forall i, (i < P)%nat -> c_act (w i) = End (fin i) (if (i =? 0)%nat then out else [])).
Proof. intros P l ss HP. destruct (any_schedule P l ss HP) as (fin & H). exists fin, (lock P l ss). exact H. Qed.

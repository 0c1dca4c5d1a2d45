(** Proofs about the runs of several processes at their own pace: in step with the collective ones
    when all of them make the same exchanges, stuck when two neighbours do not. *)
From Coq Require Import ZArith List Bool Reals Lia Lra.
From Verif Require Import Common Csr_Model Evol_Model Ode_Model Par_Model Msg_Model.
Import ListNotations.

Definition isExch (a : act) : Prop := match a with Exch _ _ => True | _ => False end.
Definition post (a : act) : list R := match a with Exch v _ => v | _ => [] end.

Section Sync.
Variable rks : list prank.
Notation P := (length rks).
Hypothesis NB : forall i rk e, nth_error rks i = Some rk -> In e (pr_nbr rk) -> (fst e < P)%nat.

(** One exchange on all the processes at once. *)
Definition together (S : nat -> act) (i : nat) : act :=
  match nth_error rks i, S i with
  | Some rk, Exch v k => k (map (fun e => nth (snd e) (post (S (fst e))) 0%R) (pr_nbr rk))
  | _, a => a
  end.
Fixpoint ideal (S : nat -> act) (c : nat) : nat -> act := match c with O => S | Datatypes.S c => together (ideal S c) end.

Lemma rank_lt : forall i, (i < P)%nat -> exists rk, nth_error rks i = Some rk.
Proof. intros i H. destruct (nth_error rks i) as [rk|] eqn:E; [exists rk; reflexivity|]. apply nth_error_None in E. lia. Qed.
Lemma lt_rank : forall i rk, nth_error rks i = Some rk -> (i < P)%nat.
Proof. intros i rk E. apply nth_error_Some. rewrite E. discriminate. Qed.

Lemma together_ext : forall S S', (forall i, (i < P)%nat -> S i = S' i) -> forall i, (i < P)%nat -> together S i = together S' i.
Proof.
  intros S S' H i Hi. unfold together. destruct (rank_lt i Hi) as (rk & E). rewrite E, <- (H i Hi). destruct (S i) as [x| |v k]; try reflexivity.
  f_equal. apply map_ext_in. intros e I. rewrite (H (fst e)) by (exact (NB i rk e E I)). reflexivity.
Qed.
Lemma ideal_ext : forall S S', (forall i, (i < P)%nat -> S i = S' i) -> forall c i, (i < P)%nat -> ideal S c i = ideal S' c i.
Proof. intros S S' H c. induction c as [|c IH]; [exact H|]. cbn [ideal]. apply together_ext. exact IH. Qed.
Lemma ideal_add : forall S a b, ideal S (a + b) = ideal (ideal S a) b.
Proof. intros S a b. induction b as [|b IH]; [rewrite Nat.add_0_r; reflexivity|]. rewrite Nat.add_succ_r. cbn [ideal]. rewrite IH. reflexivity. Qed.

(** [T] exchanges of all the processes lead from [S] to [S']. *)
Definition runsTo (S : nat -> act) (T : nat) (S' : nat -> act) : Prop :=
  (forall c i, (c < T)%nat -> (i < P)%nat -> isExch (ideal S c i)) /\ (forall i, (i < P)%nat -> ideal S T i = S' i).
Lemma runs_refl : forall S S', (forall i, (i < P)%nat -> S i = S' i) -> runsTo S 0 S'.
Proof. intros S S' H. split; [intros; lia|exact H]. Qed.
Lemma runs_trans : forall S a S' b S'', runsTo S a S' -> runsTo S' b S'' -> runsTo S (a + b) S''.
Proof.
  intros S a S' b S'' (A1 & A2) (B1 & B2). split.
  - intros c i Hc Hi. destruct (Nat.lt_ge_cases c a) as [L|L]; [apply A1; assumption|].
    replace c with (a + (c - a))%nat by lia. rewrite ideal_add, (ideal_ext _ S' A2) by exact Hi. apply B1; [lia|exact Hi].
  - intros i Hi. rewrite ideal_add, (ideal_ext _ S' A2) by exact Hi. apply B2. exact Hi.
Qed.
Lemma runs_pre : forall S S' T S'', (forall i, (i < P)%nat -> S i = S' i) -> runsTo S' T S'' -> runsTo S T S''.
Proof. intros S S' T S'' H R. change T with (0 + T)%nat. apply (runs_trans S 0 S'); [apply runs_refl; exact H|exact R]. Qed.

(** ** Runs at any pace *)
Section Pace.
Variable progs : list act.
Notation S0 := (fun i => nth i progs Fail).
Definition posts (i c : nat) : list (list R) := map (fun j => post (ideal S0 j i)) (seq 0 c).
Lemma posts_len : forall i c, length (posts i c) = c.
Proof. intros. unfold posts. rewrite map_length. apply seq_length. Qed.
Lemma posts_S : forall i c, posts i (S c) = posts i c ++ [post (ideal S0 c i)].
Proof. intros. unfold posts. rewrite seq_S, map_app. reflexivity. Qed.
Lemma posts_nth : forall i n c, (c < n)%nat -> nth c (posts i n) [] = post (ideal S0 c i).
Proof.
  intros i n c H. unfold posts. rewrite (nth_indep _ [] (post (ideal S0 0 i))) by (rewrite map_length, seq_length; exact H).
  rewrite (map_nth (fun j => post (ideal S0 j i))), seq_nth by exact H. reflexivity.
Qed.

(** Process [i] has left [c] exchanges and is where it should be. *)
Definition inStep (w : nat -> proc) (i c : nat) : Prop := w i = enter (ideal S0 c i) (posts i c).
Lemma inStep_sent : forall w i c, inStep w i c -> isExch (ideal S0 c i) -> p_sent (w i) = posts i (S c).
Proof. intros w i c H E. unfold inStep in H. rewrite H. unfold enter. cbn [p_sent]. rewrite posts_S. destruct (ideal S0 c i) as [x| |v k]; try destruct E. reflexivity. Qed.
Lemma inStep_done : forall w i c, inStep w i c -> ~ isExch (ideal S0 c i) -> p_sent (w i) = posts i c.
Proof. intros w i c H E. unfold inStep in H. rewrite H. unfold enter. cbn [p_sent]. destruct (ideal S0 c i) as [x| |v k]; try reflexivity. destruct E. exact I. Qed.
Lemma inStep_act : forall w i c, inStep w i c -> p_act (w i) = ideal S0 c i.
Proof. intros w i c H. unfold inStep in H. rewrite H. reflexivity. Qed.

(** Exchange [c] of process [e] as its neighbours see it. *)
Lemma inStep_next : forall w i rk c v k, nth_error rks i = Some rk -> inStep w i c -> p_act (w i) = Exch v k ->
  (forall e, In e (pr_nbr rk) -> nth c (p_sent (w (fst e))) [] = post (ideal S0 c (fst e))) ->
  enter (k (received w rk (length (p_sent (w i)) - 1))) (p_sent (w i)) = enter (ideal S0 (S c) i) (posts i (S c)).
Proof.
  intros w i rk c v k E H A N. assert (X : isExch (ideal S0 c i)) by (rewrite <- (inStep_act _ _ _ H), A; exact I).
  rewrite (inStep_sent _ _ _ H X), posts_len. replace (S c - 1)%nat with c by lia. f_equal. cbn [ideal]. unfold together. rewrite E, <- (inStep_act _ _ _ H), A.
  f_equal. unfold received. apply map_ext_in. intros e Ie. rewrite (N e Ie). reflexivity.
Qed.

Variable T : nat.
Hypothesis ALL : forall c i, (c < T)%nat -> (i < P)%nat -> isExch (ideal S0 c i).

(** *** All the processes end together *)
Section Ends.
Hypothesis END : forall i, (i < P)%nat -> ~ isExch (ideal S0 T i).
Fixpoint total (cs : nat -> nat) (n : nat) : nat := match n with O => 0 | S n => total cs n + cs n end.
Lemma total_le : forall cs n, (forall i, (i < n)%nat -> (cs i <= T)%nat) -> (total cs n <= n * T)%nat.
Proof. intros cs n. induction n as [|n IH]; intros H; [cbn; lia|]. cbn [total]. specialize (IH ltac:(intros; apply H; lia)). specialize (H n ltac:(lia)). lia. Qed.
Lemma total_up : forall cs i n, (i < n)%nat -> total (fun j => if (j =? i)%nat then S (cs j) else cs j) n = S (total cs n).
Proof.
  intros cs i n. induction n as [|n IH]; intros H; [lia|]. cbn [total]. destruct (Nat.eqb_spec n i) as [->|Ne].
  - assert (X : forall k, (k <= i)%nat -> total (fun j => if (j =? i)%nat then S (cs j) else cs j) k = total cs k).
    { induction k as [|k IHk]; intros Hk; [reflexivity|]. cbn [total]. rewrite IHk by lia. destruct (Nat.eqb_spec k i); [lia|reflexivity]. }
    rewrite X by lia. lia.
  - rewrite IH by lia. lia.
Qed.
Lemma sent_len : forall w i c, (i < P)%nat -> (c <= T)%nat -> inStep w i c -> length (p_sent (w i)) = Nat.min (S c) T.
Proof.
  intros w i c Hi Hc H. destruct (Nat.lt_ge_cases c T) as [L|L].
  - rewrite (inStep_sent _ _ _ H (ALL c i L Hi)), posts_len. lia.
  - replace c with T in * by lia. rewrite (inStep_done _ _ _ H (END i Hi)), posts_len. lia.
Qed.
Lemma sent_nth : forall w i c k, (i < P)%nat -> (c <= T)%nat -> inStep w i c -> (k < Nat.min (S c) T)%nat -> nth k (p_sent (w i)) [] = post (ideal S0 k i).
Proof.
  intros w i c k Hi Hc H Hk. destruct (Nat.lt_ge_cases c T) as [L|L].
  - rewrite (inStep_sent _ _ _ H (ALL c i L Hi)). apply posts_nth. lia.
  - replace c with T in * by lia. rewrite (inStep_done _ _ _ H (END i Hi)). apply posts_nth. lia.
Qed.
Lemma pace_inv : forall n w, moves rks n (start progs) w ->
  exists cs, (forall i, (i < P)%nat -> (cs i <= T)%nat /\ inStep w i (cs i)) /\ n = total cs P.
Proof.
  intros n w M. remember (start progs) as w0 eqn:E0. induction M as [w|n w w' w'' M IH Mv].
  - subst w. exists (fun _ => 0%nat). split; [intros i Hi; split; [lia|reflexivity]|]. clear. induction P as [|n IH]; [reflexivity|]. cbn [total]. lia.
  - destruct (IH E0) as (cs & H & En). destruct Mv as [i rk v k Er Ea Hr Ew Eo]. pose proof (lt_rank i rk Er) as Hi.
    destruct (H i Hi) as (Ci & Si).
    assert (L : (cs i < T)%nat).
    { destruct (Nat.lt_ge_cases (cs i) T) as [L|L]; [exact L|]. exfalso. apply (END i Hi). replace T with (cs i) by lia. rewrite <- (inStep_act _ _ _ Si), Ea. exact I. }
    exists (fun j => if (j =? i)%nat then S (cs j) else cs j). split; [|rewrite total_up by exact Hi; lia].
    intros j Hj. destruct (Nat.eqb_spec j i) as [->|Ne].
    + split; [lia|]. unfold inStep. rewrite Ew. apply (inStep_next w' i rk (cs i) v k Er Si Ea).
      intros e Ie. pose proof (NB i rk e Er Ie) as He. destruct (H (fst e) He) as (Ce & Se). apply (sent_nth w' (fst e) (cs (fst e))); try assumption.
      specialize (Hr e Ie). rewrite (sent_len w' i (cs i) Hi Ci Si), (sent_len w' (fst e) _ He Ce Se) in Hr. lia.
    + destruct (H j Hj) as (Cj & Sj). split; [exact Cj|]. unfold inStep. rewrite (Eo j Ne). exact Sj.
Qed.
Lemma pace_ends : forall n w, moves rks n (start progs) w -> (n <= P * T)%nat /\
  ((forall w', ~ move rks w w') -> forall i, (i < P)%nat -> p_act (w i) = ideal S0 T i).
Proof.
  intros n w M. destruct (pace_inv n w M) as (cs & H & ->). split; [apply total_le; intros i Hi; apply (H i Hi)|].
  intros Stuck.
  assert (X : forall c, (c <= T)%nat -> forall i, (i < P)%nat -> (c <= cs i)%nat).
  { induction c as [|c IH]; intros Hc i Hi; [lia|]. specialize (IH ltac:(lia)). destruct (Nat.lt_ge_cases c (cs i)) as [L|L]; [lia|]. exfalso.
    assert (Ec : cs i = c) by (specialize (IH i Hi); lia). destruct (H i Hi) as (Ci & Si). rewrite Ec in Si. destruct (rank_lt i Hi) as (rk & Er).
    pose proof (ALL c i ltac:(lia) Hi) as Ex. rewrite <- (inStep_act _ _ _ Si) in Ex. destruct (p_act (w i)) as [x| |v k] eqn:Ea; try destruct Ex.
    apply (Stuck (fun j => if (j =? i)%nat then enter (k (received w rk (length (p_sent (w i)) - 1))) (p_sent (w i)) else w j)).
    apply (Move rks w _ i rk v k Er Ea).
    - intros e Ie. pose proof (NB i rk e Er Ie) as He. destruct (H (fst e) He) as (Ce & Se).
      rewrite (sent_len w i c Hi ltac:(lia) Si), (sent_len w (fst e) _ He Ce Se). specialize (IH (fst e) He). lia.
    - rewrite Nat.eqb_refl. reflexivity.
    - intros j Ne. destruct (Nat.eqb_spec j i); [contradiction|reflexivity]. }
  intros i Hi. destruct (H i Hi) as (Ci & Si). rewrite (inStep_act _ _ _ Si). replace (cs i) with T by (specialize (X T (le_n _) i Hi); lia). reflexivity.
Qed.
End Ends.

(** *** One ends while a neighbour goes on *)
Section Hangs.
Variables p q : nat.
Variable rq : prank.
Hypothesis Hp : (p < P)%nat.
Hypothesis Eq : nth_error rks q = Some rq.
Hypothesis Nq : exists j, In (p, j) (pr_nbr rq).
Hypothesis Dp : ~ isExch (ideal S0 T p).
Hypothesis Xq : isExch (ideal S0 T q).
Definition hangs (w : nat -> proc) (i : nat) : Prop :=
  (exists c, (c <= T)%nat /\ inStep w i c) \/
  (i <> p /\ i <> q /\ (T < length (p_sent (w i)))%nat /\ firstn (S T) (p_sent (w i)) = posts i (S T)).
Lemma enter_sent : forall a l, exists t, p_sent (enter a l) = l ++ t.
Proof. intros a l. unfold enter. cbn [p_sent]. destruct a as [x| |v k]; [exists []|exists []|exists [v]]; rewrite ?app_nil_r; reflexivity. Qed.
Lemma hang_inv : forall n w, moves rks n (start progs) w -> forall i, (i < P)%nat -> hangs w i.
Proof.
  intros n w M. remember (start progs) as w0 eqn:E0. induction M as [w|n w w' w'' M IH Mv]; intros i Hi.
  - subst w. left. exists 0%nat. split; [lia|reflexivity].
  - specialize (IH E0). destruct Mv as [k rk v kk Er Ea Hr Ew Eo]. destruct (Nat.eq_dec i k) as [->|Ne].
    2:{ specialize (IH i Hi). destruct IH as [(c & Hc & Si)|H]; [left; exists c; split; [exact Hc|unfold inStep; rewrite (Eo i Ne); exact Si]|right]. rewrite (Eo i Ne). exact H. }
    destruct (IH k Hi) as [(c & Hc & Si)|(N1 & N2 & L & F)].
    + assert (Xc : isExch (ideal S0 c k)) by (rewrite <- (inStep_act _ _ _ Si), Ea; exact I).
      pose proof (inStep_sent _ _ _ Si Xc) as Es.
      destruct (Nat.lt_ge_cases c T) as [Lc|Lc].
      * left. exists (S c). split; [lia|]. unfold inStep. rewrite Ew. apply (inStep_next w' k rk c v kk Er Si Ea).
        intros e Ie. pose proof (NB k rk e Er Ie) as He. specialize (Hr e Ie). rewrite Es, posts_len in Hr.
        destruct (IH (fst e) He) as [(ce & Hce & Se)|(_ & _ & L & F)].
        -- assert (D : isExch (ideal S0 ce (fst e)) \/ ~ isExch (ideal S0 ce (fst e))) by (destruct (ideal S0 ce (fst e)); cbn; tauto).
           destruct D as [D|D].
           ++ rewrite (inStep_sent _ _ _ Se D) in *. rewrite posts_len in Hr. apply posts_nth. lia.
           ++ rewrite (inStep_done _ _ _ Se D) in *. rewrite posts_len in Hr. apply posts_nth. lia.
        -- rewrite <- (posts_nth (fst e) (S T) c) by lia. rewrite <- F. rewrite <- (firstn_skipn (S T) (p_sent (w' (fst e)))) at 1.
           apply app_nth1. rewrite firstn_length. lia.
      * replace c with T in * by lia. right. split; [intros ->; exact (Dp Xc)|]. split.
        { intros ->. assert (rk = rq) by congruence. subst rk. destruct Nq as (j & Ij). specialize (Hr (p, j) Ij). cbn [fst] in Hr.
          rewrite Es, posts_len in Hr. destruct (IH p Hp) as [(cp & Hcp & Sp)|(Np & _)]; [|apply Np; reflexivity].
          assert (D : isExch (ideal S0 cp p) \/ ~ isExch (ideal S0 cp p)) by (destruct (ideal S0 cp p); cbn; tauto). destruct D as [D|D].
          - rewrite (inStep_sent _ _ _ Sp D), posts_len in Hr. assert (cp = T) by lia. subst cp. exact (Dp D).
          - rewrite (inStep_done _ _ _ Sp D), posts_len in Hr. lia. }
        rewrite Ew. destruct (enter_sent (kk (received w' rk (length (p_sent (w' k)) - 1))) (p_sent (w' k))) as (t & ->). rewrite Es. split.
        { rewrite app_length, posts_len. lia. }
        rewrite firstn_app, posts_len, Nat.sub_diag, firstn_O, app_nil_r. rewrite firstn_all2 by (rewrite posts_len; lia). reflexivity.
    + right. split; [exact N1|]. split; [exact N2|]. rewrite Ew. destruct (enter_sent (kk (received w' rk (length (p_sent (w' k)) - 1))) (p_sent (w' k))) as (t & ->).
      split; [rewrite app_length; lia|]. rewrite firstn_app. replace (S T - length (p_sent (w' k)))%nat with 0%nat by lia. rewrite firstn_O, app_nil_r. exact F.
Qed.
Lemma hang : forall n w, moves rks n (start progs) w -> isExch (p_act (w q)).
Proof.
  intros n w M. assert (Hq : (q < P)%nat) by (exact (lt_rank q rq Eq)). destruct (hang_inv n w M q Hq) as [(c & Hc & Si)|(_ & N & _)]; [|destruct (N eq_refl)].
  rewrite (inStep_act _ _ _ Si). destruct (Nat.lt_ge_cases c T) as [L|L]; [apply ALL; assumption|]. replace c with T by lia. exact Xq.
Qed.
End Hangs.
End Pace.

(** *** A finished run has matched exchanges *)
Definition ahead (a : act) : nat := match a with Exch _ _ => 1 | _ => 0 end.
Lemma matched_inv : forall progs n w, moves rks n (start progs) w -> forall i rk e, nth_error rks i = Some rk -> In e (pr_nbr rk) ->
  (length (p_sent (w i)) <= length (p_sent (w (fst e))) + ahead (p_act (w i)))%nat.
Proof.
  intros progs n w M. remember (start progs) as w0 eqn:E0. induction M as [w|n w w' w'' M IH Mv]; intros i rk e Er Ie.
  - subst w. unfold start, enter. cbn [p_sent p_act]. destruct (nth i progs Fail); cbn; lia.
  - specialize (IH E0). destruct Mv as [k rk' v kk Er' Ea Hr Ew Eo].
    assert (G : (length (p_sent (w' (fst e))) <= length (p_sent (w'' (fst e))))%nat).
    { destruct (Nat.eq_dec (fst e) k) as [->|Ne]; [|rewrite (Eo _ Ne); lia]. rewrite Ew. destruct (enter_sent (kk (received w' rk' (length (p_sent (w' k)) - 1))) (p_sent (w' k))) as (t & ->). rewrite app_length. lia. }
    destruct (Nat.eq_dec i k) as [->|Ne].
    + assert (rk' = rk) by congruence. subst rk'. specialize (Hr e Ie). rewrite Ew. unfold enter. cbn [p_sent p_act].
      destruct (kk (received w' rk (length (p_sent (w' k)) - 1))) as [x| |v' k']; cbn [ahead]; rewrite ?app_length; cbn [length]; lia.
    + rewrite (Eo _ Ne). specialize (IH i rk e Er Ie). lia.
Qed.
Lemma matched : forall progs n w, moves rks n (start progs) w -> (forall i, (i < P)%nat -> exists x, p_act (w i) = Done x) ->
  forall i j rk rk' a b, nth_error rks i = Some rk -> nth_error rks j = Some rk' -> In (j, a) (pr_nbr rk) -> In (i, b) (pr_nbr rk') ->
  length (p_sent (w i)) = length (p_sent (w j)).
Proof.
  intros progs n w M D i j rk rk' a b Ei Ej Ia Ib. destruct (D i (lt_rank i rk Ei)) as (x & Ex). destruct (D j (lt_rank j rk' Ej)) as (y & Ey).
  pose proof (matched_inv progs n w M i rk _ Ei Ia) as H1. pose proof (matched_inv progs n w M j rk' _ Ej Ib) as H2. rewrite Ex in H1. rewrite Ey in H2. cbn in H1, H2. lia.
Qed.
End Sync.

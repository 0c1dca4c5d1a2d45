(** Proofs about the time loop. *)
From Coq Require Import ZArith List Bool Reals Lra Lia.
From Verif Require Import Common Time_Model.
Import ListNotations.
Local Open Scope R_scope.

Lemma runs_det : forall T guard body s tr1 s1 tr2 s2,
  runs T guard body s tr1 s1 -> runs T guard body s tr2 s2 -> tr1 = tr2 /\ s1 = s2.
Proof.
  intros T guard body s tr1 s1 tr2 s2 H1; revert tr2 s2.
  induction H1 as [s Hg|s tr s' Hg H1 IH]; intros tr2 s2 H2; inversion H2; subst; try congruence; auto.
  match goal with H : runs _ _ _ (body s) _ _ |- _ => apply IH in H; destruct H; subst; auto end.
Qed.

Section Exact.
Variable X : Type.
Variable ode : X -> R -> R -> X.
Notation solver := (solver X).

Lemma guardR_true : forall s : solver, guardR s = true <-> s_time s <= s_final s - / 100000000 * s_dt s.
Proof. intros s; unfold guardR. destruct Rle_dec; intuition; discriminate. Qed.
Lemma guardR_false : forall s : solver, guardR s = false <-> s_final s - / 100000000 * s_dt s < s_time s.
Proof. intros s; unfold guardR. destruct Rle_dec; intuition; try discriminate; lra. Qed.

Definition grid (t0 dt : R) (n : nat) : list R := map (fun k => t0 + INR k * dt) (seq 1 n).

Lemma grid_S : forall t0 dt n, grid t0 dt (S n) = (t0 + dt) :: grid (t0 + dt) dt n.
Proof.
  intros. unfold grid. cbn [seq map]. f_equal; [simpl; ring|].
  rewrite <- seq_shift, map_map. apply map_ext. intros k. rewrite S_INR. ring.
Qed.

Lemma run_exact_n : forall n (s : solver) r,
  0 < s_dt s -> s_final s = s_time s + INR n * s_dt s + r -> 0 <= r < s_dt s ->
  exists tr s', runR X ode s tr s' /\
    map s_time tr = grid (s_time s) (s_dt s) n ++ (if Rle_dec (/ 100000000 * s_dt s) r then [s_final s] else []) /\
    s_time s' = (if Rle_dec (/ 100000000 * s_dt s) r then s_final s else s_time s + INR n * s_dt s) /\
    s_calls s' = s_calls s ++ map (fun u => (s_time u, s_fields u)) tr /\
    s_final s' = s_final s /\ s_dt s' = s_dt s.
Proof.
  induction n as [|n IH]; intros s r Hdt Hf Hr.
  - simpl in Hf. destruct (Rle_dec (/ 100000000 * s_dt s) r) as [Hle|Hgt].
    + exists [stepR X ode s], (stepR X ode s).
      assert (Ht : s_time (stepR X ode s) = s_final s).
      { simpl. unfold truedt. rewrite Rmin_right by lra. lra. }
      split; [|split; [|split; [|split; [|split]]]].
      * apply runs_step; [apply guardR_true; lra|]. apply runs_stop.
        apply guardR_false. rewrite Ht. simpl. lra.
      * cbn [map grid seq app]. rewrite Ht. reflexivity.
      * exact Ht.
      * reflexivity.
      * reflexivity.
      * reflexivity.
    + exists [], s. repeat split; auto.
      * apply runs_stop. apply guardR_false. lra.
      * simpl. ring.
      * simpl. now rewrite app_nil_r.
  - rewrite S_INR in Hf.
    assert (Hn : 0 <= INR n * s_dt s) by (apply Rmult_le_pos; [apply pos_INR|lra]).
    assert (Htd : truedt s = s_dt s) by (unfold truedt; apply Rmin_left; lra).
    destruct (IH (stepR X ode s) r) as (tr & s' & Hrun & Htr & Hts & Hc & Hff & Hd).
    + exact Hdt.
    + simpl. rewrite Htd. lra.
    + exact Hr.
    + cbn [s_time s_dt s_final s_calls stepR] in *. rewrite Htd in *.
      exists (stepR X ode s :: tr), s'. split; [|split; [|split; [|split; [|split]]]]; auto.
      * apply runs_step; auto. apply guardR_true. lra.
      * cbn [map]. rewrite Htr, grid_S. simpl s_time. rewrite Htd. reflexivity.
      * rewrite Hts. destruct Rle_dec; auto. rewrite S_INR. ring.
      * rewrite Hc. cbn [map s_time s_fields stepR]. rewrite <- app_assoc. simpl. rewrite Htd. reflexivity.
Qed.

(** Division with remainder over R. *)
Lemma nat_quotient : forall d a, 0 < d -> 0 <= a -> exists n r, a = INR n * d + r /\ 0 <= r < d.
Proof.
  intros d a Hd Ha.
  destruct (archimed (a / d)) as [H1 H2].
  assert (Hq : 0 <= a / d) by (apply Rmult_le_pos; [auto|left; now apply Rinv_0_lt_compat]).
  set (z := (up (a / d) - 1)%Z).
  assert (Hz : (0 <= z)%Z).
  { unfold z. assert (0 < up (a/d))%Z; [|lia]. apply lt_IZR. lra. }
  exists (Z.to_nat z), (a - IZR z * d). rewrite INR_IZR_INZ, Z2Nat.id by auto.
  split; [ring|]. unfold z. rewrite minus_IZR.
  assert (Ea : a = a / d * d) by (field; lra).
  split.
  - assert ((IZR (up (a / d)) - 1) * d <= a / d * d) by (apply Rmult_le_compat_r; lra). lra.
  - assert (a / d * d < IZR (up (a / d)) * d) by (apply Rmult_lt_compat_r; lra). lra.
Qed.

Lemma run_exact : forall s : solver, 0 < s_dt s -> s_time s <= s_final s ->
  exists n r tr s',
    s_final s = s_time s + INR n * s_dt s + r /\ 0 <= r < s_dt s /\
    runR X ode s tr s' /\
    (forall tr2 s2, runR X ode s tr2 s2 -> tr2 = tr /\ s2 = s') /\
    map s_time tr = grid (s_time s) (s_dt s) n ++ (if Rle_dec (/ 100000000 * s_dt s) r then [s_final s] else []) /\
    s_time s' = (if Rle_dec (/ 100000000 * s_dt s) r then s_final s else s_time s + INR n * s_dt s) /\
    s_calls s' = s_calls s ++ map (fun u => (s_time u, s_fields u)) tr.
Proof.
  intros s Hdt Ht. destruct (nat_quotient (s_dt s) (s_final s - s_time s) Hdt ltac:(lra)) as (n & r & Hq & Hr).
  destruct (run_exact_n n s r Hdt ltac:(lra) Hr) as (tr & s' & H1 & H2 & H3 & H4 & _).
  exists n, r, tr, s'. repeat split; auto; try lra.
  - destruct (runs_det _ _ _ _ _ _ _ _ H H1); auto.
  - destruct (runs_det _ _ _ _ _ _ _ _ H H1); auto.
Qed.

(** Summary form: where the run ends, and the length of each step. *)
Lemma run_summary : forall s : solver, 0 < s_dt s -> s_time s <= s_final s ->
  exists tr s', runR X ode s tr s' /\
    s_final s - / 100000000 * s_dt s < s_time s' <= s_final s /\
    (forall u, In u tr -> s_time s < s_time u <= s_final s) /\
    (s_final s - s_time s >= / 100000000 * s_dt s -> tr <> []) /\
    (forall tr1 u tr2, tr = tr1 ++ u :: tr2 ->
       let before := last tr1 s in
       0 < s_time u - s_time before <= s_dt s /\
       (tr2 <> [] -> s_time u - s_time before = s_dt s) /\
       (s_time u - s_time before < s_dt s -> s_time u = s_final s /\ tr2 = [])).
Proof.
  intros s Hdt Hts.
  destruct (nat_quotient (s_dt s) (s_final s - s_time s) Hdt ltac:(lra)) as (n & r & Hq & Hr).
  revert s Hdt Hts Hq Hr. induction n as [|n IH]; intros s Hdt Hts Hq Hr.
  - simpl in Hq. destruct (Rle_dec (/ 100000000 * s_dt s) r) as [Hle|Hgt].
    + assert (Ht : s_time (stepR X ode s) = s_final s).
      { simpl. unfold truedt. rewrite Rmin_right by lra. lra. }
      exists [stepR X ode s], (stepR X ode s). split; [|split; [|split; [|split]]].
      * apply runs_step; [apply guardR_true; lra|]. apply runs_stop.
        apply guardR_false. rewrite Ht. simpl. lra.
      * lra.
      * intros u [<-|[]]. lra.
      * discriminate.
      * intros tr1 u tr2 E. destruct tr1 as [|v tr1]; simpl in E.
        -- injection E as <- <-. cbn [last]. rewrite Ht. split; [lra|]. split; [congruence|]. auto.
        -- injection E as _ E. destruct tr1; discriminate.
    + exists [], s. split; [|split; [|split; [|split]]].
      * apply runs_stop. apply guardR_false. lra.
      * lra.
      * intros u [].
      * intros; lra.
      * intros tr1 u tr2 E. destruct tr1; discriminate.
  - rewrite S_INR in Hq.
    assert (Hn : 0 <= INR n * s_dt s) by (apply Rmult_le_pos; [apply pos_INR|lra]).
    assert (Htd : truedt s = s_dt s) by (unfold truedt; apply Rmin_left; lra).
    destruct (IH (stepR X ode s)) as (tr & s' & Hrun & He & Hin & Hne & Hst);
      try (simpl; rewrite ?Htd; lra).
    assert (Et : s_time (stepR X ode s) = s_time s + s_dt s) by (simpl; rewrite Htd; reflexivity).
    assert (Ef : s_final (stepR X ode s) = s_final s) by reflexivity.
    assert (Ed : s_dt (stepR X ode s) = s_dt s) by reflexivity.
    rewrite Ef, Ed in *.
    exists (stepR X ode s :: tr), s'. split; [|split; [|split; [|split]]].
    + apply runs_step; auto. apply guardR_true. lra.
    + lra.
    + intros u [<-|Hu]; [lra|]. specialize (Hin u Hu). lra.
    + discriminate.
    + intros tr1 u tr2 E. destruct tr1 as [|v tr1]; simpl in E.
      * injection E as <- <-. cbn [last]. rewrite Et. repeat split; intros; lra.
      * injection E as <- E. specialize (Hst tr1 u tr2 E).
        replace (last (stepR X ode s :: tr1) s) with (last tr1 (stepR X ode s)).
        2:{ clear. generalize (stepR X ode s). intros w. destruct tr1 as [|v t]; [reflexivity|].
            change (last (w :: v :: t) s) with (last (v :: t) s).
            revert v; induction t as [|a t IHt]; intros v; [reflexivity|].
            change (last (v :: a :: t) w) with (last (a :: t) w).
            change (last (v :: a :: t) s) with (last (a :: t) s). apply IHt. }
        exact Hst.
Qed.

(** The exact landing can fail: the remainder may fall below the margin. *)
Lemma run_not_exact : forall x : X, exists s : solver, 0 < s_dt s /\ s_time s = 0 /\ s_fields s = x /\ 0 < s_final s /\
  exists tr s', runR X ode s tr s' /\ s_time s' <> s_final s.
Proof.
  intros x. exists (mkSolver 0 1 (1 + / 1000000000) x []). simpl.
  destruct (run_exact_n 1 (mkSolver 0 1 (1 + / 1000000000) x []) (/ 1000000000)) as (tr & s' & H1 & H2 & H3 & H4);
    simpl in *; try lra.
  repeat split; try lra. exists tr, s'. split; auto.
  rewrite H3. destruct Rle_dec; lra.
Qed.

Lemma nonpos_never : forall s : solver, s_dt s <= 0 -> s_time s <= s_final s ->
  ~ terminates _ (@guardR X) (stepR X ode) s.
Proof.
  intros s Hd Ht (tr & s' & Hrun). induction Hrun as [s Hg|s tr s' Hg Hrun IH].
  - apply guardR_false in Hg. lra.
  - apply IH; simpl; auto. unfold truedt.
    pose proof (Rmin_l (s_dt s) (s_final s - s_time s)). lra.
Qed.

Lemma options_accept : forall o,
  checkOptionsAreValid o = Ok tt <-> (0 <= o_order o)%Z /\ 0 <= o_final_time o /\ 0 < o_cfl o.
Proof.
  intros o; unfold checkOptionsAreValid.
  destruct (Z.ltb_spec (o_order o) 0); [split; [discriminate|lia]|].
  destruct Rlt_dec; [split; [discriminate|lra]|].
  destruct Rle_dec; [split; [discriminate|lra]|].
  split; auto. intros _. repeat split; auto; lra.
Qed.

Variable estimate : options -> R.

Lemma accepted_terminates_iff : forall o x0 s,
  construct X estimate 0 o x0 = Ok s ->
  (terminates _ guardR (stepR X ode) s <-> 0 < s_dt s) /\
  s_dt s = (if Req_EM_T (o_time_step o) 0 then estimate o else o_time_step o).
Proof.
  intros o x0 s Hc. unfold construct in Hc. simpl in Hc.
  destruct (checkOptionsAreValid o) as [[]| |] eqn:Ev; try discriminate.
  apply options_accept in Ev. simpl in Hc. injection Hc as <-. simpl. split; [|reflexivity].
  split.
  - intros Ht. destruct (Rlt_le_dec 0 (if Req_EM_T (o_time_step o) 0 then estimate o else o_time_step o)) as [|Hle]; auto.
    exfalso. eapply nonpos_never; [| |exact Ht]; simpl; [exact Hle|lra].
  - intros Hd. edestruct run_exact as (n & r & tr & s' & _ & _ & Hr & _); [| |exists tr, s'; exact Hr]; simpl; [exact Hd|lra].
Qed.

Lemma accepted_not_terminating : forall x0 : X, exists o s,
  construct X estimate 0 o x0 = Ok s /\ ~ terminates _ guardR (stepR X ode) s.
Proof.
  intros x0. exists (mkOptions 2 (-1) 2 1).
  eexists. split.
  - unfold construct. simpl. unfold checkOptionsAreValid; simpl.
    destruct Rlt_dec; [lra|]. destruct Rle_dec; [lra|]. simpl. reflexivity.
  - apply nonpos_never; simpl; [|lra]. destruct Req_EM_T; lra.
Qed.

Lemma other_rank_accepts : forall x0 : X, exists o s,
  construct X estimate 0 o x0 = Throw /\ construct X estimate 1 o x0 = Ok s.
Proof.
  intros x0. exists (mkOptions (-1) 1 2 1). eexists. split; reflexivity.
Qed.
End Exact.

Lemma runs_last : forall T guard body s tr s', runs T guard body s tr s' -> s' = last tr s.
Proof.
  intros T guard body s tr s' H. induction H as [s Hg|s tr s' Hg H IH]; [reflexivity|].
  rewrite IH. destruct tr; [reflexivity|]. cbn [last]. clear. revert t. induction tr; intros; [reflexivity|].
  cbn [last]. apply IHtr.
Qed.

Lemma run_full : forall (X : Type) (ode : X -> R -> R -> X) (s : solver X),
  0 < s_dt s -> s_time s <= s_final s ->
  exists tr s', runR X ode s tr s' /\
    (forall tr2 s2, runR X ode s tr2 s2 -> tr2 = tr /\ s2 = s') /\
    s' = last tr s /\
    s_final s - / 100000000 * s_dt s < s_time s' <= s_final s /\
    (forall u, In u tr -> s_time s < s_time u <= s_final s) /\
    (s_final s - s_time s >= / 100000000 * s_dt s -> tr <> []) /\
    (forall tr1 u tr2, tr = tr1 ++ u :: tr2 ->
       let before := last tr1 s in
       0 < s_time u - s_time before <= s_dt s /\
       (tr2 <> [] -> s_time u - s_time before = s_dt s) /\
       (s_time u - s_time before < s_dt s -> s_time u = s_final s /\ tr2 = [])) /\
    s_calls s' = s_calls s ++ map (fun u => (s_time u, s_fields u)) tr.
Proof.
  intros X ode s Hd Ht.
  destruct (run_summary X ode s Hd Ht) as (tr & s' & H1 & H2 & H3 & H4 & H5).
  destruct (run_exact X ode s Hd Ht) as (n & r & tr2 & s2 & _ & _ & G1 & G2 & _ & _ & G3).
  destruct (G2 _ _ H1) as [<- <-].
  exists tr, s'. split; [exact H1|]. split; [exact G2|]. split; [eapply runs_last; exact H1|].
  split; [exact H2|]. split; [exact H3|]. split; [exact H4|]. split; [exact H5|exact G3].
Qed.

Lemma ex_solver_ok : 0 < s_dt (mkSolver 0 (3/10) 1 tt []) /\ s_time (mkSolver 0 (3/10) 1 tt []) <= s_final (mkSolver 0 (3/10) 1 tt []).
Proof. simpl. lra. Qed.

Lemma ex_construct : forall x : nat, exists s, construct nat (fun _ => 1) 0 (mkOptions 2 0 2 1) x = Ok s.
Proof.
  intros x. unfold construct, checkOptionsAreValid. simpl.
  destruct Rlt_dec; [lra|]. destruct Rle_dec; [lra|]. simpl. eexists; reflexivity.
Qed.

Lemma rank0_rejects : forall (X : Type) (estimate : options -> R) o x0,
  (construct X estimate 0 o x0 = Throw <-> ((o_order o < 0)%Z \/ o_final_time o < 0 \/ o_cfl o <= 0)) /\
  (forall r, (r <> 0)%Z -> exists s, construct X estimate r o x0 = Ok s).
Proof.
  intros X estimate o x0. split.
  - unfold construct, checkOptionsAreValid. simpl.
    destruct (Z.ltb_spec (o_order o) 0); simpl; [tauto|].
    destruct Rlt_dec; simpl; [tauto|]. destruct Rle_dec; simpl; [tauto|].
    split; [discriminate|]. intros [?|[?|?]]; [lia|lra|lra].
  - intros r Hr. unfold construct. apply Z.eqb_neq in Hr. rewrite Hr. simpl. eexists; reflexivity.
Qed.

Lemma ex_both :
  construct nat (fun _ => 1) 0 (mkOptions 2 0 (-1) 1) 3%nat = Throw /\
  exists s, construct nat (fun _ => 1) 0 (mkOptions 2 0 2 1) 3%nat = Ok s.
Proof.
  split; [|apply ex_construct]. apply rank0_rejects. simpl. right; left. lra.
Qed.

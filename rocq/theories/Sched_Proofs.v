(** Proofs: the parallel sub-solves give the serial result under every schedule. *)
From Coq Require Import ZArith List Bool Reals Lra Lia Permutation.
From Verif Require Import Common Probe_Model Evol_Model Evol_Spec Evol_Proofs EvolHist_Proofs Sched_Model.
Import ListNotations.
Local Open Scope Z_scope.

(** A solver just built. *)
Definition newDyn : wdyn := mkD [] 0%R 0%R 0%R newCache.

Section S.
Variable inv : list (list R) -> list R -> list R.
Variable W : nat -> wrapper.
Variable jobs : list job.
Variables base dt : R.
Hypothesis dt_pos : (0 < dt)%R.
Hypothesis W_sane : forall tag, sane (W tag).
Notation step := (step inv W jobs base dt).
Notation steps := (steps inv W jobs base dt).

(** What one task does on its own. *)
Definition serial (j : job) (s : sstate) : res sstate :=
  if j_skip j then Ok s else r <- advance inv (W (j_tag j)) base dt (j_gh j) s newDyn ;; Ok (fst r).

(** The first [k] sub-steps of a task on a fresh solver. *)
Definition body (w : wrapper) (gh : R -> Z -> list R -> res (list R)) (m : Z) (d : wdyn) (k : Z) : res wdyn :=
  all <- gh ((IZR k + 1) / IZR m)%R k (d_all d) ;; solve inv w (base + IZR k * (dt / IZR m))%R (dt / IZR m)%R (set_all d all).
Definition partialRun (j : job) (s : sstate) (m : Z) (k : nat) : res wdyn :=
  foldM (body (W (j_tag j)) (j_gh j) m) (zseq k) (set_all newDyn (s_fs s)).

Definition running (thr : list thread) : list nat :=
  flat_map (fun th => match t_pc th with Run ti _ => [ti] | Idle => [] end) thr.

Variable mem0 : list sstate.

(** Invariant of a thread. *)
Definition thr_ok (th : thread) : Prop :=
  (forall tag, cache_ok (w_A (W tag)) (d_cache (t_dyn th tag))) /\
  match t_pc th with
  | Idle => True
  | Run ti k => exists j s, nth_error jobs ti = Some j /\ j_skip j = false /\ nth_error mem0 ti = Some s /\
      forall m, nsteps (w_rec (W (j_tag j))) dt = Ok m -> 0 <= k <= m /\
      exists d, partialRun j s m (Z.to_nat k) = Ok d /\ d_all d = d_all (t_dyn th (j_tag j)) /\ cache_ok (w_A (W (j_tag j))) (d_cache d)
  end.

Definition inv_ok (c : config) : Prop :=
  length (c_mem c) = length mem0 /\ length mem0 = length jobs /\
  Forall thr_ok (c_thr c) /\
  exists done, Permutation (c_left c ++ running (c_thr c) ++ done) (seq 0 (length jobs)) /\
    (forall ti, In ti (c_left c ++ running (c_thr c)) -> nth_error (c_mem c) ti = nth_error mem0 ti) /\
    (forall ti, In ti done -> exists j s s', nth_error jobs ti = Some j /\ nth_error mem0 ti = Some s /\ serial j s = Ok s' /\ nth_error (c_mem c) ti = Some s').

Lemma split_nth : forall {A} (l : list A) i a, nth_error l i = Some a -> exists l1 l2, l = l1 ++ a :: l2 /\ length l1 = i.
Proof. intros A l i a Hn. apply nth_error_split in Hn. exact Hn. Qed.

Lemma upd_mid : forall {A} (l1 : list A) a l2 b, upd (l1 ++ a :: l2) (length l1) b = l1 ++ b :: l2.
Proof. intros A l1. induction l1; intros; cbn; auto. f_equal. apply IHl1. Qed.

Lemma running_mid : forall a th b, running (a ++ th :: b) = running a ++ match t_pc th with Run ti _ => [ti] | Idle => [] end ++ running b.
Proof. intros. unfold running. rewrite flat_map_app. reflexivity. Qed.

Lemma setDyn_ok : forall f tag d, (forall t, cache_ok (w_A (W t)) (d_cache (f t))) -> cache_ok (w_A (W tag)) (d_cache d) ->
  forall t, cache_ok (w_A (W t)) (d_cache (setDyn f tag d t)).
Proof. intros f tag d Hf Hd t. unfold setDyn. destruct (Nat.eqb_spec t tag); subst; auto. Qed.

Lemma setDyn_same : forall f tag d, setDyn f tag d tag = d.
Proof. intros. unfold setDyn. rewrite Nat.eqb_refl. reflexivity. Qed.

Lemma m_pos : forall w m, nsteps (w_rec w) dt = Ok m -> (0 < dt / IZR m)%R /\ 1 <= m.
Proof.
  intros w m Hm. apply nsteps_pos in Hm. split; auto. apply Rmult_lt_0_compat; auto. apply Rinv_0_lt_compat. apply IZR_lt. lia.
Qed.

Lemma serial_partial : forall j s m, j_skip j = false -> nsteps (w_rec (W (j_tag j))) dt = Ok m ->
  serial j s = (d <- partialRun j s m (Z.to_nat m) ;; Ok (with_fs s (d_all d))).
Proof.
  intros j s m Hs Hm. unfold serial, advance. rewrite Hs, Hm. cbn [bind]. cbv zeta. unfold partialRun, body.
  destruct (foldM _ _ _); reflexivity.
Qed.

Ltac perm Hp :=
  rewrite <- Hp; apply (Permutation_count_occ Nat.eq_dec); intros ?x; cbn [app];
  repeat (rewrite ?count_occ_app; cbn [count_occ app]);
  repeat match goal with |- context [Nat.eq_dec ?a ?b] => destruct (Nat.eq_dec a b) end; lia.

Lemma step_inv : forall a b, inv_ok a -> step a b -> inv_ok b.
Proof.
  intros a b (Hl1 & Hl2 & Ht & done & Hp & Hm & Hd) Hstep. destruct Hstep as
    [l1 ti l2 thr mem tid th j Hth Hpc Hj Hsk
    |l1 ti l2 thr mem tid th j s Hth Hpc Hj Hsk Hs
    |left thr mem tid th j ti k m all d Hth Hpc Hj Hn Hk Hg Hso
    |left thr mem tid th j ti m s Hth Hpc Hj Hn Hs]; cbn [c_left c_thr c_mem] in *.
  - (* skip *)
    split; auto. split; auto. split; auto. exists (ti :: done). cbn [c_left c_thr c_mem]. split; [|split].
    + perm Hp.
    + intros t Hin. apply Hm. rewrite !in_app_iff in *. cbn [In]. tauto.
    + intros t [<-|Hin]; [|apply Hd; auto].
      assert (Hmem : nth_error mem ti = nth_error mem0 ti) by (apply Hm; rewrite !in_app_iff; cbn; tauto).
      assert (Hjl : (ti < length jobs)%nat) by (apply nth_error_Some; congruence).
      destruct (nth_error mem0 ti) as [s|] eqn:Es; [|apply nth_error_None in Es; lia].
      exists j, s, s. repeat split; auto. unfold serial. rewrite Hsk. reflexivity.
  - (* take *)
    destruct (split_nth thr tid th Hth) as (t1 & t2 & -> & <-). rewrite upd_mid.
    rewrite running_mid in *. rewrite Hpc in *. cbn [app] in *.
    apply Forall_app in Ht. destruct Ht as [Ht1 Ht2]. inversion Ht2 as [|x y H1 H2]; subst x y.
    assert (Hmem : nth_error mem ti = nth_error mem0 ti) by (apply Hm; rewrite !in_app_iff; cbn; tauto).
    split; auto. split; auto. split.
    + apply Forall_app. split; auto. constructor; auto. destruct H1 as [Hc _]. split; cbn [t_dyn t_pc].
      * apply setDyn_ok; auto. cbn. auto.
      * exists j, s. rewrite <- Hmem. repeat split; auto; try lia. { apply m_pos in H; lia. }
        exists (set_all newDyn (s_fs s)). split; [reflexivity|]. rewrite setDyn_same. split; [reflexivity|]. apply cache_ok_new.
    + exists done. cbn [c_left c_thr c_mem]. rewrite running_mid. cbn [t_pc]. split; [|split].
      * perm Hp.
      * intros t Hin. apply Hm. rewrite !in_app_iff in *. cbn [In] in *. tauto.
      * auto.
  - (* sub *)
    destruct (split_nth thr tid th Hth) as (t1 & t2 & -> & <-). rewrite upd_mid.
    rewrite running_mid in *. rewrite Hpc in *. cbn [app] in *.
    apply Forall_app in Ht. destruct Ht as [Ht1 Ht2]. inversion Ht2 as [|x y H1 H2]; subst x y.
    split; auto. split; auto. split.
    + apply Forall_app. split; auto. constructor; auto. destruct H1 as [Hc Hr]. rewrite Hpc in Hr.
      destruct Hr as (j' & s & Hj' & Hsk & Hs & Hr). rewrite Hj in Hj'. injection Hj' as <-.
      destruct (Hr m Hn) as (Hkm & d0 & Hd0 & Ha & Hcd).
      destruct (m_pos _ _ Hn) as [Hsub Hm1].
      assert (Hag := solve_agree inv (W (j_tag j)) (base + IZR k * (dt / IZR m))%R (dt / IZR m)%R
                      (set_all d0 all) (set_all (t_dyn th (j_tag j)) all) (W_sane _) Hsub).
      rewrite Hso in Hag.
      destruct (solve inv (W (j_tag j)) (base + IZR k * (dt / IZR m)) (dt / IZR m) (set_all d0 all)) as [d1| |] eqn:E1;
        try (exfalso; apply Hag; split; cbn; auto; split; auto; fail).
      assert (Hds : dsim (w_A (W (j_tag j))) d1 d). { apply Hag. split; cbn; auto. split; auto. }
      destruct Hds as (Hall & Hc1 & Hc2).
      split; cbn [t_dyn t_pc].
      * apply setDyn_ok; auto.
      * exists j, s. repeat split; auto; rewrite Hn in H; injection H as <-; try lia.
        exists d1. rewrite setDyn_same. repeat split; auto. unfold partialRun.
        replace (Z.to_nat (k + 1)) with (S (Z.to_nat k)) by lia. rewrite zseq_S, foldM_app. fold (partialRun j s m (Z.to_nat k)). rewrite Hd0.
        cbn [bind foldM]. rewrite Z2Nat.id by lia. unfold body. rewrite Ha, Hg. cbn [bind]. rewrite E1. reflexivity.
    + exists done. cbn [c_left c_thr c_mem]. rewrite running_mid. cbn [t_pc]. split; [|split]; auto.
  - (* save *)
    destruct (split_nth thr tid th Hth) as (t1 & t2 & -> & <-). rewrite upd_mid.
    rewrite running_mid in *. rewrite Hpc in *. cbn [app] in *.
    apply Forall_app in Ht. destruct Ht as [Ht1 Ht2]. inversion Ht2 as [|x y H1 H2]; subst x y.
    destruct H1 as [Hc Hr]. rewrite Hpc in Hr.
    destruct Hr as (j' & s0 & Hj' & Hsk & Hs0 & Hr). rewrite Hj in Hj'. injection Hj' as <-.
    destruct (Hr m Hn) as (Hkm & d0 & Hd0 & Ha & Hcd).
    assert (Hmem : nth_error mem ti = nth_error mem0 ti) by (apply Hm; rewrite !in_app_iff; cbn; tauto).
    rewrite Hs, Hs0 in Hmem. injection Hmem as ->.
    assert (Htl : (ti < length mem)%nat) by (apply nth_error_Some; congruence).
    assert (Hnd : NoDup (left ++ (running t1 ++ ti :: running t2) ++ done)).
    { eapply Permutation_NoDup; [symmetry; exact Hp|apply seq_NoDup]. }
    assert (Hnot : ~ In ti (left ++ running t1 ++ running t2) /\ ~ In ti done).
    { rewrite (NoDup_count_occ Nat.eq_dec) in Hnd. specialize (Hnd ti).
      repeat (rewrite ?count_occ_app in Hnd; cbn [count_occ] in Hnd). destruct (Nat.eq_dec ti ti); [|congruence].
      split; rewrite (count_occ_In Nat.eq_dec); rewrite ?count_occ_app; lia. }
    destruct Hnot as [Hn1 Hn2].
    split; [cbn [c_mem]; rewrite upd_length; auto|]. split; auto. split.
    + apply Forall_app. split; auto. constructor; auto. split; cbn [t_dyn t_pc]; auto.
    + exists (ti :: done). cbn [c_left c_thr c_mem]. rewrite running_mid. cbn [t_pc app]. split; [|split].
      * perm Hp.
      * intros t Hin. rewrite nth_error_upd_other by (intros <-; auto). apply Hm. rewrite !in_app_iff in *. cbn [In] in *. tauto.
      * intros t [<-|Hin].
        -- exists j, s0, (with_fs s0 (d_all d0)). repeat split; auto.
           ++ rewrite (serial_partial j s0 m Hsk Hn), Hd0. reflexivity.
           ++ rewrite Ha. apply nth_error_upd_same. auto.
        -- destruct (Hd t Hin) as (j1 & s1 & s1' & A1 & A2 & A3 & A4). exists j1, s1, s1'. repeat split; auto.
           rewrite nth_error_upd_other; auto. intros <-; auto.
Qed.

Lemma steps_inv : forall a b, steps a b -> inv_ok a -> inv_ok b.
Proof. intros a b Hs. induction Hs; auto. intros. apply IHHs. eapply step_inv; eauto. Qed.

(** Threads at the start: idle, with solvers whose caches are in order. *)
Definition ready (th : thread) : Prop := t_pc th = Idle /\ forall tag, cache_ok (w_A (W tag)) (d_cache (t_dyn th tag)).

Lemma running_idle : forall thr, Forall (fun th => t_pc th = Idle) thr -> running thr = [].
Proof. intros thr Hf. induction Hf; auto. unfold running in *. cbn. rewrite H, IHHf. reflexivity. Qed.

Lemma initial_inv : forall thr, length mem0 = length jobs -> Forall ready thr -> inv_ok (initial jobs thr mem0).
Proof.
  intros thr Hl Hr. split; auto. split; auto. split.
  - eapply Forall_impl; [|exact Hr]. intros th [Hp Hc]. split; auto. rewrite Hp. auto.
  - exists []. cbn [c_left c_thr c_mem initial]. rewrite running_idle; [|eapply Forall_impl; [|exact Hr]; intros ? [? ?]; auto].
    rewrite !app_nil_r. split; auto. split; auto. intros ? [].
Qed.

(** Every complete execution ends with the result of the tasks run one by one. *)
Lemma any_schedule : forall thr c, length mem0 = length jobs -> Forall ready thr ->
  steps (initial jobs thr mem0) c -> finished c ->
  mapM (fun p => serial (fst p) (snd p)) (combine jobs mem0) = Ok (c_mem c).
Proof.
  intros thr c Hl Hr Hs [Hf1 Hf2]. pose proof (steps_inv _ _ Hs (initial_inv thr Hl Hr)) as (H1 & _ & _ & done & Hp & _ & Hd).
  rewrite Hf1, running_idle in Hp by auto. cbn [app] in Hp.
  assert (Hall : forall ti, (ti < length jobs)%nat -> exists j s s', nth_error jobs ti = Some j /\ nth_error mem0 ti = Some s /\ serial j s = Ok s' /\ nth_error (c_mem c) ti = Some s').
  { intros ti Hti. apply Hd. eapply Permutation_in; [symmetry; exact Hp|]. apply in_seq. lia. }
  clear Hp Hd Hs Hf1 Hf2 Hr. set (f := c_mem c) in *. clearbody f. revert jobs f Hl H1 Hall.
  induction mem0 as [|s l IH]; intros [|j jl] [|x f] Hl H1 Hall; cbn in *; try discriminate; auto.
  destruct (Hall 0%nat ltac:(lia)) as (j0 & s0 & s' & A1 & A2 & A3 & A4). cbn in *. injection A1 as <-. injection A2 as <-. injection A4 as <-.
  rewrite A3. cbn [bind]. rewrite (IH jl f); cbn; auto.
  intros ti Hti. destruct (Hall (S ti) ltac:(lia)) as (j1 & s1 & s1' & B1 & B2 & B3 & B4). exists j1, s1, s1'. cbn in *. auto.
Qed.

(** ** Progress and termination *)

Lemma all_idle_dec : forall thr, Forall (fun th => t_pc th = Idle) thr \/ Exists (fun th => t_pc th <> Idle) thr.
Proof.
  intros thr. induction thr as [|th l [IH|IH]]; [left; constructor| |right; apply Exists_cons_tl; auto].
  destruct (t_pc th) eqn:E; [left; constructor; auto|]. right. apply Exists_cons_hd. rewrite E. discriminate.
Qed.

(** No execution gets stuck before the end unless a task itself fails. *)
Lemma progress : forall thr c, length mem0 = length jobs -> Forall ready thr -> thr <> [] ->
  (forall j s, In (j, s) (combine jobs mem0) -> exists s', serial j s = Ok s') ->
  steps (initial jobs thr mem0) c -> ~ finished c -> exists c', step c c'.
Proof.
  intros thr c Hl Hr Hne Hok Hs Hnf.
  assert (Hthr : forall a b, steps a b -> length (c_thr b) = length (c_thr a)).
  { clear. intros a b Hs. induction Hs; auto. rewrite IHHs. destruct H; cbn; auto; apply upd_length. }
  assert (Hcne : c_thr c <> []). { apply Hthr in Hs. cbn in Hs. intros E. rewrite E in Hs. destruct thr; [congruence|discriminate]. }
  pose proof (steps_inv _ _ Hs (initial_inv thr Hl Hr)) as (H1 & _ & Ht & done & Hp & Hm & Hd).
  assert (Hin : forall ti, In ti (c_left c ++ running (c_thr c)) -> exists j s, nth_error jobs ti = Some j /\ nth_error mem0 ti = Some s /\ nth_error (c_mem c) ti = Some s /\ exists s', serial j s = Ok s').
  { intros ti Hin. assert (Hlt : In ti (seq 0 (length jobs))).
    { eapply Permutation_in; [exact Hp|]. rewrite !in_app_iff in *. tauto. }
    apply in_seq in Hlt. destruct (nth_error jobs ti) as [j|] eqn:Ej; [|apply nth_error_None in Ej; lia].
    destruct (nth_error mem0 ti) as [s|] eqn:Es; [|apply nth_error_None in Es; lia].
    exists j, s. repeat split; auto. { rewrite Hm; auto. } apply Hok.
    clear - Ej Es. revert jobs mem0 Ej Es. induction ti; intros [|a l] [|b m]; cbn; intros; try discriminate.
    - left. congruence. - right. eauto. }
  destruct (all_idle_dec (c_thr c)) as [Hi|He].
  - (* all idle: take a task *)
    destruct c as [left thr' mem]. cbn [c_left c_thr c_mem] in *.
    destruct left as [|ti left]. { exfalso. apply Hnf. split; auto. }
    destruct thr' as [|th thr']; [congruence|]. inversion Hi; subst.
    destruct (Hin ti ltac:(cbn; auto)) as (j & s & A1 & A2 & A3 & A4).
    destruct (j_skip j) eqn:Es.
    + eexists. apply (step_skip inv W jobs base dt [] ti left (th :: thr') mem 0 th j); auto.
    + eexists. apply (step_take inv W jobs base dt [] ti left (th :: thr') mem 0 th j s); auto.
  - (* some thread is in a task: it goes on *)
    apply Exists_exists in He. destruct He as (th & Hth & Hpc). apply In_nth_error in Hth. destruct Hth as [tid Hth].
    destruct (t_pc th) as [|ti k] eqn:Ep; [congruence|]. clear Hpc.
    assert (Hti : In ti (running (c_thr c))).
    { unfold running. apply in_flat_map. exists th. split; [eapply nth_error_In; eauto|]. rewrite Ep. left; auto. }
    destruct (Hin ti ltac:(rewrite in_app_iff; auto)) as (j & s & A1 & A2 & A3 & s' & A4).
    pose proof (proj1 (Forall_forall _ _) Ht th (nth_error_In _ _ Hth)) as [Hc Hr']. rewrite Ep in Hr'.
    destruct Hr' as (j' & s1 & B1 & B2 & B3 & B4). rewrite A1 in B1. injection B1 as <-. rewrite A2 in B3. injection B3 as <-.
    assert (Hns : exists m, nsteps (w_rec (W (j_tag j))) dt = Ok m).
    { unfold serial, advance in A4. rewrite B2 in A4. destruct nsteps; try discriminate. eauto. }
    destruct Hns as [m Hn]. destruct (B4 m Hn) as (Hk & d0 & Hd0 & Ha & Hcd).
    destruct (Z.eq_dec k m) as [->|Hkm].
    + destruct c as [left thr' mem]. eexists. eapply step_save; eauto.
    + rewrite (serial_partial j s m B2 Hn) in A4. unfold partialRun in A4, Hd0.
      replace (Z.to_nat m) with (Z.to_nat k + S (Z.to_nat m - Z.to_nat k - 1))%nat in A4 by lia.
      unfold zseq in A4. rewrite seq_app, map_app, foldM_app in A4. fold (zseq (Z.to_nat k)) in A4. rewrite Hd0 in A4.
      cbn [bind Nat.add seq map foldM] in A4. rewrite Z2Nat.id in A4 by lia. unfold body at 1 in A4. rewrite Ha in A4.
      destruct (j_gh j ((IZR k + 1) / IZR m) k (d_all (t_dyn th (j_tag j)))) as [all| |] eqn:Eg; try discriminate.
      cbn [bind] in A4.
      destruct (m_pos _ _ Hn) as [Hsub Hm1].
      assert (Hag := solve_agree inv (W (j_tag j)) (base + IZR k * (dt / IZR m))%R (dt / IZR m)%R
                      (set_all d0 all) (set_all (t_dyn th (j_tag j)) all) (W_sane _) Hsub).
      assert (Hds : dsim (w_A (W (j_tag j))) (set_all d0 all) (set_all (t_dyn th (j_tag j)) all)) by (split; cbn; auto; split; auto).
      specialize (Hag Hds).
      destruct (solve inv (W (j_tag j)) (base + IZR k * (dt / IZR m)) (dt / IZR m) (set_all d0 all)) as [d1| |] eqn:E1; try discriminate.
      destruct (solve inv (W (j_tag j)) (base + IZR k * (dt / IZR m)) (dt / IZR m) (set_all (t_dyn th (j_tag j)) all)) as [d2| |] eqn:E2; try contradiction.
      destruct c as [left thr' mem]. eexists. eapply step_sub; eauto. lia.
Qed.

(** Work left: tasks waiting count for their sub-steps and two more. *)
Definition cost (ti : nat) : Z :=
  match nth_error jobs ti with
  | Some j => match nsteps (w_rec (W (j_tag j))) dt with Ok m => Z.max 0 m + 2 | _ => 2 end
  | None => 2
  end.
Definition zsum (l : list Z) : Z := fold_right Z.add 0 l.
Definition todo (c : config) : Z :=
  zsum (map cost (c_left c)) + zsum (map (fun th => match t_pc th with Idle => 0 | Run ti k => cost ti - 1 - Z.max 0 k end) (c_thr c)).

Lemma zsum_app : forall a b, zsum (a ++ b) = zsum a + zsum b.
Proof. intros a b. unfold zsum in *. induction a as [|x l IH]; cbn; auto. lia. Qed.
Lemma zsum_mid : forall {A} (f : A -> Z) l1 a l2, zsum (map f (l1 ++ a :: l2)) = zsum (map f l1) + f a + zsum (map f l2).
Proof. intros. rewrite map_app, zsum_app. cbn. fold (zsum (map f l2)). lia. Qed.

Lemma cost_pos : forall ti, 2 <= cost ti.
Proof. intros. unfold cost. destruct nth_error; [destruct nsteps|]; lia. Qed.

(** Every step uses up some of it, and it is never negative while the invariant holds. *)
Lemma todo_step : forall a b, inv_ok a -> step a b -> todo b < todo a.
Proof.
  intros a b (_ & _ & Ht & _) Hs. destruct Hs; unfold todo; cbn [c_left c_thr].
  - rewrite zsum_mid, map_app, zsum_app. pose proof (cost_pos ti). lia.
  - destruct (split_nth thr tid th H) as (t1 & t2 & -> & <-). rewrite upd_mid, !zsum_mid, map_app, zsum_app. rewrite H0. cbn [t_pc]. lia.
  - destruct (split_nth thr tid th H) as (t1 & t2 & -> & <-). rewrite upd_mid, !zsum_mid. rewrite H0. cbn [t_pc].
    cbn [c_thr] in Ht. apply Forall_app in Ht. destruct Ht as [_ Ht]. inversion Ht as [|x y Hth _]; subst x y.
    destruct Hth as [_ Hr]. rewrite H0 in Hr. destruct Hr as (j' & s & Hj & _ & _ & Hr). rewrite H1 in Hj. injection Hj as <-.
    destruct (Hr m H2) as [Hk _]. lia.
  - destruct (split_nth thr tid th H) as (t1 & t2 & -> & <-). rewrite upd_mid, !zsum_mid. rewrite H0. cbn [t_pc].
    unfold cost. rewrite H1, H2. lia.
Qed.

Lemma todo_nonneg : forall a, inv_ok a -> (forall ti k j, In (Run ti k) (map t_pc (c_thr a)) -> nth_error jobs ti = Some j -> exists m, nsteps (w_rec (W (j_tag j))) dt = Ok m) -> 0 <= todo a.
Proof.
  intros a (_ & _ & Ht & _) Hn. unfold todo.
  assert (H1 : forall l, 0 <= zsum (map cost l)). { induction l; cbn; [lia|]. fold (zsum (map cost l)). pose proof (cost_pos a0). lia. }
  specialize (H1 (c_left a)).
  assert (H2 : 0 <= zsum (map (fun th => match t_pc th with Idle => 0 | Run ti k => cost ti - 1 - Z.max 0 k end) (c_thr a))); [|lia].
  clear H1. induction (c_thr a) as [|th l IH]; cbn [map zsum fold_right]; [lia|]. fold (zsum (map (fun th => match t_pc th with Idle => 0 | Run ti k => cost ti - 1 - Z.max 0 k end) l)).
  inversion Ht as [|x y Hth Hl]; subst x y. assert (0 <= zsum (map (fun th => match t_pc th with Idle => 0 | Run ti k => cost ti - 1 - Z.max 0 k end) l)).
  { apply IH; auto. intros. eapply Hn; eauto. cbn. right. eauto. }
  destruct (t_pc th) as [|ti k] eqn:Ep; [lia|]. destruct Hth as [_ Hr]. rewrite Ep in Hr. destruct Hr as (j & s & Hj & _ & _ & Hr).
  destruct (Hn ti k j ltac:(cbn; left; auto) Hj) as [m Hm]. destruct (Hr m Hm) as [Hk _].
  assert (2 + m <= cost ti) by (unfold cost; rewrite Hj, Hm; lia). lia.
Qed.
End S.

(** ** Bounded executions *)
Section T.
Variable inv : list (list R) -> list R -> list R.
Variable W : nat -> wrapper.
Variable jobs : list job.
Variables base dt : R.
Hypothesis dt_pos : (0 < dt)%R.
Hypothesis W_sane : forall tag, sane (W tag).

Inductive stepsN : nat -> config -> config -> Prop :=
| stepsN_0 : forall c, stepsN 0 c c
| stepsN_S : forall n a b c, step inv W jobs base dt a b -> stepsN n b c -> stepsN (S n) a c.

Lemma stepsN_bound : forall mem0 n a b, (forall j, In j jobs -> exists m, nsteps (w_rec (W (j_tag j))) dt = Ok m) ->
  inv_ok inv W jobs base dt mem0 a -> stepsN n a b -> Z.of_nat n + todo W jobs dt b <= todo W jobs dt a.
Proof.
  intros mem0 n a b Hn Hi Hs. induction Hs; [lia|].
  pose proof (todo_step inv W jobs base dt mem0 a b Hi H).
  pose proof (step_inv inv W jobs base dt dt_pos W_sane mem0 a b Hi H). specialize (IHHs H1). lia.
Qed.

Lemma stepsN_inv : forall mem0 n a b, inv_ok inv W jobs base dt mem0 a -> stepsN n a b -> inv_ok inv W jobs base dt mem0 b.
Proof. intros mem0 n a b Hi Hs. induction Hs; auto. apply IHHs. eapply step_inv; eauto. Qed.

Lemma terminates : forall mem0 thr n b, length mem0 = length jobs -> Forall (ready W) thr ->
  (forall j, In j jobs -> exists m, nsteps (w_rec (W (j_tag j))) dt = Ok m) ->
  stepsN n (initial jobs thr mem0) b -> Z.of_nat n <= todo W jobs dt (initial jobs thr mem0).
Proof.
  intros mem0 thr n b Hl Hr Hn Hs.
  pose proof (initial_inv inv W jobs base dt mem0 thr Hl Hr) as Hi.
  pose proof (stepsN_bound mem0 n _ b Hn Hi Hs).
  pose proof (todo_nonneg inv W jobs base dt mem0 b (stepsN_inv mem0 n _ b Hi Hs)).
  assert (0 <= todo W jobs dt b); [|lia]. apply H0. intros ti k j _ Hj. apply Hn. eapply nth_error_In; eauto.
Qed.
End T.

(** ** The tasks of Mult and of finalizeSGBCStep *)
Section L.
Variable inv : list (list R) -> list R -> list R.
Variable ndofs : nat.

(** Tasks of a group of states in Mult (690-733) and in finalize (491-522). *)
Definition multJob (input : list R) (w : wrapper) (tag : nat) (s : sstate) : job :=
  mkJob tag (match loud ndofs input s with Ok b => negb b | _ => false end)
    (fun _ _ all => updateGhosts (w_n w) (w_gh w) input (Z.of_nat ndofs) s all).
Definition finJob (fields : list R) (w : wrapper) (tag : nat) (p : sstate * (list R * (list R * list R))) : job :=
  mkJob tag false (fun alpha _ all =>
    '(ln, rn) <- ghostsAt ndofs fields (fst p) ;;
    updateInterp (w_n w) (w_gh w) alpha (fst (snd (snd p))) ln (snd (snd (snd p))) rn (fst p) all).

Fixpoint multJobs (input : list R) (k : nat) (gs : list group) : list job :=
  match gs with [] => [] | g :: r => map (multJob input (g_w g) k) (g_states g) ++ multJobs input (S k) r end.

Lemma mapM_app : forall {A B} (f : A -> res B) l1 l2, mapM f (l1 ++ l2) = (a <- mapM f l1 ;; b <- mapM f l2 ;; Ok (a ++ b)).
Proof.
  intros A B f l1 l2. induction l1 as [|x l IH]; cbn [mapM app bind]; [destruct (mapM f l2); reflexivity|].
  destruct (f x); cbn [bind]; auto. rewrite IH. destruct (mapM f l); cbn [bind]; auto. destruct (mapM f l2); reflexivity.
Qed.

Lemma combine_app_eq : forall {A B} (a1 a2 : list A) (b1 b2 : list B), length a1 = length b1 ->
  combine (a1 ++ a2) (b1 ++ b2) = combine a1 b1 ++ combine a2 b2.
Proof. intros A B a1. induction a1; intros a2 [|y b1] b2 Hl; cbn in *; try discriminate; auto. f_equal. apply IHa1. lia. Qed.

Variables (W : nat -> wrapper) (base dt : R).
Hypothesis dt_pos : (0 < dt)%R.
Hypothesis W_sane : forall tag, sane (W tag).

Lemma serial_states : forall input k ss d ss' d', cache_ok (w_A (W k)) (d_cache d) ->
  overStates (subMult inv ndofs input dt base (W k)) ss d = Ok (ss', d') ->
  mapM (fun p => serial inv W base dt (fst p) (snd p)) (combine (map (multJob input (W k) k) ss) ss) = Ok ss' /\ cache_ok (w_A (W k)) (d_cache d').
Proof.
  intros input k ss. induction ss as [|s r IH]; intros d ss' d' Hc H; cbn [overStates map combine mapM] in *.
  - injection H as <- <-. auto.
  - apply bind_ok in H. destruct H as ([s1 d1] & H1 & H). apply bind_ok in H. destruct H as ([r1 d2] & H2 & H). injection H as <- <-.
    assert (Hs : serial inv W base dt (multJob input (W k) k s) s = Ok s1 /\ cache_ok (w_A (W k)) (d_cache d1)).
    { unfold subMult in H1. apply bind_ok in H1. destruct H1 as (b & Hb & H1). unfold serial, multJob. cbn [j_skip j_tag j_gh]. rewrite Hb.
      destruct b; cbn [negb] in *; [|injection H1 as <- <-; auto].
      pose proof (advance_agree inv (W k) base dt (fun _ _ all => updateGhosts (w_n (W k)) (w_gh (W k)) input (nZ ndofs) s all) s newDyn d (W_sane k) dt_pos) as Hag.
      rewrite H1 in Hag. unfold nZ in Hag.
      destruct (advance inv (W k) base dt (fun _ _ all => updateGhosts (w_n (W k)) (w_gh (W k)) input (Z.of_nat ndofs) s all) s newDyn) as [[s2 d3]| |] eqn:E;
        try (exfalso; apply Hag; split; auto; apply cache_ok_new; fail).
      destruct Hag as (A1 & _ & A2). { split; auto. apply cache_ok_new. } cbn in A1. subst s2. split; [reflexivity|]. apply A2. }
    destruct Hs as [Hs1 Hs2]. cbn [fst snd]. rewrite Hs1. cbn [bind]. destruct (IH d1 r1 d2 Hs2 H2) as [B1 B2]. rewrite B1. auto.
Qed.

Lemma serial_groups : forall input gs k gs',
  (forall i g, nth_error gs i = Some g -> W (k + i) = g_w g) ->
  Forall (fun g => cache_ok (w_A (g_w g)) (d_cache (g_d g))) gs ->
  mapM (fun g => '(ss, d) <- overStates (subMult inv ndofs input dt base (g_w g)) (g_states g) (g_d g) ;; Ok (mkG (g_w g) d ss)) gs = Ok gs' ->
  mapM (fun p => serial inv W base dt (fst p) (snd p)) (combine (multJobs input k gs) (flat_map g_states gs)) = Ok (flat_map g_states gs').
Proof.
  intros input gs. induction gs as [|g r IH]; intros k gs' HW Hf H; cbn [mapM multJobs flat_map] in *.
  - injection H as <-. reflexivity.
  - apply bind_ok in H. destruct H as (g1 & H1 & H). apply bind_ok in H. destruct H as (r1 & H2 & H). injection H as <-.
    apply bind_ok in H1. destruct H1 as ([ss d] & H1 & H3). injection H3 as <-.
    inversion Hf as [|x y Hg Hr]; subst x y.
    assert (Hk : W k = g_w g). { rewrite <- (HW 0%nat g eq_refl). f_equal. lia. }
    rewrite combine_app_eq by (rewrite map_length; auto). rewrite mapM_app. cbn [flat_map g_states].
    destruct (serial_states input k (g_states g) (g_d g) ss d) as [A1 _]; [rewrite Hk; auto|rewrite Hk; auto|].
    rewrite Hk in A1. rewrite A1. cbn [bind]. rewrite (IH (S k) r1); auto.
    intros i g' Hi. rewrite <- (HW (S i) g' Hi). f_equal. lia.
Qed.

Lemma multJobs_len : forall input gs k, length (multJobs input k gs) = length (flat_map g_states gs).
Proof. intros input gs. induction gs; intros k; cbn; auto. rewrite !app_length, map_length, IHgs. reflexivity. Qed.

(** The parallel branch of Mult leaves the states of the serial branch. *)
Lemma parallel_mult : forall input gs gs' thr c,
  (forall i g, nth_error gs i = Some g -> W i = g_w g) ->
  Forall (fun g => cache_ok (w_A (g_w g)) (d_cache (g_d g))) gs ->
  mapM (fun g => '(ss, d) <- overStates (subMult inv ndofs input dt base (g_w g)) (g_states g) (g_d g) ;; Ok (mkG (g_w g) d ss)) gs = Ok gs' ->
  Forall (ready W) thr ->
  steps inv W (multJobs input 0 gs) base dt (initial (multJobs input 0 gs) thr (flat_map g_states gs)) c -> finished c ->
  c_mem c = flat_map g_states gs'.
Proof.
  intros input gs gs' thr c HW Hc Hser Hr Hs Hf.
  pose proof (any_schedule inv W (multJobs input 0 gs) base dt dt_pos W_sane (flat_map g_states gs) thr c (eq_sym (multJobs_len input gs 0)) Hr Hs Hf) as H1.
  rewrite (serial_groups input gs 0 gs') in H1; auto. injection H1 as <-. reflexivity.
Qed.

(** The same for finalizeSGBCStep. *)
Fixpoint finJobs (fields : list R) (k : nat) (gs : list (group * list (list R * (list R * list R)))) : list job :=
  match gs with [] => [] | (g, cp) :: r => map (finJob fields (g_w g) k) (combine (g_states g) cp) ++ finJobs fields (S k) r end.

Lemma serial_pairs : forall fields k ps d ss' d', cache_ok (w_A (W k)) (d_cache d) ->
  overPairs (finState inv ndofs dt base fields (W k)) ps d = Ok (ss', d') ->
  mapM (fun p => serial inv W base dt (fst p) (snd p)) (combine (map (finJob fields (W k) k) ps) (map fst ps)) = Ok ss' /\ cache_ok (w_A (W k)) (d_cache d').
Proof.
  intros fields k ps. induction ps as [|p r IH]; intros d ss' d' Hc H; cbn [overPairs map combine mapM] in *.
  - injection H as <- <-. auto.
  - apply bind_ok in H. destruct H as ([s1 d1] & H1 & H). apply bind_ok in H. destruct H as ([r1 d2] & H2 & H). injection H as <- <-.
    assert (Hs : serial inv W base dt (finJob fields (W k) k p) (fst p) = Ok s1 /\ cache_ok (w_A (W k)) (d_cache d1)).
    { unfold finState in H1. apply bind_ok in H1. destruct H1 as ([ln rn] & Hb & H1). unfold serial, finJob. cbn [j_skip j_tag j_gh]. rewrite Hb. cbn [bind].
      destruct p as [s [fs [lo ro]]]. cbn [fst snd] in *.
      pose proof (advance_agree inv (W k) base dt (fun alpha _ all => updateInterp (w_n (W k)) (w_gh (W k)) alpha lo ln ro rn s all) s newDyn d (W_sane k) dt_pos) as Hag.
      rewrite H1 in Hag.
      destruct (advance inv (W k) base dt (fun alpha _ all => updateInterp (w_n (W k)) (w_gh (W k)) alpha lo ln ro rn s all) s newDyn) as [[s2 d3]| |] eqn:E;
        try (exfalso; apply Hag; split; auto; apply cache_ok_new; fail).
      destruct Hag as (A1 & _ & A2). { split; auto. apply cache_ok_new. } cbn in A1. subst s2. split; [reflexivity|]. apply A2. }
    destruct Hs as [Hs1 Hs2]. cbn [fst snd]. rewrite Hs1. cbn [bind]. destruct (IH d1 r1 d2 Hs2 H2) as [B1 B2]. rewrite B1. auto.
Qed.

Lemma map_fst_combine : forall {A B} (a : list A) (b : list B), length a = length b -> map fst (combine a b) = a.
Proof. intros A B a. induction a; intros [|y b] Hl; cbn in *; try discriminate; auto. f_equal. apply IHa. lia. Qed.

Lemma serial_fin_groups : forall fields ps k gs',
  (forall i g cp, nth_error ps i = Some (g, cp) -> W (k + i) = g_w g) ->
  Forall (fun p => cache_ok (w_A (g_w (fst p))) (d_cache (g_d (fst p))) /\ length (g_states (fst p)) = length (snd p)) ps ->
  mapM (fun p => let '(g, cp) := p in
               '(ss, d) <- overPairs (finState inv ndofs dt base fields (g_w g)) (combine (g_states g) cp) (g_d g) ;;
               Ok (mkG (g_w g) d ss)) ps = Ok gs' ->
  mapM (fun p => serial inv W base dt (fst p) (snd p)) (combine (finJobs fields k ps) (flat_map (fun p => g_states (fst p)) ps)) = Ok (flat_map g_states gs').
Proof.
  intros fields ps. induction ps as [|[g cp] r IH]; intros k gs' HW Hf H; cbn [mapM finJobs flat_map] in *.
  - injection H as <-. reflexivity.
  - apply bind_ok in H. destruct H as (g1 & H1 & H). apply bind_ok in H. destruct H as (r1 & H2 & H). injection H as <-.
    apply bind_ok in H1. destruct H1 as ([ss d] & H1 & H3). injection H3 as <-.
    inversion Hf as [|x y [Hg Hl] Hr]; subst x y. cbn [fst snd] in *.
    assert (Hk : W k = g_w g). { rewrite <- (HW 0%nat g cp eq_refl). f_equal. lia. }
    rewrite combine_app_eq by (rewrite map_length, combine_length; lia). rewrite mapM_app. cbn [flat_map g_states].
    destruct (serial_pairs fields k (combine (g_states g) cp) (g_d g) ss d) as [A1 _]; [rewrite Hk; auto|rewrite Hk; auto|].
    rewrite Hk, map_fst_combine in A1 by auto. rewrite A1. cbn [bind]. rewrite (IH (S k) r1); auto.
    intros i g' cp' Hi. rewrite <- (HW (S i) g' cp' Hi). f_equal. lia.
Qed.

Lemma finJobs_len : forall fields ps k, Forall (fun p => length (g_states (fst p)) = length (snd p)) ps ->
  length (finJobs fields k ps) = length (flat_map (fun p => g_states (fst p)) ps).
Proof.
  intros fields ps. induction ps as [|[g cp] r IH]; intros k Hf; cbn; auto. inversion Hf; subst.
  rewrite !app_length, map_length, combine_length, IH by auto. cbn in *. lia.
Qed.

Lemma parallel_finalize : forall fields ps gs' thr c,
  (forall i g cp, nth_error ps i = Some (g, cp) -> W i = g_w g) ->
  Forall (fun p => cache_ok (w_A (g_w (fst p))) (d_cache (g_d (fst p))) /\ length (g_states (fst p)) = length (snd p)) ps ->
  mapM (fun p => let '(g, cp) := p in
               '(ss, d) <- overPairs (finState inv ndofs dt base fields (g_w g)) (combine (g_states g) cp) (g_d g) ;;
               Ok (mkG (g_w g) d ss)) ps = Ok gs' ->
  Forall (ready W) thr ->
  steps inv W (finJobs fields 0 ps) base dt (initial (finJobs fields 0 ps) thr (flat_map (fun p => g_states (fst p)) ps)) c -> finished c ->
  c_mem c = flat_map g_states gs'.
Proof.
  intros fields ps gs' thr c HW Hc Hser Hr Hs Hf.
  assert (Hl : length (flat_map (fun p => g_states (fst p)) ps) = length (finJobs fields 0 ps)).
  { symmetry. apply finJobs_len. eapply Forall_impl; [|exact Hc]. intros ? [? ?]; auto. }
  pose proof (any_schedule inv W (finJobs fields 0 ps) base dt dt_pos W_sane _ thr c Hl Hr Hs Hf) as H1.
  rewrite (serial_fin_groups fields ps 0 gs') in H1; auto. injection H1 as <-. reflexivity.
Qed.
End L.

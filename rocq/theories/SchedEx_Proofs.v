(** Proofs: complete executions exist; a concrete system. *)
From Coq Require Import ZArith List Bool Reals Lra Lia Permutation.
From Verif Require Import Common Evol_Model Evol_Spec Evol_Proofs EvolHist_Proofs EvolEx_Proofs Sched_Model Sched_Proofs.
Import ListNotations.
Local Open Scope Z_scope.

Section C.
Variable inv : list (list R) -> list R -> list R.
Variable W : nat -> wrapper.
Variable jobs : list job.
Variables base dt : R.
Hypothesis dt_pos : (0 < dt)%R.
Hypothesis W_sane : forall tag, sane (W tag).

Lemma finished_dec : forall c, finished c \/ ~ finished c.
Proof.
  intros c. unfold finished. destruct (c_left c); [|right; intros [? ?]; discriminate].
  destruct (all_idle_dec (c_thr c)) as [H|H]; [left; auto|right]. intros [_ Hf]. apply Exists_exists in H. destruct H as (x & Hx & Hn).
  rewrite Forall_forall in Hf. apply Hn. auto.
Qed.

Lemma steps_trans : forall a b c, steps inv W jobs base dt a b -> steps inv W jobs base dt b c -> steps inv W jobs base dt a c.
Proof. intros a b c H. induction H; auto. intros. econstructor; eauto. Qed.

(** From every reachable configuration the end can be reached. *)
Lemma can_finish : forall mem0 thr c, length mem0 = length jobs -> Forall (ready W) thr -> thr <> [] ->
  (forall j s, In (j, s) (combine jobs mem0) -> exists s', serial inv W base dt j s = Ok s') ->
  (forall j, In j jobs -> exists m, nsteps (w_rec (W (j_tag j))) dt = Ok m) ->
  steps inv W jobs base dt (initial jobs thr mem0) c ->
  exists c', steps inv W jobs base dt c c' /\ finished c'.
Proof.
  intros mem0 thr c Hl Hr Hne Hok Hn Hs.
  assert (G : forall n c, (todo W jobs dt c <= Z.of_nat n) -> steps inv W jobs base dt (initial jobs thr mem0) c -> exists c', steps inv W jobs base dt c c' /\ finished c').
  { induction n; intros c1 Ht Hs1.
    - destruct (finished_dec c1) as [Hf|Hf]; [exists c1; split; auto; constructor|].
      destruct (progress inv W jobs base dt dt_pos W_sane mem0 thr c1 Hl Hr Hne Hok Hs1 Hf) as (c2 & H2).
      pose proof (steps_inv inv W jobs base dt dt_pos W_sane mem0 _ _ Hs1 (initial_inv inv W jobs base dt mem0 thr Hl Hr)) as Hi.
      pose proof (todo_step inv W jobs base dt mem0 c1 c2 Hi H2).
      pose proof (step_inv inv W jobs base dt dt_pos W_sane mem0 _ _ Hi H2) as Hi2.
      pose proof (todo_nonneg inv W jobs base dt mem0 c2 Hi2 ltac:(intros ti k j _ Hj; apply Hn; eapply nth_error_In; eauto)). lia.
    - destruct (finished_dec c1) as [Hf|Hf]; [exists c1; split; auto; constructor|].
      destruct (progress inv W jobs base dt dt_pos W_sane mem0 thr c1 Hl Hr Hne Hok Hs1 Hf) as (c2 & H2).
      pose proof (steps_inv inv W jobs base dt dt_pos W_sane mem0 _ _ Hs1 (initial_inv inv W jobs base dt mem0 thr Hl Hr)) as Hi.
      pose proof (todo_step inv W jobs base dt mem0 c1 c2 Hi H2).
      destruct (IHn c2) as (c' & H3 & H4); [lia|eapply steps_trans; [exact Hs1|econstructor; [exact H2|constructor]]|].
      exists c'. split; auto. econstructor; eauto. }
  apply (G (Z.to_nat (todo W jobs dt c))); auto. lia.
Qed.
End C.

(** Three states of one tag, two threads. *)
Definition exJobs : list job := multJobs 2 exIn 0 [mkG exW exD [exS; exS; exS]].
Definition exThr : list thread := [mkT Idle (fun _ => exD); mkT Idle (fun _ => exD)].
Lemma exThr_ready : Forall (ready (fun _ => exW)) exThr.
Proof. repeat constructor; intros; apply cache_ok_new. Qed.
Lemma ex_serial : forall j s, In (j, s) (combine exJobs [exS; exS; exS]) -> exists s', serial exInv (fun _ => exW) 0 1 j s = Ok s'.
Proof.
  assert (H : exists s', serial exInv (fun _ => exW) 0 1 (multJob 2 exIn exW 0 exS) exS = Ok s').
  { unfold serial. destruct (j_skip _); [eauto|]. unfold multJob. cbn [j_tag j_gh].
    destruct (ex_adv 0 1 (fun _ _ all => updateGhosts (w_n exW) (w_gh exW) exIn (Z.of_nat 2) exS all) exS newDyn eq_refl eq_refl (cache_ok_new _)) as (fs & d' & E & _).
    - intros a k all Ha. do 18 (destruct all as [|?x all]; [discriminate|]); destruct all; [|discriminate]. eexists. split; reflexivity.
    - rewrite E. cbn. eauto. }
  intros j s Hin. unfold exJobs in Hin. cbn [multJobs map app g_states g_w combine] in Hin. cbn [In] in Hin.
  destruct Hin as [E|[E|[E|[]]]]; injection E as <- <-; exact H.
Qed.
Lemma ex_complete : exists c, steps exInv (fun _ => exW) exJobs 0 1 (initial exJobs exThr [exS; exS; exS]) c /\ finished c.
Proof.
  apply (can_finish exInv (fun _ => exW) exJobs 0 1 Rlt_0_1 (fun _ => exW_sane) [exS; exS; exS] exThr).
  - reflexivity.
  - apply exThr_ready.
  - discriminate.
  - apply ex_serial.
  - intros j _. unfold nsteps. cbn [w_rec exW]. destruct (Rlt_dec 0 1); [|lra]. destruct (Rlt_dec 1 1); [lra|eauto].
  - constructor.
Qed.

From Coq Require Import List Arith Bool Lia ZArith.
From Verif Require Import Dft_Model.
Import ListNotations.

Lemma cell_eqb_spec : forall a b, reflect (a = b) (cell_eqb a b).
Proof.
  intros [[a1 a2] a3] [[b1 b2] b3]. unfold cell_eqb. cbn [fst snd].
  destruct (Nat.eqb_spec a1 b1), (Nat.eqb_spec a2 b2), (Nat.eqb_spec a3 b3); cbn; constructor; congruence.
Qed.

Section P.
Variable A : Type.
Variable add : A -> A -> A.
Variable term : nat -> nat -> nat -> nat -> A.
Notation op := (op A).

(** Pairs of load and store. *)
Inductive aligned : list op -> Prop :=
| al_nil : aligned []
| al_cons : forall k x p, aligned p -> aligned (Load k :: Store k x :: p).
Lemma aligned_app : forall p q, aligned p -> aligned q -> aligned (p ++ q).
Proof. induction 1; cbn; auto. constructor; auto. Qed.
Lemma aligned_flat : forall (X : Type) (g : X -> list op) l, (forall x, aligned (g x)) -> aligned (flat_map g l).
Proof. induction l; cbn; intros; [constructor|]. apply aligned_app; auto. Qed.

(** What a program adds to a cell, in order. *)
Fixpoint adds (k : cell) (p : list op) : list A :=
  match p with
  | [] => []
  | Store j x :: q => if cell_eqb j k then x :: adds k q else adds k q
  | Load _ :: q => adds k q
  end.
Lemma adds_app : forall k p q, adds k (p ++ q) = adds k p ++ adds k q.
Proof. induction p as [|[j|j x] p IH]; intros; cbn; auto. destruct (cell_eqb j k); cbn; now rewrite IH. Qed.
Definition opCell (o : op) : cell := match o with Load k => k | Store k _ => k end.

(** The memory at a cell together with what the owner still adds. *)
Definition remaining (m : cell -> A) (k : cell) (th : thread A) : A := fold_left add (adds k (th_prog th)) (m k).
(** A thread is between two additions, or holds the value of the cell it is about to
    store. *)
Definition coherent (m : cell -> A) (th : thread A) : Prop :=
  aligned (th_prog th) \/ exists k x p, th_prog th = Store k x :: p /\ aligned p /\ th_reg th = m k.

Variable owner : nat -> nat.
Definition owned (tid : nat) (th : thread A) : Prop := Forall (fun o => owner (snd (fst (opCell o))) = tid) (th_prog th).

Definition inv (total : cell -> A) (c : config A) : Prop :=
  (forall tid th, nth_error (cf_thr c) tid = Some th -> coherent (cf_mem c) th /\ owned tid th) /\
  (forall k th, nth_error (cf_thr c) (owner (snd (fst k))) = Some th -> remaining (cf_mem c) k th = total k).

Lemma nth_mid : forall (X : Type) (l1 l2 : list X) x, nth_error (l1 ++ x :: l2) (length l1) = Some x.
Proof. intros. rewrite nth_error_app2 by lia. now rewrite Nat.sub_diag. Qed.
Lemma nth_other : forall (X : Type) (l1 l2 : list X) x y i, i <> length l1 -> nth_error (l1 ++ x :: l2) i = nth_error (l1 ++ y :: l2) i.
Proof.
  intros X l1 l2 x y i H. destruct (Nat.lt_ge_cases i (length l1)).
  - now rewrite !nth_error_app1 by lia.
  - rewrite !nth_error_app2 by lia. destruct (i - length l1) eqn:E; [lia|reflexivity].
Qed.

Lemma inv_step : forall total a b, step add a b -> inv total a -> inv total b.
Proof.
  intros total a b S [Ic Ir]. destruct S as [l1 k p r l2 m|l1 k x p r l2 m]; cbn [cf_thr cf_mem] in *.
  - destruct (Ic _ _ (nth_mid _ l1 l2 _)) as [Hc Ho].
    split; cbn [cf_thr cf_mem].
    + intros tid th H. destruct (Nat.eq_dec tid (length l1)) as [->|N].
      * rewrite nth_mid in H. injection H as <-. split.
        -- destruct Hc as [Hc|(k' & x & q & E & _)]; [|discriminate]. cbn [th_prog] in Hc. inversion Hc; subst. right.
           exists k, x, p0. repeat split; auto.
        -- now inversion Ho.
      * rewrite (nth_other _ _ _ _ (mkThread (Load k :: p) r)) in H by assumption. now apply Ic.
    + intros k' th H. destruct (Nat.eq_dec (owner (snd (fst k'))) (length l1)) as [E|N].
      * rewrite E, nth_mid in H. injection H as <-. rewrite <- (Ir k' _ (eq_trans (f_equal _ E) (nth_mid _ l1 l2 _))). reflexivity.
      * rewrite (nth_other _ _ _ _ (mkThread (Load k :: p) r)) in H by assumption. now apply Ir.
  - destruct (Ic _ _ (nth_mid _ l1 l2 _)) as [Hc Ho].
    destruct Hc as [Hc|(k0 & x0 & q & E & Hq & Hr)]; [cbn [th_prog] in Hc; inversion Hc|].
    cbn [th_prog th_reg] in E, Hr. injection E as <- <- <-. subst r.
    assert (Hk : owner (snd (fst k)) = length l1) by (inversion Ho; assumption).
    split; cbn [cf_thr cf_mem].
    + intros tid th H. destruct (Nat.eq_dec tid (length l1)) as [->|N].
      * rewrite nth_mid in H. injection H as <-. split; [left; exact Hq | now inversion Ho].
      * rewrite (nth_other _ _ _ _ (mkThread (Store k x :: p) (m k))) in H by assumption.
        destruct (Ic _ _ H) as [Hc' Ho']. split; [|assumption].
        destruct Hc' as [Hc'|(k1 & x1 & q1 & E1 & Hq1 & Hr1)]; [now left|]. right. exists k1, x1, q1. repeat split; auto.
        unfold mset. destruct (cell_eqb_spec k1 k) as [->|]; [|assumption].
        unfold owned in Ho'. rewrite E1 in Ho'. inversion Ho'; subst. cbn [opCell] in *. congruence.
    + intros k' th H. destruct (Nat.eq_dec (owner (snd (fst k'))) (length l1)) as [E|N].
      * rewrite E, nth_mid in H. injection H as <-. rewrite <- (Ir k' _ (eq_trans (f_equal _ E) (nth_mid _ l1 l2 _))).
        unfold remaining. cbn [th_prog adds]. unfold mset.
        destruct (cell_eqb_spec k' k) as [Ek|Nk]; destruct (cell_eqb_spec k k') as [Ek'|Nk']; try congruence.
        subst k'. reflexivity.
      * rewrite (nth_other _ _ _ _ (mkThread (Store k x :: p) (m k))) in H by assumption. rewrite <- (Ir _ _ H). unfold remaining, mset.
        destruct (cell_eqb_spec k' k) as [->|]; [congruence|reflexivity].
Qed.
Lemma inv_steps : forall total a b, steps add a b -> inv total a -> inv total b.
Proof. induction 1; auto. intros. apply IHsteps. eapply inv_step; eauto. Qed.

(** What the program of the owner adds to a cell. *)
Lemma adds_flat : forall (X : Type) (g : X -> list op) k l, adds k (flat_map g l) = flat_map (fun x => adds k (g x)) l.
Proof. induction l; cbn; auto. now rewrite adds_app, IHl. Qed.
Lemma flat_map_ext_in' : forall (X Y : Type) (g h : X -> list Y) l, (forall x, In x l -> g x = h x) -> flat_map g l = flat_map h l.
Proof. induction l; cbn; intros; auto. rewrite H, IHl; auto. Qed.
Lemma flat_map_nil : forall (X Y : Type) (l : list X), flat_map (fun _ => @nil Y) l = [].
Proof. induction l; auto. Qed.
(** Only one index of a list without repetition contributes. *)
Lemma flat_map_one : forall (Y : Type) (g : nat -> list Y) l i, NoDup l -> In i l -> (forall j, In j l -> j <> i -> g j = []) -> flat_map g l = g i.
Proof.
  induction l as [|j l IH]; intros i Hn Hi Hg; [destruct Hi|]. cbn. inversion Hn; subst.
  destruct (Nat.eq_dec j i) as [->|N].
  - rewrite (flat_map_ext_in' _ _ g (fun _ => [])); [now rewrite flat_map_nil, app_nil_r|].
    intros x Hx. apply Hg; [now right|]. intros ->. contradiction.
  - rewrite (Hg j (or_introl eq_refl) N). cbn. apply IH; auto. destruct Hi; [congruence|assumption]. intros; apply Hg; auto. now right.
Qed.

Lemma adds_body : forall nDofs t fi c fi' v, adds (c, fi', v) (body term nDofs t fi) =
  if (Nat.eqb fi fi' && Nat.ltb c 6 && Nat.ltb v nDofs)%bool then [term t c fi v] else [].
Proof.
  intros. unfold body. rewrite adds_flat.
  assert (G : forall c', adds (c, fi', v) (flat_map (fun v0 => plusEq A (c', fi, v0) (term t c' fi v0)) (seq 0 nDofs)) =
     if (Nat.eqb fi fi' && Nat.eqb c' c && Nat.ltb v nDofs)%bool then [term t c' fi v] else []).
  { intros c'. rewrite adds_flat. cbn [plusEq adds].
    destruct (Nat.eqb_spec fi fi') as [->|Nf]; [destruct (Nat.eqb_spec c' c) as [->|Nc]|]; cbn [andb].
    - destruct (Nat.ltb_spec v nDofs).
      + rewrite (flat_map_one _ _ _ v); [|apply seq_NoDup|apply in_seq; lia|].
        * destruct (cell_eqb_spec (c, fi', v) (c, fi', v)); congruence.
        * intros j _ Hj. destruct (cell_eqb_spec (c, fi', j) (c, fi', v)); congruence.
      + rewrite (flat_map_ext_in' _ _ _ (fun _ => [])); [apply flat_map_nil|]. intros j Hj. apply in_seq in Hj.
        destruct (cell_eqb_spec (c, fi', j) (c, fi', v)) as [E|]; [injection E; lia|reflexivity].
    - rewrite (flat_map_ext_in' _ _ _ (fun _ => [])); [apply flat_map_nil|]. intros j _.
      destruct (cell_eqb_spec (c', fi', j) (c, fi', v)); congruence.
    - rewrite (flat_map_ext_in' _ _ _ (fun _ => [])); [apply flat_map_nil|]. intros j _.
      destruct (cell_eqb_spec (c', fi, j) (c, fi', v)); congruence. }
  rewrite (flat_map_ext_in' _ _ _ _ _ (fun c' _ => G c')).
  destruct (Nat.eqb_spec fi fi') as [->|Nf]; cbn [andb]; [|apply flat_map_nil].
  destruct (Nat.ltb_spec c 6); cbn [andb].
  - rewrite (flat_map_one _ _ _ c); [|apply seq_NoDup|apply in_seq; lia|].
    + now rewrite Nat.eqb_refl.
    + intros j _ Hj. destruct (Nat.eqb_spec j c); [congruence|reflexivity].
  - rewrite (flat_map_ext_in' _ _ _ (fun _ => [])); [apply flat_map_nil|]. intros j Hj. apply in_seq in Hj.
    destruct (Nat.eqb_spec j c); [lia|reflexivity].
Qed.

Lemma adds_program : forall nSnap nFreq nDofs c fi v, c < 6 -> fi < nFreq -> v < nDofs ->
  adds (c, fi, v) (program term nSnap nDofs (staticShare nFreq owner (owner fi))) = map (fun t => term t c fi v) (seq 0 nSnap).
Proof.
  intros nSnap nFreq nDofs c fi v Hc Hf Hv. unfold program. rewrite adds_flat.
  assert (G : forall t, adds (c, fi, v) (flat_map (body term nDofs t) (staticShare nFreq owner (owner fi) t)) = [term t c fi v]).
  { intros t. rewrite adds_flat. rewrite (flat_map_one _ _ _ fi).
    - rewrite adds_body, Nat.eqb_refl. apply Nat.ltb_lt in Hc, Hv. now rewrite Hc, Hv.
    - apply NoDup_filter, seq_NoDup.
    - apply filter_In. split; [apply in_seq; lia|apply Nat.eqb_refl].
    - intros j _ Hj. rewrite adds_body. destruct (Nat.eqb_spec j fi); [congruence|reflexivity]. }
  rewrite (flat_map_ext_in' _ _ _ _ _ (fun t _ => G t)). induction (seq 0 nSnap); cbn; [auto|now f_equal].
Qed.

Lemma body_cells : forall nDofs t fi o, In o (body term nDofs t fi) -> snd (fst (opCell o)) = fi.
Proof.
  intros nDofs t fi o H. unfold body in H. apply in_flat_map in H. destruct H as (c & _ & H). apply in_flat_map in H.
  destruct H as (v & _ & [<-|[<-|[]]]); reflexivity.
Qed.

Theorem static_serial : forall nThr nSnap nFreq nDofs zero c, (forall fi, fi < nFreq -> owner fi < nThr) ->
  steps add (initial term nThr nFreq nSnap nDofs owner zero) c -> finished c ->
  forall comp fi v, comp < 6 -> fi < nFreq -> v < nDofs ->
    cf_mem c (comp, fi, v) = fold_left add (map (fun t => term t comp fi v) (seq 0 nSnap)) zero.
Proof.
  intros nThr nSnap nFreq nDofs zero c Ho S F comp fi v Hc Hf Hv.
  set (progOf := fun tid => program term nSnap nDofs (staticShare nFreq owner tid)).
  assert (I : inv (fun k => fold_left add (adds k (progOf (owner (snd (fst k))))) zero) (initial term nThr nFreq nSnap nDofs owner zero)).
  { unfold initial. split; cbn [cf_thr cf_mem].
    - intros tid th H.
      assert (L : tid < nThr). { assert (nth_error (map (fun tid => mkThread (progOf tid) zero) (seq 0 nThr)) tid <> None) by (unfold progOf; rewrite H; discriminate).
        apply nth_error_Some in H0. now rewrite map_length, seq_length in H0. }
      rewrite nth_error_map in H. destruct (nth_error (seq 0 nThr) tid) as [t0|] eqn:E; [|discriminate]. cbn in H. injection H as <-.
      assert (t0 = tid). { apply nth_error_nth with (d := 0) in E. rewrite seq_nth in E by assumption. auto. } subst t0. split.
      + left. cbn [th_prog]. unfold program. apply aligned_flat. intros. apply aligned_flat. intros. unfold body. apply aligned_flat. intros. apply aligned_flat. intros. constructor. constructor.
      + unfold owned. cbn [th_prog]. apply Forall_forall. intros o Hin. unfold program in Hin. apply in_flat_map in Hin. destruct Hin as (t & _ & Hin).
        apply in_flat_map in Hin. destruct Hin as (fj & Hfj & Hin). apply filter_In in Hfj. destruct Hfj as [_ Hfj]. apply Nat.eqb_eq in Hfj.
        rewrite (body_cells _ _ _ _ Hin). exact Hfj.
    - intros k th H. rewrite nth_error_map in H. destruct (nth_error (seq 0 nThr) (owner (snd (fst k)))) as [t0|] eqn:E; [|discriminate]. cbn in H. injection H as <-.
      assert (L : owner (snd (fst k)) < nThr). { assert (nth_error (seq 0 nThr) (owner (snd (fst k))) <> None) by (rewrite E; discriminate).
        apply nth_error_Some in H. now rewrite seq_length in H. }
      apply nth_error_nth with (d := 0) in E. rewrite seq_nth in E by assumption. cbn [Nat.add] in E. subst t0. reflexivity. }
  pose proof (inv_steps _ _ _ S I) as [_ J].
  assert (Len : length (cf_thr c) = nThr).
  { clear - S. assert (G : forall a b, step add a b -> length (cf_thr b) = length (cf_thr a)).
    { intros a b [l1 k p r l2 m|l1 k x p r l2 m]; cbn [cf_thr]; rewrite !app_length; reflexivity. }
    assert (K : forall a b, steps add a b -> length (cf_thr b) = length (cf_thr a)).
    { induction 1; auto. rewrite IHsteps. now apply G. }
    rewrite (K _ _ S). cbn [initial cf_thr]. now rewrite map_length, seq_length. }
  destruct (nth_error (cf_thr c) (owner fi)) as [th|] eqn:E.
  2:{ apply nth_error_None in E. specialize (Ho fi Hf). lia. }
  specialize (J (comp, fi, v) th E). unfold remaining in J.
  unfold finished in F. rewrite Forall_forall in F. rewrite (F th (nth_error_In _ _ E)) in J. cbn [adds fold_left fst snd] in J.
  rewrite J. unfold progOf. now rewrite adds_program.
Qed.

(** Every start can be run to the end. *)
Lemma can_finish : forall c, exists c', steps add c c' /\ finished c'.
Proof.
  intros c. remember (list_sum (map (fun th => length (th_prog th)) (cf_thr c))) as n eqn:En. revert c En.
  induction n as [n IH] using lt_wf_ind. intros [thr m] En. cbn [cf_thr] in En.
  assert (D : Forall (fun th => th_prog th = []) thr \/ exists l1 o p r l2, thr = l1 ++ mkThread (o :: p) r :: l2).
  { clear. induction thr as [|[[|o p] r] l IH]; [left; constructor| |].
    - destruct IH as [IH|(l1 & o & p & r' & l2 & ->)]; [left; now constructor|right]. exists (mkThread [] r :: l1), o, p, r', l2. reflexivity.
    - right. exists [], o, p, r, l. reflexivity. }
  destruct D as [D|(l1 & o & p & r & l2 & ->)]; [exists (mkConf thr m); split; [constructor|exact D]|].
  assert (L : forall r', list_sum (map (fun th : thread A => length (th_prog th)) (l1 ++ mkThread p r' :: l2)) < n).
  { intros r'. rewrite En, !map_app, !list_sum_app. cbn [map list_sum th_prog length fold_right]. unfold list_sum. cbn [fold_right]. lia. }
  destruct o as [k|k x].
  - destruct (IH _ (L (m k)) (mkConf (l1 ++ mkThread p (m k) :: l2) m) eq_refl) as (c' & S & F). exists c'. split; [|exact F].
    eapply steps_more; [constructor|exact S].
  - destruct (IH _ (L r) (mkConf (l1 ++ mkThread p r :: l2) (mset m k (add r x))) eq_refl) as (c' & S & F). exists c'. split; [|exact F].
    eapply steps_more; [constructor|exact S].
Qed.
End P.

(** If the share changed from one snapshot to the next (as another schedule would
    allow), an addition could be lost. *)
Lemma moving_share_loses :
  exists c, steps Z.add (mkConf (map (fun tid => mkThread (program (fun _ _ _ _ => 1%Z) 2 1 (fun t => if Nat.eqb t tid then [0] else [])) 0%Z) [0; 1])
                           (fun _ => 0%Z)) c /\
    finished c /\ cf_mem c (0, 0, 0) = 1%Z.
Proof.
  eexists. split; [|split].
  - cbn [map program flat_map seq app Nat.eqb body plusEq].
    (* both load the first entry before either stores it *)
    eapply steps_more. { apply (step_load _ Z.add []). }
    eapply steps_more. { apply (step_load _ Z.add [_]). }
    cbn [app].
    do 11 (eapply steps_more; [first [apply (step_load _ Z.add []) | apply (step_store _ Z.add [])]|]; cbn [app]).
    do 11 (eapply steps_more; [first [apply (step_load _ Z.add [_]) | apply (step_store _ Z.add [_])]|]; cbn [app]).
    apply steps_refl.
  - repeat constructor.
  - reflexivity.
Qed.

From Coq Require Import ZArith List Bool Arith Lia Reals Lra.
From Verif Require Import Common ElNum_Model ElNum_Spec.
Import ListNotations.

Lemma distance2_sq : forall a b, distance2 a b = sq a b.
Proof.
  induction a as [|x a IH]; intros [|y b]; cbn [distance2]; try reflexivity.
  rewrite IH. reflexivity.
Qed.
Lemma sq_pos : forall a b, (0 <= sq a b)%R.
Proof.
  intros a b. rewrite <- distance2_sq. revert b.
  induction a as [|x a IH]; intros [|y b]; cbn [distance2]; try lra.
  specialize (IH b). pose proof (Rle_0_sqr (x - y)) as P. unfold Rsqr in P. lra.
Qed.
Lemma tol_pos : (0 < tol)%R.
Proof. unfold tol. lra. Qed.
Lemma near_within : forall a b, near a b = true <-> within (/ 100000) a b.
Proof.
  intros a b. unfold near, within. fold tol. rewrite distance2_sq.
  pose proof (sq_pos a b) as P. pose proof tol_pos as T.
  destruct (Rle_dec (sqrt (sq a b)) tol) as [h|h]; split; intros q; try reflexivity; try discriminate.
  - rewrite <- (sqrt_sqrt (sq a b) P). unfold Rsqr. pose proof (sqrt_pos (sq a b)).
    apply Rmult_le_compat; assumption.
  - exfalso. apply h. rewrite <- (sqrt_Rsqr tol) by lra. apply sqrt_le_1; try assumption. apply Rle_0_sqr.
Qed.

Lemma e2c_snoc : forall cs c, elem2Center (cs ++ [c]) = elem2Center cs ++ [(length cs, c)].
Proof.
  intros cs c. unfold elem2Center. rewrite app_length. cbn [length]. rewrite seq_app.
  assert (H : forall k, combine (seq k (length cs) ++ seq (k + length cs) 1) (cs ++ [c]) = combine (seq k (length cs)) cs ++ [(k + length cs, c)]).
  { induction cs as [|x cs IH]; intros k.
    - reflexivity.
    - cbn [length seq combine List.app]. f_equal. replace (k + S (length cs)) with (S k + length cs) by lia. apply IH. }
  exact (H 0).
Qed.

(** The inner loop changes only the key it is given. *)
Lemma scan_other : forall local m g i, i <> fst g -> scanLocal local m g i = m i.
Proof.
  unfold scanLocal. induction local as [|l local IH]; intros m g i H; [reflexivity|].
  cbn [fold_left]. rewrite IH by assumption. destruct (near (snd g) (snd l)); [|reflexivity].
  unfold setId. destruct (Nat.eqb_spec i (fst g)); congruence.
Qed.
Lemma scan_here : forall cs m g c, m g = None ->
  forall j, scanLocal (elem2Center cs) m (g, c) g = Some j <-> lastWithin (/ 100000) c cs j.
Proof.
  intros cs. induction cs as [|d cs IH] using rev_ind; intros m g c F j.
  - cbn. rewrite F. split; [discriminate|]. intros [[d [Q _]] _]. destruct j; discriminate.
  - rewrite e2c_snoc. unfold scanLocal. rewrite fold_left_app. cbn [fold_left fst snd]. fold (scanLocal (elem2Center cs) m (g, c)).
    destruct (near c d) eqn:N.
    + unfold setId. rewrite Nat.eqb_refl. split.
      * intros Q. injection Q as <-. split.
        { exists d. split; [|apply near_within; exact N]. rewrite nth_error_app2, Nat.sub_diag by lia. reflexivity. }
        intros k e K Q. assert (k < length (cs ++ [d])) by (apply nth_error_Some; congruence); rewrite app_length in *; cbn [length] in *; lia.
      * intros [[e [Q _]] L]. f_equal.
        destruct (Nat.lt_trichotomy j (length cs)) as [h|[h|h]]; [|symmetry; exact h|].
        -- exfalso. apply (L (length cs) d h); [|apply near_within; exact N]. rewrite nth_error_app2, Nat.sub_diag by lia. reflexivity.
        -- exfalso. assert (B : j < length (cs ++ [d])) by (apply nth_error_Some; congruence). rewrite app_length in B. cbn [length] in B. lia.
    + rewrite (IH m g c F). assert (W : ~ within (/ 100000) c d) by (rewrite <- near_within; congruence). split.
      * intros [[e [Q V]] L]. split.
        { exists e. split; [|exact V]. rewrite nth_error_app1; [exact Q|]. apply nth_error_Some. congruence. }
        intros k e' K Q'. destruct (Nat.lt_ge_cases k (length cs)) as [h|h].
        { rewrite nth_error_app1 in Q' by exact h. exact (L k e' K Q'). }
        rewrite nth_error_app2 in Q' by exact h. destruct (k - length cs) as [|r]; [|destruct r; discriminate].
        injection Q' as <-. exact W.
      * intros [[e [Q V]] L]. split.
        { exists e. split; [|exact V]. destruct (Nat.lt_ge_cases j (length cs)) as [h|h].
          - rewrite nth_error_app1 in Q by exact h. exact Q.
          - rewrite nth_error_app2 in Q by exact h. destruct (j - length cs) as [|r]; [|destruct r; discriminate].
            injection Q as <-. contradiction. }
        intros k e' K Q'. apply (L k e' K). rewrite nth_error_app1; [exact Q'|]. apply nth_error_Some. congruence.
Qed.

Lemma fold_scan_other : forall local serial m i, ~ In i (map fst serial) -> fold_left (scanLocal local) serial m i = m i.
Proof.
  intros local. induction serial as [|s serial IH]; intros m i H; [reflexivity|].
  cbn [fold_left map In] in *. rewrite IH by tauto. apply scan_other. intros ->. tauto.
Qed.
Lemma e2c_fst : forall cs, map fst (elem2Center cs) = seq 0 (length cs).
Proof.
  intros cs. unfold elem2Center. generalize 0. induction cs as [|c cs IH]; intros k; [reflexivity|].
  cbn [length seq combine map fst]. f_equal. apply IH.
Qed.

Lemma global_to_local : forall serial local g j,
  globalToLocal (elem2Center serial) (elem2Center local) g = Some j <->
  exists c, nth_error serial g = Some c /\ lastWithin (/ 100000) c local j.
Proof.
  intros serial local g j. unfold globalToLocal. induction serial as [|c serial IH] using rev_ind.
  - cbn. split; [discriminate|]. intros [c [Q _]]. destruct g; discriminate.
  - rewrite e2c_snoc, fold_left_app. cbn [fold_left].
    destruct (Nat.eq_dec g (length serial)) as [-> | n].
    + rewrite scan_here.
      * split.
        -- intros H. exists c. split; [|exact H]. rewrite nth_error_app2, Nat.sub_diag by lia. reflexivity.
        -- intros [c' [Q H]]. rewrite nth_error_app2, Nat.sub_diag in Q by lia. injection Q as <-. exact H.
      * rewrite fold_scan_other; [reflexivity|]. rewrite e2c_fst, in_seq. lia.
    + rewrite scan_other by (cbn [fst]; congruence). rewrite IH.
      split; intros [c' [Q H]]; exists c'; (split; [|exact H]).
      * rewrite nth_error_app1; [exact Q|]. apply nth_error_Some. congruence.
      * assert (B : g < length (serial ++ [c])) by (apply nth_error_Some; congruence). rewrite app_length in B. cbn [length] in B.
        rewrite nth_error_app1 in Q by lia. exact Q.
Qed.

(** The elements a process keeps. *)
Lemma keep_nth : forall {A} rank part (l : list A) j a, length part = length l ->
  (nth_error (keep rank part l) j = Some a <-> exists g, isLocal rank part g j /\ nth_error l g = Some a).
Proof.
  intros A rank. unfold isLocal. induction part as [|p part IH]; intros l j a L.
  - destruct l; [|discriminate]. cbn. split; [destruct j; discriminate|]. intros [g [[Q _] _]]. destruct g; discriminate.
  - destruct l as [|x l]; [discriminate|]. injection L as L. cbn [keep].
    destruct (Nat.eqb_spec p rank) as [-> | n].
    + destruct j as [|j]; cbn [nth_error].
      * split.
        -- intros Q. injection Q as ->. exists 0. repeat split; reflexivity.
        -- intros [[|g] [[Q C] N]]; cbn [nth_error] in *; [congruence|].
           cbn [firstn count_occ] in C. destruct (Nat.eq_dec rank rank); [discriminate|congruence].
      * rewrite (IH l j a L). split.
        -- intros [g [[Q C] N]]. exists (S g). cbn [nth_error firstn count_occ]. destruct (Nat.eq_dec rank rank); [|congruence]. repeat split; congruence.
        -- intros [[|g] [[Q C] N]]; cbn [nth_error firstn count_occ] in *; [discriminate|].
           destruct (Nat.eq_dec rank rank); [|congruence]. injection C as C. exists g. repeat split; assumption.
    + rewrite (IH l j a L). split.
      * intros [g [[Q C] N]]. exists (S g). cbn [nth_error firstn count_occ]. destruct (Nat.eq_dec p rank); [congruence|]. repeat split; assumption.
      * intros [[|g] [[Q C] N]]; cbn [nth_error firstn count_occ] in *; [congruence|].
        destruct (Nat.eq_dec p rank); [congruence|]. exists g. repeat split; assumption.
Qed.

Lemma within_refl : forall eps a, within eps a a.
Proof.
  intros eps a. unfold within. rewrite <- distance2_sq. apply Rle_trans with 0%R; [|apply Rle_0_sqr].
  induction a as [|x a IH]; cbn [distance2]; [lra|]. replace (x - x)%R with 0%R by ring. lra.
Qed.
Lemma local_fun : forall rank part g j k, isLocal rank part g j -> isLocal rank part g k -> j = k.
Proof. intros rank part g j k [_ ->] [_ ->]. reflexivity. Qed.

Lemma map_on_rank : forall rank part centres, length part = length centres -> apart (/ 100000) centres ->
  forall g j, mapOnRank rank part centres g = Some j <-> isLocal rank part g j.
Proof.
  intros rank part centres L A g j. unfold mapOnRank. rewrite global_to_local. split.
  - intros [c [Q [[d [Qd W]] _]]]. apply (keep_nth rank part centres j d L) in Qd. destruct Qd as [g' [I N]].
    destruct (Nat.eq_dec g g') as [-> | n]; [exact I|]. exfalso. exact (A g g' c d Q N n W).
  - intros I. assert (B : g < length centres) by (rewrite <- L; apply nth_error_Some; rewrite (proj1 I); discriminate).
    destruct (nth_error centres g) as [c|] eqn:Q; [|apply nth_error_None in Q; lia].
    exists c. split; [reflexivity|]. split.
    + exists c. split; [|apply within_refl]. apply (keep_nth rank part centres j c L). exists g. split; assumption.
    + intros k d K Qd W. apply (keep_nth rank part centres k d L) in Qd. destruct Qd as [g' [I' N]].
      destruct (Nat.eq_dec g g') as [<- | n]; [|exact (A g g' c d Q N n W)].
      pose proof (local_fun _ _ _ _ _ I I'). lia.
Qed.

(** Every element is on exactly one process, and no local number is used twice. *)
Lemma one_rank : forall part centres, length part = length centres -> apart (/ 100000) centres ->
  forall g, g < length centres ->
  exists rank j, mapOnRank rank part centres g = Some j /\ (forall r k, mapOnRank r part centres g = Some k -> r = rank /\ k = j).
Proof.
  intros part centres L A g B. rewrite <- L in B.
  destruct (nth_error part g) as [rank|] eqn:Q; [|apply nth_error_None in Q; lia].
  exists rank, (count_occ Nat.eq_dec (firstn g part) rank). split.
  - apply map_on_rank; try assumption. split; [exact Q|reflexivity].
  - intros r k H. apply map_on_rank in H; try assumption. destruct H as [Q' ->]. rewrite Q in Q'. injection Q' as ->. split; reflexivity.
Qed.
Lemma local_inj : forall rank part g h j, isLocal rank part g j -> isLocal rank part h j -> g = h.
Proof.
  intros rank. unfold isLocal. induction part as [|p part IH]; intros g h j [Qg Cg] [Qh Ch]; [destruct g; discriminate|].
  destruct g as [|g], h as [|h]; cbn [nth_error firstn count_occ] in *; try reflexivity.
  - injection Qg as ->. destruct (Nat.eq_dec rank rank); [|congruence]. congruence.
  - injection Qh as ->. destruct (Nat.eq_dec rank rank); [|congruence]. congruence.
  - f_equal. destruct (Nat.eq_dec p rank).
    + apply (IH g h (pred j)); split; try assumption; lia.
    + apply (IH g h j); split; assumption.
Qed.
Lemma no_sharing : forall rank part centres, length part = length centres -> apart (/ 100000) centres ->
  forall g h j, mapOnRank rank part centres g = Some j -> mapOnRank rank part centres h = Some j -> g = h.
Proof.
  intros rank part centres L A g h j Hg Hh. apply map_on_rank in Hg; try assumption. apply map_on_rank in Hh; try assumption.
  exact (local_inj _ _ _ _ _ Hg Hh).
Qed.

Lemma same_types : forall t l, (sameTypes t l = Ok tt <-> forall k, In k l -> k = t) /\ (sameTypes t l = Throw <-> exists k, In k l /\ k <> t) /\ sameTypes t l <> UB.
Proof.
  intros t. induction l as [|k l [I1 [I2 I3]]]; cbn [sameTypes In].
  - repeat split; try discriminate; intros H; try contradiction. destruct H as [? [[] _]].
  - destruct (Z.eqb_spec t k) as [-> | n].
    + rewrite I1, I2. repeat split; try exact I3.
      * intros H x [<- | h]; [reflexivity|auto].
      * auto.
      * intros [x [h N]]. exists x. auto.
      * intros [x [[<- | h] N]]; [congruence|]. exists x. auto.
    + repeat split; try discriminate.
      * intros H. exfalso. apply n. symmetry. auto.
      * intros _. exists k. auto.
Qed.
Lemma check_types : forall types, types <> [] ->
  (ensureSameType types = Ok tt <-> forall a b, In a types -> In b types -> a = b) /\
  (ensureSameType types = Throw <-> exists a b, In a types /\ In b types /\ a <> b).
Proof.
  intros [|t l] N; [congruence|]. unfold ensureSameType, zget. cbn [Z.ltb Z.compare Z.to_nat nth_error bind tl In].
  destruct (same_types t l) as [I1 [I2 _]]. rewrite I1, I2. repeat split.
  - intros H a b [<- | ha] [<- | hb]; try reflexivity; [symmetry; auto|auto|]. rewrite (H a ha), (H b hb). reflexivity.
  - intros H k h. auto.
  - intros [k [h n]]. exists k, t. auto.
  - intros [a [b [[<- | ha] [[<- | hb] n]]]]; try congruence; eauto.
    destruct (Z.eq_dec a t) as [-> | m]; eauto.
Qed.

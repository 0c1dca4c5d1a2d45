From Coq Require Import ZArith List Bool Reals Lra Lia Permutation.
From Coquelicot Require Import Complex.
From Verif Require Import Common Fit_Model Fit_Spec.
Import ListNotations.
Local Open Scope C_scope.

(** ** The search *)
Lemma search_spec : forall (calc : nat -> fitRes) (tol : R) (n m : nat) (best : fitRes),
  (forall j, (1 <= j < m)%nat -> ~ meets tol (calc j)) ->
  ((exists k, (1 <= k < m)%nat /\ best = calc k /\ f_stable best = true /\
      forall j, (1 <= j < m)%nat -> f_stable (calc j) = true -> (f_err best <= f_err (calc j))%R /\ ((j < k)%nat -> (f_err best < f_err (calc j))%R)) \/
   (best = noFit /\ forall j, (1 <= j < m)%nat -> f_stable (calc j) = true -> (10 ^ 9 <= f_err (calc j))%R)) ->
  (1 <= m)%nat -> chosen calc (m + n - 1) tol (search calc tol (seq m n) best).
Proof.
  intros calc tol n. induction n as [|n IH]; intros m best Hm Hb H1.
  - cbn [seq search]. right. split.
    + intros j Hj. apply Hm. lia.
    + destruct Hb as [[k [Hk [E [Hs Hf]]]] | [E Hf]].
      * left. exists k. split; [lia|]. split; [exact E|]. split; [exact Hs|]. intros j Hj. apply Hf. lia.
      * right. split; [exact E|]. intros j Hj. apply Hf. lia.
  - cbn [seq search].
    replace (m + S n - 1)%nat with (S m + n - 1)%nat by lia.
    destruct (f_stable (calc m)) eqn:Es; cbn [negb].
    + destruct (Rlt_dec (f_err (calc m)) tol) as [Ht|Ht].
      * left. exists m. split; [lia|]. split; [reflexivity|]. split; [split; [exact Es|exact Ht]|]. intros j Hj. apply Hm. lia.
      * apply IH; [| |lia].
        -- intros j Hj. destruct (Nat.eq_dec j m) as [->|D]; [|apply Hm; lia]. intros [_ L]. lra.
        -- destruct (Rlt_dec (f_err (calc m)) (f_err best)) as [L|L].
           ++ left. exists m. split; [lia|]. split; [reflexivity|]. split; [exact Es|].
              intros j Hj Hs. destruct (Nat.eq_dec j m) as [->|D]; [split; [lra|lia]|].
              assert (Hb2 : (f_err best <= f_err (calc j))%R).
              { destruct Hb as [[k [Hk [E [Hst Hf]]]] | [E Hf]].
                - apply (Hf j); [lia|exact Hs].
                - rewrite E. apply (Hf j); [lia|exact Hs]. }
              split; [lra|intros _; lra].
           ++ destruct Hb as [[k [Hk [E [Hst Hf]]]] | [E Hf]].
              ** left. exists k. split; [lia|]. split; [exact E|]. split; [exact Hst|].
                 intros j Hj Hs. destruct (Nat.eq_dec j m) as [->|D]; [split; [lra|lia]|]. apply Hf; [lia|exact Hs].
              ** right. split; [exact E|]. intros j Hj Hs. destruct (Nat.eq_dec j m) as [->|D].
                 --- rewrite E in L. cbn [f_err noFit] in L. lra.
                 --- apply Hf; [lia|exact Hs].
    + apply IH; [| |lia].
      * intros j Hj. destruct (Nat.eq_dec j m) as [->|D]; [|apply Hm; lia]. intros [A _]. rewrite A in Es. discriminate.
      * destruct Hb as [[k [Hk [E [Hst Hf]]]] | [E Hf]].
        -- left. exists k. split; [lia|]. split; [exact E|]. split; [exact Hst|].
           intros j Hj Hs. destruct (Nat.eq_dec j m) as [->|D]; [rewrite Hs in Es; discriminate|]. apply Hf; [lia|exact Hs].
        -- right. split; [exact E|]. intros j Hj Hs. destruct (Nat.eq_dec j m) as [->|D]; [rewrite Hs in Es; discriminate|]. apply Hf; [lia|exact Hs].
Qed.

Lemma findOptimal_chosen : forall (calc : nat -> fitRes) (n : nat) (tol : R), chosen calc n tol (findOptimal calc n tol).
Proof.
  intros calc n tol. unfold findOptimal. replace n with (1 + n - 1)%nat at 1 by lia. apply search_spec; [intros; lia| |lia].
  right. split; [reflexivity|intros; lia].
Qed.

(** ** Quality *)
Lemma stable_fold : forall (ps : list cx) (b : bool),
  fold_left (fun st p => if gtb (option_map fst p) (/ 10 ^ 6) then false else st) ps b = true <->
  b = true /\ forall p, In (Some p) ps -> (fst p <= / 10 ^ 6)%R.
Proof.
  induction ps as [|q ps IH]; intros b; cbn [fold_left].
  - split; [intros ->; split; [reflexivity|intros p []]|tauto].
  - rewrite IH. split.
    + intros [H1 H2]. destruct (gtb (option_map fst q) (/ 10 ^ 6)) eqn:G; [discriminate|].
      split; [exact H1|]. intros p [E|Hp]; [|apply H2; exact Hp]. subst q. cbn in G. destruct (Rlt_dec _ _); [discriminate|lra].
    + intros [H1 H2]. split; [|intros p Hp; apply H2; right; exact Hp].
      destruct q as [q|]; [|exact H1]. cbn. destruct (Rlt_dec _ _) as [L|L]; [|exact H1].
      specialize (H2 q (or_introl eq_refl)). lra.
Qed.

Definition csum (l : list C) : C := fold_right Cplus (RtoC 0) l.
Lemma sumPoles_csum : forall (ps rs : list C) (s : C), length rs = length ps ->
  sumPoles ps rs s = csum (map (fun j => nth j rs (RtoC 0) / (s - nth j ps (RtoC 0))) (seq 0 (length ps))).
Proof.
  unfold sumPoles. induction ps as [|p ps IH]; intros rs s L; [reflexivity|]. destruct rs as [|r rs]; [discriminate|].
  injection L as L. cbn [combine fold_right length seq map csum nth fst snd]. rewrite IH by exact L.
  f_equal. rewrite <- seq_shift, map_map. reflexivity.
Qed.
Lemma fold_cadd : forall (h : nat -> C) (g : nat -> cx) (l : list nat) (acc : C),
  (forall j, In j l -> g j = Some (h j)) ->
  fold_left (fun acc j => cadd acc (g j)) l (Some acc) = Some (acc + csum (map h l)).
Proof.
  intros h g. induction l as [|j l IH]; intros acc H; cbn [fold_left map csum fold_right].
  - f_equal. ring.
  - rewrite (H j (or_introl eq_refl)). cbn [cadd]. rewrite IH by (intros i Hi; apply H; right; exact Hi).
    f_equal. unfold csum. ring.
Qed.
Lemma isZero_spec : forall x : C, isZero x = true <-> x = RtoC 0.
Proof.
  intros [a b]. unfold isZero. cbn [fst snd]. destruct (Req_EM_T a 0) as [->|N].
  - destruct (Req_EM_T b 0) as [->|N]; [split; [intros _; reflexivity|reflexivity]|].
    split; [discriminate|]. intros E. injection E as E. contradiction.
  - split; [discriminate|]. intros E. injection E as E E2. contradiction.
Qed.
Lemma Cminus_eq0 : forall a b : C, a - b = RtoC 0 -> a = b.
Proof. intros a b H. replace a with (a - b + b) by ring. rewrite H. ring. Qed.
Lemma fitAt_some : forall (s : C) (ps rs : list C), length rs = length ps -> ~ In s ps ->
  fitAt (Some s) (map Some ps) (map Some rs) (length ps) = Some (sumPoles ps rs s).
Proof.
  intros s ps rs L Hs. unfold fitAt.
  rewrite (fold_cadd (fun j => nth j rs (RtoC 0) / (s - nth j ps (RtoC 0)))).
  - f_equal. rewrite (sumPoles_csum _ _ _ L). ring.
  - intros j Hj. apply in_seq in Hj.
    rewrite (nth_indep (map Some rs) None (Some (RtoC 0))) by (rewrite map_length; lia).
    rewrite (nth_indep (map Some ps) None (Some (RtoC 0))) by (rewrite map_length; lia).
    rewrite !map_nth. cbn [csub cdiv].
    destruct (isZero (s - nth j ps (RtoC 0))) eqn:Z; [|reflexivity].
    apply isZero_spec in Z. apply Cminus_eq0 in Z. exfalso. apply Hs. rewrite Z. apply nth_In. lia.
Qed.
Lemma max_fold : forall (f : nat -> R) (e : nat -> option R) (l : list nat) (m : R), (forall k, In k l -> e k = Some (f k)) ->
  let r := fold_left (fun m k => let x := e k in if gtb x m then match x with Some x => x | None => m end else m) l m in
  (m <= r)%R /\ (forall k, In k l -> (f k <= r)%R) /\ (r = m \/ exists k, In k l /\ r = f k).
Proof.
  intros f e. induction l as [|k l IH]; intros m H; cbn [fold_left].
  - cbv zeta. split; [lra|]. split; [intros k []|left; reflexivity].
  - rewrite (H k (or_introl eq_refl)). cbn [gtb].
    assert (H' : forall i, In i l -> e i = Some (f i)) by (intros i Hi; apply H; right; exact Hi).
    destruct (Rlt_dec m (f k)) as [L|L].
    + destruct (IH (f k) H') as [A [B D]]. cbv zeta in *. split; [lra|]. split.
      * intros i [<-|Hi]; [exact A|apply B; exact Hi].
      * right. destruct D as [D|[i [Hi D]]]; [exists k; split; [left; reflexivity|exact D]|exists i; split; [right; exact Hi|exact D]].
    + destruct (IH m H') as [A [B D]]. cbv zeta in *. split; [exact A|]. split.
      * intros i [<-|Hi]; [lra|apply B; exact Hi].
      * destruct D as [D|[i [Hi D]]]; [left; exact D|right; exists i; split; [right; exact Hi|exact D]].
Qed.
Lemma errAt_some : forall (s z : C) (ps rs : list C), length rs = length ps -> ~ In s ps ->
  errAt (Some s) (Some z) (map Some ps) (map Some rs) (length ps) = Some (relErr ps rs s z).
Proof. intros s z ps rs L Hs. unfold errAt. rewrite (fitAt_some s ps rs L Hs). reflexivity. Qed.

Lemma quality_true : forall (ss zs ps rs : list C), length rs = length ps -> length zs = length ss -> (forall s, In s ss -> ~ In s ps) ->
  let q := checkQuality (map Some ss) (map Some zs) (map Some ps) (map Some rs) (length ps) in
  (forall s z, In (s, z) (combine ss zs) -> (relErr ps rs s z <= f_err q)%R) /\
  (f_err q = 0%R \/ exists s z, In (s, z) (combine ss zs) /\ f_err q = relErr ps rs s z) /\
  (f_stable q = true <-> forall p, In p ps -> (fst p <= / 10 ^ 6)%R) /\
  f_poles q = map Some ps /\ f_res q = map Some rs /\ f_N q = Z.of_nat (length ps).
Proof.
  intros ss zs ps rs L Lz Hs q.
  assert (He : forall k, In k (seq 0 (length (map Some ss))) ->
    errAt (nth k (map Some ss) None) (nth k (map Some zs) None) (map Some ps) (map Some rs) (length ps) =
    Some (relErr ps rs (nth k ss (RtoC 0)) (nth k zs (RtoC 0)))).
  { intros k Hk. apply in_seq in Hk. rewrite map_length in Hk.
    rewrite (nth_indep (map Some ss) None (Some (RtoC 0))) by (rewrite map_length; lia).
    rewrite (nth_indep (map Some zs) None (Some (RtoC 0))) by (rewrite map_length; lia).
    rewrite !map_nth. apply errAt_some; [exact L|]. apply Hs. apply nth_In. lia. }
  pose proof (max_fold _ _ _ 0%R He) as [A [B D]]. cbv zeta in A, B, D.
  split; [|split; [|split]].
  - intros s z Hin. destruct (In_nth _ _ (RtoC 0, RtoC 0) Hin) as [k [Hk E]].
    rewrite combine_length, Lz, Nat.min_id in Hk. rewrite combine_nth in E by (symmetry; exact Lz). injection E as E1 E2.
    rewrite <- E1, <- E2. apply (B k). apply in_seq. rewrite map_length. lia.
  - destruct D as [D|[k [Hk D]]]; [left; exact D|]. right. apply in_seq in Hk. rewrite map_length in Hk.
    exists (nth k ss (RtoC 0)), (nth k zs (RtoC 0)). split; [|exact D].
    rewrite <- combine_nth by (symmetry; exact Lz). apply nth_In. rewrite combine_length, Lz, Nat.min_id. lia.
  - unfold q, checkQuality. cbn [f_stable]. rewrite stable_fold. split.
    + intros [_ H] p Hp. apply H. apply in_map. exact Hp.
    + intros H. split; [reflexivity|]. intros p Hp. apply in_map_iff in Hp as [p' [E Hp]]. injection E as ->. apply H. exact Hp.
  - repeat split.
Qed.

(** Source collections behave as values. *)
From Coq Require Import ZArith List Bool Lia.
From Verif Require Import Common Coll_Model Coll_Spec.
Import ListNotations.
Local Open Scope Z_scope.

Section P.
Variable A : Type.
Notation cst := (cst A). Notation bank := (bank A).
Definition rep (h : Z -> option A) (p : option Z) (o : option A) : Prop :=
  match p, o with None, None => True | Some a, Some v => h a = Some v | _, _ => False end.
Definition owns (s : cst) (c : Z) (k : nat) (a : Z) : Prop := nth_error (c_env s c) k = Some (Some a).
Definition inv (s : cst) (b : bank) : Prop :=
  (forall c, Forall2 (rep (c_heap s)) (c_env s c) (b c)) /\
  (forall c c' k k' a, owns s c k a -> owns s c' k' a -> c = c' /\ k = k') /\
  (forall c k a, owns s c k a -> a < c_next s).
Lemma setF_same : forall {B} (f : Z -> B) k v, setF f k v k = v.
Proof. intros. unfold setF. rewrite Z.eqb_refl. reflexivity. Qed.
Lemma setF_other : forall {B} (f : Z -> B) k v j, j <> k -> setF f k v j = f j.
Proof. intros. unfold setF. destruct (Z.eqb_spec j k); [contradiction|reflexivity]. Qed.
Lemma put_same : forall (b : bank) c l, put A b c l c = l.
Proof. intros. unfold put. rewrite Z.eqb_refl. reflexivity. Qed.
Lemma put_other : forall (b : bank) c l j, j <> c -> put A b c l j = b j.
Proof. intros. unfold put. destruct (Z.eqb_spec j c); [contradiction|reflexivity]. Qed.
Lemma rep_ext : forall h h' l r, Forall2 (rep h) l r -> (forall k a, nth_error l k = Some (Some a) -> h' a = h a) -> Forall2 (rep h') l r.
Proof.
  intros h h' l r F. induction F as [|p o l r Hp F IH]; intros H; [constructor|]. constructor.
  - destruct p as [a|], o as [v|]; try exact Hp. cbn in *. rewrite (H 0%nat a eq_refl). exact Hp.
  - apply IH. intros k a Hk. apply (H (S k) a Hk).
Qed.
Lemma inv_add : forall s b c v, inv s b -> inv (addTo A s c v) (put A b c (b c ++ [Some v])).
Proof.
  intros s b c v (R & U & F). unfold addTo, alloc. cbn [c_heap c_next c_env]. split; [|split].
  - intros j. cbn [c_heap c_env]. assert (X : Forall2 (rep (setF (c_heap s) (c_next s) (Some v))) (c_env s j) (b j)).
    { apply (rep_ext (c_heap s)); [apply R|]. intros k a Ha. apply setF_other. pose proof (F j k a Ha). lia. }
    destruct (Z.eq_dec j c) as [->|N]; [rewrite setF_same, put_same|rewrite setF_other, put_other by exact N; exact X].
    apply Forall2_app; [exact X|]. constructor; [|constructor]. cbn. apply setF_same.
  - assert (Old : forall j k a, nth_error (setF (c_env s) c (c_env s c ++ [Some (c_next s)]) j) k = Some (Some a) -> owns s j k a \/ (j = c /\ k = length (c_env s c) /\ a = c_next s)).
    { intros j k a H. destruct (Z.eq_dec j c) as [->|N]; [rewrite setF_same in H|rewrite setF_other in H by exact N; left; exact H].
      destruct (Nat.lt_ge_cases k (length (c_env s c))) as [L|L]; [rewrite nth_error_app1 in H by exact L; left; exact H|].
      rewrite nth_error_app2 in H by exact L. destruct (k - length (c_env s c))%nat as [|n] eqn:E; cbn in H; [|destruct n; discriminate].
      injection H as <-. right. repeat split; lia. }
    intros j j' k k' a H H'. unfold owns in H, H'. cbn [c_env] in H, H'. destruct (Old _ _ _ H) as [O1|(-> & -> & ->)], (Old _ _ _ H') as [O2|(E1 & E2 & E3)].
    + apply (U _ _ _ _ _ O1 O2).
    + pose proof (F _ _ _ O1). lia.
    + pose proof (F _ _ _ O2). lia.
    + subst. auto.
  - intros j k a H. unfold owns in H. cbn [c_env c_next] in *. destruct (Z.eq_dec j c) as [->|N]; [rewrite setF_same in H|rewrite setF_other in H by exact N; pose proof (F j k a H); lia].
    destruct (Nat.lt_ge_cases k (length (c_env s c))) as [L|L]; [rewrite nth_error_app1 in H by exact L; pose proof (F c k a H); lia|].
    rewrite nth_error_app2 in H by exact L. destruct (k - length (c_env s c))%nat as [|n]; cbn in H; [|destruct n; discriminate]. injection H as <-. lia.
Qed.
Lemma free_other : forall l h a, (forall k, nth_error l k <> Some (Some a)) -> fold_left (fun (h : Z -> option A) p => match p with Some a => setF h a None | None => h end) l h a = h a.
Proof.
  induction l as [|p l IH]; intros h a H; [reflexivity|]. cbn [fold_left]. rewrite IH by (intros k; apply (H (S k))).
  destruct p as [x|]; [|reflexivity]. apply setF_other. intros ->. apply (H 0%nat). reflexivity.
Qed.
Lemma inv_clear : forall s b c, inv s b -> inv (clear A s c) (put A b c []).
Proof.
  intros s b c (R & U & F). unfold clear. split; [|split]; cbn [c_heap c_next c_env].
  - intros j. destruct (Z.eq_dec j c) as [->|N]; [rewrite setF_same, put_same; constructor|rewrite setF_other, put_other by exact N].
    apply (rep_ext (c_heap s)); [apply R|]. intros k a Ha. apply free_other. intros k' Hk'. destruct (U j c k k' a Ha Hk') as (E & _). contradiction.
  - intros j j' k k' a H H'. unfold owns in H, H'. cbn [c_env] in H, H'.
    destruct (Z.eq_dec j c) as [->|N]; [rewrite setF_same in H; destruct k; discriminate|rewrite setF_other in H by exact N].
    destruct (Z.eq_dec j' c) as [->|N']; [rewrite setF_same in H'; destruct k'; discriminate|rewrite setF_other in H' by exact N']. apply (U _ _ _ _ _ H H').
  - intros j k a H. unfold owns in H. cbn [c_env] in H. destruct (Z.eq_dec j c) as [->|N]; [rewrite setF_same in H; destruct k; discriminate|rewrite setF_other in H by exact N]. apply (F _ _ _ H).
Qed.
Lemma inv_ext : forall s b b', inv s b -> (forall c, b c = b' c) -> inv s b'.
Proof. intros s b b' (R & U & F) E. split; [|split; assumption]. intros c. rewrite <- E. apply R. Qed.
Lemma clone_loop : forall c c', c <> c' -> forall l r s b, inv s b -> Forall2 (rep (c_heap s)) l r -> ~ In None r ->
  (forall k a, nth_error l k = Some (Some a) -> a < c_next s) ->
  exists s', foldM (fun s p => match p with None => UB | Some a => match c_heap s a with None => UB | Some v => Ok (addTo A s c v) end end) l s = Ok s' /\
    inv s' (put A b c (b c ++ r)).
Proof.
  intros c c' Hc l r. revert l. induction r as [|o r IH]; intros l s b I F2 NN Fr.
  - inversion F2; subst. exists s. split; [reflexivity|]. rewrite app_nil_r. apply (inv_ext s b); [exact I|]. intros j. unfold put. destruct (Z.eqb_spec j c); congruence.
  - inversion F2 as [|p o' l' r' Hp F2' E1 E2]; subst. destruct o as [v|]; [|exfalso; apply NN; left; reflexivity]. destruct p as [a|]; [|contradiction]. cbn in Hp. cbn [foldM]. rewrite Hp. cbn [bind].
    destruct (IH l' (addTo A s c v) (put A b c (b c ++ [Some v])) (inv_add s b c v I)) as (s' & E & I').
    + apply (rep_ext (c_heap s)); [exact F2'|]. intros k x Hx. unfold addTo, alloc. cbn [c_heap]. apply setF_other. pose proof (Fr (S k) x Hx). lia.
    + intros X. apply NN. right. exact X.
    + intros k x Hx. unfold addTo, alloc. cbn [c_next]. pose proof (Fr (S k) x Hx). lia.
    + exists s'. split; [exact E|]. apply (inv_ext _ _ _ I'). intros j. destruct (Z.eq_dec j c) as [->|N]; [rewrite !put_same, <- app_assoc; reflexivity|rewrite !put_other by exact N; reflexivity].
Qed.
Lemma inv_copy : forall s b c c', inv s b -> c <> c' -> full A (b c') -> exists s', copyTo A s c c' = Ok s' /\ inv s' (put A b c (b c')).
Proof.
  intros s b c c' I Hc Fu. unfold copyTo, cloneFrom. pose proof (inv_clear s b c I) as I1. pose proof I1 as (R & U & F).
  destruct (clone_loop c c' Hc (c_env (clear A s c) c') (put A b c [] c') (clear A s c) (put A b c []) I1 (R c')) as (s' & E & I').
  - rewrite put_other by congruence. exact Fu.
  - intros k a H. apply (F c' k a H).
  - exists s'. split; [exact E|]. apply (inv_ext _ _ _ I'). intros j. destruct (Z.eq_dec j c) as [->|N]; [rewrite !put_same, put_other by congruence; reflexivity|rewrite !put_other by exact N; reflexivity].
Qed.
Lemma inv_move : forall s b c c', inv s b -> c <> c' -> inv (moveTo A s c c') (put A (put A b c' (map (fun _ => None) (b c'))) c (b c')).
Proof.
  intros s b c c' I Hc. pose proof (inv_clear s b c I) as (R & U & F). unfold moveTo. set (s1 := clear A s c) in *.
  destruct (Z.eqb_spec c c') as [|_]; [contradiction|].
  assert (Ev : forall j k a, nth_error (setF (setF (c_env s1) c' (map (fun _ => None) (c_env s1 c'))) c (c_env s1 c') j) k = Some (Some a) ->
     (j = c /\ owns s1 c' k a) \/ (j <> c /\ j <> c' /\ owns s1 j k a)).
  { intros j k a H. destruct (Z.eq_dec j c) as [->|N]; [rewrite setF_same in H; left; auto|]. rewrite setF_other in H by exact N.
    destruct (Z.eq_dec j c') as [->|N']; [|rewrite setF_other in H by exact N'; right; auto]. rewrite setF_same in H. rewrite nth_error_map in H. destruct (nth_error (c_env s1 c') k); discriminate. }
  split; [|split]; cbn [c_heap c_next c_env].
  - intros j. destruct (Z.eq_dec j c) as [->|N].
    + rewrite setF_same, put_same. specialize (R c'). rewrite put_other in R by congruence. exact R.
    + rewrite setF_other, put_other by exact N. destruct (Z.eq_dec j c') as [->|N'].
      * rewrite setF_same, put_same. specialize (R c'). rewrite put_other in R by congruence. clear - R. induction R; cbn; constructor; [exact Logic.I|assumption].
      * rewrite setF_other, put_other by exact N'. specialize (R j). rewrite put_other in R by exact N. exact R.
  - intros j j' k k' a H H'. unfold owns in H, H'. cbn [c_env] in H, H'. destruct (Ev _ _ _ H) as [(-> & O1)|(N1 & N2 & O1)], (Ev _ _ _ H') as [(-> & O2)|(N3 & N4 & O2)]; destruct (U _ _ _ _ _ O1 O2) as (E1 & E2); subst; auto; contradiction.
  - intros j k a H. unfold owns in H. cbn [c_env] in H. destruct (Ev _ _ _ H) as [(-> & O1)|(_ & _ & O1)]; apply (F _ _ _ O1).
Qed.
Lemma inv_mut : forall s b c k v0 v, inv s b -> 0 <= k -> nth_error (b c) (Z.to_nat k) = Some (Some v0) ->
  exists s', mutate A s c k v = Ok s' /\ inv s' (put A b c (firstn (Z.to_nat k) (b c) ++ [Some v] ++ skipn (S (Z.to_nat k)) (b c))).
Proof.
  intros s b c k v0 v (R & U & F) K0 Hb. unfold mutate.
  assert (X : exists a, nth_error (c_env s c) (Z.to_nat k) = Some (Some a) /\ c_heap s a = Some v0).
  { specialize (R c). revert Hb. generalize (Z.to_nat k) as n. induction R as [|p o l r Hp Fl IH]; intros n Hn; [destruct n; discriminate|]. destruct n as [|n]; [|apply IH; exact Hn].
    cbn in Hn. injection Hn as ->. destruct p as [a|]; [|contradiction]. exists a. split; [reflexivity|exact Hp]. }
  destruct X as (a & Ea & Ha). unfold zget. destruct (Z.ltb_spec k 0); [lia|]. rewrite Ea. cbn [bind]. rewrite Ha. eexists. split; [reflexivity|].
  split; [|split]; cbn [c_heap c_next c_env].
  - intros j. destruct (Z.eq_dec j c) as [->|N].
    + rewrite put_same. specialize (R c). assert (Uc : forall n n', nth_error (c_env s c) n = Some (Some a) -> nth_error (c_env s c) n' = Some (Some a) -> n = n') by (intros n n' H1 H2; apply (U c c n n' a H1 H2)).
      revert Ea Hb Uc. generalize (Z.to_nat k) as n. induction R as [|p o l r Hp Fl IH]; intros n Ea Hb Uc; [destruct n; discriminate|]. destruct n as [|n].
      * cbn in Ea. injection Ea as ->. cbn. constructor; [cbn; apply setF_same|]. apply (rep_ext (c_heap s)); [exact Fl|]. intros m x Hx. apply setF_other. intros ->. specialize (Uc 0%nat (S m) eq_refl Hx). lia.
      * cbn. constructor; [|apply IH; [exact Ea|exact Hb|intros n1 n2 H1 H2; specialize (Uc (S n1) (S n2) H1 H2); lia]].
        destruct p as [x|], o as [w|]; try exact Hp. cbn in *. rewrite setF_other; [exact Hp|]. intros ->. specialize (Uc 0%nat (S n) eq_refl Ea). lia.
    + rewrite put_other by exact N. apply (rep_ext (c_heap s)); [apply R|]. intros m x Hx. apply setF_other. intros ->. destruct (U j c m (Z.to_nat k) a Hx Ea) as (E & _). contradiction.
  - exact U.
  - exact F.
Qed.
Definition toOp (a : act A) : op A := match a with AAdd c v => OAdd c v | ACopy c c' => OCopy c c' | AMove c c' => OMove c c' | AMut c k v => OMut c k v end.
Lemma inv_exec : forall s b a, inv s b -> legal A b a -> exists s', exec A s (toOp a) = Ok s' /\ inv s' (after A b a).
Proof.
  intros s b a I L. destruct a as [c v|c c'|c c'|c k v]; cbn [toOp exec after legal] in *.
  - eexists. split; [reflexivity|]. apply inv_add. exact I.
  - destruct L as (N & Fu). apply inv_copy; assumption.
  - eexists. split; [reflexivity|]. apply inv_move; assumption.
  - destruct L as (K & v0 & Hb). apply (inv_mut s b c k v0 v I K Hb).
Qed.
Lemma inv_run : forall l s b b', inv s b -> history A b l b' -> exists s', foldM (exec A) (map toOp l) s = Ok s' /\ inv s' b'.
Proof.
  intros l s b b' I H. revert s I. induction H as [b|b a l b' L H IH]; intros s I; [exists s; split; [reflexivity|exact I]|].
  destruct (inv_exec s b a I L) as (s1 & E1 & I1). destruct (IH s1 I1) as (s2 & E2 & I2). exists s2. split; [cbn [map foldM]; rewrite E1; exact E2|exact I2].
Qed.
Lemma values_of : forall s b c l, inv s b -> b c = map Some l -> values A s c = Ok l.
Proof.
  intros s b c l (R & _ & _) E. unfold values. specialize (R c). rewrite E in R. clear E. revert R. generalize (c_env s c) as ps. induction l as [|v l IH]; intros ps R; inversion R as [|p o ps' r Hp F]; subst; [reflexivity|].
  destruct p as [a|]; [|contradiction]. cbn in Hp. cbn [mapM]. rewrite Hp. cbn [bind]. rewrite (IH ps' F). reflexivity.
Qed.
Lemma values_hole : forall s b c, inv s b -> In None (b c) -> values A s c = UB.
Proof.
  intros s b c (R & _ & _) H. unfold values. specialize (R c). revert H. induction R as [|p o l r Hp F IH]; intros H; [contradiction|]. cbn [mapM]. destruct H as [->|H].
  - destruct p; [contradiction|reflexivity].
  - destruct p as [a|], o as [v|]; try contradiction; [|reflexivity]. cbn in Hp. rewrite Hp. cbn [bind]. rewrite (IH H). reflexivity.
Qed.
Lemma coll_run : forall l b, history A (fun _ => []) l b -> exists s, execAll A (map toOp l) = Ok s /\
  forall c, (forall vs, b c = map Some vs -> values A s c = Ok vs) /\ (In None (b c) -> values A s c = UB).
Proof.
  intros l b H. destruct (inv_run l (mkC (fun _ => None) 0 (fun _ => [])) (fun _ => []) b) as (s & E & I); [|exact H|].
  - split; [|split]; cbn; [constructor| |]; intros; unfold owns in *; cbn in *; destruct k; discriminate.
  - exists s. split; [exact E|]. intros c. split; [intros vs Hv; apply (values_of s b c vs I Hv)|apply (values_hole s b c I)].
Qed.
(** Whatever happens to other collections, a collection keeps its values. *)
Definition touches (c : Z) (a : act A) : bool :=
  match a with AAdd d _ => d =? c | ACopy d _ => d =? c | AMove d d' => (d =? c) || (d' =? c) | AMut d _ _ => d =? c end.
Lemma untouched : forall l b b' c, history A b l b' -> (forall a, In a l -> touches c a = false) -> b' c = b c.
Proof.
  intros l b b' c H. induction H as [b|b a l b' L H IH]; intros N; [reflexivity|]. rewrite IH by (intros x X; apply N; right; exact X).
  pose proof (N a (or_introl eq_refl)) as T. destruct a as [d v|d d'|d d'|d k v]; cbn [touches after] in *; try (apply Z.eqb_neq in T; rewrite put_other by congruence; reflexivity).
  apply orb_false_iff in T. destruct T as (T1 & T2). apply Z.eqb_neq in T1, T2. rewrite !put_other by congruence. reflexivity.
Qed.
Lemma history_app : forall l b b' m b'', history A b l b' -> history A b' m b'' -> history A b (l ++ m) b''.
Proof. intros l b b' m b'' H. induction H; intros K; [exact K|]. cbn. constructor; auto. Qed.
Lemma copy_independent : forall l b c c' m b' vs, history A (fun _ => []) l b -> c <> c' -> b c' = map Some vs ->
  history A (after A b (ACopy c c')) m b' ->
  exists s, execAll A (map toOp (l ++ [ACopy c c'] ++ m)) = Ok s /\
    ((forall a, In a m -> touches c a = false) -> values A s c = Ok vs) /\ ((forall a, In a m -> touches c' a = false) -> values A s c' = Ok vs).
Proof.
  intros l b c c' m b' vs H Hc Hb Hm.
  assert (HH : history A (fun _ => []) (l ++ [ACopy c c'] ++ m) b').
  { apply (history_app l _ b); [exact H|]. cbn. constructor; [|exact Hm]. cbn. split; [exact Hc|]. unfold full. rewrite Hb. intros X. apply in_map_iff in X. destruct X as (x & E & _). discriminate. }
  destruct (coll_run _ _ HH) as (s & E & V). exists s. split; [exact E|]. split; intros T.
  - apply (V c). rewrite (untouched m _ b' c Hm T). cbn [after]. rewrite put_same. exact Hb.
  - apply (V c'). rewrite (untouched m _ b' c' Hm T). cbn [after]. rewrite put_other by congruence. exact Hb.
Qed.
(** Assignment of a collection to itself. *)
Lemma self_copy : forall s c, exists s', copyTo A s c c = Ok s' /\ values A s' c = Ok [].
Proof. intros s c. unfold copyTo, cloneFrom. cbn [clear c_env]. rewrite setF_same. eexists. split; [reflexivity|]. unfold values. cbn [clear c_env]. rewrite setF_same. reflexivity. Qed.
End P.

(** A history with two collections: the first is copied, then both change. *)
Definition exActs : list (act Z) := [AAdd 0 10; AAdd 0 20; ACopy 1 0; AAdd 0 30; AMut 1 0 99; AMove 2 0].
Definition exBank : bank Z := fun c => if c =? 0 then [None; None; None] else if c =? 1 then [Some 99; Some 20] else if c =? 2 then [Some 10; Some 20; Some 30] else [].
Lemma ex_history : exists b, history Z (fun _ => []) exActs b /\ forall c, b c = exBank c.
Proof.
  eexists. split.
  - repeat (apply h_cons; [cbn; try exact I; try (split; [lia|]); try lia|]); try apply h_nil.
    + unfold full. cbn. intros [X|[X|[]]]; discriminate.
    + eexists. reflexivity.
  - intros c. unfold exBank. cbn. unfold put. destruct (Z.eqb_spec c 2) as [->|]; [reflexivity|]. destruct (Z.eqb_spec c 0) as [->|]; [reflexivity|].
    destruct (Z.eqb_spec c 1) as [->|]; reflexivity.
Qed.
Lemma ex_run : exists s, execAll Z (map (toOp Z) exActs) = Ok s /\ values Z s 1 = Ok [99; 20] /\ values Z s 2 = Ok [10; 20; 30] /\ values Z s 0 = UB.
Proof. eexists. split; [reflexivity|]. repeat split; reflexivity. Qed.
Lemma ex_self : exists s, execAll Z [OAdd 0 10; OCopy 0 0] = Ok s /\ values Z s 0 = Ok [].
Proof. eexists. split; reflexivity. Qed.

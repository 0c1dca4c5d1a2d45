(** Interleavings of file operations: what a path holds after every schedule. *)
From Coq Require Import String ZArith List Bool Lia Decimal DecimalString DecimalNat Arith.
From Verif Require Import Common Output_Model.
Import ListNotations.
Local Open Scope list_scope.
Local Open Scope nat_scope.

(** ** Strings *)
Lemma nonnil : forall n, Nat.to_uint n <> Nil.
Proof.
  intros n E. pose proof (DecimalNat.Unsigned.of_to n) as H. rewrite E in H. cbn in H. subst n. discriminate E.
Qed.
Lemma zeroEmpty : forall d, d <> Nil -> NilZero.string_of_uint d = NilEmpty.string_of_uint d.
Proof. intros d H. destruct d; try reflexivity. congruence. Qed.
Definition valueOf (s : string) : option nat := option_map Nat.of_uint (NilEmpty.uint_of_string s).
Lemma value_to_string : forall n, valueOf (to_string n) = Some n.
Proof.
  intro n. unfold valueOf, to_string. rewrite zeroEmpty by apply nonnil. rewrite NilEmpty.usu. cbn [option_map].
  f_equal. apply DecimalNat.Unsigned.of_to.
Qed.
Lemma value_zeros : forall k s, valueOf (zeros k ++ s)%string = valueOf s.
Proof.
  induction k; intro s; [reflexivity|]. rewrite <- (IHk s). cbn [zeros String.append]. unfold valueOf.
  cbn [NilEmpty.uint_of_string]. destruct (NilEmpty.uint_of_string (zeros k ++ s)%string); reflexivity.
Qed.
Lemma to_string_inj : forall n m, to_string n = to_string m -> n = m.
Proof. intros n m H. pose proof (value_to_string n) as A. rewrite H, value_to_string in A. congruence. Qed.
Lemma padded_inj : forall k n m, to_padded_string n k = to_padded_string m k -> n = m.
Proof.
  intros k n m H. unfold to_padded_string in H.
  assert (A : valueOf (to_string n) = valueOf (to_string m)).
  { rewrite <- (value_zeros (k - String.length (to_string n))), <- (value_zeros (k - String.length (to_string m)) (to_string m)). now rewrite H. }
  rewrite !value_to_string in A. congruence.
Qed.
Lemma app_str_inj : forall a b c : string, (a ++ b)%string = (a ++ c)%string -> b = c.
Proof. induction a; cbn; intros b c H; [exact H|]. injection H. apply IHa. Qed.
Lemma app_str_len : forall a b : string, String.length (a ++ b)%string = String.length a + String.length b.
Proof. induction a; cbn; intro b; [reflexivity|]. now rewrite IHa. Qed.
Lemma app_str_r : forall c a b : string, (a ++ c)%string = (b ++ c)%string -> a = b.
Proof.
  intros c a. induction a as [|x a I]; intros [|y b] H; cbn in H.
  - reflexivity.
  - exfalso. apply (f_equal String.length) in H. cbn in H. rewrite app_str_len in H. lia.
  - exfalso. apply (f_equal String.length) in H. cbn in H. rewrite app_str_len in H. lia.
  - injection H as E H. subst y. f_equal. now apply I.
Qed.

(** ** Paths *)
Lemma prefix_refl : forall p, prefixb p p = true.
Proof. induction p as [|a p I]; cbn; [reflexivity|]. destruct (string_dec a a); congruence. Qed.
Lemma prefix_iff : forall p q, prefixb p q = true <-> exists r, q = p ++ r.
Proof.
  induction p as [|a p I]; intro q; cbn.
  - split; [intros _; now exists q|reflexivity].
  - destruct q as [|b q]; [split; [discriminate|intros [r H]; discriminate]|].
    destruct (string_dec a b) as [E|N].
    + subst b. rewrite I. split; intros [r H]; exists r; [now rewrite H|]. now injection H.
    + split; [discriminate|]. intros [r H]. injection H. congruence.
Qed.
Lemma prefix_app : forall p q r, prefixb (p ++ q) (p ++ r) = prefixb q r.
Proof. induction p as [|a p I]; intros q r; [reflexivity|]. cbn. destruct (string_dec a a); [apply I|congruence]. Qed.
Lemma prefix_trans : forall p q r, prefixb p q = true -> prefixb q r = true -> prefixb p r = true.
Proof. intros p q r H K. apply prefix_iff in H, K. apply prefix_iff. destruct H as [a H], K as [b K]. subst. exists (a ++ b). now rewrite app_assoc. Qed.
Lemma prefix_long : forall p q, length q < length p -> prefixb p q = false.
Proof.
  intros p q H. destruct (prefixb p q) eqn:E; [|reflexivity]. apply prefix_iff in E. destruct E as [r ->].
  rewrite app_length in H. lia.
Qed.
Lemma prefix_snoc : forall p d a, prefixb p d = true -> prefixb p (d ++ a) = true.
Proof. intros p d a H. apply prefix_iff in H. destruct H as [r ->]. apply prefix_iff. exists (r ++ a). now rewrite app_assoc. Qed.
Lemma prefixes_in : forall p q, In q (prefixes p) <-> prefixb q p = true.
Proof.
  induction p as [|a p I]; intro q; cbn.
  - split; [intros [<-|[]]; reflexivity|]. destruct q; cbn; [now left|discriminate].
  - rewrite in_map_iff. split.
    + intros [<-|[r [<- H]]]; [reflexivity|]. cbn. destruct (string_dec a a); [now apply I|congruence].
    + destruct q as [|b q]; cbn; [now left|]. destruct (string_dec b a) as [->|]; [|discriminate].
      intro H. right. exists q. split; [reflexivity|now apply I].
Qed.

(** ** Single operations *)
Definition setsFile (o : op) (f : path) : bool :=
  match o with OTrunc p _ | OAppend p _ => if path_eq p f then true else false | _ => false end.
Definition removes (o : op) (f : path) : bool := match o with ORemove p => prefixb p f | _ => false end.
Definition makes (o : op) (f : path) : bool := match o with OMkdirs p => prefixb f p | _ => false end.

Lemma exec_other : forall o s s' f, exec o s = Ok s' -> setsFile o f = false -> removes o f = false -> makes o f = false -> s' f = s f.
Proof.
  intros o s s' f H A B C. destruct o as [p|p|p l|p l|]; cbn in *.
  - unfold mkdirs in H. destruct existsb; [discriminate|]. injection H as <-. now rewrite C.
  - injection H as <-. now rewrite B.
  - destruct (path_eq p f); [discriminate|]. destruct (isDir s (removelast p)); [|now injection H as <-].
    destruct (s p) as [[]|]; injection H as <-; try reflexivity; unfold setNode; destruct (path_eq f p); congruence.
  - destruct (path_eq p f); [discriminate|]. destruct (isDir s (removelast p)); [|now injection H as <-].
    destruct (s p) as [[]|]; injection H as <-; try reflexivity; unfold setNode; destruct (path_eq f p); congruence.
  - now injection H as <-.
Qed.
Lemma isDir_iff : forall s d, isDir s d = true <-> d = [] \/ s d = Some Dir.
Proof.
  intros s d. destruct d as [|a d]; cbn; [tauto|]. destruct (s (a :: d)) as [[]|]; split; intro H; try discriminate; auto;
    destruct H; congruence.
Qed.
Lemma exec_dir : forall o s s' d, exec o s = Ok s' -> removes o d = false -> isDir s d = true -> isDir s' d = true.
Proof.
  intros o s s' d H B C. apply isDir_iff in C. apply isDir_iff. destruct C as [C|C]; [now left|right].
  destruct o as [p|p|p l|p l|]; cbn in *.
  - unfold mkdirs in H. destruct existsb; [discriminate|]. injection H as <-. now destruct (prefixb d p).
  - injection H as <-. now rewrite B.
  - destruct (isDir s (removelast p)); [|now injection H as <-].
    destruct (path_eq d p) as [<-|N]; [rewrite C in H; now injection H as <-|].
    destruct (s p) as [[]|]; injection H as <-; try assumption; unfold setNode; destruct (path_eq d p); congruence.
  - destruct (isDir s (removelast p)); [|now injection H as <-].
    destruct (path_eq d p) as [<-|N]; [rewrite C in H; now injection H as <-|].
    destruct (s p) as [[]|]; injection H as <-; try assumption; unfold setNode; destruct (path_eq d p); congruence.
  - now injection H as <-.
Qed.
Lemma exec_makes : forall o s s' d, exec o s = Ok s' -> makes o d = true -> isDir s' d = true.
Proof.
  intros o s s' d H M. destruct o; try discriminate. cbn in *. unfold mkdirs in H. destruct existsb; [discriminate|].
  injection H as <-. apply isDir_iff. right. now rewrite M.
Qed.

(** ** Schedules, rank by rank *)
Inductive fin (n : nat) : fs -> (nat -> list op) -> fs -> Prop :=
| fin_done : forall s f, (forall r, r < n -> f r = []) -> fin n s f s
| fin_op : forall s s1 s2 f f' r o, r < n -> f r = o :: f' r -> (forall q, q < n -> q <> r -> f' q = f q) ->
    o <> OBarrier -> exec o s = Ok s1 -> fin n s1 f' s2 -> fin n s f s2
| fin_bar : forall s s2 f f', 0 < n -> (forall r, r < n -> f r = OBarrier :: f' r) -> fin n s f' s2 -> fin n s f s2.

Lemma nth_upd_g : forall {A} (l : list A) r x q d, r < length l -> nth q (upd l r x) d = if Nat.eqb q r then x else nth q l d.
Proof.
  induction l as [|a l I]; intros r x q d H; [cbn in H; lia|]. destruct r; cbn.
  - destruct q; reflexivity.
  - destruct q; [reflexivity|]. cbn in H. cbn. apply I. lia.
Qed.
Lemma ends_fin : forall s todo s', ends s todo s' -> fin (length todo) s (fun r => nth r todo []) s'.
Proof.
  intros s todo s' (done & H & D). remember (mkWorld s todo) as w eqn:Ew. remember (mkWorld s' done) as w' eqn:Ew'.
  revert s todo Ew. induction H as [w|w w1 w2 St Ss IH]; intros s todo Ew.
  - rewrite Ew in Ew'. injection Ew' as -> ->. apply fin_done. intros r R. rewrite Forall_forall in D. apply D. now apply nth_In.
  - subst w. specialize (IH Ew'). inversion St as [a b td r o rest E N X Q1 Q2|a td rest NE E Q1 Q2]; subst.
    + assert (R : r < length todo) by (apply nth_error_Some; congruence).
      specialize (IH _ _ eq_refl). rewrite upd_length in IH.
      eapply fin_op with (r := r) (f' := fun q => nth q (upd todo r rest) []); try eassumption.
      * rewrite nth_upd_g, Nat.eqb_refl by assumption. now apply nth_error_nth.
      * intros q Q N'. cbv beta. rewrite nth_upd_g by assumption. destruct (Nat.eqb_spec q r); congruence.
    + specialize (IH _ _ eq_refl). rewrite map_length. apply fin_bar with (f' := fun r => nth r rest []).
      * destruct rest; [now destruct NE|cbn; lia].
      * intros r R. rewrite nth_indep with (d' := OBarrier :: []) by (rewrite map_length; exact R).
        now rewrite map_nth with (f := cons OBarrier).
      * exact IH.
Qed.
Lemma fin_ext : forall n s f s', fin n s f s' -> forall g, (forall r, r < n -> g r = f r) -> fin n s g s'.
Proof.
  intros n s f s' H. induction H; intros g G.
  - apply fin_done. intros r R. rewrite G; auto.
  - eapply fin_op with (f' := f'); eauto; [now rewrite G|]. intros q Q N. rewrite G; auto.
  - eapply fin_bar with (f' := f'); auto. intros r R. rewrite G; auto.
Qed.

(** ** Barriers split a run into phases *)
Fixpoint bars (l : list op) : nat := match l with [] => 0 | OBarrier :: r => S (bars r) | _ :: r => bars r end.
Lemma bars_app : forall a b, bars (a ++ b) = bars a + bars b.
Proof. induction a as [|o a I]; intro b; [reflexivity|]. cbn. destruct o; rewrite I; reflexivity. Qed.
Definition closed (a : list op) : Prop := a = [] \/ exists b, a = b ++ [OBarrier].
Lemma closed_tail : forall o a, closed (o :: a) -> o <> OBarrier -> closed a /\ a <> [].
Proof.
  intros o a [H|[b H]] N; [discriminate|]. destruct b as [|x b]; cbn in H; injection H as -> H; [congruence|].
  subst a. split; [right; now exists b|]. now destruct b.
Qed.
Lemma closed_tail_bar : forall a, closed (OBarrier :: a) -> closed a.
Proof. intros a [H|[b H]]; [discriminate|]. destruct b as [|x b]; cbn in H; injection H as H; [subst; now left|]. right. now exists b. Qed.
Lemma closed_zero : forall a, closed a -> bars a = 0 -> a = [].
Proof. intros a [H|[b ->]] K; [assumption|]. rewrite bars_app in K. cbn in K. lia. Qed.
Lemma fin_split : forall n s f s', fin n s f s' -> forall A B k, (forall r, r < n -> f r = A r ++ B r) ->
  (forall r, r < n -> closed (A r) /\ bars (A r) = k) -> exists s1, fin n s A s1 /\ fin n s1 B s'.
Proof.
  intros n s f s' H. induction H as [s f D|s s1 s2 f f' r o R E O N X H IH|s s2 f f' P E H IH]; intros A B k FA CA.
  - exists s. split; apply fin_done; intros r R; specialize (D r R); rewrite FA in D by assumption; apply app_eq_nil in D; tauto.
  - destruct k as [|k].
    + exists s. assert (Z : forall q, q < n -> A q = []) by (intros q Q; destruct (CA q Q); now apply closed_zero).
      split; [now apply fin_done|]. eapply fin_op with (f' := f'); eauto.
      * rewrite <- E, FA, Z by assumption. reflexivity.
      * intros q Q NQ. rewrite O by assumption. rewrite FA, Z by assumption. reflexivity.
    + destruct (CA r R) as [Cr Br]. assert (Er := E). rewrite FA in Er by assumption.
      destruct (A r) as [|x a] eqn:EA; [discriminate Br|]. cbn in Er. injection Er as -> Er.
      destruct (closed_tail _ _ Cr N) as [Ca Na].
      destruct (IH (fun q => if Nat.eqb q r then a else A q) B (S k)) as (s1' & F1 & F2).
      { intros q Q. destruct (Nat.eqb_spec q r) as [->|NQ]; [now symmetry|]. rewrite O by assumption. now apply FA. }
      { intros q Q. destruct (Nat.eqb_spec q r) as [->|NQ]; [|now apply CA]. split; [assumption|]. cbn in Br. destruct o; congruence. }
      exists s1'. split; [|exact F2]. eapply fin_op with (r := r) (o := o) (f' := fun q => if Nat.eqb q r then a else A q); eauto.
      * rewrite Nat.eqb_refl. exact EA.
      * intros q Q NQ. destruct (Nat.eqb_spec q r); congruence.
  - destruct k as [|k].
    + exists s. assert (Z : forall q, q < n -> A q = []) by (intros q Q; destruct (CA q Q); now apply closed_zero).
      split; [now apply fin_done|]. eapply fin_bar with (f' := f'); eauto. intros r R. rewrite <- E by assumption. rewrite FA, Z by assumption. reflexivity.
    + assert (T : forall r, r < n -> A r = OBarrier :: tl (A r)).
      { intros r R. destruct (CA r R) as [C Bk]. specialize (E r R). rewrite FA in E by assumption. destruct (A r); [discriminate Bk|]. cbn in *. injection E as -> _. reflexivity. }
      destruct (IH (fun r => tl (A r)) B k) as (s1' & F1 & F2).
      { intros r R. specialize (E r R). rewrite FA, (T r R) in E by assumption. cbn in E. injection E as E. now symmetry. }
      { intros r R. destruct (CA r R) as [C Bk]. rewrite (T r R) in C, Bk. split; [now apply closed_tail_bar|]. cbn in Bk. congruence. }
      exists s1'. split; [|exact F2]. eapply fin_bar with (f' := fun r => tl (A r)); eauto.
Qed.

(** ** What stays *)
Lemma fin_keep : forall n s f s', fin n s f s' -> forall q,
  (forall r o, r < n -> In o (f r) -> setsFile o q = false /\ removes o q = false /\ makes o q = false) -> s' q = s q.
Proof.
  intros n s f s' H. induction H as [s f D|s s1 s2 f f' r o R E O N X H IH|s s2 f f' P E H IH]; intros q K.
  - reflexivity.
  - rewrite IH.
    + destruct (K r o R) as (A & B & C); [rewrite E; now left|]. eapply exec_other; eauto.
    + intros p x Pn I. apply (K p x Pn). destruct (Nat.eq_dec p r) as [->|NP]; [rewrite E; now right|]. now rewrite <- O.
  - apply IH. intros p x Pn I. apply (K p x Pn). rewrite E by assumption. now right.
Qed.
Lemma fin_dir : forall n s f s', fin n s f s' -> forall d, isDir s d = true ->
  (forall r o, r < n -> In o (f r) -> removes o d = false) -> isDir s' d = true.
Proof.
  intros n s f s' H. induction H as [s f D|s s1 s2 f f' r o R E O N X H IH|s s2 f f' P E H IH]; intros d Dd K.
  - assumption.
  - apply IH.
    + eapply exec_dir; eauto. apply (K r o R). rewrite E. now left.
    + intros p x Pn I. apply (K p x Pn). destruct (Nat.eq_dec p r) as [->|NP]; [rewrite E; now right|]. now rewrite <- O.
  - apply IH; [assumption|]. intros p x Pn I. apply (K p x Pn). rewrite E by assumption. now right.
Qed.

(** ** A directory removed and made again by several ranks exists at the end *)
Fixpoint guarded (m : path) (l : list op) : bool :=
  match l with [] => true | o :: r => (if removes o m then existsb (fun x => makes x m) r else true) && guarded m r end.
Lemma fin_made : forall n s f s', fin n s f s' -> forall m,
  (forall r, r < n -> guarded m (f r) = true) ->
  (isDir s m = true \/ exists r, r < n /\ existsb (fun x => makes x m) (f r) = true) -> isDir s' m = true.
Proof.
  intros n s f s' H. induction H as [s f D|s s1 s2 f f' r o R E O N X H IH|s s2 f f' P E H IH]; intros m G W.
  - destruct W as [W|(r & R & W)]; [assumption|]. rewrite D in W by assumption. discriminate.
  - apply IH.
    + intros q Q. specialize (G q Q). destruct (Nat.eq_dec q r) as [->|NQ]; [|now rewrite O]. rewrite E in G. cbn in G. apply andb_true_iff in G. tauto.
    + assert (Gr := G r R). rewrite E in Gr. cbn in Gr. apply andb_true_iff in Gr. destruct Gr as [Gr _].
      destruct (removes o m) eqn:Rm; [right; exists r; auto|].
      destruct (makes o m) eqn:Mk; [left; eapply exec_makes; eauto|].
      destruct W as [W|(q & Q & W)]; [left; eapply exec_dir; eauto|]. right. exists q. split; [assumption|].
      destruct (Nat.eq_dec q r) as [->|NQ]; [|now rewrite O]. rewrite E in W. cbn in W. now rewrite Mk in W.
  - apply IH.
    + intros q Q. specialize (G q Q). now rewrite E in G.
    + destruct W as [W|(q & Q & W)]; [now left|]. right. exists q. split; [assumption|]. now rewrite E in W.
Qed.

(** ** A removed directory that nobody writes into holds no file *)
Definition noFile (s : fs) (b : path) : Prop := forall q l, prefixb b q = true -> s q <> Some (File l).
Lemma exec_nofile : forall o s s' b, exec o s = Ok s' -> (forall q, prefixb b q = true -> setsFile o q = false) ->
  noFile s b \/ removes o b = true -> noFile s' b.
Proof.
  intros o s s' b H W K q l P. destruct K as [K|K].
  - destruct (removes o q) eqn:Rm.
    + destruct o; try discriminate. cbn in *. injection H as <-. rewrite Rm. discriminate.
    + destruct (makes o q) eqn:Mk.
      * destruct o; try discriminate. cbn in *. unfold mkdirs in H. destruct existsb; [discriminate|]. injection H as <-. rewrite Mk. discriminate.
      * rewrite (exec_other o s s' q H (W q P) Rm Mk). now apply K.
  - destruct o; try discriminate. cbn in *. injection H as <-. rewrite (prefix_trans _ _ _ K P). discriminate.
Qed.
Lemma fin_nofile : forall n s f s', fin n s f s' -> forall b,
  (forall r o q, r < n -> In o (f r) -> prefixb b q = true -> setsFile o q = false) ->
  (noFile s b \/ exists r, r < n /\ existsb (fun o => removes o b) (f r) = true) -> noFile s' b.
Proof.
  intros n s f s' H. induction H as [s f D|s s1 s2 f f' r o R E O N X H IH|s s2 f f' P E H IH]; intros b W K.
  - destruct K as [K|(r & R & K)]; [assumption|]. rewrite D in K by assumption. discriminate.
  - apply IH.
    + intros p x q Pn I. apply (W p x q Pn). destruct (Nat.eq_dec p r) as [->|NP]; [rewrite E; now right|]. now rewrite <- O.
    + assert (Wo : forall q, prefixb b q = true -> setsFile o q = false) by (intros q; apply (W r o q R); rewrite E; now left).
      destruct (removes o b) eqn:Rm; [left; eapply exec_nofile; eauto|].
      destruct K as [K|(p & Pn & K)]; [left; eapply exec_nofile; eauto|]. right. exists p. split; [assumption|].
      destruct (Nat.eq_dec p r) as [->|NP]; [|now rewrite O]. rewrite E in K. cbn in K. now rewrite Rm in K.
  - apply IH.
    + intros p x q Pn I. apply (W p x q Pn). rewrite E by assumption. now right.
    + destruct K as [K|(p & Pn & K)]; [now left|]. right. exists p. split; [assumption|]. now rewrite E in K.
Qed.

(** ** A file only one rank writes *)
Fixpoint content (f : path) (c : option (list line)) (l : list op) : option (list line) :=
  match l with
  | [] => c
  | OTrunc p x :: r => content f (if path_eq p f then Some x else c) r
  | OAppend p x :: r => content f (if path_eq p f then Some (match c with Some o => o ++ x | None => x end) else c) r
  | _ :: r => content f c r
  end.
(** Every write to [f] comes after making its directory, unless [b]. *)
Fixpoint ready (f : path) (b : bool) (l : list op) : bool :=
  match l with
  | [] => true
  | o :: r => (if setsFile o f then b else true) && ready f (b || makes o (removelast f)) r
  end.
Lemma content_app : forall f a b c, content f c (a ++ b) = content f (content f c a) b.
Proof. induction a as [|o a I]; intros b c; [reflexivity|]. cbn. destruct o; apply I. Qed.
Lemma ready_true : forall f l, ready f true l = true.
Proof. induction l as [|o l I]; [reflexivity|]. cbn. rewrite I. now destruct (setsFile o f). Qed.
Definition asNode (c : option (list line)) : option node := match c with Some l => Some (File l) | None => None end.
Lemma fin_single : forall n s t s', fin n s t s' -> forall f w c b, f <> [] -> w < n -> s f = asNode c ->
  (b = true -> isDir s (removelast f) = true) -> ready f b (t w) = true ->
  (forall r o, r < n -> In o (t r) -> removes o f = false /\ makes o f = false /\ (r <> w -> setsFile o f = false)) ->
  s' f = asNode (content f c (t w)).
Proof.
  intros n s t s' H. induction H as [s t D|s s1 s2 t t' r o R E O N X H IH|s s2 t t' P E H IH]; intros f w c b NE W Sf Db Rd K.
  - rewrite D by assumption. exact Sf.
  - assert (K' : forall q x, q < n -> In x (t' q) -> removes x f = false /\ makes x f = false /\ (q <> w -> setsFile x f = false)).
    { intros q x Q I. apply (K q x Q). destruct (Nat.eq_dec q r) as [->|NQ]; [rewrite E; now right|]. now rewrite <- O. }
    destruct (K r o R) as (Rm & Mk & Ot); [rewrite E; now left|].
    assert (RmD : removes o (removelast f) = false).
    { destruct o; try reflexivity. cbn in *. destruct (prefixb p (removelast f)) eqn:Q; [|reflexivity].
      rewrite (app_removelast_last EmptyString NE) in Rm. now rewrite (prefix_snoc _ _ _ Q) in Rm. }
    destruct (Nat.eq_dec r w) as [->|NW].
    + rewrite E in Rd |- *. cbn [ready] in Rd. apply andb_true_iff in Rd. destruct Rd as [Rb Rd].
      assert (Cstep : s1 f = asNode (match o with
                         | OTrunc p x => if path_eq p f then Some x else c
                         | OAppend p x => if path_eq p f then Some (match c with Some z => z ++ x | None => x end) else c
                         | _ => c end)).
      { destruct (setsFile o f) eqn:Sf'.
        - specialize (Db Rb). destruct o as [p|p|p l|p l|]; try discriminate; cbn in Sf'; destruct (path_eq p f) as [->|]; try discriminate; cbn in X; rewrite Db, Sf in X;
            destruct c; cbn in X; injection X as <-; unfold setNode; destruct (path_eq f f); try congruence; reflexivity.
        - rewrite (exec_other _ _ _ _ X Sf' Rm Mk), Sf. destruct o as [p|p|p l|p l|]; try reflexivity; cbn in Sf'; destruct (path_eq p f); try discriminate; reflexivity. }
      rewrite (IH f w _ (b || makes o (removelast f)) NE W Cstep).
      * destruct o; reflexivity.
      * intro Q. apply orb_true_iff in Q. destruct Q as [Q|Q]; [eapply exec_dir; eauto|eapply exec_makes; eauto].
      * exact Rd.
      * exact K'.
    + replace (t w) with (t' w) in Rd |- * by (apply O; congruence).
      apply IH with (b := b); auto.
      * rewrite (exec_other _ _ _ _ X (Ot NW) Rm Mk). exact Sf.
      * intro Q. eapply exec_dir; eauto.
  - rewrite (E w W) in Rd |- *. cbn [content]. apply IH with (b := b); auto.
    + cbn [ready setsFile makes] in Rd. rewrite orb_false_r in Rd. exact Rd.
    + intros q x Q I. apply (K q x Q). rewrite E by assumption. now right.
Qed.

(** ** A file several ranks write in full: one of them wins *)
Lemma fin_last : forall n s t s', fin n s t s' -> forall f (P : list line -> Prop),
  (forall r o, r < n -> In o (t r) -> removes o f = false /\ makes o f = false /\
     forall q l, (o = OTrunc q l -> q = f -> P l) /\ (o = OAppend q l -> q <> f)) ->
  s' f = s f \/ exists l, P l /\ s' f = Some (File l).
Proof.
  intros n s t s' H. induction H as [s t D|s s1 s2 t t' r o R E O N X H IH|s s2 t t' P' E H IH]; intros f P K.
  - now left.
  - assert (K' : forall q x, q < n -> In x (t' q) -> removes x f = false /\ makes x f = false /\
      forall p l, (x = OTrunc p l -> p = f -> P l) /\ (x = OAppend p l -> p <> f)).
    { intros q x Q I. apply (K q x Q). destruct (Nat.eq_dec q r) as [->|NQ]; [rewrite E; now right|]. now rewrite <- O. }
    destruct (IH f P K') as [Q|Q]; [|now right].
    destruct (K r o R) as (Rm & Mk & W); [rewrite E; now left|].
    destruct (setsFile o f) eqn:Sf; [|left; rewrite Q; eapply exec_other; eauto].
    destruct o as [p|p|p l|p l|]; try discriminate; cbn in Sf; destruct (path_eq p f) as [->|]; try discriminate.
    + cbn in X. destruct (isDir s (removelast f)); [|injection X as <-; now left].
      destruct (s f) as [[]|] eqn:Fs; injection X as <-; [left; now rewrite Q| |];
        right; exists l; (split; [apply (proj1 (W f l)); reflexivity|]); rewrite Q; unfold setNode; destruct (path_eq f f); congruence.
    + exfalso. now apply (proj2 (W f l)).
  - apply IH. intros q x Q I. apply (K q x Q). rewrite E by assumption. now right.
Qed.

(** ** No deadlock *)
Lemma stuck : forall n (t : nat -> list op) k, (forall r, r < n -> bars (t r) = k) ->
  (forall r, r < n -> t r = []) \/ (exists r o rest, r < n /\ t r = o :: rest /\ o <> OBarrier) \/
  (0 < n /\ forall r, r < n -> exists rest, t r = OBarrier :: rest).
Proof.
  intros n t k B.
  assert (D : (forall r, r < n -> t r = [] \/ exists rest, t r = OBarrier :: rest) \/ exists r o rest, r < n /\ t r = o :: rest /\ o <> OBarrier).
  { clear B. induction n as [|n I]; [left; intros; lia|]. destruct I as [I|(r & o & rest & R & E & N)]; [|right; exists r, o, rest; split; [lia|tauto]].
    destruct (t n) as [|o rest] eqn:E.
    - left. intros r R. destruct (Nat.eq_dec r n) as [->|]; [now left|]. apply I. lia.
    - destruct o; try (right; exists n; eexists; exists rest; split; [lia|split; [exact E|discriminate]]).
      left. intros r R. destruct (Nat.eq_dec r n) as [->|]; [right; now exists rest|]. apply I. lia. }
  destruct D as [D|D]; [|right; now left]. destruct k as [|k].
  - left. intros r R. destruct (D r R) as [E|[rest E]]; [assumption|]. specialize (B r R). rewrite E in B. discriminate.
  - destruct n; [left; intros; lia|]. right. right. split; [lia|]. intros r R. destruct (D r R) as [E|E]; [|assumption]. specialize (B r R). rewrite E in B. discriminate.
Qed.

Lemma fin_gone : forall n s t s', fin n s t s' -> forall f,
  (forall r o, r < n -> In o (t r) -> setsFile o f = false /\ makes o f = false) ->
  (s f = None \/ exists r, r < n /\ existsb (fun o => removes o f) (t r) = true) -> s' f = None.
Proof.
  intros n s t s' H. induction H as [s t D|s s1 s2 t t' r o R E O N X H IH|s s2 t t' P E H IH]; intros f W K.
  - destruct K as [K|(r & R & K)]; [assumption|]. rewrite D in K by assumption. discriminate.
  - apply IH.
    + intros p x Pn I. apply (W p x Pn). destruct (Nat.eq_dec p r) as [->|NP]; [rewrite E; now right|]. now rewrite <- O.
    + destruct (W r o R) as [Wo Mo]; [rewrite E; now left|].
      destruct (removes o f) eqn:Rm.
      { left. destruct o; try discriminate. cbn in *. injection X as <-. now rewrite Rm. }
      destruct K as [K|(p & Pn & K)]; [left; now rewrite (exec_other _ _ _ _ X Wo Rm Mo)|]. right. exists p. split; [assumption|].
      destruct (Nat.eq_dec p r) as [->|NP]; [|now rewrite O]. rewrite E in K. cbn in K. now rewrite Rm in K.
  - apply IH.
    + intros p x Pn I. apply (W p x Pn). rewrite E by assumption. now right.
    + destruct K as [K|(p & Pn & K)]; [now left|]. right. exists p. split; [assumption|]. now rewrite E in K.
Qed.
Lemma guarded_app : forall m a b, (forall o, In o a -> removes o m = false) -> guarded m (a ++ b) = guarded m b.
Proof.
  induction a as [|o a I]; intros b H; [reflexivity|]. cbn. rewrite (H o) by now left. cbn. apply I. intros; apply H; now right.
Qed.
Lemma bars_in : forall l, (forall o, In o l -> o <> OBarrier) -> bars l = 0.
Proof. induction l as [|o l I]; intro H; [reflexivity|]. cbn. destruct o; try (apply I; intros; apply H; now right). exfalso. apply (H OBarrier); [now left|reflexivity]. Qed.

(** ** Cutting programs at a barrier *)
Fixpoint upto (k : nat) (l : list op) : list op :=
  match k with
  | O => []
  | S k' => match l with [] => [] | OBarrier :: r => OBarrier :: upto k' r | o :: r => o :: upto k r end
  end.
Lemma upto_app : forall a b k, closed a -> bars a = k -> upto k (a ++ b) = a.
Proof.
  induction a as [|o a I]; intros b k C B.
  - cbn in B. subst k. now destruct b.
  - destruct o; try (assert (C' := closed_tail _ _ C ltac:(discriminate)); destruct C' as [C' N]; cbn in B; destruct k as [|k];
      [exfalso; apply N; now apply closed_zero|]; cbn; f_equal; now apply I).
    apply closed_tail_bar in C. cbn in B. destruct k as [|k]; [discriminate|]. cbn. f_equal. apply I; [assumption|congruence].
Qed.
Lemma fin_phase : forall n s t s' k (P : nat -> list op -> list op -> Prop), fin n s t s' ->
  (forall r, r < n -> exists a b, t r = a ++ b /\ closed a /\ bars a = k /\ P r a b) ->
  exists A B s1, fin n s A s1 /\ fin n s1 B s' /\ forall r, r < n -> P r (A r) (B r).
Proof.
  intros n s t s' k P H K. set (A := fun r => upto k (t r)). set (B := fun r => skipn (length (A r)) (t r)).
  assert (E : forall r, r < n -> exists a b, t r = a ++ b /\ A r = a /\ B r = b /\ closed a /\ bars a = k /\ P r a b).
  { intros r R. destruct (K r R) as (a & b & Et & C & Bk & Pr). exists a, b. assert (Ea : A r = a) by (unfold A; rewrite Et; now apply upto_app).
    repeat split; auto. unfold B. rewrite Ea, Et. now rewrite skipn_app, skipn_all, Nat.sub_diag. }
  destruct (fin_split _ _ _ _ H A B k) as (s1 & F1 & F2).
  - intros r R. destruct (E r R) as (a & b & Et & -> & -> & _). exact Et.
  - intros r R. destruct (E r R) as (a & b & _ & -> & _ & C & Bk & _). now split.
  - exists A, B, s1. repeat split; auto. intros r R. destruct (E r R) as (a & b & _ & -> & -> & _ & _ & Pr). exact Pr.
Qed.

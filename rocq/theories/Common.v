(** Shared vocabulary: outcomes of C++ code and checked array access. *)
From Coq Require Import ZArith List Lia Bool.
Import ListNotations.

(** Outcome of a C++ computation: a value, an exception, or undefined behaviour
    (out-of-bounds access, read of an uninitialised cell, integer division by
    zero, missing key on a const JSON object). *)
Inductive res (A : Type) : Type :=
| Ok (a : A)
| Throw
| UB.
Arguments Ok {A} a.
Arguments Throw {A}.
Arguments UB {A}.

Definition bind {A B} (m : res A) (f : A -> res B) : res B :=
  match m with Ok a => f a | Throw => Throw | UB => UB end.

Notation "x <- m ;; k" := (bind m (fun x => k))
  (at level 61, m at next level, right associativity).
Notation "' p <- m ;; k" := (bind m (fun p => k))
  (at level 61, p pattern, m at next level, right associativity).

(** A C++ for-loop over a list of loop indices/items, stopping at the first
    abnormal outcome. *)
Fixpoint foldM {A B} (f : B -> A -> res B) (l : list A) (b : B) : res B :=
  match l with
  | [] => Ok b
  | x :: t => bind (f b x) (foldM f t)
  end.

(** A loop that builds one value per item. *)
Fixpoint mapM {A B} (f : A -> res B) (l : list A) : res (list B) :=
  match l with
  | [] => Ok []
  | a :: t => b <- f a ;; bs <- mapM f t ;; Ok (b :: bs)
  end.

(** Checked array read [a[i]] with a C++ [int] index. *)
Definition zget {A} (l : list A) (i : Z) : res A :=
  if (i <? 0)%Z then UB
  else match nth_error l (Z.to_nat i) with Some a => Ok a | None => UB end.

Fixpoint upd {A} (l : list A) (n : nat) (a : A) : list A :=
  match l, n with
  | [], _ => []
  | _ :: t, O => a :: t
  | x :: t, S m => x :: upd t m a
  end.

(** Checked array write [a[i] = v]. *)
Definition zset {A} (l : list A) (i : Z) (a : A) : res (list A) :=
  if (i <? 0)%Z then UB
  else if (Z.to_nat i <? length l)%nat then Ok (upd l (Z.to_nat i) a) else UB.

(** Read of a cell that may be uninitialised. *)
Definition zget_init {A} (l : list (option A)) (i : Z) : res A :=
  o <- zget l i ;; match o with Some a => Ok a | None => UB end.

(** The loop indices [0 .. n-1]. *)
Definition zseq (n : nat) : list Z := map Z.of_nat (seq 0 n).

Section Lemmas.
Context {A B : Type}.

Lemma foldM_app : forall (f : B -> A -> res B) l1 l2 b,
  foldM f (l1 ++ l2) b = bind (foldM f l1 b) (foldM f l2).
Proof.
  intros f l1; induction l1 as [|x t IH]; intros l2 b; simpl; [reflexivity|].
  destruct (f b x); simpl; auto.
Qed.

Lemma foldM_ext_in : forall (f g : B -> A -> res B) l b,
  (forall b x, In x l -> f b x = g b x) -> foldM f l b = foldM g l b.
Proof.
  intros f g l; induction l as [|x t IH]; intros b H; simpl; [reflexivity|].
  rewrite H by (left; reflexivity).
  destruct (g b x); simpl; auto. apply IH; intros; apply H; right; assumption.
Qed.

Lemma upd_length : forall (l : list A) n a, length (upd l n a) = length l.
Proof.
  induction l as [|x t IH]; intros [|n] a; simpl; auto.
Qed.

Lemma nth_error_upd_same : forall (l : list A) n a,
  n < length l -> nth_error (upd l n a) n = Some a.
Proof.
  induction l as [|x t IH]; intros [|n] a H; simpl in *; try lia; auto.
  apply IH; lia.
Qed.

Lemma nth_error_upd_other : forall (l : list A) n m a,
  n <> m -> nth_error (upd l n a) m = nth_error l m.
Proof.
  induction l as [|x t IH]; intros [|n] [|m] a H; simpl in *; auto; try congruence.
Qed.

Lemma upd_same_noop : forall (l : list A) n a, nth_error l n = Some a -> upd l n a = l.
Proof.
  induction l as [|x t IH]; intros [|n] a H; simpl in *; try congruence.
  f_equal; auto.
Qed.

Lemma upd_app_r : forall (l1 l2 : list A) n a,
  upd (l1 ++ l2) (length l1 + n) a = l1 ++ upd l2 n a.
Proof.
  induction l1 as [|x t IH]; intros l2 n a; simpl; auto. f_equal; auto.
Qed.

Lemma upd_app_l : forall (l1 l2 : list A) n a,
  n < length l1 -> upd (l1 ++ l2) n a = upd l1 n a ++ l2.
Proof.
  induction l1 as [|x t IH]; intros l2 [|n] a H; simpl in *; auto; try lia.
  f_equal; apply IH; lia.
Qed.

Lemma upd_oob : forall (l : list A) n a, length l <= n -> upd l n a = l.
Proof.
  induction l as [|x t IH]; intros [|n] a H; simpl in *; auto; try lia.
  f_equal; apply IH; lia.
Qed.

Lemma zget_ok : forall (l : list A) i a,
  zget l i = Ok a <-> (0 <= i)%Z /\ nth_error l (Z.to_nat i) = Some a.
Proof.
  intros l i a; unfold zget. destruct (Z.ltb_spec i 0).
  - split; [discriminate|lia].
  - destruct (nth_error l (Z.to_nat i)); split; intros E; try discriminate.
    + injection E as ->; auto.
    + destruct E as [_ E]; congruence.
    + destruct E as [_ E]; congruence.
Qed.

Lemma zget_in_range : forall (l : list A) i,
  (0 <= i < Z.of_nat (length l))%Z -> exists a, zget l i = Ok a /\ nth_error l (Z.to_nat i) = Some a.
Proof.
  intros l i H. destruct (nth_error l (Z.to_nat i)) eqn:E.
  - exists a; split; auto. apply zget_ok; split; [lia|assumption].
  - apply nth_error_None in E. lia.
Qed.

Lemma zget_oob : forall (l : list A) i,
  ~ (0 <= i < Z.of_nat (length l))%Z -> zget l i = UB.
Proof.
  intros l i H. unfold zget. destruct (Z.ltb_spec i 0); auto.
  destruct (nth_error l (Z.to_nat i)) eqn:E; auto.
  assert (Z.to_nat i < length l) by (apply nth_error_Some; congruence). lia.
Qed.

Lemma zset_in_range : forall (l : list A) i a,
  (0 <= i < Z.of_nat (length l))%Z -> zset l i a = Ok (upd l (Z.to_nat i) a).
Proof.
  intros l i a H; unfold zset. destruct (Z.ltb_spec i 0); [lia|].
  destruct (Nat.ltb_spec (Z.to_nat i) (length l)); auto; lia.
Qed.

Lemma zset_oob : forall (l : list A) i a,
  ~ (0 <= i < Z.of_nat (length l))%Z -> zset l i a = UB.
Proof.
  intros l i a H; unfold zset. destruct (Z.ltb_spec i 0); auto.
  destruct (Nat.ltb_spec (Z.to_nat i) (length l)); auto; lia.
Qed.

Lemma zset_ok : forall (l l' : list A) i a,
  zset l i a = Ok l' -> (0 <= i < Z.of_nat (length l))%Z /\ l' = upd l (Z.to_nat i) a.
Proof.
  intros l l' i a; unfold zset. destruct (Z.ltb_spec i 0); try discriminate.
  destruct (Nat.ltb_spec (Z.to_nat i) (length l)); try discriminate.
  intros E; injection E as <-. split; [lia|reflexivity].
Qed.

End Lemmas.

Lemma foldM_flat_map : forall {A B C} (f : C -> B -> res C) (g : A -> list B) l c,
  foldM f (flat_map g l) c = foldM (fun c a => foldM f (g a) c) l c.
Proof.
  intros A B C f g l; induction l as [|x t IH]; intros c; simpl; [reflexivity|].
  rewrite foldM_app. destruct (foldM f (g x) c); simpl; auto.
Qed.

Lemma foldM_map : forall {A B C} (f : C -> B -> res C) (g : A -> B) l c,
  foldM f (map g l) c = foldM (fun c a => f c (g a)) l c.
Proof.
  intros A B C f g l; induction l as [|x t IH]; intros c; simpl; [reflexivity|].
  destruct (f c (g x)); simpl; auto.
Qed.

Lemma foldM_pure : forall {A B} (g : B -> A -> B) l b,
  foldM (fun b a => Ok (g b a)) l b = Ok (fold_left g l b).
Proof.
  intros A B g l; induction l as [|x t IH]; intros b; simpl; auto.
Qed.

(** Invariant rule for loops. *)
Lemma foldM_inv : forall {A B} (f : B -> A -> res B) (I : list A -> B -> Prop) l b,
  I [] b ->
  (forall done x rest b, l = done ++ x :: rest -> I done b ->
     exists b', f b x = Ok b' /\ I (done ++ [x]) b') ->
  exists b', foldM f l b = Ok b' /\ I l b'.
Proof.
  intros A B f I l. 
  assert (G : forall rest done b, l = done ++ rest -> I done b ->
     (forall done x rest b, l = done ++ x :: rest -> I done b ->
     exists b', f b x = Ok b' /\ I (done ++ [x]) b') ->
     exists b', foldM f rest b = Ok b' /\ I l b').
  { induction rest as [|x rest IH]; intros done b E Hi Hs.
    - exists b; split; [reflexivity|]. rewrite app_nil_r in E; subst; assumption.
    - destruct (Hs done x rest b E Hi) as (b' & E1 & Hi').
      simpl; rewrite E1; simpl. apply (IH (done ++ [x]) b'); auto.
      rewrite <- app_assoc; exact E. }
  intros b H0 Hs. apply (G l [] b); auto.
Qed.

Lemma zseq_length : forall n, length (zseq n) = n.
Proof. intros; unfold zseq; now rewrite map_length, seq_length. Qed.

Lemma in_zseq : forall n z, In z (zseq n) <-> (0 <= z < Z.of_nat n)%Z.
Proof.
  intros n z; unfold zseq; rewrite in_map_iff; split.
  - intros (k & <- & H). apply in_seq in H. lia.
  - intros H. exists (Z.to_nat z). rewrite in_seq. lia.
Qed.

Lemma zseq_S : forall n, zseq (S n) = zseq n ++ [Z.of_nat n].
Proof. intros; unfold zseq; rewrite seq_S, map_app; reflexivity. Qed.

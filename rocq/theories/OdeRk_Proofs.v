(** The explicit integrator: powers of the operator and their Gram numbers. *)
From Coq Require Import ZArith List Bool Reals Lia Lra.
From Verif Require Import Common Ode_Model Ode_Proofs.
Import ListNotations.
Local Open Scope R_scope.

(** Sum of c_i g(k+i). *)
Fixpoint lsum (c : list R) (k : nat) (g : nat -> R) : R :=
  match c with [] => 0 | a :: c => a * g k + lsum c (Datatypes.S k) g end.
Lemma lsum_ext : forall c k g g', (forall i, g i = g' i) -> lsum c k g = lsum c k g'.
Proof. induction c as [|a c IH]; intros k g g' E; cbn [lsum]; [reflexivity|]. rewrite E, (IH _ g g' E). reflexivity. Qed.
Fixpoint cadd (a : R) (c d : list R) : list R :=
  match c, d with
  | [], _ => d
  | u :: c, [] => a * u :: cadd a c []
  | u :: c, v :: d => v + a * u :: cadd a c d
  end.

Section Powers.
Variable n : nat.
Variable F : list R -> list R.
Hypothesis Flen : forall x, length x = n -> length (F x) = n.
Hypothesis Fadd : forall a k x, length k = n -> length x = n -> F (addv a k x) = addv a (F k) (F x).
Variable x : list R.
Hypothesis Lx : length x = n.

Fixpoint ev (i : nat) : list R := match i with O => x | Datatypes.S i => F (ev i) end.
Lemma ev_len : forall i, length (ev i) = n.
Proof. induction i; cbn [ev]; auto. Qed.
Fixpoint comb (c : list R) (k : nat) : list R :=
  match c with [] => repeat 0 n | a :: c => addv a (ev k) (comb c (Datatypes.S k)) end.
Lemma comb_len : forall c k, length (comb c k) = n.
Proof. induction c as [|a c IH]; intros k; cbn [comb]; [apply repeat_length|]. apply addv_len; [apply ev_len|apply IH]. Qed.
Lemma nth_zero : forall i m, nth i (repeat 0 m) 0 = 0.
Proof. intros i m. revert i. induction m; intros [|i]; cbn; auto. Qed.
Lemma comb_nth : forall c k i, nth i (comb c k) 0 = lsum c k (fun j => nth i (ev j) 0).
Proof.
  induction c as [|a c IH]; intros k i; cbn [comb lsum]; [apply nth_zero|].
  rewrite (addv_nth n) by (auto using ev_len, comb_len). rewrite IH. ring.
Qed.
Lemma list_eq : forall u v, length u = n -> length v = n -> (forall i, nth i u 0 = nth i v 0) -> u = v.
Proof. intros u v Hu Hv H. apply (nth_ext u v 0 0); [congruence|]. intros i _. apply H. Qed.
Lemma lsum_cadd : forall a c d k g, lsum (cadd a c d) k g = lsum d k g + a * lsum c k g.
Proof.
  intros a c. induction c as [|u c IH]; intros d k g; cbn [cadd lsum]; [ring|].
  destruct d as [|v d]; cbn [lsum]; rewrite IH; cbn [lsum]; ring.
Qed.
Lemma comb_add : forall a c d k, addv a (comb c k) (comb d k) = comb (cadd a c d) k.
Proof.
  intros. apply list_eq; [apply addv_len; apply comb_len|apply comb_len|]. intros i.
  rewrite (addv_nth n) by apply comb_len. rewrite !comb_nth, lsum_cadd. reflexivity.
Qed.
Lemma F_zero : F (repeat 0 n) = repeat 0 n.
Proof.
  assert (E : repeat 0 n = addv (-1) x x).
  { apply list_eq; [apply repeat_length|apply addv_len; exact Lx|]. intros i. rewrite nth_zero, (addv_nth n) by exact Lx. ring. }
  rewrite E at 1. rewrite Fadd by exact Lx. apply list_eq; [apply addv_len; auto|apply repeat_length|]. intros i. rewrite nth_zero, (addv_nth n) by auto. ring.
Qed.
Lemma F_comb : forall c k, F (comb c k) = comb (0 :: c) k.
Proof.
  intros c k. transitivity (comb c (Datatypes.S k)).
  - revert k. induction c as [|a c IH]; intros k; cbn [comb]; [apply F_zero|].
    rewrite Fadd by (auto using ev_len, comb_len). rewrite IH. reflexivity.
  - apply list_eq; try apply comb_len. intros i. rewrite !comb_nth. cbn [lsum]. ring.
Qed.
Lemma comb_x : x = comb [1] 0.
Proof. apply list_eq; [exact Lx|apply comb_len|]. intros i. rewrite comb_nth. cbn [lsum ev]. ring. Qed.

(** One step on the coefficients. *)
Definition rkc (h : R) (c : list R) : list R :=
  let k := 0 :: c in let y := cadd (h / 2) k c in let z := cadd (h / 6) k c in
  let k := 0 :: y in let y := cadd (h / 2) k c in let z := cadd (h / 3) k z in
  let k := 0 :: y in let y := cadd h k c in let z := cadd (h / 3) k z in
  let k := 0 :: y in cadd (h / 6) k z.
Lemma rk4_comb : forall h t c, rk4Step (fun _ => F) (comb c 0) t h = comb (rkc h c) 0.
Proof. intros h t c. unfold rk4Step, rkc. repeat (cbv zeta; rewrite ?F_comb, ?comb_add). reflexivity. Qed.

Definition rk1 (h : R) : list R := [1; h; h * h / 2; h * h * h / 6; h * h * h * h / 24].
Definition rk2 (h : R) : list R :=
  [1; 2 * h; 2 * (h * h); 4 / 3 * (h * h * h); 2 / 3 * (h * h * h * h); 1 / 4 * (h * h * h * h * h); 5 / 72 * (h * h * h * h * h * h);
   1 / 72 * (h * h * h * h * h * h * h); 1 / 576 * (h * h * h * h * h * h * h * h)].
Lemma rk4_once : forall h t, rk4Step (fun _ => F) x t h = comb (rk1 h) 0.
Proof.
  intros h t. rewrite comb_x at 1. rewrite rk4_comb. f_equal. unfold rkc, rk1. cbn [cadd]. repeat (f_equal; [field|]). f_equal; field.
Qed.
Lemma rk4_twice : forall h t t', rk4Step (fun _ => F) (rk4Step (fun _ => F) x t h) t' h = comb (rk2 h) 0.
Proof.
  intros h t t'. rewrite rk4_once, rk4_comb. f_equal. unfold rkc, rk1, rk2. cbn [cadd]. repeat (f_equal; [field|]). f_equal; field.
Qed.

Section Energy.
Variable B : list R -> list R -> R.
Hypothesis Badd : forall a k x y, length k = n -> length x = n -> length y = n -> B (addv a k x) y = B x y + a * B k y.
Hypothesis Bsym : forall x y, length x = n -> length y = n -> B x y = B y x.
Lemma B_zero : forall y, length y = n -> B (repeat 0 n) y = 0.
Proof.
  intros y Ly. assert (E : repeat 0 n = addv (-1) y y).
  { apply list_eq; [apply repeat_length|apply addv_len; exact Ly|]. intros i. rewrite nth_zero, (addv_nth n) by exact Ly. ring. }
  rewrite E, Badd by exact Ly. ring.
Qed.
Lemma B_comb : forall c k y, length y = n -> B (comb c k) y = lsum c k (fun i => B (ev i) y).
Proof.
  induction c as [|a c IH]; intros k y Ly; cbn [comb lsum]; [apply B_zero; exact Ly|].
  rewrite Badd by (auto using ev_len, comb_len). rewrite IH by exact Ly. ring.
Qed.
Lemma B_combs : forall c d k l, B (comb c k) (comb d l) = lsum c k (fun i => lsum d l (fun j => B (ev i) (ev j))).
Proof.
  intros. rewrite B_comb by apply comb_len. apply lsum_ext. intros i. rewrite Bsym by (auto using ev_len, comb_len).
  rewrite B_comb by apply ev_len. apply lsum_ext. intros j. apply Bsym; apply ev_len.
Qed.
End Energy.
End Powers.

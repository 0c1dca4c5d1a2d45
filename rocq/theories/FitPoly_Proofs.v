(** Polynomials with complex coefficients, lowest degree first. *)
From Coq Require Import ZArith List Bool Reals Lra Lia Permutation.
From Coquelicot Require Import Complex.
From Verif Require Import Common Fit_Model Fit_Spec Fit_Proofs.
Import ListNotations.
Local Open Scope C_scope.

Fixpoint peval (l : list C) (x : C) : C := match l with [] => RtoC 0 | a :: t => a + x * peval t x end.
Lemma C_dec : forall x y : C, {x = y} + {x <> y}.
Proof.
  intros [a b] [c d]. destruct (Req_EM_T a c) as [->|N]; [destruct (Req_EM_T b d) as [->|N]|].
  - left. reflexivity.
  - right. intros E. injection E as E. contradiction.
  - right. intros E. injection E as E E2. contradiction.
Qed.
Lemma Cmult_integral : forall x y : C, x * y = RtoC 0 -> x = RtoC 0 \/ y = RtoC 0.
Proof.
  intros x y H. destruct (C_dec x (RtoC 0)) as [E|N]; [left; exact E|]. right.
  replace y with (/ x * (x * y)) by (field; exact N). rewrite H. ring.
Qed.
Lemma Cminus_neq0 : forall a b : C, a <> b -> a - b <> RtoC 0.
Proof. intros a b N E. apply N. apply Cminus_eq0. exact E. Qed.
Lemma C1_neq0 : RtoC 1 <> RtoC 0.
Proof. intros E. injection E as E. lra. Qed.
Lemma RtoC_neq0 : forall x : R, x <> 0%R -> RtoC x <> RtoC 0.
Proof. intros x N E. injection E as E. contradiction. Qed.

Lemma divide_root : forall (l : list C) (r : C), exists q, length q = pred (length l) /\ forall x, peval l x - peval l r = (x - r) * peval q x.
Proof.
  induction l as [|a t IH]; intros r.
  - exists []. split; [reflexivity|]. intros x. cbn [peval]. ring.
  - destruct (IH r) as [q [Lq Hq]]. destruct t as [|b t].
    + exists []. split; [reflexivity|]. intros x. cbn [peval]. ring.
    + exists (peval (b :: t) r :: q). split; [cbn [length] in *; lia|]. intros x.
      replace (peval (a :: b :: t) x - peval (a :: b :: t) r) with (x * (peval (b :: t) x - peval (b :: t) r) + (x - r) * peval (b :: t) r)
        by (cbn [peval]; ring).
      rewrite Hq. cbn [peval]. ring.
Qed.
Lemma many_roots : forall (n : nat) (l rs : list C), (length l <= n)%nat -> NoDup rs -> length rs = n -> (forall r, In r rs -> peval l r = RtoC 0) ->
  forall x, peval l x = RtoC 0.
Proof.
  induction n as [|n IH]; intros l rs Ll Hd Lr Hr x.
  - destruct l; [reflexivity|cbn in Ll; lia].
  - destruct rs as [|r rs]; [discriminate|]. injection Lr as Lr. apply NoDup_cons_iff in Hd as [Hn Hd].
    destruct (divide_root l r) as [q [Lq Hq]].
    assert (Hr0 : peval l r = RtoC 0) by (apply Hr; left; reflexivity).
    assert (E : forall y, peval l y = (y - r) * peval q y).
    { intros y. rewrite <- Hq, Hr0. ring. }
    rewrite E. rewrite (IH q rs); [ring|lia|exact Hd|exact Lr|].
    intros r' Hr'. specialize (Hr r' (or_intror Hr')). rewrite E in Hr. apply Cmult_integral in Hr as [Hr|Hr]; [|exact Hr].
    exfalso. apply Hn. apply Cminus_eq0 in Hr. rewrite <- Hr. exact Hr'.
Qed.
Lemma peval_0 : forall (a : C) (l : list C), peval (a :: l) (RtoC 0) = a.
Proof. intros. cbn [peval]. ring. Qed.
Lemma peval_app0 : forall (l : list C) (x : C), peval (l ++ [RtoC 0]) x = peval l x.
Proof. induction l as [|a l IH]; intros x; cbn [app peval]; [ring|rewrite IH; reflexivity]. Qed.
Lemma peval_scal : forall (c : C) (l : list C) (x : C), peval (map (fun a => a * c) l) x = peval l x * c.
Proof. induction l as [|a l IH]; intros x; cbn [map peval]; [ring|rewrite IH; ring]. Qed.
Lemma peval_div : forall (c : C) (l : list C) (x : C), peval (map (fun a => a / c) l) x = peval l x / c.
Proof. intros. apply (peval_scal (/ c)). Qed.

Fixpoint padd (a b : list C) : list C :=
  match a, b with [], _ => b | _, [] => a | x :: a, y :: b => (x + y) :: padd a b end.
Lemma padd_length : forall a b : list C, length (padd a b) = Nat.max (length a) (length b).
Proof. induction a as [|x a IH]; intros [|y b]; cbn [padd length]; try reflexivity. rewrite IH. reflexivity. Qed.
Lemma padd_eval : forall (a b : list C) (x : C), peval (padd a b) x = peval a x + peval b x.
Proof. induction a as [|u a IH]; intros [|v b] x; cbn [padd peval]; try ring. rewrite IH. ring. Qed.
Fixpoint pmul (a b : list C) : list C :=
  match a with [] => [] | c :: t => padd (map (fun u => u * c) b) (RtoC 0 :: pmul t b) end.
Lemma pmul_length : forall a b : list C, (1 <= length b)%nat -> (length (pmul a b) <= length a + length b - 1)%nat.
Proof.
  induction a as [|c a IH]; intros b Lb; cbn [pmul length]; [lia|]. rewrite padd_length, map_length. cbn [length].
  specialize (IH b Lb). lia.
Qed.
Lemma pmul_eval : forall (a b : list C) (x : C), peval (pmul a b) x = peval a x * peval b x.
Proof. induction a as [|c a IH]; intros b x; cbn [pmul]; [cbn; ring|]. rewrite padd_eval, peval_scal. cbn [peval]. rewrite IH. ring. Qed.
Fixpoint pscale (k : C) (l : list C) : list C := match l with [] => [] | a :: t => a :: map (fun u => u * k) (pscale k t) end.
Lemma pscale_length : forall k l, length (pscale k l) = length l.
Proof. induction l as [|a l IH]; cbn [pscale length]; [reflexivity|]. rewrite map_length, IH. reflexivity. Qed.
Lemma pscale_eval : forall (k : C) (l : list C) (x : C), peval (pscale k l) x = peval l (k * x).
Proof. induction l as [|a l IH]; intros x; cbn [pscale peval]; [reflexivity|]. rewrite peval_scal, IH. ring. Qed.

(** Product of (s - p) and numerator of a sum of simple poles. *)
Definition prodPoles (ps : list C) (s : C) : C := fold_right (fun p acc => (s - p) * acc) (RtoC 1) ps.
Fixpoint numer (ps rs : list C) (s : C) : C :=
  match ps, rs with p :: ps, r :: rs => r * prodPoles ps s + (s - p) * numer ps rs s | _, _ => RtoC 0 end.
Lemma prod_poly : forall ps, exists q, length q = S (length ps) /\ forall s, peval q s = prodPoles ps s.
Proof.
  induction ps as [|p ps [q [Lq Hq]]].
  - exists [RtoC 1]. split; [reflexivity|]. intros s. cbn. ring.
  - exists (padd (map (fun u => u * - p) q) (RtoC 0 :: q)). split.
    + rewrite padd_length, map_length. cbn [length]. lia.
    + intros s. rewrite padd_eval, peval_scal. cbn [peval prodPoles fold_right]. rewrite Hq. fold (prodPoles ps s). ring.
Qed.
Lemma numer_poly : forall ps rs, length rs = length ps -> exists q, length q = length ps /\ forall s, peval q s = numer ps rs s.
Proof.
  induction ps as [|p ps IH]; intros rs L.
  - exists []. split; [reflexivity|]. intros s. reflexivity.
  - destruct rs as [|r rs]; [discriminate|]. injection L as L. destruct (IH rs L) as [n [Ln Hn]]. destruct (prod_poly ps) as [q [Lq Hq]].
    exists (padd (map (fun u => u * r) q) (padd (map (fun u => u * - p) n) (RtoC 0 :: n))). split.
    + rewrite !padd_length, !map_length. cbn [length]. lia.
    + intros s. rewrite !padd_eval, !peval_scal. cbn [peval numer]. rewrite Hq, Hn. ring.
Qed.
Lemma prodPoles_neq0 : forall ps s, ~ In s ps -> prodPoles ps s <> RtoC 0.
Proof.
  induction ps as [|p ps IH]; intros s Hs; cbn [prodPoles fold_right]; [apply C1_neq0|].
  apply Cmult_neq_0.
  - apply Cminus_neq0. intros E. apply Hs. left. symmetry. exact E.
  - apply IH. intros H. apply Hs. right. exact H.
Qed.
Lemma prodPoles_0 : forall ps s, In s ps -> prodPoles ps s = RtoC 0.
Proof.
  induction ps as [|p ps IH]; intros s Hs; [destruct Hs|]. cbn [prodPoles fold_right]. destruct Hs as [->|Hs]; [ring|].
  fold (prodPoles ps s). rewrite (IH s Hs). ring.
Qed.
Lemma numer_neq0 : forall ps rs s, length rs = length ps -> NoDup ps -> (forall r, In r rs -> r <> RtoC 0) -> In s ps -> numer ps rs s <> RtoC 0.
Proof.
  induction ps as [|p ps IH]; intros rs s L Hd Hr Hs; [destruct Hs|]. destruct rs as [|r rs]; [discriminate|]. injection L as L.
  apply NoDup_cons_iff in Hd as [Hn Hd]. cbn [numer]. destruct Hs as [->|Hs].
  - replace (r * prodPoles ps s + (s - s) * numer ps rs s) with (r * prodPoles ps s) by ring.
    apply Cmult_neq_0; [apply Hr; left; reflexivity|apply prodPoles_neq0; exact Hn].
  - rewrite (prodPoles_0 ps s Hs). replace (r * RtoC 0 + (s - p) * numer ps rs s) with ((s - p) * numer ps rs s) by ring.
    apply Cmult_neq_0; [|apply IH; [exact L|exact Hd|intros r' Hr'; apply Hr; right; exact Hr'|exact Hs]].
    apply Cminus_neq0. intros ->. contradiction.
Qed.
Lemma numer_sum : forall ps rs s, length rs = length ps -> ~ In s ps -> numer ps rs s = sumPoles ps rs s * prodPoles ps s.
Proof.
  unfold sumPoles. induction ps as [|p ps IH]; intros rs s L Hs; destruct rs as [|r rs]; try discriminate; [cbn; ring|].
  injection L as L. cbn [numer combine fold_right fst snd prodPoles]. fold (prodPoles ps s).
  rewrite IH; [|exact L|intros H; apply Hs; right; exact H]. field.
  apply Cminus_neq0. intros E. apply Hs. left. symmetry. exact E.
Qed.

(** ** Products of rows *)
Definition dot (r x : list C) : C := fold_right Cplus (RtoC 0) (map (fun p => fst p * snd p) (combine r x)).
Lemma mv_dot : forall A x, mv A x = map (fun r => dot r x) A.
Proof. reflexivity. Qed.
Lemma dot_app : forall r1 r2 x1 x2, length r1 = length x1 -> dot (r1 ++ r2) (x1 ++ x2) = dot r1 x1 + dot r2 x2.
Proof.
  unfold dot. induction r1 as [|a r1 IH]; intros r2 [|b x1] x2 L; try discriminate.
  - cbn [app combine map fold_right]. ring.
  - injection L as L. cbn [app combine map fold_right fst snd]. rewrite (IH r2 x1 x2 L). ring.
Qed.
Lemma powers_length : forall n p s, length (powers p s n) = n.
Proof. induction n as [|n IH]; intros p s; cbn [powers length]; [reflexivity|rewrite IH; reflexivity]. Qed.
Lemma dot_powers : forall (x : list C) (c p s : C), dot (map (fun u => c * u) (powers p s (length x))) x = c * p * peval x s.
Proof.
  unfold dot. induction x as [|a x IH]; intros c p s; cbn [length powers map combine fold_right peval fst snd]; [ring|].
  rewrite IH. ring.
Qed.
Lemma row_eq : forall (w : R) (z t : C) (N : nat) (x : list C), length x = (2 * N + 1)%nat -> w <> 0%R ->
  (dot (sysRow w z t N) x = RtoC w * z <-> peval (firstn (S N) x) t = z * peval (RtoC 1 :: skipn (S N) x) t).
Proof.
  intros w z t N x L Hw. unfold sysRow.
  assert (L1 : length (firstn (S N) x) = S N) by (rewrite firstn_length; lia).
  assert (L2 : length (skipn (S N) x) = N) by (rewrite skipn_length; lia).
  rewrite <- (firstn_skipn (S N) x) at 1.
  rewrite dot_app by (rewrite map_length, powers_length, L1; reflexivity).
  pose proof (dot_powers (firstn (S N) x) (RtoC w) (RtoC 1) t) as D1. rewrite L1 in D1.
  pose proof (dot_powers (skipn (S N) x) (- RtoC w * z) t t) as D2. rewrite L2 in D2.
  rewrite D1, D2. cbn [peval]. clear D1 D2.
  set (b := peval (firstn (S N) x) t). set (a := peval (skipn (S N) x) t).
  assert (Hc : RtoC w <> RtoC 0) by (apply RtoC_neq0; exact Hw).
  split; intros E.
  - replace b with (/ RtoC w * (RtoC w * RtoC 1 * b + - RtoC w * z * t * a) + z * t * a) by (field; exact Hc).
    rewrite E. field. exact Hc.
  - rewrite E. ring.
Qed.

(** ** The companion matrix *)
Lemma csum_app : forall a b, csum (a ++ b) = csum a + csum b.
Proof. unfold csum. induction a as [|x a IH]; intros b; cbn [app fold_right]; [ring|rewrite IH; ring]. Qed.
Lemma csum_zero : forall (f : nat -> C) l, (forall j, In j l -> f j = RtoC 0) -> csum (map f l) = RtoC 0.
Proof.
  unfold csum. intros f. induction l as [|j l IH]; intros H; cbn [map fold_right]; [reflexivity|].
  rewrite (H j (or_introl eq_refl)), IH by (intros i Hi; apply H; right; exact Hi). ring.
Qed.
Lemma csum_delta : forall (f : nat -> C) i l, NoDup l -> In i l -> (forall j, In j l -> j <> i -> f j = RtoC 0) -> csum (map f l) = f i.
Proof.
  intros f i. induction l as [|j l IH]; intros Hd Hin H; [destruct Hin|]. apply NoDup_cons_iff in Hd as [Hn Hd].
  change (f j + csum (map f l) = f i). destruct Hin as [->|Hin].
  - rewrite csum_zero; [ring|]. intros k Hk. apply H; [right; exact Hk|]. intros ->. contradiction.
  - rewrite IH; [|exact Hd|exact Hin|intros k Hk; apply H; right; exact Hk].
    rewrite (H j (or_introl eq_refl)); [ring|]. intros ->. contradiction.
Qed.
Lemma dot_maps : forall (g h : nat -> C) l, dot (map g l) (map h l) = csum (map (fun j => g j * h j) l).
Proof. unfold dot, csum. intros g h. induction l as [|j l IH]; cbn [map combine fold_right fst snd]; [reflexivity|rewrite IH; reflexivity]. Qed.
Lemma nth_map_seq : forall {A} (f : nat -> A) (d : A) n i, (i < n)%nat -> nth i (map f (seq 0 n)) d = f i.
Proof.
  intros A f d n i H. rewrite (nth_indep _ d (f 0%nat)) by (rewrite map_length, seq_length; exact H).
  rewrite map_nth, seq_nth by exact H. reflexivity.
Qed.
Lemma skipn_cons_nth : forall {A} (l : list A) i d, (i < length l)%nat -> skipn i l = nth i l d :: skipn (S i) l.
Proof.
  induction l as [|a l IH]; intros i d H; [cbn in H; lia|]. destruct i as [|i]; [reflexivity|].
  cbn [skipn nth]. rewrite (IH i d) by (cbn in H; lia). reflexivity.
Qed.

Lemma companion_rows : forall (N : nat) (a : list C) (v : nat -> C), (1 <= N)%nat ->
  mv (companion (map (fun i => nth (N - 1 - i) a (RtoC 0)) (seq 0 N))) (map v (seq 0 N)) =
  map (fun i => match i with O => RtoC 0 | S k => v k end - nth i a (RtoC 0) * v (N - 1)%nat) (seq 0 N).
Proof.
  intros N a v HN. rewrite mv_dot. unfold companion. rewrite map_length, seq_length. rewrite map_map. apply map_ext_in. intros i Hi. apply in_seq in Hi.
  rewrite dot_maps. replace (seq 0 N) with (seq 0 (N - 1) ++ [(N - 1)%nat])
    by (replace N with (S (N - 1)) at 3 by lia; rewrite seq_S; reflexivity).
  rewrite map_app, csum_app. cbn [map csum fold_right]. rewrite Nat.eqb_refl.
  rewrite <- seq_S. replace (S (N - 1)) with N by lia.
  rewrite nth_map_seq by lia. replace (N - 1 - (N - 1 - i))%nat with i by lia.
  destruct i as [|i].
  - rewrite csum_zero; [ring|].
    intros j Hj. apply in_seq in Hj. destruct (Nat.eqb_spec j (N - 1)); [lia|]. destruct (Nat.eqb_spec 0 (j + 1)); [lia|]. ring.
  - rewrite (csum_delta _ i).
    + destruct (Nat.eqb_spec i (N - 1)); [lia|]. destruct (Nat.eqb_spec (S i) (i + 1)); [|lia]. ring.
    + apply seq_NoDup.
    + apply in_seq. lia.
    + intros j Hj Hne. apply in_seq in Hj. destruct (Nat.eqb_spec j (N - 1)); [lia|]. destruct (Nat.eqb_spec (S i) (j + 1)); [lia|]. ring.
Qed.
Lemma map_seq_eq : forall {A} (f g : nat -> A) n, map f (seq 0 n) = map g (seq 0 n) <-> forall i, (i < n)%nat -> f i = g i.
Proof.
  intros A f g n. split.
  - intros E i Hi. apply (ext_in_map E). apply in_seq. lia.
  - intros H. apply map_ext_in. intros i Hi. apply in_seq in Hi. apply H. lia.
Qed.
Lemma list_as_map : forall (v : list C), v = map (fun i => nth i v (RtoC 0)) (seq 0 (length v)).
Proof.
  intros v. apply (nth_ext _ _ (RtoC 0) (RtoC 0)); [rewrite map_length, seq_length; reflexivity|].
  intros i Hi. rewrite nth_map_seq by exact Hi. reflexivity.
Qed.

(** The eigenvalues of the matrix are the roots of the monic polynomial with those coefficients. *)
Lemma companion_root : forall (N : nat) (a : list C), (1 <= N)%nat -> length a = S N -> nth N a (RtoC 0) = RtoC 1 ->
  let M := companion (map (fun i => nth (N - 1 - i) a (RtoC 0)) (seq 0 N)) in
  length M = N /\ cols M N /\ forall l, eigenvalue M l <-> peval a l = RtoC 0.
Proof.
  intros N a HN La Hm M.
  assert (LM : length M = N) by (unfold M, companion; rewrite map_length, seq_length, map_length, seq_length; reflexivity).
  split; [exact LM|]. split.
  { unfold cols. apply Forall_forall. intros row Hrow. unfold M, companion in Hrow. apply in_map_iff in Hrow as [i [<- _]].
    rewrite map_length, seq_length, map_length, seq_length. reflexivity. }
  intros l.
  set (h := fun i => peval (skipn (S i) a) l).
  assert (Hh1 : h (N - 1)%nat = RtoC 1).
  { unfold h. replace (S (N - 1)) with N by lia. rewrite (skipn_cons_nth a N (RtoC 0)) by lia.
    rewrite Hm, skipn_all2 by lia. cbn [peval]. ring. }
  assert (Hhs : forall i, (S i < N)%nat -> h i = nth (S i) a (RtoC 0) + l * h (S i)).
  { intros i Hi. unfold h at 1. rewrite (skipn_cons_nth a (S i) (RtoC 0)) by lia. reflexivity. }
  assert (E0 : peval a l = nth 0 a (RtoC 0) + l * h 0%nat).
  { unfold h. rewrite <- (skipn_O a) at 1. rewrite (skipn_cons_nth a 0 (RtoC 0)) by lia. reflexivity. }
  split.
  - intros [v [Lv [Hv Ev]]]. rewrite LM in Lv. rewrite (list_as_map v) in Ev. rewrite Lv in Ev. unfold M in Ev.
    rewrite companion_rows, map_map in Ev by exact HN. rewrite map_seq_eq in Ev. set (u := fun i => nth i v (RtoC 0)) in *.
    set (c := u (N - 1)%nat) in *.
    assert (Ev' : forall i, (i < N)%nat -> match i with O => RtoC 0 | S k => u k end - nth i a (RtoC 0) * c = l * u i) by exact Ev.
    clear Ev. rename Ev' into Ev.
    assert (Hu : forall k i, (i + k = N - 1)%nat -> u i = c * h i).
    { induction k as [|k IH]; intros i Hi.
      - replace i with (N - 1)%nat by lia. rewrite Hh1. unfold c. ring.
      - specialize (Ev (S i) ltac:(lia)). cbv beta iota in Ev. rewrite (IH (S i)) in Ev by lia. rewrite (Hhs i) by lia.
        replace (u i) with (u i - nth (S i) a (RtoC 0) * c + nth (S i) a (RtoC 0) * c) by ring. rewrite Ev. ring. }
    assert (Hc : c <> RtoC 0).
    { intros E. apply Exists_exists in Hv as [y [Hy Ny]]. apply Ny. destruct (In_nth _ _ (RtoC 0) Hy) as [i [Hi <-]].
      change (u i = RtoC 0). rewrite (Hu (N - 1 - i)%nat i) by lia. rewrite E. ring. }
    specialize (Ev 0%nat ltac:(lia)). cbv beta iota in Ev. rewrite (Hu (N - 1)%nat 0%nat) in Ev by lia.
    assert (F : c * peval a l = RtoC 0).
    { rewrite E0. replace (c * (nth 0 a (RtoC 0) + l * h 0%nat)) with (l * (c * h 0%nat) - (RtoC 0 - nth 0 a (RtoC 0) * c)) by ring.
      rewrite <- Ev. ring. }
    apply Cmult_integral in F as [F|F]; [contradiction|exact F].
  - intros Hr. exists (map h (seq 0 N)). rewrite LM. split; [rewrite map_length, seq_length; reflexivity|]. split.
    + apply Exists_exists. exists (h (N - 1)%nat). split; [apply in_map; apply in_seq; lia|]. rewrite Hh1. apply C1_neq0.
    + unfold M. rewrite companion_rows, map_map by exact HN. apply map_seq_eq. intros i Hi. rewrite Hh1. destruct i as [|i].
      * rewrite Hr in E0. set (n0 := nth 0 a (RtoC 0)) in *. set (lv := l * h 0%nat) in *.
        replace lv with (n0 + lv - n0) by ring. rewrite <- E0. ring.
      * rewrite (Hhs i) by lia. ring.
Qed.

(** ** Undoing the scaling *)
Lemma peval_unscale : forall (sc : R) (A : list C) (k : nat) (s : C), sc <> 0%R ->
  peval (map (fun i => nth i A (RtoC 0) / RtoC (sc ^ (i + k))) (seq 0 (length A))) s = peval A (s / RtoC sc) / RtoC (sc ^ k).
Proof.
  intros sc A. induction A as [|a A IH]; intros k s Hsc; cbn [length seq map peval].
  - unfold Cdiv. ring.
  - cbn [nth Nat.add]. rewrite <- seq_shift, map_map.
    rewrite (map_ext (fun x => nth (S x) (a :: A) (RtoC 0) / RtoC (sc ^ (S x + k))) (fun i => nth i A (RtoC 0) / RtoC (sc ^ (i + S k)))).
    2:{ intros i. cbn [nth]. replace (S i + k)%nat with (i + S k)%nat by lia. reflexivity. }
    rewrite IH by exact Hsc. cbn [pow]. rewrite RtoC_mult. field. split; apply RtoC_neq0; [exact Hsc|apply pow_nonzero; exact Hsc].
Qed.

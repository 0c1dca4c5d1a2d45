(** The energy norm, the Taylor expansion of the exact solution and the series of the integrators. *)
From Coq Require Import ZArith List Bool Reals Lia Lra.
From Verif Require Import Common Ode_Model Ode_Proofs OdeRk_Proofs OdeLin_Proofs.
Import ListNotations.
Local Open Scope R_scope.

Section Norm.
Variable n : nat.
Variable B : list R -> list R -> R.
Hypothesis Badd : forall a k x y, length k = n -> length x = n -> length y = n -> B (addv a k x) y = B x y + a * B k y.
Hypothesis Bsym : forall x y, length x = n -> length y = n -> B x y = B y x.
Hypothesis Bpos : forall x, length x = n -> 0 <= B x x.
Definition nrm (x : list R) : R := sqrt (B x x).
Definition sub (x y : list R) : list R := addv (-1) y x.
Lemma sub_len : forall x y, length x = n -> length y = n -> length (sub x y) = n.
Proof. intros. unfold sub. apply addv_len; assumption. Qed.
Lemma sub_nth : forall x y i, length x = n -> length y = n -> nth i (sub x y) 0 = nth i x 0 - nth i y 0.
Proof. intros. unfold sub. rewrite (addv_nth n) by assumption. ring. Qed.
Lemma nrm_pos : forall x, 0 <= nrm x. Proof. intros. apply sqrt_pos. Qed.
Lemma nrm_sqr : forall x, length x = n -> nrm x * nrm x = B x x.
Proof. intros x Hx. apply sqrt_sqrt, Bpos, Hx. Qed.
Lemma cauchy : forall x y, length x = n -> length y = n -> B x y * B x y <= B x x * B y y.
Proof.
  intros x y Hx Hy. pose proof (Bpos y Hy) as Py.
  assert (Q : forall a, 0 <= B x x + 2 * a * B x y + a * a * B y y).
  { intros a. pose proof (Bpos (addv a y x) (addv_len n a y x Hy Hx)) as P. rewrite Badd in P by (auto using addv_len).
    rewrite !(Badd2 n B Badd Bsym) in P by assumption. rewrite (Bsym y x) in P by assumption. lra. }
  destruct (Req_dec (B y y) 0) as [Z|Z].
  - assert (Z' : B x y = 0).
    { destruct (Req_dec (B x y) 0) as [|Nz]; [assumption|]. exfalso. pose proof (Q (- (B x x + 1) / (2 * B x y))) as P. rewrite Z in P.
      replace (B x x + 2 * (- (B x x + 1) / (2 * B x y)) * B x y + - (B x x + 1) / (2 * B x y) * (- (B x x + 1) / (2 * B x y)) * 0) with (-1) in P by (field; exact Nz). lra. }
    rewrite Z', Z. lra.
  - pose proof (Q (- B x y / B y y)) as P. apply (Rmult_le_compat_r (B y y)) in P; [|exact Py].
    replace ((B x x + 2 * (- B x y / B y y) * B x y + - B x y / B y y * (- B x y / B y y) * B y y) * B y y) with (B x x * B y y - B x y * B x y) in P by (field; exact Z). lra.
Qed.
Lemma cs : forall x y, length x = n -> length y = n -> B x y <= nrm x * nrm y.
Proof.
  intros x y Hx Hy. unfold nrm. rewrite <- sqrt_mult_alt by (apply Bpos, Hx). eapply Rle_trans; [apply Rle_abs|]. rewrite <- sqrt_Rsqr_abs. apply sqrt_le_1_alt, cauchy; assumption.
Qed.
Lemma nrm_le : forall x c, length x = n -> 0 <= c -> B x x <= c * nrm x -> nrm x <= c.
Proof.
  intros x c Hx Hc H. rewrite <- nrm_sqr in H by exact Hx. pose proof (nrm_pos x) as P. destruct (Rle_lt_dec (nrm x) 0); [lra|]. apply Rmult_le_reg_r with (nrm x); lra.
Qed.
Lemma nrm_add : forall a k x, length k = n -> length x = n -> nrm (addv a k x) <= nrm x + Rabs a * nrm k.
Proof.
  intros a k x Hk Hx. assert (L : length (addv a k x) = n) by (apply addv_len; assumption).
  apply nrm_le; [exact L| |].
  - pose proof (nrm_pos x). pose proof (Rmult_le_pos _ _ (Rabs_pos a) (nrm_pos k)). lra.
  - rewrite Badd by assumption. pose proof (cs x (addv a k x) Hx L). pose proof (cs k (addv a k x) Hk L) as C.
    assert (C' : a * B k (addv a k x) <= Rabs a * (nrm k * nrm (addv a k x))).
    { eapply Rle_trans; [apply Rle_abs|]. rewrite Rabs_mult. apply Rmult_le_compat_l; [apply Rabs_pos|].
      apply Rabs_le. split; [|exact C]. pose proof (cauchy k (addv a k x) Hk L) as Q. rewrite <- (nrm_sqr k Hk), <- (nrm_sqr _ L) in Q.
      pose proof (Rmult_le_pos _ _ (nrm_pos k) (nrm_pos (addv a k x))) as Pp. set (p := nrm k * nrm (addv a k x)) in *. set (b := B k (addv a k x)) in *.
      assert (Q' : b * b <= p * p) by (unfold p; lra). clearbody p b. destruct (Rle_lt_dec (- p) b); [assumption|]. nra. }
    nra.
Qed.
Lemma nrm_ext : forall x y, length x = n -> length y = n -> (forall i, nth i x 0 = nth i y 0) -> nrm x = nrm y.
Proof. intros x y Hx Hy H. f_equal. rewrite (list_eq n x y Hx Hy H). reflexivity. Qed.
Lemma nrm_scal : forall a k, length k = n -> nrm (addv a k (repeat 0 n)) = Rabs a * nrm k.
Proof.
  intros a k Hk. assert (Lz : length (repeat 0 n) = n) by apply repeat_length. unfold nrm.
  rewrite Badd, !(Badd2 n B Badd Bsym) by (auto using addv_len). rewrite !(B_zero n B Badd) by assumption. rewrite (Bsym k (repeat 0 n)), (B_zero n B Badd) by assumption.
  replace (0 + a * 0 + a * (0 + a * B k k)) with (Rsqr a * B k k) by (unfold Rsqr; ring). rewrite sqrt_mult_alt by apply Rle_0_sqr. rewrite sqrt_Rsqr_abs. reflexivity.
Qed.
Lemma nrm_zero : nrm (repeat 0 n) = 0.
Proof. unfold nrm. rewrite (B_zero n B Badd) by apply repeat_length. apply sqrt_0. Qed.
Lemma nrm_tri : forall x y z, length x = n -> length y = n -> length z = n -> nrm (sub x z) <= nrm (sub x y) + nrm (sub y z).
Proof.
  intros x y z Hx Hy Hz. assert (E : sub x z = addv 1 (sub y z) (sub x y)).
  { apply (list_eq n); [apply sub_len; assumption|apply addv_len; apply sub_len; assumption|]. intros i. rewrite (addv_nth n) by (apply sub_len; assumption). rewrite !sub_nth by assumption. ring. }
  rewrite E. eapply Rle_trans; [apply nrm_add; apply sub_len; assumption|]. rewrite Rabs_R1. lra.
Qed.
Lemma nrm_sym : forall x y, length x = n -> length y = n -> nrm (sub x y) = nrm (sub y x).
Proof.
  intros x y Hx Hy. assert (E : sub x y = addv (-1) (sub y x) (repeat 0 n)).
  { apply (list_eq n); [apply sub_len; assumption|apply addv_len; [apply sub_len; assumption|apply repeat_length]|]. intros i.
    rewrite (addv_nth n) by (try apply sub_len; try assumption; apply repeat_length). rewrite !sub_nth, nth_zero by assumption. ring. }
  rewrite E, nrm_scal by (apply sub_len; assumption). rewrite Rabs_left by lra. ring.
Qed.

(** ** Series of a step *)
Section Series.
Variable G : list R -> list R.
Hypothesis Glen : forall x, length x = n -> length (G x) = n.
Hypothesis Gadd : forall a k x, length k = n -> length x = n -> G (addv a k x) = addv a (G k) (G x).
Hypothesis Gdiss : forall x, length x = n -> B x (G x) <= 0.
Variable kap : R.
Hypothesis kap0 : 0 <= kap.
Hypothesis kap1 : kap <= 1.
Hypothesis Gbound : forall y, length y = n -> nrm (G y) <= kap * nrm y.
Variable x : list R.
Hypothesis Lx : length x = n.
Notation ev := (ev G x).
Notation comb := (comb n G x).
Lemma el : forall i, length (ev i) = n. Proof. exact (ev_len n G Glen x Lx). Qed.
Lemma cl : forall c k, length (comb c k) = n. Proof. exact (comb_len n G Glen x Lx). Qed.
Lemma ev_bound : forall i, nrm (ev i) <= kap ^ i * nrm x.
Proof.
  induction i as [|i IH]; cbn [OdeRk_Proofs.ev pow]; [lra|]. eapply Rle_trans; [apply Gbound, el|]. rewrite Rmult_assoc. apply Rmult_le_compat_l; assumption.
Qed.
Lemma pow_small : forall i j, (j <= i)%nat -> kap ^ i <= kap ^ j.
Proof.
  intros i j H. replace i with (j + (i - j))%nat by lia. rewrite pow_add. rewrite <- (Rmult_1_r (kap ^ j)) at 2. apply Rmult_le_compat_l; [apply pow_le; exact kap0|].
  generalize (i - j)%nat. induction n0; cbn [pow]; [lra|]. pose proof (pow_le kap n0 kap0). nra.
Qed.
Fixpoint labs (c : list R) : R := match c with [] => 0 | a :: c => Rabs a + labs c end.
Lemma labs_pos : forall c, 0 <= labs c. Proof. induction c as [|a c IH]; cbn [labs]; [lra|]. pose proof (Rabs_pos a). lra. Qed.
Lemma comb_bound : forall q c k, (q <= k)%nat -> nrm (comb c k) <= labs c * kap ^ q * nrm x.
Proof.
  intros q c. induction c as [|a c IH]; intros k Hq; cbn [OdeRk_Proofs.comb labs]; [rewrite nrm_zero; lra|].
  eapply Rle_trans; [apply nrm_add; [apply el|apply cl]|]. specialize (IH (Datatypes.S k) ltac:(lia)). pose proof (ev_bound k) as E.
  assert (nrm (ev k) <= kap ^ q * nrm x) by (eapply Rle_trans; [exact E|]; apply Rmult_le_compat_r; [apply nrm_pos|apply pow_small; exact Hq]).
  pose proof (Rmult_le_compat_l _ _ _ (Rabs_pos a) H). lra.
Qed.

Variable q : nat.
(** [z] is the series [c] up to [e] times the q-th power of the step. *)
Definition near (z : list R) (c : list R) (e : R) : Prop := length z = n /\ nrm (sub z (comb c 0)) <= e * kap ^ q * nrm x.
Lemma near_eq : forall z c, z = comb c 0 -> near z c 0.
Proof.
  intros z c ->. split; [apply cl|]. rewrite (nrm_ext (sub (comb c 0) (comb c 0)) (repeat 0 n)).
  - rewrite nrm_zero. lra.
  - apply sub_len; apply cl.
  - apply repeat_length.
  - intros i. rewrite sub_nth, nth_zero by apply cl. ring.
Qed.
Lemma lsum_zeros : forall m k g, lsum (repeat 0 m) k g = 0.
Proof. induction m; intros k g; cbn [repeat lsum]; [reflexivity|]. rewrite IHm. ring. Qed.
Lemma near_x : forall m, near x (1 :: repeat 0 m) 0.
Proof.
  intros m. apply near_eq. apply (list_eq n); [exact Lx|apply cl|]. intros i. rewrite (comb_nth n G Glen x Lx). cbn [lsum OdeRk_Proofs.ev]. rewrite lsum_zeros. ring.
Qed.
Lemma near_add : forall a z k c d e e', near z c e -> near k d e' -> near (addv a k z) (cadd a d c) (e + Rabs a * e').
Proof.
  intros a z k c d e e' (Lz & Hz) (Lk & Hk). split; [apply addv_len; assumption|].
  rewrite <- (comb_add n G Glen x Lx).
  assert (E : sub (addv a k z) (addv a (comb d 0) (comb c 0)) = addv a (sub k (comb d 0)) (sub z (comb c 0))).
  { apply (list_eq n); [apply sub_len; apply addv_len; auto using cl|apply addv_len; apply sub_len; auto using cl|]. intros i.
    rewrite sub_nth by (apply addv_len; auto using cl). rewrite !(addv_nth n) by (try apply sub_len; auto using cl). rewrite !sub_nth by (auto using cl). ring. }
  rewrite E. eapply Rle_trans; [apply nrm_add; apply sub_len; auto using cl|].
  pose proof (Rmult_le_compat_l _ _ _ (Rabs_pos a) Hk). lra.
Qed.
Lemma G_sub : forall u v, length u = n -> length v = n -> G (sub u v) = sub (G u) (G v).
Proof. intros. unfold sub. apply Gadd; assumption. Qed.
Lemma near_G : forall z c e, 0 <= e -> near z c e -> near (G z) (0 :: c) e.
Proof.
  intros z c e He (Lz & Hz). split; [apply Glen, Lz|]. rewrite <- (F_comb n G Glen Gadd x Lx). rewrite <- G_sub by (auto using cl).
  eapply Rle_trans; [apply Gbound, sub_len; auto using cl|].
  pose proof (nrm_pos (sub z (comb c 0))). nra.
Qed.
(** Coefficients of a stage. *)
Fixpoint go (a prev : R) (c : list R) : list R := match c with [] => [] | u :: c => (u + a * prev) :: go a (u + a * prev) c end.
Fixpoint lastd (d : R) (c : list R) : R := match c with [] => d | u :: c => lastd u c end.
Lemma go_sum : forall a c p k g, lsum (go a p c) k g = lsum c k g + a * (lsum (p :: go a p c) k g - lastd p (go a p c) * g (k + length c)%nat).
Proof.
  intros a c. induction c as [|u c IH]; intros p k g; cbn [go lsum lastd length].
  - rewrite Nat.add_0_r. ring.
  - rewrite (IH (u + a * p) (Datatypes.S k) g). cbn [lsum]. replace (Datatypes.S k + length c)%nat with (k + Datatypes.S (length c))%nat by lia. ring.
Qed.
Lemma near_stage : forall a y k c e, 0 <= a -> 0 <= e -> (q <= Datatypes.S (length c))%nat -> near y c e -> length k = n -> k = G (addv a k y) ->
  near k (0 :: go a 0 c) (e + Rabs (a * lastd 0 (go a 0 c))).
Proof.
  intros a y k c e Ha He Hq (Ly & Hy) Lk Ek. split; [exact Lk|].
  set (D := 0 :: go a 0 c). set (P := comb D 0). set (r := sub k P).
  assert (LP : length P = n) by apply cl. assert (Lr : length r = n) by (apply sub_len; assumption).
  set (l := lastd 0 (go a 0 c)). set (s := addv (a * l) (ev (Datatypes.S (length c))) (G (sub y (comb c 0)))).
  assert (Ls : length s = n) by (apply addv_len; [apply el|apply Glen, sub_len; auto using cl]).
  assert (Er : r = addv a (G r) s).
  { apply (list_eq n); [exact Lr|apply addv_len; auto|]. intros i. unfold s. rewrite !(addv_nth n) by (auto using el, sub_len, cl, addv_len).
    unfold r. rewrite !G_sub by (auto using cl). rewrite !sub_nth by (auto using cl). rewrite Ek at 1. rewrite Gadd by assumption. rewrite (addv_nth n) by (auto using addv_len).
    unfold P. rewrite !(F_comb n G Glen Gadd x Lx). rewrite !(comb_nth n G Glen x Lx).
    set (g := fun j => nth i (ev j) 0).
    change (lsum D 0 g) with (0 * g 0%nat + lsum (go a 0 c) 1 g). change (lsum (0 :: D) 0 g) with (0 * g 0%nat + lsum D 1 g). change (lsum (0 :: c) 0 g) with (0 * g 0%nat + lsum c 1 g).
    rewrite (go_sum a c 0 1 g). fold l. fold D. change (nth i (ev (Datatypes.S (length c))) 0) with (g (1 + length c)%nat). ring. }
  assert (Q : nrm r <= nrm s).
  { apply nrm_le; [exact Lr|apply nrm_pos|]. assert (B r r = B r s + a * B r (G r)) by (rewrite Er at 2; rewrite (Badd2 n B Badd Bsym) by auto; ring).
    rewrite H. pose proof (Gdiss r Lr). pose proof (cs r s Lr Ls). nra. }
  fold P. fold r. eapply Rle_trans; [exact Q|]. unfold s. eapply Rle_trans; [apply nrm_add; [apply el|apply Glen, sub_len; auto using cl]|].
  assert (Q1 : nrm (G (sub y (comb c 0))) <= e * kap ^ q * nrm x).
  { eapply Rle_trans; [apply Gbound, sub_len; auto using cl|]. pose proof (nrm_pos (sub y (comb c 0))). nra. }
  assert (Q2 : nrm (ev (Datatypes.S (length c))) <= kap ^ q * nrm x).
  { eapply Rle_trans; [apply ev_bound|]. apply Rmult_le_compat_r; [apply nrm_pos|apply pow_small; exact Hq]. }
  pose proof (Rmult_le_compat_l _ _ _ (Rabs_pos (a * l)) Q2). lra.
Qed.
(** Cutting the series. *)
Lemma near_cut : forall z c c' e, length c = q -> near z (c ++ c') e -> near z c (e + labs c').
Proof.
  intros z c c' e Hq (Lz & Hz). split; [exact Lz|]. eapply Rle_trans; [apply (nrm_tri z (comb (c ++ c') 0) (comb c 0)); auto using cl|].
  assert (E : sub (comb (c ++ c') 0) (comb c 0) = comb c' q).
  { apply (list_eq n); [apply sub_len; auto using cl|apply cl|]. intros i. rewrite sub_nth by apply cl. rewrite !(comb_nth n G Glen x Lx).
    assert (Z : forall k g, lsum (c ++ c') k g = lsum c k g + lsum c' (k + length c) g).
    { clear. induction c as [|a c IH]; intros k g; cbn [app lsum length]; [rewrite Nat.add_0_r; ring|]. rewrite IH. replace (Datatypes.S k + length c)%nat with (k + Datatypes.S (length c))%nat by lia. ring. }
    rewrite Z, Hq. cbn [Nat.add]. ring. }
  rewrite E. pose proof (comb_bound q c' q (Nat.le_refl _)). lra.
Qed.
End Series.
End Norm.

(** The integrators on the assembled operator, over whole runs. *)
From Coq Require Import ZArith List Bool Reals Lia Lra.
From Verif Require Import Common Csr_Model Face_Model Face_Spec Face_Proofs Setup_Model Setup_Spec Assembly_Model Form_Model Form_Spec Nodal_Spec NodalMult_Proofs NodalEnergy_Spec NodalEnergy_Proofs Global_Spec GlobalEnergy_Proofs GlobalBalance_Proofs Time_Model Ode_Model Ode_Spec Ode_Proofs OdeRk_Proofs OdeGram_Proofs OdeStep_Proofs OdeLin_Proofs.
Import ListNotations.
Local Open Scope R_scope.

(** Products with a sparse matrix are linear. *)
Lemma zget_addv : forall a k x j u v, length k = length x -> zget x j = Ok u -> zget k j = Ok v -> zget (addv a k x) j = Ok (u + a * v).
Proof.
  intros a k x j u v L Hu Hv. apply zget_ok in Hu. destruct Hu as (J & Hu). apply zget_ok in Hv. destruct Hv as (_ & Hv). apply zget_ok. split; [exact J|].
  assert (Lj : (Z.to_nat j < length x)%nat) by (apply nth_error_Some; congruence).
  assert (Lj' : (Z.to_nat j < length (addv a k x))%nat) by (rewrite (addv_len (length x)); auto).
  rewrite (nth_error_nth' _ 0 Lj'), (addv_nth (length x)) by auto. rewrite (nth_error_nth _ _ 0 Hu), (nth_error_nth _ _ 0 Hv). reflexivity.
Qed.
Lemma row_linear : forall A a k x r u v, length k = length x -> csr_mult_row A x r = Ok u -> csr_mult_row A k r = Ok v ->
  csr_mult_row A (addv a k x) r = Ok (u + a * v).
Proof.
  intros A a k x r u v L. unfold csr_mult_row. destruct (zget_init (c_I A) r) as [lo| |]; cbn [bind]; try discriminate.
  destruct (zget_init (c_I A) (r + 1)) as [hi| |]; cbn [bind]; try discriminate.
  assert (G : forall l u0 v0 u v,
    foldM (fun acc k0 => a0 <- zget_init (c_A A) (lo + k0) ;; j <- zget_init (c_J A) (lo + k0) ;; xj <- zget x j ;; Ok (acc + a0 * xj)) l u0 = Ok u ->
    foldM (fun acc k0 => a0 <- zget_init (c_A A) (lo + k0) ;; j <- zget_init (c_J A) (lo + k0) ;; xj <- zget k j ;; Ok (acc + a0 * xj)) l v0 = Ok v ->
    foldM (fun acc k0 => a0 <- zget_init (c_A A) (lo + k0) ;; j <- zget_init (c_J A) (lo + k0) ;; xj <- zget (addv a k x) j ;; Ok (acc + a0 * xj)) l (u0 + a * v0) = Ok (u + a * v)).
  { induction l as [|i l IH]; intros u0 v0 u1 v1; cbn [foldM].
    - intros E E'. injection E as <-. injection E' as <-. reflexivity.
    - destruct (zget_init (c_A A) (lo + i)) as [a0| |]; cbn [bind]; try discriminate.
      destruct (zget_init (c_J A) (lo + i)) as [j| |]; cbn [bind]; try discriminate.
      destruct (zget x j) as [xj| |] eqn:Ex; cbn [bind]; try discriminate.
      destruct (zget k j) as [kj| |] eqn:Ek; cbn [bind]; try discriminate.
      rewrite (zget_addv a k x j xj kj L Ex Ek). cbn [bind]. intros E E'.
      replace (u0 + a * v0 + a0 * (xj + a * kj)) with (u0 + a0 * xj + a * (v0 + a0 * kj)) by ring. apply IH; assumption. }
  intros E E'. replace 0 with (0 + a * 0) by ring. apply G; [exact E|exact E'].
Qed.
Lemma applies_linear : forall A N a k x z y, length k = (6 * N)%nat -> length x = (6 * N)%nat -> applies A N x y -> applies A N k z ->
  applies A N (addv a k x) (addv a z y).
Proof.
  intros A N a k x z y Lk Lx (Ly & Hy) (Lz & Hz). split; [apply addv_len; assumption|]. intros r Hr.
  rewrite (row_linear A a k x r _ _ ltac:(congruence) (Hy r Hr) (Hz r Hr)), (addv_nth (6 * N)) by assumption. reflexivity.
Qed.

(** The energy form. *)
Section Energy.
Variable N : nat.
Variable Mass : Z -> mat.
Hypothesis MF : massForm N Mass.
Let n := (6 * N)%nat.
Notation B := (fieldRate N Mass).
Lemma fld_addv : forall a k x g d i, length k = n -> length x = n -> fld N (addv a k x) g d i = fld N x g d i + a * fld N k g d i.
Proof. intros. unfold fld. apply (addv_nth n); assumption. Qed.
Lemma Bsym' : forall x y, length x = n -> length y = n -> B x y = B y x.
Proof.
  intros x y _ _. unfold fieldRate, suml. cbn [map fold_right]. destruct MF as (Sy & _). repeat rewrite (mform_sym N (Mass _) (fld N x _ _)) by apply Sy. reflexivity.
Qed.
Lemma Badd_r : forall a k x y, length k = n -> length x = n -> length y = n -> B y (addv a k x) = B y x + a * B y k.
Proof.
  intros a k x y Lk Lx Ly. unfold fieldRate, suml. cbn [map fold_right].
  assert (G : forall M g d w, mform N M w (fld N (addv a k x) g d) = mform N M w (fld N x g d) + a * mform N M w (fld N k g d)).
  { intros. rewrite <- mform_scal, <- mform_plus. apply mform_ext. intros i _. apply fld_addv; assumption. }
  rewrite !G. ring.
Qed.
Lemma Badd' : forall a k x y, length k = n -> length x = n -> length y = n -> B (addv a k x) y = B x y + a * B k y.
Proof. intros. rewrite Bsym', Badd_r, (Bsym' y x), (Bsym' y k) by (auto using addv_len). reflexivity. Qed.
Lemma Bpos' : forall x, length x = n -> 0 <= B x x.
Proof.
  intros x _. unfold fieldRate, suml. cbn [map fold_right]. destruct MF as (_ & P).
  pose proof (P 0%Z (fld N x 0 0)). pose proof (P 0%Z (fld N x 0 1)). pose proof (P 0%Z (fld N x 0 2)).
  pose proof (P 1%Z (fld N x 1 0)). pose proof (P 1%Z (fld N x 1 1)). pose proof (P 1%Z (fld N x 1 2)). lra.
Qed.
Lemma coercive_entry : forall c, 0 < c -> (forall g v, c * sumN N (fun i => v i * v i) <= mform N (Mass g) v v) ->
  forall x i, length x = n -> c * (nth i x 0 * nth i x 0) <= B x x.
Proof.
  intros c Hc Co x i Hx. destruct (lt_dec i n) as [Hi|Hi]; [|rewrite nth_overflow by lia; pose proof (Bpos' x Hx); lra].
  destruct (row_split N i Hi) as (H1 & H2 & H3 & H4 & H5).
  assert (G : c * (nth i x 0 * nth i x 0) <= mform N (Mass (Z.of_nat (i / N / 3))) (fld N x (Z.of_nat (i / N / 3)) (Z.of_nat (i / N mod 3))) (fld N x (Z.of_nat (i / N / 3)) (Z.of_nat (i / N mod 3)))).
  { eapply Rle_trans; [|apply Co]. apply Rmult_le_compat_l; [lra|].
    assert (E : nth i x 0 = fld N x (Z.of_nat (i / N / 3)) (Z.of_nat (i / N mod 3)) (i mod N)) by (unfold fld; f_equal; nia).
    set (w := fld N x (Z.of_nat (i / N / 3)) (Z.of_nat (i / N mod 3))) in *. rewrite E.
    rewrite <- (sumN_delta N (i mod N) (fun j => w j * w j) H4). unfold sumN. generalize (seq 0 N). intros l. induction l as [|j l IH]; cbn [map fold_right]; [lra|].
    apply Rplus_le_compat; [|exact IH]. destruct (j =? i mod N)%nat; [lra|]. pose proof (Rle_0_sqr (w j)). exact H. }
  destruct MF as (_ & P). unfold fieldRate, suml. cbn [map fold_right].
  pose proof (P 0%Z (fld N x 0 0)). pose proof (P 0%Z (fld N x 0 1)). pose proof (P 0%Z (fld N x 0 2)).
  pose proof (P 1%Z (fld N x 1 0)). pose proof (P 1%Z (fld N x 1 1)). pose proof (P 1%Z (fld N x 1 2)).
  assert (C1 : (i / N / 3 = 0 \/ i / N / 3 = 1)%nat) by lia. assert (C2 : (i / N mod 3 = 0 \/ i / N mod 3 = 1 \/ i / N mod 3 = 2)%nat) by lia.
  destruct C1 as [C1 | C1]; destruct C2 as [C2 | [C2 | C2]]; rewrite C1, C2 in G; cbn [Z.of_nat Pos.of_succ_nat Pos.succ] in G; lra.
Qed.

(** An operator with its evaluations and stages. *)
Variable A : csr R.
Variable f : R -> list R -> list R.
Hypothesis Ev : evaluates A N f.
Let F := f 0.
Lemma Flen' : forall x, length x = n -> length (F x) = n.
Proof. intros x Hx. apply (Ev 0 x Hx). Qed.
Lemma Fadd' : forall a k x, length k = n -> length x = n -> F (addv a k x) = addv a (F k) (F x).
Proof.
  intros a k x Hk Hx. apply (applies_unique N A (addv a k x)); [apply Ev, addv_len; assumption|]. apply applies_linear; auto; apply Ev; assumption.
Qed.
Lemma fF' : forall t x, length x = n -> f t x = F x.
Proof. intros t x Hx. apply (applies_unique N A x); apply Ev; exact Hx. Qed.
Lemma impS' : forall imp, solvesStages A N imp -> forall t h x, length x = n -> 0 <= h -> stage n F h x (imp t h x).
Proof.
  intros imp I t h x Hx Hh. destruct (I t h x Hx Hh) as (L & H). split; [exact L|].
  assert (La : length (addv h (imp t h x) x) = n) by (apply addv_len; assumption).
  apply (applies_unique N A (addv h (imp t h x) x)); [apply H; [exact La|]|apply Ev, La]. intros i. apply (addv_nth n); assumption.
Qed.
Lemma Diss' : (forall x y, length x = n -> applies A N x y -> B x y <= 0) -> forall x, length x = n -> B x (F x) <= 0.
Proof. intros H x Hx. apply H; [exact Hx|apply Ev, Hx]. Qed.
Lemma HK' : forall K, boundedBy A N Mass K -> forall y, length y = n -> B (F y) (F y) <= K * K * B y y.
Proof. intros K H y Hy. specialize (H y (F y) Hy (Ev 0 y Hy)). unfold fieldEnergy in H. lra. Qed.

(** ** Runs *)
Variable imp : R -> R -> list R -> list R.
Hypothesis St : solvesStages A N imp.
Hypothesis Di : forall x y, length x = n -> applies A N x y -> B x y <= 0.
Notation E := (fieldEnergy N Mass).
Notation ode ty := (odeStep f imp ty).

Lemma guard_pos : forall (s : solver (list R)), 0 < s_dt s -> guardR s = true -> 0 < truedt s <= s_dt s.
Proof.
  intros s Hd G. unfold guardR in G. destruct (Rle_dec _ _) as [L|]; [|discriminate]. unfold truedt. split; [|apply Rmin_l].
  apply Rmin_glb_lt; [exact Hd|]. assert (0 < / 100000000 * s_dt s) by (apply Rmult_lt_0_compat; lra). lra.
Qed.
Lemma ode_len : forall ty x t dt, length x = n -> 0 <= dt -> length (ode ty x t dt) = n.
Proof. intros. apply (step_len n F Flen' f fF' imp (impS' imp St)); assumption. Qed.
Lemma contract : forall ty x t dt, (1 <= ty <= 6)%Z -> length x = n -> 0 <= dt -> E (ode ty x t dt) <= E x.
Proof.
  intros ty x t dt Hty Hx Hd. unfold fieldEnergy.
  pose proof (implicit_contracts n B Badd' Bsym' Bpos' F Flen' Fadd' (Diss' Di) f fF' imp (impS' imp St) ty x t dt Hty Hx Hd). lra.
Qed.
Theorem implicit_run : forall ty, (1 <= ty <= 6)%Z -> forall s tr s', 0 < s_dt s -> length (s_fields s) = n ->
  runR (list R) (ode ty) s tr s' -> neverRises (energies N Mass s tr).
Proof.
  intros ty Hty s tr s' Hd Hl Rn. revert Hd Hl. induction Rn as [s G|s tr s' G Rn IH]; intros Hd Hl; [exact I|].
  pose proof (guard_pos s Hd G) as (T0 & _). unfold energies. cbn [map]. split.
  - cbn [stepR s_fields]. apply contract; [exact Hty|exact Hl|lra].
  - apply IH; [exact Hd|]. cbn [stepR s_fields]. apply ode_len; [exact Hl|lra].
Qed.
Theorem conserve_run : (forall x y, length x = n -> applies A N x y -> B x y = 0) -> forall ty, (2 <= ty <= 3)%Z -> forall s tr s', 0 < s_dt s -> length (s_fields s) = n ->
  runR (list R) (ode ty) s tr s' -> Forall (fun st => E (s_fields st) = E (s_fields s)) tr.
Proof.
  intros Z ty Hty s tr s' Hd Hl Rn. revert Hd Hl. induction Rn as [s G|s tr s' G Rn IH]; intros Hd Hl; [constructor|].
  pose proof (guard_pos s Hd G) as (T0 & _).
  assert (E1 : E (s_fields (stepR (list R) (ode ty) s)) = E (s_fields s)).
  { cbn [stepR s_fields]. unfold fieldEnergy. f_equal.
    apply (symmetric_conserve n B Badd' Bsym' F Flen' Fadd' f fF' imp (impS' imp St)); [|exact Hty|exact Hl|lra]. intros x Hx. apply Z; [exact Hx|apply Ev, Hx]. }
  constructor; [exact E1|]. assert (Q : Forall (fun st => E (s_fields st) = E (s_fields (stepR (list R) (ode ty) s))) tr).
  { apply IH; [exact Hd|]. cbn [stepR s_fields]. apply ode_len; [exact Hl|lra]. }
  eapply Forall_impl; [|exact Q]. intros st H. cbv beta in H. rewrite H. exact E1.
Qed.

(** The explicit integrator. *)
Variable K : R.
Hypothesis K0 : 0 <= K.
Hypothesis HK : boundedBy A N Mass K.
Lemma ode0_len : forall x t dt, length x = n -> length (ode 0 x t dt) = n.
Proof. intros. apply (rk4_len n F Flen' f fF'); assumption. Qed.
Lemma one : forall x t h, length x = n -> 0 <= h -> h * K <= 1 / 4 -> E (ode 0 x t h) <= 10001 / 10000 * E x.
Proof.
  intros x t h Hx Hh HhK. unfold fieldEnergy. change (ode 0 x t h) with (rk4Step f x t h).
  pose proof (rk4_one n B Badd' Bsym' Bpos' F Flen' Fadd' (Diss' Di) f fF' h Hh K (HK' K HK) K0 HhK x t Hx). lra.
Qed.
Lemma two : forall x t t' h, length x = n -> 0 <= h -> h * K <= 1 / 4 -> E (ode 0 (ode 0 x t h) t' h) <= E x.
Proof.
  intros x t t' h Hx Hh HhK. unfold fieldEnergy. change (ode 0 (ode 0 x t h) t' h) with (rk4Step f (rk4Step f x t h) t' h).
  pose proof (rk4_two n B Badd' Bsym' Bpos' F Flen' Fadd' (Diss' Di) f fF' h Hh K (HK' K HK) K0 HhK x t t' Hx). lra.
Qed.
Lemma E_pos : forall x, length x = n -> 0 <= E x.
Proof. intros x Hx. unfold fieldEnergy. pose proof (Bpos' x Hx). lra. Qed.

Theorem rk4_run : forall s tr s', 0 < s_dt s -> s_dt s * K <= 1 / 4 -> length (s_fields s) = n ->
  runR (list R) (ode 0) s tr s' -> Forall (fun st => E (s_fields st) <= 10001 / 10000 * (10001 / 10000) * E (s_fields s)) tr.
Proof.
  assert (G : forall m s tr s', (length tr <= m)%nat -> 0 < s_dt s -> s_dt s * K <= 1 / 4 -> length (s_fields s) = n ->
    runR (list R) (ode 0) s tr s' -> Forall (fun st => E (s_fields st) <= 10001 / 10000 * (10001 / 10000) * E (s_fields s)) tr).
  2:{ intros s tr s'. exact (G (length tr) s tr s' (Nat.le_refl _)). }
  induction m as [|m IH]; intros s tr s' Lm Hd HdK Hl Rn; [destruct tr; [constructor|cbn in Lm; lia]|].
  inversion Rn as [|s0 tr1 s0' G1 R1]; subst; [constructor|]. cbn [length] in Lm.
  set (s1 := stepR (list R) (ode 0) s) in *.
  pose proof (guard_pos s Hd G1) as (T0 & T1).
  assert (HT : truedt s * K <= 1 / 4) by (apply Rle_trans with (s_dt s * K); [apply Rmult_le_compat_r; lra|exact HdK]).
  assert (E0 : 0 <= E (s_fields s)) by (apply E_pos, Hl).
  assert (E1 : E (s_fields s1) <= 10001 / 10000 * E (s_fields s)) by (apply one; [exact Hl|lra|exact HT]).
  assert (L1 : length (s_fields s1) = n) by (apply ode0_len; exact Hl).
  assert (P1 : 0 <= E (s_fields s1)) by (apply E_pos, L1).
  constructor; [lra|].
  inversion R1 as [|s2' tr2 s2'' G2 R2]; subst; [constructor|]. cbn [length] in Lm.
  set (s2 := stepR (list R) (ode 0) s1) in *.
  assert (Hd1 : 0 < s_dt s1) by exact Hd. pose proof (guard_pos s1 Hd1 G2) as (T2 & T3). change (s_dt s1) with (s_dt s) in T3.
  assert (HT1 : truedt s1 * K <= 1 / 4) by (apply Rle_trans with (s_dt s * K); [apply Rmult_le_compat_r; lra|exact HdK]).
  assert (E2 : E (s_fields s2) <= 10001 / 10000 * E (s_fields s1)) by (apply one; [exact L1|lra|exact HT1]).
  assert (L2 : length (s_fields s2) = n) by (apply ode0_len; exact L1).
  assert (Full : truedt s = s_dt s).
  { unfold truedt. apply Rmin_left. apply Rnot_lt_le. intros Lt.
    assert (time : s_time s1 = s_final s) by (cbn [s1 stepR s_time]; unfold truedt; rewrite Rmin_right by lra; ring).
    unfold guardR in G2. destruct (Rle_dec _ _) as [Q|]; [|discriminate]. rewrite time in Q. change (s_final s1) with (s_final s) in Q. change (s_dt s1) with (s_dt s) in Q.
    assert (0 < / 100000000 * s_dt s) by (apply Rmult_lt_0_compat; lra). lra. }
  destruct (Rle_lt_dec (s_dt s) (s_final s - s_time s1)) as [Fu|Last].
  - assert (T : truedt s1 = s_dt s) by (unfold truedt; apply Rmin_left; exact Fu).
    assert (E02 : E (s_fields s2) <= E (s_fields s)).
    { cbn [s2 stepR s_fields]. rewrite T. cbn [s1 stepR s_fields]. rewrite Full. apply two; [exact Hl|lra|exact HdK]. }
    constructor; [lra|].
    assert (Q : Forall (fun st => E (s_fields st) <= 10001 / 10000 * (10001 / 10000) * E (s_fields s2)) tr2) by (apply (IH s2 tr2 s'); [lia|exact Hd|exact HdK|exact L2|exact R2]).
    eapply Forall_impl; [|exact Q]. intros st H. cbv beta in H. lra.
  - constructor; [lra|].
    assert (time : s_time s2 = s_final s) by (cbn [s2 stepR s_time]; unfold truedt; change (s_dt s1) with (s_dt s); change (s_final s1) with (s_final s); rewrite Rmin_right by lra; ring).
    inversion R2 as [|x1 x2 x3 G3 R3]; subst; [constructor|]. exfalso.
    unfold guardR in G3. destruct (Rle_dec _ _) as [Q|]; [|discriminate]. rewrite time in Q. change (s_final s2) with (s_final s) in Q. change (s_dt s2) with (s_dt s) in Q.
    assert (0 < / 100000000 * s_dt s) by (apply Rmult_lt_0_compat; lra). lra.
Qed.
Theorem rk4_skew_run : (forall x y, length x = n -> applies A N x y -> B x y = 0) -> forall s tr s', 0 < s_dt s -> s_dt s * K * (s_dt s * K) <= 8 -> length (s_fields s) = n ->
  runR (list R) (ode 0) s tr s' -> neverRises (energies N Mass s tr).
Proof.
  intros Z s tr s' Hd HdK Hl Rn. revert Hd HdK Hl. induction Rn as [s G|s tr s' G Rn IH]; intros Hd HdK Hl; [exact I|].
  pose proof (guard_pos s Hd G) as (T0 & T1). unfold energies. cbn [map]. split.
  - cbn [stepR s_fields]. unfold fieldEnergy. change (ode 0) with (rk4Step f).
    assert (H : truedt s * K * (truedt s * K) <= 8).
    { eapply Rle_trans; [|exact HdK]. assert (0 <= truedt s * K) by (apply Rmult_le_pos; lra).
      assert (truedt s * K <= s_dt s * K) by (apply Rmult_le_compat_r; lra). apply Rmult_le_compat; assumption. }
    pose proof (rk4_skew n B Badd' Bsym' Bpos' F Flen' Fadd' f fF' (truedt s) (Rlt_le _ _ T0) K (HK' K HK) (fun x Hx => Z x (F x) Hx (Ev 0 x Hx)) H (s_fields s) (s_time s) Hl). lra.
  - apply IH; [exact Hd|exact HdK|]. cbn [stepR s_fields]. apply ode0_len; exact Hl.
Qed.
End Energy.

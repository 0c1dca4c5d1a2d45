(** The integrators with a source: response of one step and of a run. *)
From Coq Require Import ZArith List Bool Reals Lia Lra.
From Verif Require Import Common Time_Model Ode_Model Ode_Proofs OdeRk_Proofs OdeLin_Proofs OdeStep_Proofs OdeNorm_Proofs OdeExact_Proofs OdeLocal_Proofs OdeConv_Proofs.
Import ListNotations.
Local Open Scope R_scope.

(** Response of the stages and of the steps, in units of the step times the source: its size [b] and
    the error [e] of its first-order term, then the second-order coefficients, of the change of the source
    and of the operator on the source, with their error. *)
Record dv := mkDv { db : R; dc : R; de : R; dc2 : R; dc3 : R; de2 : R }.
Definition d0 : dv := mkDv 0 0 0 0 0 0.
Definition dadd (a : R) (k z : dv) : dv := mkDv (db z + Rabs a * db k) (dc z + a * dc k) (de z + Rabs a * de k)
  (dc2 z + a * dc2 k) (dc3 z + a * dc3 k) (de2 z + Rabs a * de2 k).
Definition dst (a tau th : R) (y : dv) : dv := mkDv (2 * db y / a + 1) 1 (3 * db y + a + tau)
  th (a + dc y) (tau * tau + a * (3 * db y + a + tau) + de y).
Definition dF (tau th : R) (z : dv) : dv := mkDv (db z + 1) 1 (db z + tau) th (dc z) (tau * tau + de z).
Definition dk4 : dv :=
  let k := dF 0 0 d0 in let y := dadd (1 / 2) k d0 in let z := dadd (1 / 6) k d0 in
  let k := dF 1 (1 / 2) y in let y := dadd (1 / 2) k d0 in let z := dadd (1 / 3) k z in
  let k := dF 1 (1 / 2) y in let y := dadd 1 k d0 in let z := dadd (1 / 3) k z in
  let k := dF 1 1 y in dadd (1 / 6) k z.
Definition dBe : dv := dadd 1 (dst 1 1 1 d0) d0.
Definition dTr : dv := let y := dadd (1 / 2) (dF 0 0 d0) d0 in dadd (1 / 2) (dst (1 / 2) 1 1 y) y.
Definition dMp : dv := dadd 1 (dst (1 / 2) 1 (1 / 2) d0) d0.
Definition d33 : dv :=
  let k := dst a33 1 a33 d0 in let y := dadd (c33 - a33) k d0 in let x := dadd b33 k d0 in
  let k := dst a33 1 c33 y in let x := dadd (1 - a33 - b33) k x in
  let k := dst a33 1 1 x in dadd a33 k x.
Definition d23 : dv :=
  let k := dst gamma23 1 gamma23 d0 in let y := dadd (1 - 2 * gamma23) k d0 in let x := dadd (1 / 2) k d0 in
  let k := dst gamma23 1 (1 - gamma23) y in dadd (1 / 2) k x.
Definition d34 : dv :=
  let k := dst a34 2 a34 d0 in let y := dadd (/ 2 - a34) k d0 in let z := dadd (2 * a34) k d0 in let x := dadd b34 k d0 in
  let k := dst a34 2 (1 / 2) y in let z := dadd (1 - 4 * a34) k z in let x := dadd (1 - 2 * b34) k x in
  let k := dst a34 2 (1 - a34) z in dadd b34 k x.
Definition dOf (ty : Z) : dv :=
  if (ty =? 0)%Z then dk4 else if (ty =? 1)%Z then dBe else if (ty =? 2)%Z then dTr else if (ty =? 3)%Z then dMp
  else if (ty =? 4)%Z then d33 else if (ty =? 5)%Z then d23 else d34.
Lemma d_sums : forall ty, (0 <= ty <= 6)%Z -> dc (dOf ty) = 1.
Proof.
  intros ty H. assert (C : (ty = 0 \/ ty = 1 \/ ty = 2 \/ ty = 3 \/ ty = 4 \/ ty = 5 \/ ty = 6)%Z) by lia.
  destruct C as [-> | [-> | [-> | [-> | [-> | [-> | ->]]]]]]; cbv [dOf Z.eqb Pos.eqb dk4 dBe dTr dMp d33 d23 d34 dadd dst dF d0 dc]; field.
Qed.
Lemma d_second : forall ty, (ty = 0 \/ 2 <= ty <= 6)%Z -> Rabs (dc2 (dOf ty) - 1 / 2) <= excess ty /\ Rabs (dc3 (dOf ty) - 1 / 2) <= excess ty.
Proof.
  intros ty H. assert (C : (ty = 0 \/ ty = 2 \/ ty = 3 \/ ty = 4 \/ ty = 5 \/ ty = 6)%Z) by lia. clear H.
  destruct C as [-> | [-> | [-> | [-> | [-> | ->]]]]]; cbv [dOf excess Z.eqb Pos.eqb dk4 dBe dTr dMp d33 d23 d34 dadd dst dF d0 dc dc2 dc3].
  4: { split; apply Rabs_le; unfold a33, b33, c33; lra. }
  all: split; match goal with |- Rabs ?e <= 0 => replace e with 0 by field end; rewrite Rabs_R0; lra.
Qed.

Section Drive.
Variable n : nat.
Variable B : list R -> list R -> R.
Hypothesis Badd : forall a k x y, length k = n -> length x = n -> length y = n -> B (addv a k x) y = B x y + a * B k y.
Hypothesis Bsym : forall x y, length x = n -> length y = n -> B x y = B y x.
Hypothesis Bpos : forall x, length x = n -> 0 <= B x x.
Notation nrm := (nrm B).
Variable F : list R -> list R.
Hypothesis Flen : forall x, length x = n -> length (F x) = n.
Hypothesis Fadd : forall a k x, length k = n -> length x = n -> F (addv a k x) = addv a (F k) (F x).
Hypothesis Diss : forall x, length x = n -> B x (F x) <= 0.
Variable K : R.
Hypothesis K0 : 0 <= K.
Hypothesis FB : forall y, length y = n -> nrm (F y) <= K * nrm y.
(** Two evaluations of the operator, with the sources [gb] and [ga]; [g] is their difference. *)
Variables ga gb g : R -> list R.
Hypothesis Lga : forall t, length (ga t) = n.
Hypothesis Lgb : forall t, length (gb t) = n.
Hypothesis Lg : forall t, length (g t) = n.
Hypothesis gE : forall t i, nth i (g t) 0 = nth i (ga t) 0 - nth i (gb t) 0.
Variable f0 : R -> list R -> list R.
Hypothesis f0F : forall t x, length x = n -> f0 t x = addv 1 (gb t) (F x).
Variable imp0 : R -> R -> list R -> list R.
Hypothesis imp0S : forall t h x, length x = n -> 0 <= h -> length (imp0 t h x) = n /\ imp0 t h x = addv 1 (gb t) (F (addv h (imp0 t h x) x)).
Variable f : R -> list R -> list R.
Hypothesis fG : forall t x, length x = n -> f t x = addv 1 (ga t) (F x).
Variable imp : R -> R -> list R -> list R.
Hypothesis impG : forall t h x, length x = n -> 0 <= h -> length (imp t h x) = n /\ imp t h x = addv 1 (ga t) (F (addv h (imp t h x) x)).
Variables gam L L2 : R.
Hypothesis gam0 : 0 <= gam.
Hypothesis L0 : 0 <= L.
Hypothesis L20 : 0 <= L2.

Section One.
Variable h : R.
Hypothesis Hh : 0 <= h.
Variable t : R.
(** The source is bounded during the step; for the accuracy it also changes by at most [L] times the lag. *)
Hypothesis Hg : forall s, t - 2 * h <= s <= t + 2 * h -> nrm (g s) <= gam.
Definition lip : Prop := forall s, t - 2 * h <= s <= t + 2 * h -> nrm (sub (g s) (g t)) <= L * Rabs (s - t).
Variable g1 : list R.
Hypothesis Lg1 : length g1 = n.
Definition lip2 : Prop := lip /\ forall s, t - 2 * h <= s <= t + 2 * h -> nrm (sub (g s) (addv (s - t) g1 (g t))) <= L2 * ((s - t) * (s - t)).
Let zero := repeat 0 n.
Lemma zz : length zero = n. Proof. apply repeat_length. Qed.
Notation G := (G n F h).
Notation hk := (hk n h).
Lemma GL : forall y, length y = n -> length (G y) = n. Proof. apply (Glen n F Flen h). Qed.
Lemma GA : forall a k y, length k = n -> length y = n -> G (addv a k y) = addv a (G k) (G y). Proof. apply (Gadd n F Flen Fadd h). Qed.
Lemma GD : forall y, length y = n -> B y (G y) <= 0. Proof. apply (Gdiss n B Badd Bsym F Flen Diss h Hh). Qed.
Lemma GB : forall y, length y = n -> nrm (G y) <= h * K * nrm y. Proof. apply (Gbound n B Badd Bsym F Flen K FB h Hh). Qed.
Definition hg (s : R) : list R := addv h (g s) zero.
Lemma hg_len : forall s, length (hg s) = n. Proof. intros. apply addv_len; [apply Lg|apply zz]. Qed.
Lemma hg_nrm : forall s, t - 2 * h <= s <= t + 2 * h -> nrm (hg s) <= h * gam.
Proof. intros s Hs. unfold hg, zero. rewrite (nrm_scal n B Badd Bsym) by apply Lg. rewrite Rabs_pos_eq by exact Hh. apply Rmult_le_compat_l; [exact Hh|apply Hg, Hs]. Qed.
Definition h2 : list R := addv (h * h) g1 zero.
Lemma h2_len : length h2 = n. Proof. apply addv_len; [exact Lg1|apply zz]. Qed.
Definition first (c c2 c3 : R) (w : list R) : list R := addv (- c3) (G (hg t)) (addv (- c2) h2 (addv (- c) (hg t) w)).
Lemma Ghg_len : length (G (hg t)) = n. Proof. apply GL, hg_len. Qed.
Lemma first_len : forall c c2 c3 w, length w = n -> length (first c c2 c3 w) = n.
Proof. intros. unfold first. pose proof Ghg_len. pose proof h2_len. pose proof (hg_len t). repeat first [assumption|apply addv_len]. Qed.
Lemma first_nth : forall c c2 c3 w i, length w = n -> nth i (first c c2 c3 w) 0 = nth i w 0 - c * nth i (hg t) 0 - c2 * nth i h2 0 - c3 * nth i (G (hg t)) 0.
Proof.
  intros c c2 c3 w i Lw. unfold first. pose proof Ghg_len. pose proof h2_len. pose proof (hg_len t).
  rewrite !(addv_nth n) by (repeat first [assumption|apply addv_len]). ring.
Qed.
Definition unit1 : R := h * (h * K * gam + h * L).
Definition unit2 : R := h * (h * K * (h * K * gam + h * L) + h * h * L2).
Lemma unit1_pos : 0 <= unit1.
Proof. unfold unit1. apply Rmult_le_pos; [exact Hh|]. apply Rplus_le_le_0_compat; repeat apply Rmult_le_pos; assumption. Qed.
Lemma unit2_split : unit2 = h * K * unit1 + h * (h * h * L2). Proof. unfold unit2, unit1. ring. Qed.
Lemma h3_pos : 0 <= h * (h * h * L2). Proof. repeat apply Rmult_le_pos; assumption. Qed.
Lemma k1_pos : 0 <= h * K * unit1. Proof. apply Rmult_le_pos; [apply Rmult_le_pos; assumption|apply unit1_pos]. Qed.
Definition dev (z z0 : list R) (d : dv) : Prop :=
  length z = n /\ length z0 = n /\ 0 <= db d /\ nrm (sub z z0) <= db d * (h * gam) /\
  (lip -> nrm (addv (- dc d) (hg t) (sub z z0)) <= de d * unit1) /\ 0 <= de d /\
  (lip2 -> nrm (first (dc d) (dc2 d) (dc3 d) (sub z z0)) <= de2 d * unit2).
Lemma dev_x : forall x, length x = n -> dev x x d0.
Proof.
  intros x Lx. assert (Z0 : nrm (sub x x) = 0).
  { rewrite (nrm_ext n B _ (repeat 0 n)); [apply (nrm_zero n B Badd)|apply sub_len; exact Lx|apply repeat_length|]. intros i. rewrite (sub_nth n), nth_zero by exact Lx. ring. }
  split; [exact Lx|]. split; [exact Lx|]. cbn [d0 db dc de dc2 dc3 de2]. split; [lra|]. split; [rewrite Z0; lra|]. split; [intros _|split; [lra|intros _]].
  2: { rewrite (nrm_ext n B _ (sub x x)); [rewrite Z0; lra|apply first_len, sub_len; exact Lx|apply sub_len; exact Lx|]. intros i. rewrite first_nth by (apply sub_len; exact Lx). ring. }
  rewrite (nrm_ext n B _ (sub x x)); [rewrite Z0; lra|apply addv_len; [apply hg_len|apply sub_len; exact Lx]|apply sub_len; exact Lx|].
  intros i. rewrite (addv_nth n) by (try apply hg_len; apply sub_len; exact Lx). ring.
Qed.
Lemma dev_add : forall a c k k0 z z0 dk dz, c = a * h -> length k = n -> length k0 = n -> dev z z0 dz -> dev (hk k) (hk k0) dk -> dev (addv c k z) (addv c k0 z0) (dadd a dk dz).
Proof.
  intros a c k k0 z z0 dk dz Ec Lk Lk0 (L1 & LL2 & P1 & H1 & E1 & Q1 & T1) (L3 & L4 & P2 & H2 & E2 & Q2 & T2). rewrite (hk_add n h a c k z Ec Lk L1), (hk_add n h a c k0 z0 Ec Lk0 LL2).
  split; [apply addv_len; assumption|]. split; [apply addv_len; assumption|]. cbn [dadd db dc de dc2 dc3 de2]. split; [pose proof (Rmult_le_pos _ _ (Rabs_pos a) P2); lra|].
  assert (E : sub (addv a (hk k) z) (addv a (hk k0) z0) = addv a (sub (hk k) (hk k0)) (sub z z0)).
  { apply (list_eq n); [apply sub_len; apply addv_len; assumption|apply addv_len; apply sub_len; assumption|]. intros i.
    rewrite (sub_nth n) by (apply addv_len; assumption). rewrite !(addv_nth n) by (try apply sub_len; assumption). rewrite !(sub_nth n) by assumption. ring. }
  assert (S1 : length (sub z z0) = n) by (apply sub_len; assumption). assert (S2 : length (sub (hk k) (hk k0)) = n) by (apply sub_len; assumption).
  split; [|split; [|split]].
  4: { intros HL. specialize (T1 HL). specialize (T2 HL).
    assert (E' : first (dc dz + a * dc dk) (dc2 dz + a * dc2 dk) (dc3 dz + a * dc3 dk) (sub (addv a (hk k) z) (addv a (hk k0) z0)) = addv a (first (dc dk) (dc2 dk) (dc3 dk) (sub (hk k) (hk k0))) (first (dc dz) (dc2 dz) (dc3 dz) (sub z z0))).
    { rewrite E. apply (list_eq n); [apply first_len, addv_len; assumption|apply addv_len; apply first_len; assumption|]. intros i.
      rewrite (first_nth _ _ _ (addv a _ _)) by (apply addv_len; assumption). rewrite !(addv_nth n) by (first [assumption|apply first_len; assumption]). rewrite !first_nth by assumption. ring. }
    rewrite E'. eapply Rle_trans; [apply (nrm_add n B Badd Bsym Bpos); apply first_len; assumption|]. pose proof (Rmult_le_compat_l _ _ _ (Rabs_pos a) T2). lra. }
  3: { pose proof (Rmult_le_pos _ _ (Rabs_pos a) Q2). lra. }
  - rewrite E. eapply Rle_trans; [apply (nrm_add n B Badd Bsym Bpos); assumption|]. pose proof (Rmult_le_compat_l _ _ _ (Rabs_pos a) H2). lra.
  - intros HL. specialize (E1 HL). specialize (E2 HL). assert (E' : addv (- (dc dz + a * dc dk)) (hg t) (sub (addv a (hk k) z) (addv a (hk k0) z0)) = addv a (addv (- dc dk) (hg t) (sub (hk k) (hk k0))) (addv (- dc dz) (hg t) (sub z z0))).
    { rewrite E. pose proof (hg_len t). apply (list_eq n); [apply addv_len; [assumption|apply addv_len; assumption]|apply addv_len; apply addv_len; assumption|]. intros i. rewrite !(addv_nth n) by (repeat first [assumption|apply addv_len]). ring. }
    rewrite E'. eapply Rle_trans; [apply (nrm_add n B Badd Bsym Bpos); apply addv_len; auto using hg_len|]. pose proof (Rmult_le_compat_l _ _ _ (Rabs_pos a) E2). lra.
Qed.
Lemma unit_pos : 0 <= h * gam. Proof. apply Rmult_le_pos; assumption. Qed.
Lemma lag : forall t' tau, 0 <= tau <= 2 -> Rabs (t' - t) <= tau * h -> t - 2 * h <= t' <= t + 2 * h.
Proof. intros t' tau H1 H2. assert (tau * h <= 2 * h) by (apply Rmult_le_compat_r; lra). unfold Rabs in H2. destruct (Rcase_abs _); lra. Qed.
Lemma lag_err : lip -> forall t' tau, 0 <= tau <= 2 -> Rabs (t' - t) <= tau * h -> nrm (sub (hg t') (hg t)) <= tau * (h * (h * L)).
Proof.
  intros HL t' tau H1 H2. pose proof (lag t' tau H1 H2) as Hs.
  rewrite (nrm_ext n B _ (addv h (sub (g t') (g t)) (repeat 0 n))).
  - rewrite (nrm_scal n B Badd Bsym) by (apply sub_len; apply Lg). rewrite Rabs_pos_eq by exact Hh. pose proof (HL t' Hs) as Q.
    assert (L * Rabs (t' - t) <= L * (tau * h)) by (apply Rmult_le_compat_l; assumption). assert (nrm (sub (g t') (g t)) <= L * (tau * h)) by lra.
    apply (Rmult_le_compat_l h) in H0; [|exact Hh]. lra.
  - apply sub_len; apply hg_len.
  - apply addv_len; [apply sub_len; apply Lg|apply repeat_length].
  - intros i. rewrite (sub_nth n) by apply hg_len. unfold hg. rewrite !(addv_nth n) by (try apply Lg; try apply zz; try apply sub_len; try apply Lg; apply repeat_length). rewrite (sub_nth n) by apply Lg. unfold zero. rewrite !nth_zero. ring.
Qed.
Lemma lag_err2 : lip2 -> forall t' tau th, t' = t + th * h -> 0 <= tau <= 2 -> Rabs (t' - t) <= tau * h ->
  nrm (addv (- th) h2 (sub (hg t') (hg t))) <= tau * tau * (h * (h * h * L2)).
Proof.
  intros (_ & HL) t' tau th Et H1 H2. pose proof (lag t' tau H1 H2) as Hs.
  rewrite (nrm_ext n B _ (addv h (sub (g t') (addv (t' - t) g1 (g t))) (repeat 0 n))).
  - rewrite (nrm_scal n B Badd Bsym) by (apply sub_len; [apply Lg|apply addv_len; [exact Lg1|apply Lg]]). rewrite Rabs_pos_eq by exact Hh. pose proof (HL t' Hs) as Q.
    assert (Sq : (t' - t) * (t' - t) <= tau * h * (tau * h)).
    { rewrite <- (Rabs_pos_eq ((t' - t) * (t' - t))) by apply Rle_0_sqr. rewrite Rabs_mult. apply Rmult_le_compat; try apply Rabs_pos; assumption. }
    apply (Rmult_le_compat_l L2) in Sq; [|exact L20]. assert (Q' : nrm (sub (g t') (addv (t' - t) g1 (g t))) <= L2 * (tau * h * (tau * h))) by lra.
    apply (Rmult_le_compat_l h) in Q'; [|exact Hh]. lra.
  - apply addv_len; [apply h2_len|apply sub_len; apply hg_len].
  - apply addv_len; [apply sub_len; [apply Lg|apply addv_len; [exact Lg1|apply Lg]]|apply repeat_length].
  - intros i. rewrite (addv_nth n _ h2) by (try apply h2_len; apply sub_len; apply hg_len). rewrite (sub_nth n) by apply hg_len.
    rewrite (addv_nth n h) by (first [apply repeat_length|apply sub_len; [apply Lg|apply addv_len; [exact Lg1|apply Lg]]]). rewrite (sub_nth n) by (first [apply Lg|apply addv_len; [exact Lg1|apply Lg]]).
    rewrite (addv_nth n (t' - t)) by (try exact Lg1; apply Lg). unfold hg, h2. rewrite !(addv_nth n) by (try apply Lg; try exact Lg1; apply zz). unfold zero. rewrite !nth_zero, Et. ring.
Qed.
(** A stage. *)
Lemma dev_stage : forall a tau th t' c y y0 dy, c = a * h -> 0 < a -> t' = t + th * h -> 0 <= tau <= 2 -> Rabs (t' - t) <= tau * h -> dev y y0 dy ->
  dev (hk (imp t' c y)) (hk (imp0 t' c y0)) (dst a tau th dy).
Proof.
  intros a tau th t' c y y0 dy Ec Ha Eth Ht Htt (Ly & Ly0 & Pb & Hy & Ey & Pe & _).
  assert (Hc : 0 <= c) by (rewrite Ec; apply Rmult_le_pos; lra).
  destruct (impG t' c y Ly Hc) as (Lk & Ek). destruct (imp0S t' c y0 Ly0 Hc) as (Lk0 & Ek0).
  set (k := imp t' c y) in *. set (k0 := imp0 t' c y0) in *.
  assert (LH : length (hk k) = n) by (apply (hk_len n h); exact Lk). assert (LH0 : length (hk k0) = n) by (apply (hk_len n h); exact Lk0).
  set (r := sub (hk k) (hk k0)). assert (Lr : length r = n) by (apply sub_len; assumption).
  set (d := sub y y0) in *. assert (Ld : length d = n) by (apply sub_len; assumption).
  assert (Er : r = addv 1 (hg t') (G (addv a r d))).
  { apply (list_eq n); [exact Lr|apply addv_len; [apply hg_len|apply GL, addv_len; assumption]|]. intros i.
    rewrite (addv_nth n _ (hg t')) by (try apply hg_len; apply GL, addv_len; assumption). rewrite (G_nth n F Flen h) by (apply addv_len; assumption).
    unfold r at 1. rewrite (sub_nth n) by assumption. unfold OdeLocal_Proofs.hk. rewrite !(addv_nth n) by (try assumption; apply repeat_length). rewrite nth_zero.
    unfold hg, zero. rewrite (addv_nth n) by (try apply Lg; apply repeat_length). rewrite nth_zero. rewrite Ek at 1. rewrite Ek0 at 1.
    rewrite (addv_nth n _ (ga t')) by (try apply Lga; apply Flen, addv_len; assumption). rewrite (addv_nth n _ (gb t')) by (try apply Lgb; apply Flen, addv_len; assumption). rewrite gE.
    assert (E : addv a r d = sub (addv c k y) (addv c k0 y0)).
    { apply (list_eq n); [apply addv_len; assumption|apply sub_len; apply addv_len; assumption|]. intros j. rewrite (sub_nth n) by (apply addv_len; assumption). rewrite !(addv_nth n) by assumption.
      unfold r, d. rewrite !(sub_nth n) by assumption. unfold OdeLocal_Proofs.hk. rewrite !(addv_nth n) by (try assumption; apply repeat_length). rewrite nth_zero, Ec. ring. }
    rewrite E. unfold sub. rewrite (Fadd _ (addv c k0 y0) (addv c k y)) by (apply addv_len; assumption). rewrite (addv_nth n _ (F (addv c k0 y0))) by (apply Flen, addv_len; assumption). ring. }
  pose proof (lag t' tau Ht Htt) as Hs. pose proof unit_pos as U.
  (* v = a r + d solves v - a G v = d + a h g *)
  set (v := addv a r d) in *. assert (Lv : length v = n) by (apply addv_len; assumption).
  assert (Hv : nrm v <= nrm d + a * (h * gam)).
  { apply (nrm_le n B Bpos); [exact Lv|pose proof (nrm_pos B d); assert (0 <= a * (h * gam)) by (apply Rmult_le_pos; lra); lra|].
    assert (Ev : B v v = B v d + a * B v r) by (unfold v at 2; rewrite (Badd2 n B Badd Bsym) by assumption; ring).
    rewrite Er in Ev. rewrite (Badd2 n B Badd Bsym) in Ev by (try apply hg_len; try (apply GL; assumption); assumption).
    pose proof (GD v Lv) as D. pose proof (cs n B Badd Bsym Bpos v d Lv Ld) as C1. pose proof (cs n B Badd Bsym Bpos v (hg t') Lv (hg_len t')) as C2.
    pose proof (hg_nrm t' Hs) as C3. pose proof (nrm_pos B v) as Pv. assert (C4 : nrm v * nrm (hg t') <= nrm v * (h * gam)) by (apply Rmult_le_compat_l; assumption). nra. }
  assert (Hr : nrm r <= (2 * db dy / a + 1) * (h * gam)).
  { assert (E : addv a r (repeat 0 n) = sub v d).
    { apply (list_eq n); [apply addv_len; [exact Lr|apply repeat_length]|apply sub_len; assumption|]. intros i. rewrite (sub_nth n) by assumption. unfold v. rewrite !(addv_nth n) by (try assumption; apply repeat_length). rewrite nth_zero. ring. }
    assert (Q : a * nrm r <= nrm v + nrm d).
    { replace (a * nrm r) with (nrm (addv a r (repeat 0 n))) by (rewrite (nrm_scal n B Badd Bsym) by exact Lr; rewrite Rabs_pos_eq by lra; reflexivity). rewrite E. unfold sub. eapply Rle_trans; [apply (nrm_add n B Badd Bsym Bpos); assumption|]. rewrite Rabs_left by lra. lra. }
    apply Rmult_le_reg_l with a; [exact Ha|]. replace (a * ((2 * db dy / a + 1) * (h * gam))) with (2 * (db dy * (h * gam)) + a * (h * gam)) by (field; lra). lra. }
  split; [exact LH|]. split; [exact LH0|]. cbn [dst db dc de dc2 dc3 de2]. split.
  { assert (0 <= / a) by (left; apply Rinv_0_lt_compat, Ha). unfold Rdiv. pose proof (Rmult_le_pos _ _ Pb H). lra. }
  assert (First : lip -> nrm (addv (- (1)) (hg t) r) <= (3 * db dy + a + tau) * unit1).
  { intros HL.
  assert (E2 : addv (- (1)) (hg t) r = addv 1 (sub (hg t') (hg t)) (G v)).
  { rewrite Er. assert (LG : length (G v) = n) by (apply GL, Lv). pose proof (hg_len t). pose proof (hg_len t'). apply (list_eq n); [apply addv_len; [assumption|apply addv_len; assumption]|apply addv_len; [apply sub_len; assumption|assumption]|].
    intros i. rewrite !(addv_nth n) by (repeat first [assumption|apply sub_len|apply addv_len]). rewrite (sub_nth n) by assumption. ring. }
  rewrite E2. eapply Rle_trans; [apply (nrm_add n B Badd Bsym Bpos); [apply sub_len; apply hg_len|apply GL, Lv]|]. rewrite Rabs_R1.
  pose proof (GB v Lv) as Q1. pose proof (lag_err HL t' tau Ht Htt) as Q2.
  assert (P : 0 <= h * K) by (apply Rmult_le_pos; assumption).
  assert (Q3 : h * K * nrm v <= h * K * (db dy * (h * gam) + a * (h * gam))) by (apply Rmult_le_compat_l; [exact P|]; lra).
  assert (Q4 : 0 <= h * K * (h * gam)) by (apply Rmult_le_pos; assumption). assert (Q5 : 0 <= h * (h * L)) by (apply Rmult_le_pos; [exact Hh|apply Rmult_le_pos; assumption]).
  assert (Q6 : 0 <= db dy * (h * K * (h * gam))) by (apply Rmult_le_pos; assumption). assert (Q7 : 0 <= db dy * (h * (h * L))) by (apply Rmult_le_pos; assumption).
  assert (Q8 : 0 <= a * (h * (h * L))) by (apply Rmult_le_pos; lra). assert (Q9 : 0 <= tau * (h * K * (h * gam))) by (apply Rmult_le_pos; lra).
  unfold unit1. replace ((3 * db dy + a + tau) * (h * (h * K * gam + h * L))) with (3 * (db dy * (h * K * (h * gam))) + 3 * (db dy * (h * (h * L))) + a * (h * K * (h * gam)) + a * (h * (h * L)) + tau * (h * K * (h * gam)) + tau * (h * (h * L))) by ring.
  lra. }
  split; [exact Hr|]. split; [exact First|]. split; [lra|]. intros HL. specialize (First (proj1 HL)). specialize (Ey (proj1 HL)).
  assert (LG : length (G v) = n) by (apply GL, Lv).
  set (p := addv (- (1)) (hg t) r) in *. assert (Lp : length p = n) by (apply addv_len; [apply hg_len|exact Lr]).
  set (q := addv (- dc dy) (hg t) d) in *. assert (Lq : length q = n) by (apply addv_len; [apply hg_len|exact Ld]).
  set (o := addv (- th) h2 (sub (hg t') (hg t))). assert (Lo : length o = n) by (apply addv_len; [apply h2_len|apply sub_len; apply hg_len]).
  assert (E3 : first 1 th (a + dc dy) r = addv 1 o (addv 1 (G (addv a p (repeat 0 n))) (G q))).
  { assert (E4 : v = addv 1 (addv a p (repeat 0 n)) (addv (a + dc dy) (hg t) q)).
    { pose proof (hg_len t). pose proof (repeat_length 0 n). apply (list_eq n); [exact Lv|repeat first [assumption|apply addv_len]|]. intros i. unfold v, p, q.
      rewrite !(addv_nth n) by (repeat first [assumption|apply addv_len]). rewrite nth_zero. ring. }
    pose proof (hg_len t) as Lh. pose proof (hg_len t') as Lh'. pose proof (repeat_length 0 n) as Lz. pose proof h2_len as L22. assert (Lap : length (addv a p (repeat 0 n)) = n) by (apply addv_len; assumption).
    assert (LGh : length (G (hg t)) = n) by apply Ghg_len. assert (LGp : length (G (addv a p (repeat 0 n))) = n) by (apply GL; assumption). assert (LGq : length (G q) = n) by (apply GL; assumption).
    assert (LGpp : length (G p) = n) by (apply GL; assumption). assert (LGz : length (G (repeat 0 n)) = n) by (apply GL; assumption).
    assert (Lin : length (addv (a + dc dy) (hg t) q) = n) by (apply addv_len; assumption).
    apply (list_eq n); [apply first_len, Lr|repeat first [assumption|apply addv_len]|]. intros i. rewrite first_nth by exact Lr. rewrite Er at 1. rewrite E4.
    rewrite !GA by assumption. unfold o. rewrite !(addv_nth n) by (repeat first [assumption|apply sub_len|apply addv_len]). rewrite (sub_nth n) by assumption. ring. }
  fold r. rewrite E3. assert (Lap : length (addv a p (repeat 0 n)) = n) by (apply addv_len; [exact Lp|apply repeat_length]).
  eapply Rle_trans; [apply (nrm_add n B Badd Bsym Bpos); [exact Lo|apply addv_len; apply GL; assumption]|].
  pose proof (nrm_add n B Badd Bsym Bpos 1 (G (addv a p (repeat 0 n))) (G q) (GL _ Lap) (GL _ Lq)) as N2. rewrite Rabs_R1 in *.
  pose proof (lag_err2 HL t' tau th Eth Ht Htt) as N1. fold o in N1. pose proof (GB _ Lap) as N3. rewrite (nrm_scal n B Badd Bsym) in N3 by exact Lp. rewrite (Rabs_pos_eq a) in N3 by lra. pose proof (GB _ Lq) as N4.
  assert (PK : 0 <= h * K) by (apply Rmult_le_pos; assumption).
  assert (M1 : h * K * (a * nrm p) <= h * K * (a * ((3 * db dy + a + tau) * unit1))) by (apply Rmult_le_compat_l; [exact PK|]; apply Rmult_le_compat_l; [lra|exact First]).
  assert (M2 : h * K * nrm q <= h * K * (de dy * unit1)) by (apply Rmult_le_compat_l; assumption).
  pose proof h3_pos as X3. pose proof k1_pos as X1. rewrite unit2_split. set (w1 := h * K * unit1) in *. set (w2 := h * (h * h * L2)) in *.
  replace (h * K * (a * ((3 * db dy + a + tau) * unit1))) with (a * (3 * db dy + a + tau) * w1) in M1 by (unfold w1; ring). replace (h * K * (de dy * unit1)) with (de dy * w1) in M2 by (unfold w1; ring).
  assert (Y1 : 0 <= tau * tau * w1) by (apply Rmult_le_pos; [apply Rle_0_sqr|exact X1]). assert (Y2 : 0 <= (a * (3 * db dy + a + tau) + de dy) * w2).
  { apply Rmult_le_pos; [|exact X3]. apply Rplus_le_le_0_compat; [apply Rmult_le_pos; lra|exact Pe]. }
  lra.
Qed.
(** An evaluation. *)
Lemma dev_F : forall tau th t' z z0 dz, (db dz = 0 \/ h * K <= 1) -> t' = t + th * h -> 0 <= tau <= 2 -> Rabs (t' - t) <= tau * h -> dev z z0 dz -> dev (hk (f t' z)) (hk (f0 t' z0)) (dF tau th dz).
Proof.
  intros tau th t' z z0 dz Hk Eth Ht Htt (Lz & Lz0 & Pb & Hz & Ez & Pe & _). rewrite fG, f0F by assumption.
  pose proof (lag t' tau Ht Htt) as Hs. pose proof unit_pos as U. assert (P : 0 <= h * K) by (apply Rmult_le_pos; assumption).
  set (d := sub z z0) in *. assert (Ld : length d = n) by (apply sub_len; assumption).
  assert (L1 : length (addv 1 (ga t') (F z)) = n) by (apply addv_len; [apply Lga|apply Flen, Lz]). assert (LL2 : length (addv 1 (gb t') (F z0)) = n) by (apply addv_len; [apply Lgb|apply Flen, Lz0]).
  assert (E : sub (hk (addv 1 (ga t') (F z))) (hk (addv 1 (gb t') (F z0))) = addv 1 (hg t') (G d)).
  { apply (list_eq n); [apply sub_len; apply (hk_len n h); assumption|apply addv_len; [apply hg_len|apply GL, Ld]|]. intros i. rewrite (sub_nth n) by (apply (hk_len n h); assumption).
    unfold OdeLocal_Proofs.hk. rewrite (addv_nth n) by (try assumption; apply repeat_length). rewrite (addv_nth n _ (ga t')) by (try apply Lga; apply Flen, Lz). rewrite (addv_nth n _ (addv 1 (gb t') (F z0))) by (try assumption; apply repeat_length). rewrite (addv_nth n _ (gb t')) by (try apply Lgb; apply Flen, Lz0). rewrite (addv_nth n _ (hg t')) by (try apply hg_len; apply GL, Ld).
    rewrite (G_nth n F Flen h) by exact Ld. unfold d, sub. rewrite Fadd by assumption. rewrite (addv_nth n) by (apply Flen; assumption). unfold hg, zero. rewrite (addv_nth n) by (try apply Lg; apply repeat_length). rewrite !nth_zero, gE. ring. }
  pose proof (GB d Ld) as Q1. pose proof (hg_nrm t' Hs) as Q2.
  assert (Q3 : h * K * nrm d <= h * K * (db dz * (h * gam))) by (apply Rmult_le_compat_l; assumption).
  assert (Q4 : h * K * (db dz * (h * gam)) <= db dz * (h * gam)).
  { destruct Hk as [-> | Hk]; [lra|]. rewrite <- (Rmult_1_l (db dz * (h * gam))) at 2. apply Rmult_le_compat_r; [apply Rmult_le_pos; assumption|exact Hk]. }
  split; [apply (hk_len n h); exact L1|]. split; [apply (hk_len n h); exact LL2|]. cbn [dF db dc de dc2 dc3 de2]. split; [lra|]. rewrite E. split; [|split; [|split]]; [| |lra|].
  - eapply Rle_trans; [apply (nrm_add n B Badd Bsym Bpos); [apply hg_len|apply GL, Ld]|]. rewrite Rabs_R1. lra.
  - intros HL. assert (E2 : addv (- (1)) (hg t) (addv 1 (hg t') (G d)) = addv 1 (sub (hg t') (hg t)) (G d)).
    { assert (LG : length (G d) = n) by (apply GL, Ld). pose proof (hg_len t). pose proof (hg_len t'). apply (list_eq n); [apply addv_len; [assumption|apply addv_len; assumption]|apply addv_len; [apply sub_len; assumption|assumption]|].
      intros i. rewrite !(addv_nth n) by (repeat first [assumption|apply sub_len|apply addv_len]). rewrite (sub_nth n) by assumption. ring. }
    rewrite E2. eapply Rle_trans; [apply (nrm_add n B Badd Bsym Bpos); [apply sub_len; apply hg_len|apply GL, Ld]|]. rewrite Rabs_R1.
    pose proof (lag_err HL t' tau Ht Htt) as Q5.
    assert (Q6 : 0 <= h * (h * L)) by (apply Rmult_le_pos; [exact Hh|apply Rmult_le_pos; assumption]). assert (Q7 : 0 <= db dz * (h * (h * L))) by (apply Rmult_le_pos; assumption).
    assert (Q8 : 0 <= h * K * (h * gam)) by (apply Rmult_le_pos; assumption). assert (Q9 : 0 <= tau * (h * K * (h * gam))) by (apply Rmult_le_pos; lra).
    unfold unit1. replace ((db dz + tau) * (h * (h * K * gam + h * L))) with (h * K * (db dz * (h * gam)) + db dz * (h * (h * L)) + tau * (h * K * (h * gam)) + tau * (h * (h * L))) by ring. lra.
  - intros HL. specialize (Ez (proj1 HL)). set (q := addv (- dc dz) (hg t) d) in *. assert (Lq : length q = n) by (apply addv_len; [apply hg_len|exact Ld]).
    set (o := addv (- th) h2 (sub (hg t') (hg t))). assert (Lo : length o = n) by (apply addv_len; [apply h2_len|apply sub_len; apply hg_len]).
    pose proof (hg_len t) as Lh. pose proof (hg_len t') as Lh'. pose proof h2_len as L22. assert (LGh : length (G (hg t)) = n) by apply Ghg_len. assert (LGq : length (G q) = n) by (apply GL; assumption). assert (LGd : length (G d) = n) by (apply GL; assumption).
    assert (E3 : first 1 th (dc dz) (addv 1 (hg t') (G d)) = addv 1 o (G q)).
    { apply (list_eq n); [apply first_len, addv_len; assumption|apply addv_len; assumption|]. intros i. rewrite first_nth by (apply addv_len; assumption). unfold q. rewrite GA by assumption.
      unfold o. rewrite !(addv_nth n) by (repeat first [assumption|apply sub_len|apply addv_len]). rewrite (sub_nth n) by assumption. ring. }
    rewrite E3. eapply Rle_trans; [apply (nrm_add n B Badd Bsym Bpos); assumption|]. rewrite Rabs_R1.
    pose proof (lag_err2 HL t' tau th Eth Ht Htt) as N1. fold o in N1. pose proof (GB _ Lq) as N4.
    assert (M2 : h * K * nrm q <= h * K * (de dz * unit1)) by (apply Rmult_le_compat_l; assumption).
    pose proof h3_pos as X3. pose proof k1_pos as X1. rewrite unit2_split. set (w1 := h * K * unit1) in *. set (w2 := h * (h * h * L2)) in *.
    replace (h * K * (de dz * unit1)) with (de dz * w1) in M2 by (unfold w1; ring).
    assert (Y1 : 0 <= tau * tau * w1) by (apply Rmult_le_pos; [apply Rle_0_sqr|exact X1]). assert (Y2 : 0 <= de dz * w2) by (apply Rmult_le_pos; assumption). lra.
Qed.
Lemma iL : forall t' c y, 0 <= c -> length y = n -> length (imp t' c y) = n. Proof. intros. apply impG; assumption. Qed.
Lemma iL0 : forall t' c y, 0 <= c -> length y = n -> length (imp0 t' c y) = n. Proof. intros. apply imp0S; assumption. Qed.
Lemma fL : forall t' y, length y = n -> length (f t' y) = n. Proof. intros. rewrite fG by assumption. apply addv_len; [apply Lga|apply Flen; assumption]. Qed.
Lemma fL0 : forall t' y, length y = n -> length (f0 t' y) = n. Proof. intros. rewrite f0F by assumption. apply addv_len; [apply Lgb|apply Flen; assumption]. Qed.
Lemma near_t : forall c b, 0 <= c -> c <= b -> Rabs (t + c * h - t) <= b * h.
Proof. intros c b Hc Hb. replace (t + c * h - t) with (c * h) by ring. rewrite Rabs_pos_eq by (apply Rmult_le_pos; assumption). apply Rmult_le_compat_r; assumption. Qed.
Lemma near_abs : forall c b, Rabs c <= b -> Rabs (t + c * h - t) <= b * h.
Proof. intros c b Hb. replace (t + c * h - t) with (c * h) by ring. rewrite Rabs_mult, (Rabs_pos_eq h) by exact Hh. apply Rmult_le_compat_r; assumption. Qed.

Lemma gamma_pos : 0 < gamma23. Proof. pose proof gamma23_facts. lra. Qed.
Lemma a34_up : a34 <= 2.
Proof.
  unfold a34. assert (S3 : 1 <= sqrt 3) by (rewrite <- sqrt_1 at 1; apply sqrt_le_1_alt; lra).
  assert (Q : / sqrt 3 <= 1) by (rewrite <- Rinv_1; apply Rinv_le_contravar; lra). assert (Q0 : 0 < / sqrt 3) by (apply Rinv_0_lt_compat; lra).
  pose proof (COS_bound (PI / 18)) as (_ & C). unfold Rdiv. rewrite Rmult_1_l. nra.
Qed.
Theorem step_response : forall ty x, (0 <= ty <= 6)%Z -> (1 <= ty)%Z \/ h * K <= 1 -> length x = n ->
  dev (odeStep f imp ty x t h) (odeStep f0 imp0 ty x t h) (dOf ty).
Proof.
  intros ty x Hty Hk Lx. pose proof (dev_x x Lx) as X.
  assert (T0 : Rabs (t - t) <= 0 * h) by (rewrite Rminus_diag_eq, Rabs_R0 by reflexivity; lra).
  assert (T1 : Rabs (t + h - t) <= 1 * h) by (replace (t + h) with (t + 1 * h) by ring; apply near_t; lra).
  assert (T2 : Rabs (t + h / 2 - t) <= 1 * h) by (replace (t + h / 2) with (t + / 2 * h) by field; apply near_t; lra).
  pose proof a34_facts as (A34 & _). pose proof a34_up as A34u. pose proof gamma23_facts as (G1 & G2).
  assert (H2 : 0 <= h / 2) by lra. assert (H33 : 0 <= a33 * h) by (apply Rmult_le_pos; [apply a33_pos|exact Hh]).
  assert (H23 : 0 <= gamma23 * h) by (apply Rmult_le_pos; lra). assert (H34 : 0 <= a34 * h) by (apply Rmult_le_pos; lra).
  assert (C : (ty = 0 \/ ty = 1 \/ ty = 2 \/ ty = 3 \/ ty = 4 \/ ty = 5 \/ ty = 6)%Z) by lia.
  destruct C as [-> | [-> | [-> | [-> | [-> | [-> | ->]]]]]].
  - assert (Hk1 : h * K <= 1) by (destruct Hk; [lia|assumption]). change (dOf 0) with dk4.
    change (odeStep f imp 0 x t h) with (rk4Step f x t h). change (odeStep f0 imp0 0 x t h) with (rk4Step f0 x t h).
    unfold rk4Step, dk4. cbv zeta.
    assert (K1 : dev (hk (f t x)) (hk (f0 t x)) (dF 0 0 d0)) by (apply dev_F; auto; lra).
    assert (Y1 := dev_add (1 / 2) (h / 2) _ _ _ _ _ _ ltac:(field) (fL t x Lx) (fL0 t x Lx) X K1). assert (Z1 := dev_add (1 / 6) (h / 6) _ _ _ _ _ _ ltac:(field) (fL t x Lx) (fL0 t x Lx) X K1).
    assert (K2 := dev_F 1 (1 / 2) (t + h / 2) _ _ _ (or_intror Hk1) ltac:(field) ltac:(lra) T2 Y1). assert (L21 := fL (t + h / 2) _ (proj1 Y1)). assert (L2z := fL0 (t + h / 2) _ (proj1 (proj2 Y1))).
    assert (Y2 := dev_add (1 / 2) (h / 2) _ _ _ _ _ _ ltac:(field) L21 L2z X K2). assert (Z2 := dev_add (1 / 3) (h / 3) _ _ _ _ _ _ ltac:(field) L21 L2z Z1 K2).
    assert (K3 := dev_F 1 (1 / 2) (t + h / 2) _ _ _ (or_intror Hk1) ltac:(field) ltac:(lra) T2 Y2). assert (L31 := fL (t + h / 2) _ (proj1 Y2)). assert (L30 := fL0 (t + h / 2) _ (proj1 (proj2 Y2))).
    assert (Y3 := dev_add 1 h _ _ _ _ _ _ ltac:(ring) L31 L30 X K3). assert (Z3 := dev_add (1 / 3) (h / 3) _ _ _ _ _ _ ltac:(field) L31 L30 Z2 K3).
    assert (K4 := dev_F 1 1 (t + h) _ _ _ (or_intror Hk1) ltac:(ring) ltac:(lra) T1 Y3). assert (L41 := fL (t + h) _ (proj1 Y3)). assert (L40 := fL0 (t + h) _ (proj1 (proj2 Y3))).
    exact (dev_add (1 / 6) (h / 6) _ _ _ _ _ _ ltac:(field) L41 L40 Z3 K4).
  - change (dOf 1) with dBe. change (odeStep f imp 1 x t h) with (backwardEulerStep imp x t h). change (odeStep f0 imp0 1 x t h) with (backwardEulerStep imp0 x t h). unfold backwardEulerStep, dBe. cbv zeta.
    apply dev_add; [ring|apply iL; assumption|apply iL0; assumption|exact X|]. apply dev_stage; [ring|lra|ring|lra|exact T1|exact X].
  - change (dOf 2) with dTr. change (odeStep f imp 2 x t h) with (trapezoidalStep f imp x t h). change (odeStep f0 imp0 2 x t h) with (trapezoidalStep f0 imp0 x t h). unfold trapezoidalStep, dTr. cbv zeta.
    assert (K1 : dev (hk (f t x)) (hk (f0 t x)) (dF 0 0 d0)) by (apply dev_F; auto; lra).
    assert (Y1 := dev_add (1 / 2) (h / 2) _ _ _ _ _ _ ltac:(field) (fL t x Lx) (fL0 t x Lx) X K1).
    apply dev_add; [field|apply iL; [exact H2|exact (proj1 Y1)]|apply iL0; [exact H2|exact (proj1 (proj2 Y1))]|exact Y1|]. apply dev_stage; [field|lra|ring|lra|exact T1|exact Y1].
  - change (dOf 3) with dMp. change (odeStep f imp 3 x t h) with (implicitMidpointStep imp x t h). change (odeStep f0 imp0 3 x t h) with (implicitMidpointStep imp0 x t h). unfold implicitMidpointStep, dMp. cbv zeta.
    apply dev_add; [ring|apply iL; assumption|apply iL0; assumption|exact X|]. apply dev_stage; [field|lra|field|lra|exact T2|exact X].
  - assert (P33 : 0 < a33) by (unfold a33; lra). change (dOf 4) with d33. change (odeStep f imp 4 x t h) with (sdirk33Step imp x t h). change (odeStep f0 imp0 4 x t h) with (sdirk33Step imp0 x t h). unfold sdirk33Step, d33. cbv zeta.
    assert (S1 : Rabs (t + a33 * h - t) <= 1 * h) by (apply near_t; unfold a33; lra). assert (S2 : Rabs (t + c33 * h - t) <= 1 * h) by (apply near_t; unfold c33; lra).
    assert (K1 := dev_stage a33 1 a33 (t + a33 * h) (a33 * h) _ _ _ eq_refl P33 eq_refl ltac:(lra) S1 X). assert (M1 := iL (t + a33 * h) _ _ H33 Lx). assert (M10 := iL0 (t + a33 * h) _ _ H33 Lx).
    assert (Y1 := dev_add (c33 - a33) _ _ _ _ _ _ _ eq_refl M1 M10 X K1). assert (X1 := dev_add b33 _ _ _ _ _ _ _ eq_refl M1 M10 X K1).
    assert (K2 := dev_stage a33 1 c33 (t + c33 * h) (a33 * h) _ _ _ eq_refl P33 eq_refl ltac:(lra) S2 Y1). assert (M2 := iL (t + c33 * h) _ _ H33 (proj1 Y1)). assert (M20 := iL0 (t + c33 * h) _ _ H33 (proj1 (proj2 Y1))).
    assert (X2 := dev_add (1 - a33 - b33) _ _ _ _ _ _ _ eq_refl M2 M20 X1 K2).
    assert (K3 := dev_stage a33 1 1 (t + h) (a33 * h) _ _ _ eq_refl P33 ltac:(ring) ltac:(lra) T1 X2).
    exact (dev_add a33 _ _ _ _ _ _ _ eq_refl (iL (t + h) _ _ H33 (proj1 X2)) (iL0 (t + h) _ _ H33 (proj1 (proj2 X2))) X2 K3).
  - change (dOf 5) with d23. change (odeStep f imp 5 x t h) with (sdirk23Step imp x t h). change (odeStep f0 imp0 5 x t h) with (sdirk23Step imp0 x t h). unfold sdirk23Step, d23. cbv zeta. pose proof gamma_pos as Pg.
    assert (S1 : Rabs (t + gamma23 * h - t) <= 1 * h) by (apply near_t; lra). assert (S2 : Rabs (t + (1 - gamma23) * h - t) <= 1 * h) by (apply near_t; lra).
    assert (K1 := dev_stage gamma23 1 gamma23 (t + gamma23 * h) (gamma23 * h) _ _ _ eq_refl Pg eq_refl ltac:(lra) S1 X). assert (M1 := iL (t + gamma23 * h) _ _ H23 Lx). assert (M10 := iL0 (t + gamma23 * h) _ _ H23 Lx).
    assert (Y1 := dev_add (1 - 2 * gamma23) _ _ _ _ _ _ _ eq_refl M1 M10 X K1). assert (X1 := dev_add (1 / 2) (h / 2) _ _ _ _ _ _ ltac:(field) M1 M10 X K1).
    assert (K2 := dev_stage gamma23 1 (1 - gamma23) (t + (1 - gamma23) * h) (gamma23 * h) _ _ _ eq_refl Pg eq_refl ltac:(lra) S2 Y1).
    exact (dev_add (1 / 2) (h / 2) _ _ _ _ _ _ ltac:(field) (iL (t + (1 - gamma23) * h) _ _ H23 (proj1 Y1)) (iL0 (t + (1 - gamma23) * h) _ _ H23 (proj1 (proj2 Y1))) X1 K2).
  - change (dOf 6) with d34. change (odeStep f imp 6 x t h) with (sdirk34Step imp x t h). change (odeStep f0 imp0 6 x t h) with (sdirk34Step imp0 x t h). unfold sdirk34Step, d34. cbv zeta.
    assert (S1 : Rabs (t + a34 * h - t) <= 2 * h) by (apply near_t; lra). assert (S3 : Rabs (t + (1 - a34) * h - t) <= 2 * h) by (apply near_abs; rewrite Rabs_left1; lra).
    assert (T2' : Rabs (t + h / 2 - t) <= 2 * h) by lra. assert (P34 : 0 < a34) by lra.
    assert (K1 := dev_stage a34 2 a34 (t + a34 * h) (a34 * h) _ _ _ eq_refl P34 eq_refl ltac:(lra) S1 X). assert (M1 := iL (t + a34 * h) _ _ H34 Lx). assert (M10 := iL0 (t + a34 * h) _ _ H34 Lx).
    assert (Y1 := dev_add (/ 2 - a34) _ _ _ _ _ _ _ eq_refl M1 M10 X K1). assert (Z1 := dev_add (2 * a34) _ _ _ _ _ _ _ eq_refl M1 M10 X K1). assert (X1 := dev_add b34 _ _ _ _ _ _ _ eq_refl M1 M10 X K1).
    assert (K2 := dev_stage a34 2 (1 / 2) (t + h / 2) (a34 * h) _ _ _ eq_refl P34 ltac:(field) ltac:(lra) T2' Y1). assert (M2 := iL (t + h / 2) _ _ H34 (proj1 Y1)). assert (M20 := iL0 (t + h / 2) _ _ H34 (proj1 (proj2 Y1))).
    assert (Z2 := dev_add (1 - 4 * a34) _ _ _ _ _ _ _ eq_refl M2 M20 Z1 K2). assert (X2 := dev_add (1 - 2 * b34) _ _ _ _ _ _ _ eq_refl M2 M20 X1 K2).
    assert (K3 := dev_stage a34 2 (1 - a34) (t + (1 - a34) * h) (a34 * h) _ _ _ eq_refl P34 eq_refl ltac:(lra) S3 Z2).
    exact (dev_add b34 _ _ _ _ _ _ _ eq_refl (iL (t + (1 - a34) * h) _ _ H34 (proj1 Z2)) (iL0 (t + (1 - a34) * h) _ _ H34 (proj1 (proj2 Z2))) X2 K3).
Qed.
End One.
End Drive.

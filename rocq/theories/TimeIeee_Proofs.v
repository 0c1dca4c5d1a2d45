(** Proofs about the time loop in IEEE binary64 arithmetic. *)
From Coq Require Import ZArith List Bool Reals Lra Lia Psatz.
From Flocq Require Import Core.Core.
From Flocq.IEEE754 Require Import BinarySingleNaN.
From Flocq.Prop Require Import Sterbenz.
From Verif Require Import Common Time_Model Time_Proofs.
Import ListNotations.
Local Open Scope R_scope.

Notation fexp := (SpecFloat.fexp 53 1024).
Notation fmt := (generic_format radix2 fexp).
Definition rnd (x : R) : R := round radix2 fexp ZnearestE x.

#[local] Instance Hp : FLX.Prec_gt_0 53 := eq_refl _.
#[local] Instance He : Prec_lt_emax 53 1024 := eq_refl _.
#[local] Instance Hv : Valid_exp fexp := fexp_correct 53 1024 _.
#[local] Instance Hm : Monotone_exp fexp := fexp_monotone 53 1024.

Lemma fexp_FLT : forall e, fexp e = FLT_exp (-1074) 53 e.
Proof. intros. reflexivity. Qed.

Lemma rnd_le : forall x y, x <= y -> rnd x <= rnd y.
Proof. intros. apply round_le; auto with typeclass_instances. Qed.
Lemma rnd_id : forall x, fmt x -> rnd x = x.
Proof. intros. apply round_generic; auto with typeclass_instances. Qed.
Lemma rnd_ge_fmt : forall x y, fmt x -> x <= y -> x <= rnd y.
Proof. intros x y Hx H. rewrite <- (rnd_id x Hx). now apply rnd_le. Qed.
Lemma rnd_le_fmt : forall x y, fmt y -> x <= y -> rnd x <= y.
Proof. intros x y Hy H. rewrite <- (rnd_id y Hy). now apply rnd_le. Qed.
Lemma rnd_fmt : forall x, fmt (rnd x).
Proof. intros. apply generic_format_round; auto with typeclass_instances. Qed.

Lemma fmt_B2R : forall x : double, fmt (B2R x).
Proof. intros. apply generic_format_B2R. Qed.
Lemma lt_emax : forall x : double, Rabs (B2R x) < bpow radix2 1024.
Proof. intros. apply abs_B2R_lt_emax. Qed.
Lemma fmt_0 : fmt 0. Proof. apply generic_format_0. Qed.

Lemma fmt_bpow : forall e, (-1074 <= e)%Z -> fmt (bpow radix2 e).
Proof. intros e H. apply generic_format_bpow. rewrite fexp_FLT. unfold FLT_exp. lia. Qed.

(** Sterbenz for binary64. *)
Lemma sterbenz64 : forall x y, fmt x -> fmt y -> y / 2 <= x <= 2 * y -> fmt (x - y).
Proof. intros. apply sterbenz; auto with typeclass_instances. Qed.

(** The operations, when the result does not overflow. *)
Lemma dadd_ok : forall x y : double, is_finite x = true -> is_finite y = true ->
  Rabs (rnd (B2R x + B2R y)) < bpow radix2 1024 ->
  B2R (dadd x y) = rnd (B2R x + B2R y) /\ is_finite (dadd x y) = true.
Proof.
  intros x y Hx Hy Hb. pose proof (Bplus_correct 53 1024 _ _ mode_NE x y Hx Hy) as Hc.
  unfold rnd in Hb. rewrite Rlt_bool_true in Hc by exact Hb. split; apply Hc.
Qed.
Lemma dsub_ok : forall x y : double, is_finite x = true -> is_finite y = true ->
  Rabs (rnd (B2R x - B2R y)) < bpow radix2 1024 ->
  B2R (dsub x y) = rnd (B2R x - B2R y) /\ is_finite (dsub x y) = true.
Proof.
  intros x y Hx Hy Hb. pose proof (Bminus_correct 53 1024 _ _ mode_NE x y Hx Hy) as Hc.
  unfold rnd in Hb. rewrite Rlt_bool_true in Hc by exact Hb. split; apply Hc.
Qed.
Lemma dmul_ok : forall x y : double, is_finite x = true -> is_finite y = true ->
  Rabs (rnd (B2R x * B2R y)) < bpow radix2 1024 ->
  B2R (dmul x y) = rnd (B2R x * B2R y) /\ is_finite (dmul x y) = true.
Proof.
  intros x y Hx Hy Hb. pose proof (Bmult_correct 53 1024 _ _ mode_NE x y) as Hc.
  unfold rnd in Hb. rewrite Rlt_bool_true in Hc by exact Hb. split; [apply Hc|].
  destruct Hc as (_ & Hc & _). etransitivity; [exact Hc|]. rewrite Hx, Hy. reflexivity.
Qed.

Lemma dlt_ok : forall x y : double, is_finite x = true -> is_finite y = true ->
  dlt x y = true <-> B2R x < B2R y.
Proof.
  intros x y Hx Hy. unfold dlt. rewrite Bcompare_correct by auto.
  destruct (Rcompare_spec (B2R x) (B2R y)); split; intros; try discriminate; auto; lra.
Qed.
Lemma dle_ok : forall x y : double, is_finite x = true -> is_finite y = true ->
  dle x y = true <-> B2R x <= B2R y.
Proof.
  intros x y Hx Hy. unfold dle. rewrite Bcompare_correct by auto.
  destruct (Rcompare_spec (B2R x) (B2R y)); split; intros; try discriminate; auto; lra.
Qed.

Lemma rnd_N : forall x, rnd x = round radix2 fexp (Znearest (fun z => negb (Z.even z))) x.
Proof. reflexivity. Qed.

(** Value of the literal. *)
Lemma c_val : B2R d1em8 = 6044629098073146 * bpow radix2 (-79).
Proof. reflexivity. Qed.
Lemma c_bounds : bpow radix2 (-27) < B2R d1em8 < bpow radix2 (-26).
Proof.
  rewrite c_val.
  replace (bpow radix2 (-27)) with (4503599627370496 * bpow radix2 (-79)).
  2:{ change 4503599627370496 with (IZR (Zpower radix2 52)). rewrite IZR_Zpower by lia. rewrite <- bpow_plus. reflexivity. }
  replace (bpow radix2 (-26)) with (9007199254740992 * bpow radix2 (-79)).
  2:{ change 9007199254740992 with (IZR (Zpower radix2 53)). rewrite IZR_Zpower by lia. rewrite <- bpow_plus. reflexivity. }
  pose proof (bpow_gt_0 radix2 (-79)). split; apply Rmult_lt_compat_r; lra.
Qed.
Lemma c_small : 0 < B2R d1em8 < / 16.
Proof.
  destruct c_bounds as [H1 H2]. pose proof (bpow_gt_0 radix2 (-27)).
  assert (bpow radix2 (-26) <= bpow radix2 (-4)) by (apply bpow_le; lia).
  replace (bpow radix2 (-4)) with (/ 16) in H0 by (simpl; lra). lra.
Qed.

Section Run.
Variable final dt : double.
Hypothesis Ff : is_finite final = true.
Hypothesis Fd : is_finite dt = true.
Hypothesis Hd : 0 < B2R dt.
Hypothesis Hf : 0 <= B2R final.

Notation F := (B2R final).
Notation D := (B2R dt).
Definition margin := rnd (B2R d1em8 * D).

Lemma F_lt : F < bpow radix2 1024.
Proof. pose proof (lt_emax final). rewrite Rabs_pos_eq in H; auto. Qed.
Lemma D_lt : D < bpow radix2 1024.
Proof. pose proof (lt_emax dt). rewrite Rabs_pos_eq in H; lra. Qed.

Lemma margin_bounds : 0 <= margin <= D.
Proof.
  destruct c_small. unfold margin. split.
  - apply rnd_ge_fmt; [apply fmt_0|]. nra.
  - apply rnd_le_fmt; [apply fmt_B2R|]. nra.
Qed.

Lemma guard_ok : forall t, is_finite t = true ->
  guardF final dt t = true <-> B2R t <= rnd (F - margin).
Proof.
  intros t Ht. pose proof margin_bounds as Hmb. pose proof F_lt. pose proof D_lt.
  destruct (dmul_ok d1em8 dt) as [E1 F1]; auto.
  { fold margin. rewrite Rabs_pos_eq; lra. }
  destruct (dsub_ok final (dmul d1em8 dt)) as [E2 F2]; auto.
  { rewrite E1. fold margin. apply Rabs_lt. split.
    - apply Rlt_le_trans with (- D); [lra|]. apply rnd_ge_fmt; [apply generic_format_opp, fmt_B2R|lra].
    - apply Rle_lt_trans with F; [|lra]. apply rnd_le_fmt; [apply fmt_B2R|lra]. }
  unfold guardF. rewrite dle_ok by auto. rewrite E2, E1. reflexivity.
Qed.

Definition inv (t : double) : Prop :=
  is_finite t = true /\ 0 <= B2R t <= F /\ (B2R t = 0 \/ D <= B2R t \/ B2R t = F).

Lemma step_ok : forall t, inv t ->
  inv (stepF final dt t) /\ B2R t <= B2R (stepF final dt t) /\
  (shortened final dt t = true -> B2R (stepF final dt t) = F) /\
  (shortened final dt t = false ->
     B2R t + D <= F /\ B2R (truedtF final dt t) = D /\ B2R (stepF final dt t) = rnd (B2R t + D)).
Proof.
  intros t (Ft & Ht & Hcase). pose proof F_lt. 
  destruct (dsub_ok final t Ff Ft) as [Er Fr].
  { rewrite Rabs_pos_eq.
    - apply Rle_lt_trans with F; [|lra]. apply rnd_le_fmt; [apply fmt_B2R|lra].
    - apply rnd_ge_fmt; [apply fmt_0|lra]. }
  unfold stepF, truedtF. destruct (shortened final dt t) eqn:Es.
  - unfold shortened, remF in *. apply dlt_ok in Es; auto. rewrite Er in Es.
    assert (Hlt : F - B2R t < D).
    { destruct (Rlt_le_dec (F - B2R t) D); auto. exfalso.
      assert (D <= rnd (F - B2R t)) by (apply rnd_ge_fmt; [apply fmt_B2R|auto]). lra. }
    assert (Hex : rnd (F - B2R t) = F - B2R t).
    { apply rnd_id. destruct Hcase as [H0|[H0|H0]].
      - rewrite H0, Rminus_0_r. apply fmt_B2R.
      - apply sterbenz64; try apply fmt_B2R. lra.
      - rewrite H0. rewrite Rminus_diag_eq by auto. apply fmt_0. }
    rewrite Hex in Er.
    assert (Es' : B2R (dadd t (dsub final t)) = F /\ is_finite (dadd t (dsub final t)) = true).
    { destruct (dadd_ok t (dsub final t) Ft Fr) as [E2 F2].
      - rewrite Er. replace (B2R t + (F - B2R t)) with F by ring. rewrite rnd_id by apply fmt_B2R.
        rewrite Rabs_pos_eq; auto.
      - split; auto. rewrite E2, Er. replace (B2R t + (F - B2R t)) with F by ring. apply rnd_id, fmt_B2R. }
    destruct Es' as [E2 F2]. split; [|split; [|split]].
    + split; [auto|]. rewrite E2. split; [lra|auto].
    + rewrite E2. lra.
    + auto.
    + discriminate.
  - unfold shortened, remF in *.
    assert (Hge : D <= rnd (F - B2R t)).
    { destruct (Rlt_le_dec (rnd (F - B2R t)) D) as [Hlt|]; auto.
      exfalso. rewrite <- Er in Hlt. apply dlt_ok in Hlt; auto. congruence. }
    assert (Hle : B2R t + D <= F).
    { destruct (Rle_lt_dec (B2R t + D) F) as [|Hgt]; auto. exfalso.
      assert (Hfe : fmt (F - B2R t)).
      { destruct Hcase as [H0|[H0|H0]].
        - rewrite H0, Rminus_0_r. apply fmt_B2R.
        - apply sterbenz64; try apply fmt_B2R. lra.
        - rewrite H0. rewrite Rminus_diag_eq by auto. apply fmt_0. }
      rewrite rnd_id in Hge by auto. lra. }
    assert (Hb : 0 <= rnd (B2R t + D) <= F).
    { split; [apply rnd_ge_fmt; [apply fmt_0|lra]|apply rnd_le_fmt; [apply fmt_B2R|auto]]. }
    destruct (dadd_ok t dt Ft Fd) as [E2 F2].
    { rewrite Rabs_pos_eq; lra. }
    assert (Hds : D <= rnd (B2R t + D)) by (apply rnd_ge_fmt; [apply fmt_B2R|lra]).
    assert (Hts : B2R t <= rnd (B2R t + D)) by (apply rnd_ge_fmt; [apply fmt_B2R|lra]).
    split; [|split; [|split]].
    + split; [auto|]. rewrite E2. split; [auto|]. right; left; auto.
    + rewrite E2; auto.
    + discriminate.
    + intros _. auto.
Qed.

Lemma inv0 : inv dzero.
Proof. split; [reflexivity|]. split; [simpl; lra|]. left; reflexivity. Qed.

Lemma inv_iter : forall k, inv (Nat.iter k (stepF final dt) dzero).
Proof. induction k; [apply inv0|]. simpl. now apply step_ok. Qed.

Lemma guard_final_blocks : guardF final dt final = true -> forall t, inv t -> guardF final dt t = true.
Proof.
  intros Hg t (Ft & Ht & _). apply guard_ok in Hg; auto. apply guard_ok; auto. lra.
Qed.

Lemma not_terminates : guardF final dt final = true -> forall t, inv t -> ~ terminatesF final dt t.
Proof.
  intros Hg t Hi (tr & s' & Hr). induction Hr as [s Hs|s tr s' Hs Hr IH].
  - rewrite guard_final_blocks in Hs; auto. discriminate.
  - apply IH. now apply step_ok.
Qed.

(** The gap below a positive double is at least half its ulp. *)
Lemma pred_gap : 0 < F -> pred radix2 fexp F <= F - ulp radix2 fexp F / 2.
Proof.
  intros HF. rewrite pred_eq_pos by lra. unfold pred_pos.
  destruct (Req_bool_spec F (bpow radix2 (mag radix2 F - 1))) as [E|Hne].
  - rewrite ulp_neq_0 by lra. unfold cexp.
    set (e := (mag radix2 F : Z)) in *.
    assert (Hfe : (fexp e - 1 <= fexp (e - 1))%Z) by (rewrite !fexp_FLT; unfold FLT_exp; lia).
    assert (bpow radix2 (fexp e - 1) <= bpow radix2 (fexp (e - 1))) by (apply bpow_le; auto).
    assert (bpow radix2 (fexp e) = 2 * bpow radix2 (fexp e - 1)).
    { replace (fexp e) with (1 + (fexp e - 1))%Z at 1 by ring. rewrite bpow_plus. simpl. reflexivity. }
    lra.
  - pose proof (ulp_ge_0 radix2 fexp F). lra.
Qed.

Lemma margin_not_absorbed : 0 < F -> guardF final dt final = false -> ulp radix2 fexp F / 4 <= margin.
Proof.
  intros HF Hg. destruct (Rlt_le_dec margin (ulp radix2 fexp F / 4)) as [Hlt|]; auto. exfalso.
  assert (Hge : F <= rnd (F - margin)).
  { rewrite rnd_N. apply round_N_ge_midp; auto with typeclass_instances.
    - apply fmt_B2R.
    - pose proof (pred_gap HF). lra. }
  apply guard_ok in Hge; auto. congruence.
Qed.

Lemma ulp_D : 0 < F -> guardF final dt final = false -> ulp radix2 fexp F <= D.
Proof.
  intros HF Hg. destruct (Rle_lt_dec (ulp radix2 fexp F) D) as [|Hlt]; auto. exfalso.
  pose proof (margin_not_absorbed HF Hg) as Hmg.
  rewrite ulp_neq_0 in Hlt, Hmg by lra. set (e := cexp radix2 fexp F) in *.
  assert (Hc : B2R d1em8 * D < D / 8) by (destruct c_small; nra).
  assert (H8 : bpow radix2 e = 8 * bpow radix2 (e - 3)).
  { replace e with (3 + (e - 3))%Z at 1 by ring. rewrite bpow_plus. f_equal. }
  assert (Hc2 : B2R d1em8 * D < bpow radix2 (e - 3)) by lra.
  pose proof (bpow_gt_0 radix2 (e - 3)).
  destruct (Z_le_gt_dec (-1074) (e - 3)) as [Hle|Hgt].
  - assert (margin <= bpow radix2 (e - 3)).
    { apply rnd_le_fmt; [apply fmt_bpow; auto|lra]. }
    lra.
  - assert (Hsm : margin <= 0).
    { unfold margin. rewrite rnd_N. apply round_N_le_midp; auto with typeclass_instances.
      - apply fmt_0.
      - rewrite succ_0. assert (Hu : ulp radix2 fexp 0 = bpow radix2 (-1074)).
        { rewrite <- (ulp_FLT_0 radix2 (-1074) 53). reflexivity. }
        rewrite Hu.
        assert (bpow radix2 (e - 3) <= bpow radix2 (-1075)) by (apply bpow_le; lia).
        assert (bpow radix2 (-1074) = 2 * bpow radix2 (-1075)).
        { replace (-1074)%Z with (1 + (-1075))%Z by ring. rewrite bpow_plus. simpl. reflexivity. }
        lra. }
    lra.
Qed.

Lemma progress : guardF final dt final = false -> forall t, inv t ->
  B2R (stepF final dt t) = F \/ B2R t + D / 2 <= B2R (stepF final dt t).
Proof.
  intros Hg t Hi. destruct (step_ok t Hi) as (_ & _ & Hs & Hn).
  destruct (shortened final dt t) eqn:Es; [left; auto|right].
  destruct (Hn eq_refl) as (Hle & _ & E). rewrite E.
  destruct Hi as (_ & Ht & _).
  assert (HF : 0 < F) by lra.
  pose proof (ulp_D HF Hg) as Hu.
  pose proof (error_le_half_ulp radix2 fexp (fun z => negb (Z.even z)) (B2R t + D)) as Herr.
  rewrite <- rnd_N in Herr.
  assert (Hul : ulp radix2 fexp (B2R t + D) <= ulp radix2 fexp F) by (apply ulp_le_pos; auto with typeclass_instances; lra).
  apply Rabs_le_inv in Herr. lra.
Qed.

Lemma terminates_bound : guardF final dt final = false ->
  forall n t, inv t -> F <= B2R t + INR n * (D / 2) ->
  exists tr s', runF final dt t tr s' /\ (length tr <= n)%nat /\ B2R s' <= F.
Proof.
  intros Hg. induction n as [|n IH]; intros t Hi Hb.
  - simpl in Hb. exists [], t. assert (Et : B2R t = F) by (destruct Hi as (_ & ? & _); lra).
    split; [|split; auto; lra]. apply runs_stop.
    destruct (guardF final dt t) eqn:E; auto.
    apply guard_ok in E; [|apply Hi]. rewrite Et in E. apply guard_ok in E; auto. congruence.
  - destruct (guardF final dt t) eqn:E.
    + destruct (step_ok t Hi) as (Hi' & _).
      destruct (IH (stepF final dt t) Hi') as (tr & s' & Hr & Hlen & Hle).
      * rewrite S_INR in Hb. pose proof (pos_INR n).
        assert (0 <= INR n * (D / 2)) by (apply Rmult_le_pos; lra).
        destruct (progress Hg t Hi) as [Hp|Hp]; lra.
      * exists (stepF final dt t :: tr), s'. split; [|split; auto; simpl; lia].
        apply runs_step; auto.
    + exists [], t. split; [apply runs_stop; auto|]. split; [simpl; lia|]. apply Hi.
Qed.

Lemma terminates_iff : terminatesF final dt dzero <-> guardF final dt final = false.
Proof.
  split.
  - intros Ht. destruct (guardF final dt final) eqn:E; auto. exfalso.
    eapply not_terminates; eauto. apply inv0.
  - intros Hg. destruct (nat_quotient (D / 2) F ltac:(lra) Hf) as (n & r & Hq & Hr).
    destruct (terminates_bound Hg (S n) dzero inv0) as (tr & s' & Hr' & _).
    + simpl (B2R dzero). rewrite S_INR. lra.
    + exists tr, s'; auto.
Qed.

(** Everything about a run from 0 that stops. *)
Lemma run_states : forall t tr s', inv t -> runF final dt t tr s' ->
  inv s' /\ (forall u, In u tr -> inv u) /\ guardF final dt s' = false.
Proof.
  intros t tr s' Hi Hr. induction Hr as [s Hs|s tr s' Hs Hr IH].
  - split; auto. split; auto. intros u [].
  - destruct (step_ok s Hi) as (Hi' & _). destruct (IH Hi') as (H1 & H2 & H3).
    split; auto. split; auto. intros u [<-|Hu]; auto.
Qed.

(** Step-count criteria. *)
Lemma fmt_scale : forall x k, fmt x -> bpow radix2 (-900) <= Rabs x -> (-100 <= k)%Z -> fmt (x * bpow radix2 k).
Proof.
  intros x k Hx Hb Hk. 
  apply (generic_format_FLT radix2 (-1074) 53).
  apply FLT_format_generic in Hx; [|apply Hp]. destruct Hx as [[mx ex] E1 E2 E3]. cbn [Fnum Fexp] in *.
  assert (Hx0 : x <> 0).
  { intros ->. rewrite Rabs_R0 in Hb. pose proof (bpow_gt_0 radix2 (-900)). lra. }
  exists (Float radix2 mx (ex + k)); cbn [Fnum Fexp]; auto.
  - rewrite E1. unfold F2R; cbn [Fnum Fexp]. rewrite bpow_plus. ring.
  - assert (Hmx : Rabs (IZR mx) < bpow radix2 53).
    { rewrite <- abs_IZR. change (bpow radix2 53) with (IZR (Zpower 2 53)). apply IZR_lt. auto. }
    assert (He0 : bpow radix2 (-900) < bpow radix2 (53 + ex)).
    { eapply Rle_lt_trans; [exact Hb|]. rewrite E1. unfold F2R; cbn [Fnum Fexp]. rewrite Rabs_mult.
      rewrite (Rabs_pos_eq (bpow radix2 ex)) by apply bpow_ge_0.
      rewrite bpow_plus. apply Rmult_lt_compat_r; [apply bpow_gt_0|auto]. }
    apply lt_bpow in He0. lia.
Qed.

Lemma few_steps_stop : bpow radix2 (-900) <= D -> F <= bpow radix2 25 * D -> 0 < F -> terminatesF final dt dzero.
Proof.
  intros HD HF HF0. apply terminates_iff.
  destruct (guardF final dt final) eqn:E; auto. exfalso.
  apply guard_ok in E; auto.
  assert (Hmg : bpow radix2 (-52) * F <= margin).
  { assert (D * bpow radix2 (-27) <= margin).
    { apply rnd_ge_fmt.
      - apply fmt_scale; [apply fmt_B2R| |lia]. rewrite Rabs_pos_eq; lra.
      - destruct c_bounds. rewrite Rmult_comm. apply Rmult_le_compat_r; lra. }
    apply Rle_trans with (2 := H).
    replace (bpow radix2 (-52)) with (bpow radix2 (-27) * bpow radix2 (-25)) by (rewrite <- bpow_plus; reflexivity).
    assert (bpow radix2 (-25) * F <= D).
    { apply Rmult_le_reg_l with (bpow radix2 25); [apply bpow_gt_0|].
      rewrite <- Rmult_assoc, <- bpow_plus. simpl (bpow radix2 (25 + -25)). lra. }
    pose proof (bpow_gt_0 radix2 (-27)). nra. }
  destruct (Rle_lt_dec F (bpow radix2 (-1022))) as [Hs|Hb].
  - (* F small: the margin exceeds F *)
    assert (HDF : F <= D * bpow radix2 (-100)).
    { apply Rle_trans with (1 := Hs). apply Rle_trans with (bpow radix2 (-900) * bpow radix2 (-100)).
      - rewrite <- bpow_plus. apply bpow_le. lia.
      - apply Rmult_le_compat_r; [apply bpow_ge_0|auto]. }
    assert (D * bpow radix2 (-27) <= margin).
    { apply rnd_ge_fmt.
      - apply fmt_scale; [apply fmt_B2R| |lia]. rewrite Rabs_pos_eq; lra.
      - destruct c_bounds. rewrite Rmult_comm. apply Rmult_le_compat_r; lra. }
    assert (D * bpow radix2 (-100) < D * bpow radix2 (-27)).
    { apply Rmult_lt_compat_l; auto. apply bpow_lt. lia. }
    assert (rnd (F - margin) <= 0) by (apply rnd_le_fmt; [apply fmt_0|lra]). lra.
  - assert (Hul : ulp radix2 fexp F <= bpow radix2 (-52) * F).
    { rewrite ulp_neq_0 by lra. unfold cexp. rewrite fexp_FLT. unfold FLT_exp.
      destruct (mag radix2 F) as (e, Hmag). cbn [mag_val]. specialize (Hmag ltac:(lra)).
      rewrite Rabs_pos_eq in Hmag by lra.
      assert (He1 : (-1022 < e)%Z) by (apply (lt_bpow radix2); lra).
      rewrite Z.max_l by lia.
      replace (e - 53)%Z with (-52 + (e - 1))%Z by ring. rewrite bpow_plus.
      apply Rmult_le_compat_l; [apply bpow_ge_0|lra]. }
    assert (Hpred : F - ulp radix2 fexp F <= pred radix2 fexp F).
    { rewrite pred_eq_pos by lra. unfold pred_pos. destruct (Req_bool_spec F (bpow radix2 (mag radix2 F - 1))); [|lra].
      rewrite ulp_neq_0 by lra. unfold cexp.
      assert (bpow radix2 (fexp (mag radix2 F - 1)) <= bpow radix2 (fexp (mag radix2 F))).
      { apply bpow_le. rewrite !fexp_FLT. unfold FLT_exp. lia. }
      lra. }
    assert (Hle : rnd (F - margin) <= pred radix2 fexp F).
    { rewrite rnd_N. apply round_N_le_midp; auto with typeclass_instances.
      - apply generic_format_pred; auto with typeclass_instances. apply fmt_B2R.
      - rewrite succ_pred; auto with typeclass_instances; [|apply fmt_B2R].
        assert (0 < ulp radix2 fexp F).
        { rewrite ulp_neq_0 by lra. apply bpow_gt_0. }
        lra. }
    assert (pred radix2 fexp F < F) by (apply pred_lt_id; lra). lra.
Qed.

Lemma many_steps_never_stop : bpow radix2 (-900) <= F -> bpow radix2 29 * D <= F -> ~ terminatesF final dt dzero.
Proof.
  intros HF HD Ht. apply terminates_iff in Ht.
  assert (HF0 : 0 < F) by (pose proof (bpow_gt_0 radix2 (-900)); lra).
  assert (Hul : bpow radix2 (-53) * F < ulp radix2 fexp F).
  { rewrite ulp_neq_0 by lra. unfold cexp. rewrite fexp_FLT. unfold FLT_exp.
    destruct (mag radix2 F) as (e, Hmag). cbn [mag_val]. specialize (Hmag ltac:(lra)).
    rewrite Rabs_pos_eq in Hmag by lra.
    apply Rlt_le_trans with (bpow radix2 (e - 53)); [|apply bpow_le; lia].
    replace (e - 53)%Z with (-53 + e)%Z by ring. rewrite bpow_plus.
    apply Rmult_lt_compat_l; [apply bpow_gt_0|lra]. }
  assert (Hmg : margin <= F * bpow radix2 (-55)).
  { apply rnd_le_fmt.
    - apply fmt_scale; [apply fmt_B2R| |lia]. rewrite Rabs_pos_eq; lra.
    - destruct c_bounds. replace (bpow radix2 (-55)) with (bpow radix2 (-29) * bpow radix2 (-26)) by (rewrite <- bpow_plus; reflexivity).
      assert (D <= bpow radix2 (-29) * F).
      { apply Rmult_le_reg_l with (bpow radix2 29); [apply bpow_gt_0|].
        rewrite <- Rmult_assoc, <- bpow_plus. simpl (bpow radix2 (29 + -29)). lra. }
      pose proof (bpow_gt_0 radix2 (-26)). nra. }
  pose proof (margin_not_absorbed HF0 Ht).
  assert (bpow radix2 (-53) = 4 * bpow radix2 (-55)).
  { change (-53)%Z with (2 + (-55))%Z. rewrite bpow_plus. f_equal. }
  nra.
Qed.

End Run.

(** Concrete doubles. *)
Definition d_one : double := @B754_finite 53 1024 false 4503599627370496 (-52) (eq_refl _).
Definition d_2m10 : double := @B754_finite 53 1024 false 4503599627370496 (-62) (eq_refl _).
Definition d_2m40 : double := @B754_finite 53 1024 false 4503599627370496 (-92) (eq_refl _).

Lemma d_one_val : B2R d_one = 1.
Proof. unfold B2R, d_one, F2R; simpl. lra. Qed.

Lemma ex_stops : guardF d_one d_2m10 d_one = false.
Proof. vm_compute. reflexivity. Qed.
Lemma ex_hangs : guardF d_one d_2m40 d_one = true.
Proof. vm_compute. reflexivity. Qed.

Lemma B2R_pos : forall m e H, 0 < B2R (@B754_finite 53 1024 false m e H).
Proof. intros. simpl. unfold F2R; simpl. apply Rmult_lt_0_compat; [apply IZR_lt; lia|apply bpow_gt_0]. Qed.

Lemma ex_hangs_run : ~ terminatesF d_one d_2m40 dzero.
Proof.
  intros Ht. apply terminates_iff in Ht; try reflexivity.
  - rewrite ex_hangs in Ht. discriminate.
  - apply B2R_pos.
  - left. apply B2R_pos.
Qed.

Lemma ieee_steps : forall final dt : double,
  is_finite final = true -> is_finite dt = true -> 0 < B2R dt -> 0 <= B2R final ->
  forall k, let t := Nat.iter k (stepF final dt) dzero in
  let t' := Nat.iter (S k) (stepF final dt) dzero in
    is_finite t = true /\ 0 <= B2R t <= B2R final /\ B2R t <= B2R t' /\
    (shortened final dt t = true -> B2R t' = B2R final) /\
    (shortened final dt t = false ->
       B2R t + B2R dt <= B2R final /\
       B2R t' = round radix2 (SpecFloat.fexp 53 1024) ZnearestE (B2R t + B2R dt)).
Proof.
  intros final dt Ff Fd Hd Hf k t t'.
  assert (Hi : inv final dt t) by (apply inv_iter; auto).
  destruct (step_ok final dt Ff Fd Hd Hf t Hi) as (_ & Hle & Hs & Hn).
  change (stepF final dt t) with t' in *.
  destruct Hi as (Ft & Hb & _).
  split; [auto|]. split; [auto|]. split; [auto|]. split; [auto|].
  intros E. destruct (Hn E) as (? & ? & ?). split; auto.
Qed.

Lemma ieee_terminates : forall final dt : double,
  is_finite final = true -> is_finite dt = true -> 0 < B2R dt -> 0 <= B2R final ->
  (terminatesF final dt dzero <-> guardF final dt final = false) /\
  (guardF final dt final = true <->
     B2R final <= round radix2 (SpecFloat.fexp 53 1024) ZnearestE
       (B2R final - round radix2 (SpecFloat.fexp 53 1024) ZnearestE (B2R d1em8 * B2R dt))) /\
  (forall tr t, runF final dt dzero tr t ->
     is_finite t = true /\ B2R t <= B2R final /\ guardF final dt t = false /\
     (forall u, In u tr -> is_finite u = true /\ 0 <= B2R u <= B2R final)).
Proof.
  intros final dt Ff Fd Hd Hf. split; [now apply terminates_iff|]. split; [now apply guard_ok|].
  intros tr t Hr. destruct (run_states final dt Ff Fd Hd Hf dzero tr t) as (H1 & H2 & H3); auto.
  { now apply inv0. }
  destruct H1 as (? & ? & _). split; [auto|]. split; [lra|]. split; [auto|].
  intros u Hu. destruct (H2 u Hu) as (? & ? & _). auto.
Qed.

Lemma ieee_hang : exists final dt : double, is_finite final = true /\ is_finite dt = true /\ 0 < B2R dt /\ B2R final = 1 /\
  ~ terminatesF final dt dzero.
Proof.
  exists d_one, d_2m40. split; [reflexivity|]. split; [reflexivity|]. split; [apply B2R_pos|].
  split; [apply d_one_val|apply ex_hangs_run].
Qed.

Lemma ex_ieee_ok :
  is_finite d_one = true /\ is_finite d_2m10 = true /\ 0 < B2R d_2m10 /\ 0 <= B2R d_one /\
  terminatesF d_one d_2m10 dzero.
Proof.
  assert (H : 0 < B2R d_2m10) by apply B2R_pos. assert (G : 0 < B2R d_one) by apply B2R_pos.
  split; [reflexivity|]. split; [reflexivity|]. split; [auto|]. split; [lra|].
  apply terminates_iff; try reflexivity; auto; lra.
Qed.

Lemma ex_many : bpow radix2 (-900) <= B2R d_one /\ bpow radix2 29 * B2R d_2m40 <= B2R d_one /\
  bpow radix2 (-900) <= B2R d_2m10 /\ B2R d_one <= bpow radix2 25 * B2R d_2m10.
Proof.
  assert (H1 : B2R d_2m40 = bpow radix2 (-40)).
  { unfold B2R, d_2m40, F2R. cbn [Fnum Fexp cond_Zopp]. change (IZR 4503599627370496) with (IZR (Zpower radix2 52)).
    rewrite IZR_Zpower by lia. rewrite <- bpow_plus. reflexivity. }
  assert (H2 : B2R d_2m10 = bpow radix2 (-10)).
  { unfold B2R, d_2m10, F2R. cbn [Fnum Fexp cond_Zopp]. change (IZR 4503599627370496) with (IZR (Zpower radix2 52)).
    rewrite IZR_Zpower by lia. rewrite <- bpow_plus. reflexivity. }
  rewrite d_one_val, H1, H2, <- !bpow_plus. change 1 with (bpow radix2 0).
  repeat split; apply bpow_le; lia.
Qed.

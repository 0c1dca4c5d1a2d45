(** Taylor expansion of a curve that follows the operator, in the energy norm. *)
From Coq Require Import ZArith List Bool Reals Lia Lra.
From Verif Require Import Common Ode_Model Ode_Proofs OdeRk_Proofs OdeLin_Proofs OdeNorm_Proofs.
Import ListNotations.
Local Open Scope R_scope.

Section Exact.
Variable n : nat.
Variable B : list R -> list R -> R.
Hypothesis Badd : forall a k x y, length k = n -> length x = n -> length y = n -> B (addv a k x) y = B x y + a * B k y.
Hypothesis Bsym : forall x y, length x = n -> length y = n -> B x y = B y x.
Hypothesis Bpos : forall x, length x = n -> 0 <= B x x.
Notation nrm := (nrm B).
Variable F : list R -> list R.
Hypothesis Flen : forall x, length x = n -> length (F x) = n.
Hypothesis Fadd : forall a k x, length k = n -> length x = n -> F (addv a k x) = addv a (F k) (F x).
Variable K : R.
Hypothesis K0 : 0 <= K.
Hypothesis FB : forall y, length y = n -> nrm (F y) <= K * nrm y.
Variable u : R -> list R.
Hypothesis Lu : forall t, length (u t) = n.
Hypothesis Du : forall t i, (i < n)%nat -> derivable_pt_lim (fun s => nth i (u s) 0) t (nth i (F (u t)) 0).
Variable t0 : R.
Hypothesis Decay : forall s, 0 <= s -> nrm (u (t0 + s)) <= nrm (u t0).
Notation x := (u t0).
Notation ev := (ev F x).
Fixpoint tv (s : R) (m : nat) : list R :=
  match m with O => repeat 0 n | Datatypes.S m => addv (s ^ m / INR (fact m)) (ev m) (tv s m) end.
Lemma tv_len : forall s m, length (tv s m) = n.
Proof. intros s m. induction m; cbn [tv]; [apply repeat_length|]. apply addv_len; [apply (ev_len n F Flen x (Lu t0))|exact IHm]. Qed.
Lemma evl : forall i, length (ev i) = n. Proof. exact (ev_len n F Flen x (Lu t0)). Qed.

Lemma dsm : forall m (f : nat -> R -> R) t f', (forall i, (i < m)%nat -> derivable_pt_lim (f i) t (f' i)) -> derivable_pt_lim (fun s => sm m (fun i => f i s)) t (sm m f').
Proof.
  induction m as [|m IH]; intros f t f' H; cbn [sm]; [apply derivable_pt_lim_const|].
  apply (derivable_pt_lim_plus (fun s => sm m (fun i => f i s)) (f m)); [apply IH; intros; apply H; lia|apply H; lia].
Qed.
Lemma B_units : forall w y, length w = n -> length y = n -> B w y = sm n (fun i => nth i y 0 * B (unit n i) w).
Proof.
  intros w y Hw Hy. rewrite Bsym by assumption. rewrite (as_units n y Hy) at 1. rewrite (B_lcg n B Badd) by (auto using unit_len). reflexivity.
Qed.
Lemma dB : forall w (y : R -> list R) y' t, length w = n -> (forall s, length (y s) = n) -> length y' = n ->
  (forall i, (i < n)%nat -> derivable_pt_lim (fun s => nth i (y s) 0) t (nth i y' 0)) -> derivable_pt_lim (fun s => B w (y s)) t (B w y').
Proof.
  intros w y y' t Hw Hy Hy' H. rewrite B_units by assumption.
  assert (E : forall s, B w (y s) = sm n (fun i => nth i (y s) 0 * B (unit n i) w)) by (intros; apply B_units; auto).
  assert (D : derivable_pt_lim (fun s => sm n (fun i => nth i (y s) 0 * B (unit n i) w)) t (sm n (fun i => nth i y' 0 * B (unit n i) w))).
  { apply (dsm n (fun i s => nth i (y s) 0 * B (unit n i) w)). intros i Hi.
    replace (nth i y' 0 * B (unit n i) w) with (nth i y' 0 * B (unit n i) w + nth i (y t) 0 * 0) by ring.
    apply (derivable_pt_lim_mult (fun s => nth i (y s) 0) (fun _ => B (unit n i) w)); [apply H, Hi|apply derivable_pt_lim_const]. }
  intros e He. destruct (D e He) as (d & Hd). exists d. intros k Nk Hk. rewrite !E. apply Hd; assumption.
Qed.
Lemma d_pow : forall m s, derivable_pt_lim (fun s => s ^ Datatypes.S m / INR (fact (Datatypes.S m))) s (s ^ m / INR (fact m)).
Proof.
  intros m s. assert (N1 : INR (fact m) <> 0) by apply INR_fact_neq_0. assert (N2 : INR (Datatypes.S m) <> 0) by (apply not_0_INR; lia).
  assert (E : INR (fact (Datatypes.S m)) = INR (Datatypes.S m) * INR (fact m)) by (rewrite <- mult_INR; reflexivity).
  replace (s ^ m / INR (fact m)) with (INR (Datatypes.S m) * s ^ pred (Datatypes.S m) * / INR (fact (Datatypes.S m)) + s ^ Datatypes.S m * 0).
  - apply (derivable_pt_lim_mult (fun s => s ^ Datatypes.S m) (fun _ => / INR (fact (Datatypes.S m)))); [apply derivable_pt_lim_pow|apply derivable_pt_lim_const].
  - rewrite E. cbn [pred]. field. split; assumption.
Qed.
Lemma d_tv : forall m s i, (i < n)%nat -> derivable_pt_lim (fun s => nth i (tv s (Datatypes.S m)) 0) s (nth i (F (tv s m)) 0).
Proof.
  assert (G : forall f g s l, (forall s : R, f s = g s) -> derivable_pt_lim g s l -> derivable_pt_lim f s l).
  { intros f g s l E D e He. destruct (D e He) as (d & Hd). exists d. intros k Nk Hk. rewrite !E. apply Hd; assumption. }
  induction m as [|m IH]; intros s i Hi.
  - apply (G _ (fun _ => nth i x 0)).
    + intros s'. cbn [tv]. rewrite (addv_nth n) by (auto using evl; apply repeat_length). rewrite nth_zero. cbn [OdeRk_Proofs.ev pow fact INR]. field.
    + cbn [tv]. rewrite (F_zero n F Flen Fadd x (Lu t0)), nth_zero. apply derivable_pt_lim_const.
  - apply (G _ (fun s => nth i (tv s (Datatypes.S m)) 0 + s ^ Datatypes.S m / INR (fact (Datatypes.S m)) * nth i (ev (Datatypes.S m)) 0)).
    + intros s'. cbn [tv]. rewrite (addv_nth n) by (try apply evl; apply (tv_len s' (Datatypes.S m))). reflexivity.
    + cbn [tv]. rewrite Fadd by (auto using evl, tv_len). rewrite (addv_nth n) by (auto using evl, tv_len). change (F (ev m)) with (ev (Datatypes.S m)).
      apply (derivable_pt_lim_plus (fun s => nth i (tv s (Datatypes.S m)) 0) (fun s => s ^ Datatypes.S m / INR (fact (Datatypes.S m)) * nth i (ev (Datatypes.S m)) 0)); [apply IH, Hi|].
      replace (s ^ m / INR (fact m) * nth i (ev (Datatypes.S m)) 0) with (s ^ m / INR (fact m) * nth i (ev (Datatypes.S m)) 0 + s ^ Datatypes.S m / INR (fact (Datatypes.S m)) * 0) by ring.
      apply (derivable_pt_lim_mult (fun s => s ^ Datatypes.S m / INR (fact (Datatypes.S m))) (fun _ => nth i (ev (Datatypes.S m)) 0)); [apply d_pow|apply derivable_pt_lim_const].
Qed.
Lemma d_shift : forall (f : R -> R) s l, derivable_pt_lim f (t0 + s) l -> derivable_pt_lim (fun s => f (t0 + s)) s l.
Proof.
  intros f s l D e He. destruct (D e He) as (d & Hd). exists d. intros k Nk Hk. rewrite <- Rplus_assoc. apply Hd; assumption.
Qed.
Theorem taylor : forall m s, 0 <= s -> nrm (sub (u (t0 + s)) (tv s m)) <= (K * s) ^ m / INR (fact m) * nrm x.
Proof.
  induction m as [|m IH]; intros s Hs.
  - cbn [tv pow fact INR]. rewrite (nrm_ext n B (sub (u (t0 + s)) (repeat 0 n)) (u (t0 + s))).
    + specialize (Decay s Hs). replace (1 / 1) with 1 by field. lra.
    + apply sub_len; [apply Lu|apply repeat_length].
    + apply Lu.
    + intros i. rewrite (sub_nth n), nth_zero by (auto; apply repeat_length). ring.
  - set (r := fun s => sub (u (t0 + s)) (tv s (Datatypes.S m))).
    assert (Lr : forall s, length (r s) = n) by (intros; apply sub_len; [apply Lu|apply tv_len]).
    set (r' := fun s => F (sub (u (t0 + s)) (tv s m))).
    assert (Lr' : forall s, length (r' s) = n) by (intros; apply Flen, sub_len; [apply Lu|apply tv_len]).
    assert (Dr : forall s i, (i < n)%nat -> derivable_pt_lim (fun s => nth i (r s) 0) s (nth i (r' s) 0)).
    { intros s1 i Hi. unfold r'. unfold sub. rewrite Fadd by (auto using tv_len). rewrite (addv_nth n) by (auto using tv_len).
      assert (E : forall s, nth i (r s) 0 = nth i (u (t0 + s)) 0 - nth i (tv s (Datatypes.S m)) 0) by (intros; unfold r; apply (sub_nth n); [apply Lu|apply tv_len]).
      replace (nth i (F (u (t0 + s1))) 0 + -1 * nth i (F (tv s1 m)) 0) with (nth i (F (u (t0 + s1))) 0 - nth i (F (tv s1 m)) 0) by ring.
      assert (D : derivable_pt_lim (fun s => nth i (u (t0 + s)) 0 - nth i (tv s (Datatypes.S m)) 0) s1 (nth i (F (u (t0 + s1))) 0 - nth i (F (tv s1 m)) 0)).
      { apply (derivable_pt_lim_minus (fun s => nth i (u (t0 + s)) 0) (fun s => nth i (tv s (Datatypes.S m)) 0)); [|apply d_tv, Hi]. apply (d_shift (fun s => nth i (u s) 0)), Du, Hi. }
      intros e He. destruct (D e He) as (d & Hd). exists d. intros k Nk Hk. rewrite !E. apply Hd; assumption. }
    set (bd := fun s => (K * s) ^ Datatypes.S m / INR (fact (Datatypes.S m)) * nrm x).
    assert (bd0 : 0 <= bd s).
    { unfold bd. apply Rmult_le_pos; [|apply nrm_pos]. apply Rmult_le_pos; [apply pow_le, Rmult_le_pos; assumption|]. left. apply Rinv_0_lt_compat, lt_0_INR, lt_O_fact. }
    fold (r s). fold (bd s). apply (nrm_le n B Bpos); [apply Lr|exact bd0|].
    destruct (Rle_lt_or_eq_dec 0 s Hs) as [Hp|Z].
    2:{ assert (E : r s = repeat 0 n).
        { apply (list_eq n); [apply Lr|apply repeat_length|]. intros i. unfold r. rewrite (sub_nth n) by (auto using tv_len). rewrite nth_zero, <- Z, Rplus_0_r.
          assert (T : forall m, nth i (tv 0 (Datatypes.S m)) 0 = nth i x 0).
          { induction m0 as [|m0 IHm]; cbn [tv]; rewrite (addv_nth n) by (auto using evl, repeat_length; try apply (tv_len 0 (Datatypes.S m0))).
            - rewrite nth_zero. cbn [OdeRk_Proofs.ev pow fact INR]. field.
            - fold (tv 0 (Datatypes.S m0)). change (addv (0 ^ m0 / INR (fact m0)) (ev m0) (tv 0 m0)) with (tv 0 (Datatypes.S m0)). rewrite IHm. cbn [pow]. unfold Rdiv. ring. }
          rewrite T. ring. }
        rewrite E, (nrm_zero n B Badd), (B_zero n B Badd) by apply repeat_length. lra. }
    set (w := r s). assert (Lw : length w = n) by apply Lr.
    set (phi := fun s => B w (r s) - nrm w * bd s).
    assert (Dphi : forall c, 0 <= c <= s -> derivable_pt_lim phi c (B w (r' c) - nrm w * (K * ((K * c) ^ m / INR (fact m) * nrm x)))).
    { intros c _. unfold phi. apply (derivable_pt_lim_minus (fun s => B w (r s)) (fun s => nrm w * bd s)); [apply dB; auto|].
      apply (derivable_pt_lim_scal bd (nrm w)). unfold bd.
      assert (D : derivable_pt_lim (fun z => (K ^ Datatypes.S m * nrm x) * (z ^ Datatypes.S m / INR (fact (Datatypes.S m)))) c ((K ^ Datatypes.S m * nrm x) * (c ^ m / INR (fact m)))) by (apply (derivable_pt_lim_scal (fun z => z ^ Datatypes.S m / INR (fact (Datatypes.S m)))), d_pow).
      replace (K * ((K * c) ^ m / INR (fact m) * nrm x)) with ((K ^ Datatypes.S m * nrm x) * (c ^ m / INR (fact m))) by (rewrite Rpow_mult_distr; cbn [pow]; unfold Rdiv; ring).
      intros e He. destruct (D e He) as (d & Hd). exists d. intros k Nk Hk. rewrite !Rpow_mult_distr.
      replace (K ^ Datatypes.S m * (c + k) ^ Datatypes.S m / INR (fact (Datatypes.S m)) * nrm x) with (K ^ Datatypes.S m * nrm x * ((c + k) ^ Datatypes.S m / INR (fact (Datatypes.S m)))) by (unfold Rdiv; ring).
      replace (K ^ Datatypes.S m * c ^ Datatypes.S m / INR (fact (Datatypes.S m)) * nrm x) with (K ^ Datatypes.S m * nrm x * (c ^ Datatypes.S m / INR (fact (Datatypes.S m)))) by (unfold Rdiv; ring).
      apply Hd; assumption. }
    destruct (MVT_cor2 phi _ 0 s Hp Dphi) as (c & Ec & Hc).
    assert (P0 : phi 0 = 0).
    { unfold phi. assert (E : r 0 = repeat 0 n).
      { apply (list_eq n); [apply Lr|apply repeat_length|]. intros i. unfold r. rewrite (sub_nth n) by (auto using tv_len). rewrite nth_zero, Rplus_0_r.
        assert (T : forall m, nth i (tv 0 (Datatypes.S m)) 0 = nth i x 0).
        { induction m0 as [|m0 IHm]; cbn [tv]; rewrite (addv_nth n) by (auto using evl, repeat_length; try apply (tv_len 0 (Datatypes.S m0))).
          - rewrite nth_zero. cbn [OdeRk_Proofs.ev pow fact INR]. field.
          - change (addv (0 ^ m0 / INR (fact m0)) (ev m0) (tv 0 m0)) with (tv 0 (Datatypes.S m0)). rewrite IHm. cbn [pow]. unfold Rdiv. ring. }
        rewrite T. ring. }
      rewrite E, Bsym, (B_zero n B Badd) by (auto; apply repeat_length). unfold bd. rewrite Rmult_0_r. cbn [pow]. unfold Rdiv. ring. }
    assert (Le : B w (r' c) <= nrm w * (K * ((K * c) ^ m / INR (fact m) * nrm x))).
    { eapply Rle_trans; [apply (cs n B Badd Bsym Bpos w (r' c) Lw (Lr' c))|]. apply Rmult_le_compat_l; [apply nrm_pos|]. unfold r'.
      eapply Rle_trans; [apply FB, sub_len; [apply Lu|apply tv_len]|]. apply Rmult_le_compat_l; [exact K0|]. apply IH. lra. }
    assert (phi s <= 0) by nra. unfold phi in H. fold w in H |- *. lra.
Qed.
End Exact.

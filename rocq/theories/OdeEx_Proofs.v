(** Cases for the time integrators, and a run that blows up. *)
From Coq Require Import ZArith List Bool Reals Lia Lra.
From Verif Require Import Common Csr_Model Face_Model Face_Spec Setup_Model Setup_Spec Assembly_Model Form_Model Form_Spec Nodal_Spec NodalEnergy_Spec Global_Spec GlobalBalance_Proofs GlobalEx_Proofs Time_Model Ode_Model Ode_Spec Ode_Proofs OdeRk_Proofs OdeStep_Proofs OdeRun_Proofs.
Import ListNotations.
Local Open Scope R_scope.

Lemma g_form : forall g v, mform 4 (gMass g) v v = / 2 * (v 0%nat * v 0%nat + v 1%nat * v 1%nat + v 2%nat * v 2%nat + v 3%nat * v 3%nat).
Proof. intros g v. unfold mform, gMass, sumN. cbn -[IZR Rplus Rmult Rinv Ropp Rdiv]. field. Qed.
Lemma g_coercive : coercive 4 gMass (/ 2).
Proof. split; [lra|]. intros g v. rewrite g_form. unfold sumN. cbn -[IZR Rplus Rmult Rinv Ropp Rdiv]. lra. Qed.
Lemma g_mass : massForm 4 gMass.
Proof.
  split; [exact GlobalEx_Proofs.g_sym|]. intros g v. rewrite g_form.
  pose proof (Rle_0_sqr (v 0%nat)). pose proof (Rle_0_sqr (v 1%nat)). pose proof (Rle_0_sqr (v 2%nat)). pose proof (Rle_0_sqr (v 3%nat)). unfold Rsqr in *. lra.
Qed.

(** Runs of [k] full steps. *)
Section Steps.
Variable ode : list R -> R -> R -> list R.
Fixpoint after (dt : R) (k i : nat) (x : list R) : list R :=
  match k with O => x | Datatypes.S k => after dt k (Datatypes.S i) (ode x (INR i * dt) dt) end.
Lemma full_run : forall dt k i x calls n, 0 < dt -> (n = i + k)%nat -> exists tr s', runR (list R) ode (mkSolver (INR i * dt) dt (INR n * dt) x calls) tr s' /\
  length tr = k /\ s_fields s' = after dt k i x.
Proof.
  intros dt. induction k as [|k IH]; intros i x calls n Hd E.
  - exists [], (mkSolver (INR i * dt) dt (INR n * dt) x calls). split; [|split; reflexivity]. apply runs_stop.
    unfold guardR. cbn [s_time s_final s_dt]. destruct (Rle_dec _ _) as [H|]; [|reflexivity]. exfalso. rewrite Nat.add_0_r in E. subst n.
    assert (0 < / 100000000 * dt) by (apply Rmult_lt_0_compat; lra). lra.
  - assert (G : guardR (mkSolver (INR i * dt) dt (INR n * dt) x calls) = true).
    { unfold guardR. cbn [s_time s_final s_dt]. destruct (Rle_dec _ _) as [H|H]; [reflexivity|]. exfalso. apply H. subst n. rewrite plus_INR, S_INR. pose proof (pos_INR k). nra. }
    assert (TD : truedt (mkSolver (INR i * dt) dt (INR n * dt) x calls) = dt).
    { unfold truedt. cbn [s_time s_final s_dt]. apply Rmin_left. subst n. rewrite plus_INR, S_INR. pose proof (pos_INR k). nra. }
    destruct (IH (Datatypes.S i) (ode x (INR i * dt) dt) (calls ++ [(INR (Datatypes.S i) * dt, ode x (INR i * dt) dt)]) n Hd ltac:(lia)) as (tr & s' & Rn & L & V).
    exists (stepR (list R) ode (mkSolver (INR i * dt) dt (INR n * dt) x calls) :: tr), s'. split; [|split; [cbn; congruence|exact V]].
    apply runs_step; [exact G|]. unfold stepR. rewrite TD. cbn [s_time s_final s_dt s_fields s_calls]. rewrite S_INR in Rn. replace ((INR i + 1) * dt) with (INR i * dt + dt) in Rn by ring. exact Rn.
Qed.
End Steps.

(** Three steps, the last one shorter. *)
Lemma short_run : forall f imp ty, exists tr s', runR (list R) (odeStep f imp ty) (mkSolver 0 2 5 gX []) tr s' /\ length tr = 3%nat.
Proof.
  intros f imp ty. unfold runR. eexists [_; _; _], _. split; [|reflexivity].
  assert (T1 : forall x cs, truedt (mkSolver 0 2 5 x cs : solver (list R)) = 2) by (intros; unfold truedt; cbn [s_dt s_final s_time]; apply Rmin_left; lra).
  assert (T2 : forall x cs, truedt (mkSolver (0 + 2) 2 5 x cs : solver (list R)) = 2) by (intros; unfold truedt; cbn [s_dt s_final s_time]; apply Rmin_left; lra).
  assert (T3 : forall x cs, truedt (mkSolver (0 + 2 + 2) 2 5 x cs : solver (list R)) = 5 - (0 + 2 + 2)) by (intros; unfold truedt; cbn [s_dt s_final s_time]; apply Rmin_right; lra).
  apply runs_step; [unfold guardR; cbn [s_dt s_final s_time]; destruct (Rle_dec _ _); [reflexivity|exfalso; lra]|].
  unfold stepR at 2. rewrite T1. cbn [s_dt s_final s_time s_fields s_calls].
  apply runs_step; [unfold guardR; cbn [s_dt s_final s_time]; destruct (Rle_dec _ _); [reflexivity|exfalso; lra]|].
  unfold stepR at 2. rewrite T2. cbn [s_dt s_final s_time s_fields s_calls].
  apply runs_step; [unfold guardR; cbn [s_dt s_final s_time]; destruct (Rle_dec _ _); [reflexivity|exfalso; lra]|].
  unfold stepR at 2. rewrite T3. cbn [s_dt s_final s_time s_fields s_calls].
  apply runs_stop. unfold guardR. cbn [s_dt s_final s_time]. destruct (Rle_dec _ _); [exfalso; lra|reflexivity].
Qed.

(** An eigenvector is multiplied by the same polynomial in every step. *)
Section Eigen.
Variable n : nat.
Variable F : list R -> list R.
Hypothesis Flen : forall x, length x = n -> length (F x) = n.
Hypothesis Fadd : forall a k x, length k = n -> length x = n -> F (addv a k x) = addv a (F k) (F x).
Variable f : R -> list R -> list R.
Hypothesis fF : forall t x, length x = n -> f t x = F x.
Variable l : R.
Variable z : list R.
Hypothesis Lz : length z = n.
Hypothesis Ez : forall i, nth i (F z) 0 = l * nth i z 0.
Definition multiple (c : R) (x : list R) : Prop := length x = n /\ forall i, nth i x 0 = c * nth i z 0.
Lemma F_multiple : forall c x, multiple c x -> multiple (l * c) (F x).
Proof.
  intros c x (Lx & Hx). split; [apply Flen, Lx|]. intros i.
  assert (E : x = addv (c - 1) z z) by (apply (addv_ext n); auto; intros j; rewrite Hx; ring).
  rewrite E, Fadd, (addv_nth n), Ez by auto. ring.
Qed.
Lemma rk4_multiple : forall c x t h, multiple c x ->
  multiple ((1 + l * h + (l * h) * (l * h) / 2 + (l * h) * (l * h) * (l * h) / 6 + (l * h) * (l * h) * (l * h) * (l * h) / 24) * c) (rk4Step f x t h).
Proof.
  intros c x t h M. assert (Lx : length x = n) by apply M. rewrite (rk4_F n F Flen f fF) by exact Lx. rewrite (rk4_once n F Flen Fadd x Lx).
  split; [apply (comb_len n F Flen x Lx)|]. intros i. rewrite (comb_nth n F Flen x Lx).
  assert (EvM : forall j, multiple (l ^ j * c) (ev F x j)).
  { induction j as [|j IH]; cbn [ev pow]; [rewrite Rmult_1_l; exact M|]. replace (l * l ^ j * c) with (l * (l ^ j * c)) by ring. apply F_multiple, IH. }
  unfold rk1. cbn [lsum]. rewrite !(fun j => proj2 (EvM j) i). cbn [pow]. field.
Qed.
End Eigen.

(** With conductivity s the explicit integrator multiplies a longitudinal field by five in each
    step of length 4/s. *)
Definition gZ0 : list R := repeat 1 4 ++ repeat 0 20.
Lemma z0 : forall s, gZ s 0 = gZ0.
Proof. intros s. unfold gZ, gZ0. rewrite Rmult_0_r, exp_0. reflexivity. Qed.
Lemma z_eigen : forall s A y, evolves A 4 (gZ s) -> applies A 4 gZ0 y -> forall i, nth i y 0 = - s * nth i gZ0 0.
Proof.
  intros s A y Evo Hy i. destruct (Evo 0) as (L & y' & Y & Dv). rewrite z0 in Y, L. rewrite (applies_unique 4 A gZ0 y y' Hy Y).
  destruct (lt_dec i 24) as [Hi|Hi].
  - specialize (Dv i ltac:(lia)). apply (uniqueness_limite (fun t => nth i (gZ s t) 0) 0 _ _ Dv). rewrite <- (z0 s).
    destruct (lt_dec i 4) as [H4|H4].
    + assert (V : forall t, nth i (gZ s t) 0 = exp (- s * t)).
      { intros t. unfold gZ. rewrite app_nth1 by (rewrite repeat_length; exact H4). rewrite (nth_indep _ 0 (exp (- s * t))) by (rewrite repeat_length; exact H4). apply nth_repeat. }
      rewrite V. apply (derivable_pt_lim_ext (fun t => exp (- s * t))); [intros t; symmetry; apply V|].
      replace (- s * exp (- s * 0)) with (exp (- s * 0) * (- s * 1)) by ring.
      apply (derivable_pt_lim_comp (fun u => - s * u) exp 0 (- s * 1) (exp (- s * 0))); [|apply derivable_pt_lim_exp].
      apply (derivable_pt_lim_scal (fun u => u) (- s)). apply derivable_pt_lim_id.
    + assert (V : forall t, nth i (gZ s t) 0 = 0) by (intros t; unfold gZ; rewrite app_nth2 by (rewrite repeat_length; lia); apply nth_repeat).
      rewrite V, Rmult_0_r. apply (derivable_pt_lim_ext (fun _ => 0)); [intros t; symmetry; apply V|apply derivable_pt_lim_const].
  - destruct Y as (Ly & _). rewrite !nth_overflow by (try rewrite Ly; change (length gZ0) with 24%nat; lia). ring.
Qed.
Lemma fieldEnergy_multiple : forall N Mass c x z, massForm N Mass -> length z = (6 * N)%nat -> multiple (6 * N) z c x -> fieldEnergy N Mass x = c * c * fieldEnergy N Mass z.
Proof.
  intros N Mass c x z MF Lz (Lx & Hx). assert (E : x = addv (c - 1) z z) by (apply (addv_ext (6 * N)); auto; intros j; rewrite Hx; ring).
  unfold fieldEnergy. rewrite E, (Badd' N Mass MF), !(Badd_r N Mass) by (auto using addv_len). field.
Qed.
Theorem explicit_blows_up : forall dt, 0 < dt -> exists N m dim alpha gb gi ob ib Mass MInv D MSigma sm c A,
  dgSpace N m dim Mass MInv D /\ tables m gb gi ob ib /\ massForm N Mass /\ coercive N Mass c /\
  0 <= alpha /\ passive m gb gi /\ nonnegWeights m /\ (forall v, 0 <= mform N MSigma v v) /\
  buildGlobalOperator R Rplus Rmult 1 (-1) (factoryRows N m dim alpha ob ib MInv D MSigma sm) dim (Z.of_nat N) 0
    (match ib with [] => false | _ => true end) = Ok A /\
  exists x, length x = (6 * N)%nat /\ 0 < fieldEnergy N Mass x /\
  forall f imp, evaluates A N f -> forall k, exists tr s', runR (list R) (odeStep f imp 0) (mkSolver 0 dt (INR k * dt) x []) tr s' /\
    length tr = k /\ fieldEnergy N Mass (s_fields s') = 25 ^ k * fieldEnergy N Mass x.
Proof.
  intros dt Hd. set (s := 4 / dt). assert (S0 : 0 <= s) by (unfold s; apply Rmult_le_pos; [lra|left; apply Rinv_0_lt_compat; exact Hd]).
  destruct (long_evolves 1 gGb gGi gOb s [] g_tables) as (A & EA & Evo).
  exists 4%nat, gMesh, 1%Z, 1, gGb, gGi, gOb, [], gMass, gMInv, gD, (sMass s), [], (/ 2), A.
  split; [exact g_space|]. split; [exact g_tables|]. split; [exact g_mass|]. split; [exact g_coercive|]. split; [lra|]. split; [apply g_passive|]. split; [apply g_passive|].
  split; [exact (g_psd s S0)|]. split; [exact EA|]. exists gZ0. split; [reflexivity|]. split.
  - unfold fieldEnergy, fieldRate, suml. cbn [map fold_right]. rewrite !g_form. unfold fld, gZ0.
    cbn -[IZR Rplus Rmult Rinv Ropp Rminus Rdiv]. repeat match goal with |- context [Pos.to_nat ?p] => let v := eval compute in (Pos.to_nat p) in change (Pos.to_nat p) with v end. cbn -[IZR Rplus Rmult Rinv Ropp Rminus Rdiv]. lra.
  - intros f imp Ev k.
    assert (Fz : forall i, nth i (f 0 gZ0) 0 = - s * nth i gZ0 0) by (apply (z_eigen s A); [exact Evo|apply Ev; reflexivity]).
    assert (M : forall k i c x, multiple 24 gZ0 c x -> multiple 24 gZ0 (5 ^ k * c) (after (odeStep f imp 0) dt k i x)).
    { induction k0 as [|j IH]; intros i c x Mx; cbn [after pow]; [rewrite Rmult_1_l; exact Mx|].
      replace (5 * 5 ^ j * c) with (5 ^ j * (5 * c)) by ring. apply IH.
      pose proof (rk4_multiple 24 (f 0) (Flen' 4 A f Ev) (Fadd' 4 A f Ev) f (fF' 4 A f Ev) (- s) gZ0 eq_refl Fz c x (INR i * dt) dt Mx) as Q.
      replace (- s * dt) with (-4) in Q by (unfold s; field; lra).
      match type of Q with multiple _ _ ?a _ => replace a with (5 * c) in Q by field end. exact Q. }
    destruct (full_run (odeStep f imp 0) dt k 0 gZ0 [] k Hd eq_refl) as (tr & s' & Rn & L & V). cbn [INR] in Rn. rewrite Rmult_0_l in Rn.
    exists tr, s'. split; [exact Rn|]. split; [exact L|]. rewrite V.
    rewrite (fieldEnergy_multiple 4 gMass (5 ^ k * 1) _ gZ0 g_mass eq_refl); [|apply M; split; [reflexivity|intros; ring]].
    rewrite Rmult_1_r, <- Rpow_mult_distr. replace (5 * 5) with 25 by ring. reflexivity.
Qed.

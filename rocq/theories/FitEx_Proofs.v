(** Concrete fits and refutations. *)
From Coq Require Import ZArith List Bool Reals Lra Lia Permutation ClassicalEpsilon.
From Coquelicot Require Import Complex.
From Verif Require Import Common Fit_Model Fit_Spec Fit_Proofs FitPoly_Proofs FitExact_Proofs.
Import ListNotations.
Local Open Scope C_scope.

(** Exact linear algebra exists. *)
Lemma exact_exists : exists solve eig, exactSolve solve /\ exactEig eig.
Proof.
  set (PS := fun (A : list (list C)) (b x : list C) => exists n, cols A n /\ length x = n /\ mv A x = b).
  set (PE := fun (A : list (list C)) (l : list C) => NoDup l /\ forall m, In m l <-> eigenvalue A m).
  exists (fun A b => epsilon (inhabits []) (PS A b)). exists (fun A => epsilon (inhabits []) (PE A)). split.
  - intros A b n NA Hc [x [Lx Ex]].
    assert (H : PS A b (epsilon (inhabits []) (PS A b))) by (apply epsilon_spec; exists x, n; auto).
    destruct H as [n' [Hc' [L E]]]. split; [|exact E]. rewrite L. destruct A as [|row A]; [contradiction|].
    inversion Hc. inversion Hc'. congruence.
  - intros A ls Hc Hd Ll Hls.
    assert (H : PE A (epsilon (inhabits []) (PE A))) by (apply epsilon_spec; exists ls; split; assumption).
    destruct H as [H1 H2]. apply NoDup_Permutation; [exact Hd|exact H1|]. intros m. rewrite Hls, H2. tauto.
Qed.

(** One pole of residue 1 at -1, sampled at 1, 2 and 3 Hz. *)
Definition exF : list R := [1; 2; 3]%R.
Definition exPs : list C := [RtoC (-1)].
Definition exRs : list C := [RtoC 1].
Lemma exF_nodup : NoDup exF.
Proof. unfold exF. repeat (constructor; [cbn [In]; intros H; repeat destruct H as [H|H]; lra|]). constructor. Qed.
Lemma exPs_neg : forall p, In p exPs -> (fst p < 0)%R.
Proof. intros p [<-|[]]. cbn [fst RtoC]. lra. Qed.
Lemma exact_ex : NoDup exF /\ (1 <= length exPs <= 10)%nat /\ (2 * length exPs + 1 <= length exF)%nat /\ NoDup exPs /\
  ~ In (RtoC 0) exPs /\ length exRs = length exPs /\ (forall r, In r exRs -> r <> RtoC 0) /\ (forall p, In p exPs -> (fst p < 0)%R) /\
  (forall f, In f exF -> ~ In (sOf f) exPs).
Proof.
  split; [exact exF_nodup|]. cbn [length exPs exF exRs Nat.mul Nat.add]. split; [lia|]. split; [lia|]. split; [constructor; [intros []|constructor]|].
  split; [|split; [reflexivity|split; [|split; [exact exPs_neg|]]]].
  - intros [E|[]]. injection E as E. lra.
  - intros r [<-|[]]. exact C1_neq0.
  - intros f _ Hin. pose proof (exPs_neg _ Hin) as L. unfold sOf, Ci, RtoC, Cmult in L. cbn [fst snd] in L. lra.
Qed.

(** A pole slightly to the right of the axis. *)
Definition marginPole : C := RtoC (/ 10 ^ 7).
Definition marginFit (n : nat) : fitRes :=
  checkQuality [Some (sOf 1)] [Some (sumPoles [marginPole] [RtoC 1] (sOf 1))] [Some marginPole] [Some (RtoC 1)] n.
Lemma margin_refuted : exists r, findOptimal marginFit 1 1%R = r /\ f_stable r = true /\ f_poles r = [Some marginPole] /\ (0 < fst marginPole)%R.
Proof.
  assert (P : (0 < fst marginPole)%R) by (unfold marginPole; cbn [fst RtoC]; apply Rinv_0_lt_compat; apply pow_lt; lra).
  assert (Off : forall s, In s [sOf 1] -> ~ In s [marginPole]).
  { intros s [<-|[]] [E|[]]. apply (f_equal fst) in E. unfold sOf, Ci, RtoC, Cmult in E. cbn [fst snd] in E. cbn [fst RtoC marginPole] in *.
    unfold marginPole, RtoC in P. cbn [fst] in P. cbn [fst marginPole RtoC] in E. lra. }
  destruct (quality_true [sOf 1] [sumPoles [marginPole] [RtoC 1] (sOf 1)] [marginPole] [RtoC 1] eq_refl eq_refl Off) as [_ [Q2 [Q3 _]]].
  cbv zeta in Q2, Q3. cbn [map length] in Q2, Q3. fold (marginFit 1) in Q2, Q3.
  assert (Es : f_stable (marginFit 1) = true).
  { apply Q3. intros p [<-|[]]. unfold marginPole. cbn [fst RtoC]. apply Rinv_le_contravar; [apply pow_lt; lra|]. apply Rle_pow; [lra|lia]. }
  assert (Ee : f_err (marginFit 1) = 0%R).
  { destruct Q2 as [Q2|[s [z [[E|[]] Q2]]]]; [exact Q2|]. injection E as <- <-. rewrite Q2. unfold relErr, Cminus. rewrite Cplus_opp_r, Cmod_0. unfold Rdiv. ring. }
  exists (marginFit 1). split; [|split; [exact Es|split; [reflexivity|exact P]]].
  unfold findOptimal. cbn [seq search]. rewrite Es. cbn [negb]. rewrite Ee. destruct (Rlt_dec 0 1); [reflexivity|lra].
Qed.

(** A fit with no number in it. *)
Lemma nan_fold : forall (l : list nat) (m : R),
  fold_left (fun m (_ : nat) => let e := @None R in if gtb e m then match e with Some x => x | None => m end else m) l m = m.
Proof. induction l as [|k l IH]; intros m; cbn [fold_left]; [reflexivity|]. cbn. apply IH. Qed.
Lemma nan_quality : forall (s z : list cx) (n : nat), (1 <= n)%nat ->
  let q := checkQuality s z (repeat None n) (repeat None n) n in f_stable q = true /\ f_err q = 0%R.
Proof.
  intros s z n Hn q. split.
  - unfold q, checkQuality. cbn [f_stable]. apply stable_fold. split; [reflexivity|]. intros p Hp. apply repeat_spec in Hp. discriminate.
  - unfold q, checkQuality. cbn [f_err].
    assert (E : forall a b, errAt a b (repeat None n) (repeat None n) n = None).
    { intros a b. unfold errAt.
      assert (F : fitAt a (repeat None n) (repeat None n) n = None).
      { unfold fitAt. destruct n as [|n]; [lia|]. replace (seq 0 (S n)) with (0%nat :: seq 1 n) by reflexivity. cbn [fold_left repeat nth csub cdiv cadd].
        generalize (seq 1 n). intros l. clear. induction l as [|j l IH]; cbn [fold_left]; [reflexivity|exact IH]. }
      rewrite F. reflexivity. }
    rewrite <- (nan_fold (seq 0 (length s)) 0%R) at 2. generalize (seq 0 (length s)). generalize 0%R. intros m l. revert m.
    induction l as [|k l IH]; intros m; cbn [fold_left]; [reflexivity|]. rewrite E. apply IH.
Qed.
Lemma nan_refuted : exists (s z : list cx) (r : fitRes), length s = 2%nat /\
  findOptimal (fun n => checkQuality s z (repeat None n) (repeat None n) n) 4 (/ 10)%R = r /\
  f_stable r = true /\ f_err r = 0%R /\ f_poles r = [None].
Proof.
  exists [Some (sOf 1); Some (sOf 2)], [Some (RtoC 1); Some (RtoC 2)].
  eexists. split; [reflexivity|]. split; [reflexivity|].
  destruct (nan_quality [Some (sOf 1); Some (sOf 2)] [Some (RtoC 1); Some (RtoC 2)] 1 (le_n _)) as [Hs He]. cbv zeta in Hs, He.
  unfold findOptimal. cbn [seq search]. cbn [repeat] in Hs, He |- *. rewrite Hs. cbn [negb]. rewrite He.
  destruct (Rlt_dec 0 (/ 10)) as [L|L]; [|lra]. split; [exact Hs|]. split; [exact He|reflexivity].
Qed.
(** Nothing stable. *)
Definition unstableFit (n : nat) : fitRes := checkQuality [Some (sOf 1)] [Some (RtoC 1)] [Some (RtoC 1)] [Some (RtoC 1)] n.
Lemma none_refuted : findOptimal unstableFit 10 1%R = noFit /\ f_stable noFit = false /\ f_poles noFit = [].
Proof.
  assert (E : forall n, f_stable (unstableFit n) = false).
  { intros n. unfold unstableFit, checkQuality. cbn [f_stable fold_left option_map gtb fst RtoC]. destruct (Rlt_dec (/ 10 ^ 6) 1) as [L|L]; [reflexivity|].
    exfalso. apply L. rewrite <- Rinv_1. apply Rinv_lt_contravar; [|apply Rlt_pow_R1; [lra|lia]]. rewrite Rmult_1_l. apply pow_lt. lra. }
  split; [|split; reflexivity]. unfold findOptimal. generalize (seq 1 10). intros l. induction l as [|n l IH]; cbn [search]; [reflexivity|].
  rewrite E. cbn [negb]. exact IH.
Qed.
(** Frequencies. *)
Lemma frequencies_ub : forall a b, frequencies a b 0 = UB.
Proof. reflexivity. Qed.

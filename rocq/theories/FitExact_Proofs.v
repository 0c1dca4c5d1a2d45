(** A finite sum of simple poles is recovered by the fit of that order. *)
From Coq Require Import ZArith List Bool Reals Lra Lia Permutation.
From Coquelicot Require Import Complex.
From Verif Require Import Common Fit_Model Fit_Spec Fit_Proofs FitPoly_Proofs.
Import ListNotations.
Local Open Scope C_scope.

Lemma sOf_inj : forall f g, sOf f = sOf g -> f = g.
Proof.
  intros f g E. unfold sOf in E. apply (f_equal snd) in E. cbn in E.
  assert (P : (0 < PI)%R) by apply PI_RGT_0. assert (Q : (2 * PI * (f - g) = 0)%R) by lra.
  apply Rmult_integral in Q. lra.
Qed.
Lemma sOf_0 : sOf 0 = RtoC 0.
Proof. unfold sOf. rewrite Rmult_0_r. ring. Qed.
Lemma scale_ge : forall (l : list R) (m : R),
  let r := fold_left (fun m f => if Rlt_dec m (Cmod (sOf f)) then Cmod (sOf f) else m) l m in
  (m <= r)%R /\ forall f, In f l -> (Cmod (sOf f) <= r)%R.
Proof.
  induction l as [|f l IH]; intros m; cbn [fold_left].
  - cbv zeta. split; [lra|intros f []].
  - destruct (Rlt_dec m (Cmod (sOf f))) as [L|L].
    + destruct (IH (Cmod (sOf f))) as [A B]. cbv zeta in *. split; [lra|]. intros g [<-|Hg]; [exact A|apply B; exact Hg].
    + destruct (IH m) as [A B]. cbv zeta in *. split; [exact A|]. intros g [<-|Hg]; [lra|apply B; exact Hg].
Qed.
Lemma scale_pos : forall (l : list R), NoDup l -> (2 <= length l)%nat -> (0 < scaleOf l)%R.
Proof.
  intros l Hd L. unfold scaleOf. destruct (scale_ge l 0%R) as [_ B]. cbv zeta in B.
  assert (H : exists f, In f l /\ f <> 0%R).
  { destruct l as [|a [|b l]]; cbn in L; try lia. destruct (Req_EM_T a 0) as [->|N].
    - exists b. split; [right; left; reflexivity|]. intros ->. apply NoDup_cons_iff in Hd as [Hn _]. apply Hn. left. reflexivity.
    - exists a. split; [left; reflexivity|exact N]. }
  destruct H as [f [Hf N]]. specialize (B f Hf). apply (Rlt_le_trans _ (Cmod (sOf f))); [|exact B].
  apply Cmod_gt_0. intros E. apply N. apply sOf_inj. rewrite E, sOf_0. reflexivity.
Qed.
Lemma weight_neq0 : forall (Z : list C) k, (k < length Z)%nat -> nth k (weights Z) 0%R <> 0%R.
Proof.
  intros Z k H. unfold weights.
  set (g := fun z => _ : R). rewrite (nth_indep _ 0%R (g (RtoC 0))) by (rewrite map_length; exact H). rewrite map_nth.
  unfold g. destruct (Rlt_dec _ _); [|lra].
  pose proof (Cmod_ge_0 (nth k Z (RtoC 0))) as G. assert (Q : (0 < / 10 ^ 15)%R) by (apply Rinv_0_lt_compat; apply pow_lt; lra).
  unfold Rdiv. rewrite Rmult_1_l. apply Rinv_neq_0_compat. lra.
Qed.
Lemma nth_skipn_c : forall (x : list C) M i, nth i (skipn M x) (RtoC 0) = nth (M + i) x (RtoC 0).
Proof. induction x as [|a x IH]; intros M i; destruct M; cbn [skipn Nat.add nth]; try reflexivity; [destruct i; reflexivity|apply IH]. Qed.
Lemma skipn_as_map : forall (x : list C) N M, length x = (M + N)%nat -> map (fun i => nth (M + i) x (RtoC 0)) (seq 0 N) = skipn M x.
Proof.
  intros x N M L. apply (nth_ext _ _ (RtoC 0) (RtoC 0)).
  - rewrite map_length, seq_length, skipn_length. lia.
  - intros i Hi. rewrite map_length, seq_length in Hi. rewrite nth_map_seq by exact Hi. rewrite nth_skipn_c. reflexivity.
Qed.
Lemma nth_map_gen : forall {A B} (f : A -> B) (l : list A) k da db, (k < length l)%nat -> nth k (map f l) db = f (nth k l da).
Proof. intros A B f l k da db H. rewrite (nth_indep _ db (f da)) by (rewrite map_length; exact H). apply map_nth. Qed.
Lemma NoDup_map_inj : forall {A B} (f : A -> B) (l : list A), (forall x y, f x = f y -> x = y) -> NoDup l -> NoDup (map f l).
Proof. intros A B f l Hf Hd. apply FinFun.Injective_map_NoDup; [exact Hf|exact Hd]. Qed.

Lemma fst_combine : forall (qs ys : list C), length ys = length qs -> qs = map fst (combine qs ys).
Proof.
  induction qs as [|p l IH]; intros [|r ys] L; try discriminate; [reflexivity|].
  injection L as L. cbn [combine map fst]. rewrite <- (IH ys L). reflexivity.
Qed.
Lemma diff_zero : forall (a b : list C), length a = length b -> (forall d, In d (map (fun p => fst p - snd p) (combine a b)) -> d = RtoC 0) -> a = b.
Proof.
  induction a as [|x a IH]; intros [|y b] L H; try discriminate; [reflexivity|]. cbn [combine map fst snd] in H. f_equal.
  - apply Cminus_eq0. apply H. left. reflexivity.
  - apply IH; [cbn in L; lia|]. intros d Hd. apply H. right. exact Hd.
Qed.
Lemma combine_maps : forall (f g : R -> C) l, combine (map f l) (map g l) = map (fun x => (f x, g x)) l.
Proof. intros f g. induction l as [|x l IH]; cbn [map combine]; [reflexivity|rewrite IH; reflexivity]. Qed.
(** ** The poles *)
Section Recover.
  Variables (solve : list (list C) -> list C -> list C) (eig : list (list C) -> list C).
  Variables (freqs : list R) (ps rs : list C).
  Hypothesis Hsolve : exactSolve solve.
  Hypothesis Heig : exactEig eig.
  Hypothesis Hfd : NoDup freqs.
  Hypothesis HN : (1 <= length ps)%nat.
  Hypothesis HK : (2 * length ps + 1 <= length freqs)%nat.
  Hypothesis Hpd : NoDup ps.
  Hypothesis Hp0 : ~ In (RtoC 0) ps.
  Hypothesis Hrl : length rs = length ps.
  Hypothesis Hr0 : forall r, In r rs -> r <> RtoC 0.
  Hypothesis Hoff : forall f, In f freqs -> ~ In (sOf f) ps.
  Let N := length ps.
  Let Zs := map (fun f => sumPoles ps rs (sOf f)) freqs.
  Let sc := scaleOf freqs.
  Let ss := map sOf freqs.
  Let sn := map (fun x => x / RtoC sc) ss.
  Let sys := buildSystem sn Zs (weights Zs) N.
  Let x := solve (fst sys) (snd sys).

  Lemma sc_neq0 : sc <> 0%R.
  Proof. pose proof (scale_pos freqs Hfd) as P. fold sc in P. assert (0 < sc)%R by (apply P; lia). lra. Qed.
  Lemma sn_length : length sn = length freqs.
  Proof. unfold sn, ss. rewrite !map_length. reflexivity. Qed.
  Lemma sn_nth : forall k, (k < length freqs)%nat -> nth k sn (RtoC 0) = sOf (nth k freqs 0%R) / RtoC sc.
  Proof. intros k H. unfold sn, ss. rewrite map_map. apply (nth_map_gen (fun f => sOf f / RtoC sc)). exact H. Qed.
  Lemma Zs_nth : forall k, (k < length freqs)%nat -> nth k Zs (RtoC 0) = sumPoles ps rs (sOf (nth k freqs 0%R)).
  Proof. intros k H. unfold Zs. apply (nth_map_gen (fun f => sumPoles ps rs (sOf f))). exact H. Qed.
  Lemma unscale : forall s : C, RtoC sc * (s / RtoC sc) = s.
  Proof. intros s. field. apply RtoC_neq0. exact sc_neq0. Qed.

  (** A solution of the system, read as two polynomials. *)
  Lemma sys_eq : forall y : list C, length y = (2 * N + 1)%nat ->
    (mv (fst sys) y = snd sys <->
     forall k, (k < length freqs)%nat -> peval (firstn (S N) y) (nth k sn (RtoC 0)) = nth k Zs (RtoC 0) * peval (RtoC 1 :: skipn (S N) y) (nth k sn (RtoC 0))).
  Proof.
    intros y Ly. unfold sys, buildSystem. cbn [fst snd]. rewrite mv_dot, map_map, sn_length.
    assert (W : forall k, (k < length freqs)%nat -> nth k (weights Zs) 0%R <> 0%R).
    { intros k Hk. apply weight_neq0. unfold Zs. rewrite map_length. exact Hk. }
    split.
    - intros E k Hk. apply (row_eq (nth k (weights Zs) 0%R)); [exact Ly|apply W; exact Hk|].
      apply (f_equal (fun l => nth k l (RtoC 0))) in E. rewrite !nth_map_seq in E by exact Hk. exact E.
    - intros H. apply map_ext_in. intros k Hk. apply in_seq in Hk. apply row_eq; [exact Ly|apply W; lia|]. apply H. lia.
  Qed.

  (** The system has a solution. *)
  Lemma sys_solvable : exists y, length y = (2 * N + 1)%nat /\ mv (fst sys) y = snd sys.
  Proof.
    destruct (prod_poly ps) as [q [Lq Hq]]. destruct (numer_poly ps rs Hrl) as [n [Ln Hn]].
    set (Q := pscale (RtoC sc) q). set (P := pscale (RtoC sc) n).
    destruct Q as [|q0 qt] eqn:EQ.
    { exfalso. assert (E : length (pscale (RtoC sc) q) = 0%nat) by (fold Q; rewrite EQ; reflexivity). rewrite pscale_length, Lq in E. discriminate. }
    assert (Hq0 : q0 = prodPoles ps (RtoC 0)).
    { rewrite <- (peval_0 q0 qt), <- EQ. unfold Q. rewrite pscale_eval, Hq. f_equal. ring. }
    assert (Nq0 : q0 <> RtoC 0) by (rewrite Hq0; apply prodPoles_neq0; exact Hp0).
    assert (Lqt : length qt = N).
    { assert (E : length (pscale (RtoC sc) q) = S (length qt)) by (fold Q; rewrite EQ; reflexivity). rewrite pscale_length, Lq in E. unfold N. lia. }
    set (b := map (fun u => u / q0) P ++ [RtoC 0]). set (a := map (fun u => u / q0) qt).
    assert (Lb : length b = S N) by (unfold b; rewrite app_length, map_length; unfold P; rewrite pscale_length, Ln; cbn [length]; unfold N; lia).
    exists (b ++ a).
    assert (L : length (b ++ a) = (2 * N + 1)%nat) by (rewrite app_length, Lb; unfold a; rewrite map_length, Lqt; lia).
    split; [exact L|]. apply sys_eq; [exact L|]. intros k Hk.
    rewrite <- Lb. rewrite firstn_app, Nat.sub_diag, firstn_all, skipn_app, Nat.sub_diag, skipn_all. cbn [firstn skipn app]. rewrite app_nil_r.
    unfold b. rewrite peval_app0, peval_div. rewrite Zs_nth by exact Hk. set (t := nth k sn (RtoC 0)).
    assert (Et : RtoC sc * t = sOf (nth k freqs 0%R)) by (unfold t; rewrite sn_nth by exact Hk; apply unscale).
    assert (Hns : ~ In (sOf (nth k freqs 0%R)) ps) by (apply Hoff; apply nth_In; exact Hk).
    assert (EA : peval (RtoC 1 :: a) t = prodPoles ps (sOf (nth k freqs 0%R)) / q0).
    { assert (E : peval (map (fun u => u / q0) (q0 :: qt)) t = prodPoles ps (sOf (nth k freqs 0%R)) / q0).
      { rewrite peval_div, <- EQ. unfold Q. rewrite pscale_eval, Et, Hq. reflexivity. }
      rewrite <- E. cbn [map peval]. fold a. f_equal. field. exact Nq0. }
    rewrite EA. unfold P. rewrite pscale_eval, Et, Hn, numer_sum by (assumption || exact Hrl). unfold Cdiv. ring.
  Qed.
  Lemma sys_cols : cols (fst sys) (2 * N + 1).
  Proof.
    unfold sys, buildSystem, cols. cbn [fst]. apply Forall_forall. intros row H. apply in_map_iff in H as [k [<- _]].
    unfold sysRow. rewrite app_length, !map_length, !powers_length. lia.
  Qed.
  Lemma x_sol : length x = (2 * N + 1)%nat /\ mv (fst sys) x = snd sys.
  Proof.
    apply Hsolve; [|exact sys_cols|exact sys_solvable]. unfold sys, buildSystem. cbn [fst]. rewrite sn_length.
    destruct freqs; [cbn in HK; lia|discriminate].
  Qed.

  Let A := RtoC 1 :: skipn (S N) x.
  (** The denominator found vanishes at every pole. *)
  Lemma denominator_root : forall p, In p ps -> peval A (p / RtoC sc) = RtoC 0.
  Proof.
    intros p Hp. destruct x_sol as [Lx Ex]. pose proof (proj1 (sys_eq x Lx) Ex) as Hk. fold A in Hk.
    destruct (prod_poly ps) as [q [Lq Hq]]. destruct (numer_poly ps rs Hrl) as [n [Ln Hn]].
    set (B := firstn (S N) x) in *. set (Q := pscale (RtoC sc) q). set (P := pscale (RtoC sc) n).
    set (D := padd (pmul B Q) (map (fun u => u * RtoC (-1)) (pmul P A))).
    assert (LA : length A = S N) by (unfold A; cbn [length]; rewrite skipn_length; lia).
    assert (LB : length B = S N) by (unfold B; rewrite firstn_length; lia).
    assert (LQ : length Q = S N) by (unfold Q; rewrite pscale_length; exact Lq).
    assert (LP : length P = N) by (unfold P; rewrite pscale_length; exact Ln).
    assert (LD : (length D <= length freqs)%nat).
    { unfold D. rewrite padd_length, map_length. pose proof (pmul_length B Q) as H1. pose proof (pmul_length P A) as H2.
      rewrite LQ, LB in H1. rewrite LA, LP in H2. unfold N in *. lia. }
    assert (HD : forall t, peval D t = RtoC 0).
    { apply (many_roots (length freqs) D sn LD).
      - unfold sn, ss. rewrite map_map. apply NoDup_map_inj; [|exact Hfd]. intros f g E. apply sOf_inj.
        rewrite <- (unscale (sOf f)), <- (unscale (sOf g)), E. reflexivity.
      - exact sn_length.
      - intros t Ht. destruct (In_nth _ _ (RtoC 0) Ht) as [k [Lk Et]]. rewrite sn_length in Lk. specialize (Hk k Lk). rewrite Et in Hk.
        rewrite Zs_nth in Hk by exact Lk.
        assert (Es : RtoC sc * t = sOf (nth k freqs 0%R)) by (rewrite <- Et, sn_nth by exact Lk; apply unscale).
        unfold D. rewrite padd_eval, peval_scal, !pmul_eval. unfold Q, P. rewrite !pscale_eval, Es, Hq, Hn.
        rewrite numer_sum; [|exact Hrl|apply Hoff; apply nth_In; exact Lk]. rewrite Hk.
        replace (RtoC (-1)) with (- RtoC 1) by (rewrite <- RtoC_opp; reflexivity). ring. }
    specialize (HD (p / RtoC sc)). unfold D in HD. rewrite padd_eval, peval_scal, !pmul_eval in HD. unfold Q, P in HD.
    rewrite !pscale_eval, unscale, Hq, Hn, prodPoles_0 in HD by exact Hp.
    assert (E : numer ps rs p * peval A (p / RtoC sc) = RtoC 0).
    { replace (numer ps rs p * peval A (p / RtoC sc))
        with (- (peval B (p / RtoC sc) * RtoC 0 + numer ps rs p * peval A (p / RtoC sc) * RtoC (-1))).
      - rewrite HD. ring.
      - replace (RtoC (-1)) with (- RtoC 1) by (rewrite <- RtoC_opp; reflexivity). ring. }
    apply Cmult_integral in E as [E|E]; [|exact E]. exfalso.
    exact (numer_neq0 ps rs p Hrl Hpd Hr0 Hp E).
  Qed.

  Lemma aFull_eq : aFull x sc N = map (fun i => nth i A (RtoC 0) / RtoC (sc ^ (i + 0))) (seq 0 (length A)).
  Proof.
    destruct x_sol as [Lx _]. unfold aFull.
    assert (LA : length A = S N) by (unfold A; cbn [length]; rewrite skipn_length; lia). rewrite LA.
    rewrite (skipn_as_map x N (N + 1)) by lia. replace (N + 1)%nat with (S N) by lia. fold A.
    apply map_ext. intros i. rewrite Nat.add_0_r. reflexivity.
  Qed.
  Lemma aFull_root : forall p, In p ps -> peval (aFull x sc N) p = RtoC 0.
  Proof.
    intros p Hp. rewrite aFull_eq, peval_unscale by exact sc_neq0. rewrite denominator_root by exact Hp. unfold Cdiv. ring.
  Qed.
  Lemma aFull_length : length (aFull x sc N) = S N.
  Proof. unfold aFull. rewrite map_length, seq_length. reflexivity. Qed.
  Lemma aFull_0 : peval (aFull x sc N) (RtoC 0) = RtoC 1.
  Proof.
    rewrite aFull_eq, peval_unscale by exact sc_neq0. replace (RtoC 0 / RtoC sc) with (RtoC 0) by (unfold Cdiv; ring).
    unfold A. rewrite peval_0. cbn [pow]. field. apply C1_neq0.
  Qed.
  Lemma aFull_lead : nth N (aFull x sc N) (RtoC 0) <> RtoC 0.
  Proof.
    intros E. set (a := aFull x sc N) in *.
    assert (La : length a = S N) by exact aFull_length.
    assert (Ea : a = firstn N a ++ [RtoC 0]).
    { rewrite <- (firstn_skipn N a) at 1. f_equal. rewrite (skipn_cons_nth a N (RtoC 0)) by lia. rewrite E, skipn_all2 by lia. reflexivity. }
    assert (H : forall t, peval (firstn N a) t = RtoC 0).
    { apply (many_roots N _ ps); [rewrite firstn_length; lia|exact Hpd|reflexivity|].
      intros p Hp. rewrite <- peval_app0, <- Ea. apply aFull_root. exact Hp. }
    pose proof aFull_0 as H0. fold a in H0. rewrite Ea, peval_app0, H in H0. symmetry in H0. exact (C1_neq0 H0).
  Qed.

  Let poles := solveForPoles solve eig sys sc N.
  Lemma poles_found : Permutation ps poles.
  Proof.
    unfold poles, solveForPoles. fold x. set (a := aFull x sc N). set (aN := nth N a (RtoC 0)). set (a' := map (fun c => c / aN) a).
    assert (La : length a = S N) by exact aFull_length.
    assert (NaN : aN <> RtoC 0) by exact aFull_lead.
    assert (La' : length a' = S N) by (unfold a'; rewrite map_length; exact La).
    assert (Hm : nth N a' (RtoC 0) = RtoC 1).
    { unfold a'. rewrite (nth_map_gen (fun c => c / aN) a N (RtoC 0)) by lia. fold aN. field. exact NaN. }
    set (co := map (fun i => nth (N - 1 - i) a' (RtoC 0)) (seq 0 N)).
    destruct (companion_root N a' HN La' Hm) as [LM [CM Hc]]. fold co in LM, CM, Hc.
    assert (Lco : length co = N) by (unfold co; rewrite map_length, seq_length; reflexivity).
    assert (Ex : extractRoots eig co = eig (companion co)).
    { unfold extractRoots. destruct co; [cbn in Lco; unfold N in *; lia|reflexivity]. }
    rewrite Ex.
    assert (Ea' : forall p, peval a' p = RtoC 0 <-> peval a p = RtoC 0).
    { intros p. unfold a'. rewrite peval_div. split; intros E.
      - replace (peval a p) with (peval a p / aN * aN) by (field; exact NaN). rewrite E. ring.
      - rewrite E. unfold Cdiv. ring. }
    apply Heig; [rewrite LM; exact CM|exact Hpd|rewrite LM; reflexivity|].
    intros p. rewrite Hc, Ea'. split; intros Hp; [exact (aFull_root p Hp)|].
    destruct (in_dec C_dec p ps) as [Hi|Hn]; [exact Hi|]. exfalso.
    assert (Hz : forall t, peval a t = RtoC 0).
    { apply (many_roots (S N) a (p :: ps)); [lia|constructor; assumption|reflexivity|].
      intros t [<-|Ht]; [exact Hp|exact (aFull_root t Ht)]. }
    pose proof aFull_0 as H0. fold a in H0. rewrite Hz in H0. symmetry in H0. exact (C1_neq0 H0).
  Qed.

  (** ** The residues *)
  Let residues := calcResidues solve ss Zs poles.
  Lemma dot_sumPoles : forall (qs y : list C) (s : C), dot (map (fun p => RtoC 1 / (s - p)) qs) y = sumPoles qs y s.
  Proof.
    unfold dot, sumPoles. induction qs as [|p qs IH]; intros [|r y] s; try reflexivity.
    cbn [map combine fold_right fst snd]. rewrite IH. f_equal. unfold Cdiv. ring.
  Qed.
  Lemma sumPoles_perm : forall (l1 l2 : list (C * C)) (s : C), Permutation l1 l2 ->
    fold_right (fun pr acc => snd pr / (s - fst pr) + acc) (RtoC 0) l1 = fold_right (fun pr acc => snd pr / (s - fst pr) + acc) (RtoC 0) l2.
  Proof. intros l1 l2 s H. induction H as [|a l1 l2 _ IH|a b l|a b d _ IH1 _ IH2]; cbn [fold_right]; [reflexivity|rewrite IH; reflexivity|ring|rewrite IH1; exact IH2]. Qed.
  Lemma residues_exist : exists rs', length rs' = length poles /\ Permutation (combine ps rs) (combine poles rs') /\ forall s, sumPoles poles rs' s = sumPoles ps rs s.
  Proof.
    assert (E : ps = map fst (combine ps rs)).
    { apply fst_combine. exact Hrl. }
    pose proof (Permutation_sym poles_found) as H. rewrite E in H. apply Permutation_map_inv in H as [l3 [E3 H3]].
    exists (map snd l3). rewrite E3.
    assert (Ec : combine (map fst l3) (map snd l3) = l3).
    { clear. induction l3 as [|[u v] l IH]; cbn [map combine fst snd]; [reflexivity|rewrite IH; reflexivity]. }
    split; [rewrite !map_length; reflexivity|]. rewrite Ec. split; [exact H3|].
    intros s. unfold sumPoles. rewrite Ec. apply sumPoles_perm. apply Permutation_sym. exact H3.
  Qed.
  Lemma numer_zero : forall qs ds, NoDup qs -> length ds = length qs -> (forall s, In s qs -> numer qs ds s = RtoC 0) -> forall d, In d ds -> d = RtoC 0.
  Proof.
    clear. induction qs as [|p qs IH]; intros ds Hd L H d Hin; destruct ds as [|r ds]; try discriminate; [destruct Hin|].
    injection L as L. apply NoDup_cons_iff in Hd as [Hn Hd]. destruct Hin as [<-|Hin].
    - specialize (H p (or_introl eq_refl)). cbn [numer] in H.
      replace (r * prodPoles qs p + (p - p) * numer qs ds p) with (r * prodPoles qs p) in H by ring.
      apply Cmult_integral in H as [H|H]; [exact H|]. exfalso. exact (prodPoles_neq0 qs p Hn H).
    - apply (IH ds Hd L); [|exact Hin]. intros s Hs. specialize (H s (or_intror Hs)). cbn [numer] in H.
      rewrite (prodPoles_0 qs s Hs) in H. replace (r * RtoC 0 + (s - p) * numer qs ds s) with ((s - p) * numer qs ds s) in H by ring.
      apply Cmult_integral in H as [H|H]; [|exact H]. apply Cminus_eq0 in H. subst s. contradiction.
  Qed.
  Lemma sumPoles_diff : forall qs y1 y2 s, length y1 = length qs -> length y2 = length qs ->
    sumPoles qs (map (fun p => fst p - snd p) (combine y1 y2)) s = sumPoles qs y1 s - sumPoles qs y2 s.
  Proof.
    clear. unfold sumPoles. induction qs as [|p qs IH]; intros [|a y1] [|b y2] s L1 L2; try discriminate; cbn [combine map fold_right fst snd]; [ring|].
    rewrite IH by (cbn in *; lia). unfold Cdiv. ring.
  Qed.
  Lemma poles_off : forall f, In f freqs -> ~ In (sOf f) poles.
  Proof. intros f Hf Hin. apply (Hoff f Hf). apply (Permutation_in _ (Permutation_sym poles_found)). exact Hin. Qed.
  Lemma residues_sol : length residues = length poles /\ forall f, In f freqs -> sumPoles poles residues (sOf f) = sumPoles ps rs (sOf f).
  Proof.
    unfold residues, calcResidues. set (R := map (fun sk => map (fun p => RtoC 1 / (sk - p)) poles) ss).
    assert (HR : forall y, mv R y = map (fun f => sumPoles poles y (sOf f)) freqs).
    { intros y. rewrite mv_dot. unfold R, ss. rewrite !map_map. apply map_ext. intros f. apply dot_sumPoles. }
    destruct (Hsolve R Zs (length poles)) as [L E].
    - unfold R, ss. destruct freqs; [cbn in HK; lia|discriminate].
    - apply Forall_forall. intros row H. unfold R in H. apply in_map_iff in H as [k [<- _]]. apply map_length.
    - destruct residues_exist as [rs' [L [_ E]]]. exists rs'. split; [exact L|]. rewrite HR. unfold Zs. apply map_ext. intros f. apply E.
    - split; [exact L|]. rewrite HR in E. exact (ext_in_map E).
  Qed.
  Lemma residues_found : Permutation (combine ps rs) (combine poles residues).
  Proof.
    destruct residues_exist as [rs' [L' [HP E']]]. destruct residues_sol as [L E].
    assert (Hd : NoDup poles) by (apply (Permutation_NoDup poles_found Hpd)).
    set (ds := map (fun p => fst p - snd p) (combine residues rs')).
    assert (Lds : length ds = length poles) by (unfold ds; rewrite map_length, combine_length; lia).
    assert (LN : length poles = N) by (rewrite <- (Permutation_length poles_found); reflexivity).
    assert (Hz : forall d, In d ds -> d = RtoC 0).
    { apply (numer_zero poles ds Hd Lds). intros s _. destruct (numer_poly poles ds Lds) as [n [Ln Hn]]. rewrite <- Hn.
      apply (many_roots (length freqs) n ss).
      - unfold N in LN. lia.
      - apply NoDup_map_inj; [exact sOf_inj|exact Hfd].
      - apply map_length.
      - intros t Ht. apply in_map_iff in Ht as [f [<- Hf]]. rewrite Hn, numer_sum; [|exact Lds|apply poles_off; exact Hf].
        unfold ds. rewrite sumPoles_diff by assumption. rewrite (E f Hf), E'. ring. }
    assert (Er : residues = rs').
    { apply diff_zero; [lia|exact Hz]. }
    rewrite Er. exact HP.
  Qed.

  Lemma recovered :
    let r := calcPolesAndResidues solve eig freqs Zs N in
    (exists ps' rs', f_poles r = map Some ps' /\ f_res r = map Some rs' /\ length rs' = length ps' /\ Permutation (combine ps rs) (combine ps' rs')) /\
    f_err r = 0%R /\ f_N r = Z.of_nat N /\ (f_stable r = true <-> forall p, In p ps -> (fst p <= / 10 ^ 6)%R).
  Proof.
    intros r.
    assert (Er : r = checkQuality (map Some ss) (map Some Zs) (map Some poles) (map Some residues) N) by reflexivity.
    destruct residues_sol as [L E].
    assert (LN : N = length poles) by (rewrite <- (Permutation_length poles_found); reflexivity).
    rewrite LN in Er.
    destruct (quality_true ss Zs poles residues L) as [Q1 [Q2 [Q3 [Q4 [Q5 Q6]]]]].
    - unfold Zs, ss. rewrite !map_length. reflexivity.
    - intros s Hs. apply in_map_iff in Hs as [f [<- Hf]]. apply poles_off. exact Hf.
    - cbv zeta in *. rewrite <- Er in Q1, Q2, Q3, Q4, Q5, Q6. split.
      + exists poles, residues. split; [exact Q4|]. split; [exact Q5|]. split; [exact L|]. exact residues_found.
      + split; [|split].
        * destruct Q2 as [Q2|[s [z [Hin Q2]]]]; [exact Q2|]. rewrite Q2.
          assert (Ec : combine ss Zs = map (fun f => (sOf f, sumPoles ps rs (sOf f))) freqs).
          { apply combine_maps. }
          rewrite Ec in Hin. apply in_map_iff in Hin as [f [Ef Hf]]. injection Ef as <- <-. unfold relErr. rewrite (E f Hf).
          unfold Cminus. rewrite Cplus_opp_r, Cmod_0. unfold Rdiv. ring.
        * rewrite Q6, <- LN. reflexivity.
        * rewrite Q3. split; intros H p Hp; apply H; [apply (Permutation_in _ poles_found)|apply (Permutation_in _ (Permutation_sym poles_found))]; exact Hp.
  Qed.
End Recover.

(** The search then returns a stable fit within the tolerance. *)
Lemma recovered_search : forall (solve : list (list C) -> list C -> list C) (eig : list (list C) -> list C) (freqs : list R) (ps rs : list C) (max_poles : nat) (tol : R),
  exactSolve solve -> exactEig eig -> NoDup freqs -> (1 <= length ps <= max_poles)%nat -> (2 * length ps + 1 <= length freqs)%nat -> NoDup ps ->
  ~ In (RtoC 0) ps -> length rs = length ps -> (forall r, In r rs -> r <> RtoC 0) -> (forall p, In p ps -> (fst p < 0)%R) -> (0 < tol)%R ->
  let r := findOptimalPoles solve eig freqs (map (fun f => sumPoles ps rs (sOf f)) freqs) max_poles tol in
  f_stable r = true /\ (f_err r < tol)%R /\ (f_N r <= Z.of_nat (length ps))%Z.
Proof.
  intros solve eig freqs ps rs max_poles tol Hs He Hfd HN HK Hpd Hp0 Hrl Hr0 Hst Ht r.
  assert (Hoff : forall f, In f freqs -> ~ In (sOf f) ps).
  { intros f _ Hin. specialize (Hst _ Hin). unfold sOf, Ci, RtoC, Cmult in Hst. cbn [fst snd] in Hst. lra. }
  destruct (recovered solve eig freqs ps rs Hs He Hfd (proj1 HN) HK Hpd Hp0 Hrl Hr0 Hoff) as [_ [E [_ S]]]. cbv zeta in E, S.
  set (calc := calcPolesAndResidues solve eig freqs (map (fun f => sumPoles ps rs (sOf f)) freqs)) in *.
  assert (M : meets tol (calc (length ps))).
  { split; [|rewrite E; exact Ht]. apply S. intros p Hp. specialize (Hst p Hp).
    assert (0 < / 10 ^ 6)%R by (apply Rinv_0_lt_compat; apply pow_lt; lra). lra. }
  destruct (findOptimal_chosen calc max_poles tol) as [[k [Hk [Er [Hm Hf]]]]|[H _]].
  - unfold r, findOptimalPoles. fold calc. destruct Hm as [H1 H2]. split; [exact H1|]. split; [exact H2|]. rewrite Er.
    assert (Hle : (k <= length ps)%nat).
    { destruct (le_lt_dec k (length ps)) as [L|L]; [exact L|]. exfalso. apply (Hf (length ps)); [lia|exact M]. }
    change (f_N (calc k)) with (Z.of_nat k). lia.
  - exfalso. apply (H (length ps)); [lia|exact M].
Qed.

(** Proofs: the thin layers follow [evolve]. *)
From Coq Require Import ZArith List Bool Reals Lra Lia.
From Flocq Require Import Core.Raux.
From Verif Require Import Common Probe_Model Evol_Model Evol_Spec EvolLayer_Spec Evol_Proofs EvolHist_Proofs EvolSolve_Proofs EvolRhs_Proofs EvolStage_Proofs EvolReach_Proofs.
Import ListNotations.
Local Open Scope Z_scope.

(** ** Reads *)
Lemma zget_val : forall (v : list R) i x, zget v i = Ok x -> 0 <= i < Z.of_nat (length v) /\ nthZ v i = x.
Proof.
  intros v i x H. apply zget_ok in H. destruct H as [H0 H1]. split.
  - split; auto. assert (Z.to_nat i < length v)%nat by (apply nth_error_Some; congruence). lia.
  - unfold nthZ. apply nth_error_nth. exact H1.
Qed.

Lemma getEH_val : forall v n dof l, getEH v n dof = Ok l ->
  length l = 6%nat /\ forall c, 0 <= c < 6 -> nth (Z.to_nat c) l 0%R = nthZ v (c * n + dof).
Proof.
  intros v n dof l H. unfold getEH, comps in H. cbn [mapM] in H.
  repeat match type of H with context [zget v ?i] => destruct (zget v i) eqn:?; cbn [bind] in H; try discriminate end.
  injection H as <-. split; [reflexivity|].
  repeat match goal with E : zget _ _ = Ok _ |- _ => apply zget_val in E; destruct E as [_ E] end.
  intros c Hc. assert (c = 0 \/ c = 1 \/ c = 2 \/ c = 3 \/ c = 4 \/ c = 5) as K by lia.
  destruct K as [->|[->|[->|[->|[->| ->]]]]]; symmetry; assumption.
Qed.

Lemma rotIn_val : forall rot l u c, (forall c, 0 <= c < 6 -> nth (Z.to_nat c) l 0%R = u c) -> 0 <= c < 6 ->
  nth (Z.to_nat c) (rotIn rot l) 0%R = intoFrame rot u c.
Proof.
  intros rot l u c Hu Hc. unfold intoFrame, rotIn. cbv zeta.
  pose proof (Hu 0 ltac:(lia)) as U0. pose proof (Hu 1 ltac:(lia)) as U1. pose proof (Hu 2 ltac:(lia)) as U2.
  pose proof (Hu 3 ltac:(lia)) as U3. pose proof (Hu 4 ltac:(lia)) as U4. pose proof (Hu 5 ltac:(lia)) as U5.
  change (Z.to_nat 0) with 0%nat in *. change (Z.to_nat 1) with 1%nat in *. change (Z.to_nat 2) with 2%nat in *.
  change (Z.to_nat 3) with 3%nat in *. change (Z.to_nat 4) with 4%nat in *. change (Z.to_nat 5) with 5%nat in *.
  rewrite U0, U1, U2, U3, U4, U5.
  assert (c = 0 \/ c = 1 \/ c = 2 \/ c = 3 \/ c = 4 \/ c = 5) as K by lia.
  destruct K as [->|[->|[->|[->|[->| ->]]]]]; reflexivity.
Qed.

Lemma rotIn_len : forall rot l, length (rotIn rot l) = 6%nat.
Proof. reflexivity. Qed.

Lemma lerp_val : forall a x y i, length x = length y -> (i < length x)%nat ->
  nth i (lerp a x y) 0%R = ((1 - a) * nth i x 0 + a * nth i y 0)%R.
Proof.
  intros a x. induction x as [|p x IH]; intros [|q y] i Hl Hi; cbn in *; try lia. destruct i; auto. apply IH; lia.
Qed.

(** ** Ghost filling *)
(** One block of writes. *)
Lemma fill_block : forall (pos : Z -> Z) a k all all',
  foldM (fun all dof => zset all (pos dof) a) (zseq k) all = Ok all' ->
  length all' = length all /\ forall i, 0 <= i ->
    nthZ all' i = if existsb (fun d => pos d =? i) (zseq k) then a else nthZ all i.
Proof.
  intros pos a k. induction k as [|k IH]; intros all all' H.
  - cbn in H. injection H as <-. split; auto.
  - rewrite zseq_S, foldM_app in H. ubind H. destruct (IH _ _ E) as [L1 V1]. cbn [foldM] in H. ubind H. injection H as <-.
    pose proof (zset_len _ _ _ _ E0) as L2. split; [congruence|]. intros i Hi. rewrite zseq_S, existsb_app. cbn [existsb]. rewrite orb_false_r.
    pose proof E0 as Hz. apply zset_ok in Hz. destruct Hz as [Hr _].
    unfold nthZ at 1. rewrite (zset_nth _ _ _ _ (Z.to_nat i) 0%R E0).
    destruct (Z.eqb_spec (pos (Z.of_nat k)) i) as [Heq|Hne].
    + rewrite orb_true_r. rewrite Z2Nat.id by lia. rewrite (proj2 (Z.eqb_eq _ _) Heq). reflexivity.
    + rewrite orb_false_r. rewrite Z2Nat.id by lia. rewrite (proj2 (Z.eqb_neq _ _) Hne). apply V1; auto.
Qed.

Lemma fill_all : forall (n : Z) (posn : Z -> Z) (f : Z -> R) k cs all all',
  (forall d, 0 <= d < Z.of_nat k -> 0 <= posn d < n) ->
  foldM (fun all c => foldM (fun all dof => zset all (c * n + posn dof) (f c)) (zseq k) all) cs all = Ok all' ->
  length all' = length all /\ forall c j, 0 <= c -> 0 <= j < n ->
    nthZ all' (c * n + j) = if existsb (Z.eqb c) cs && existsb (fun d => posn d =? j) (zseq k) then f c else nthZ all (c * n + j).
Proof.
  intros n posn f k cs. induction cs as [|c0 cs IH]; intros all all' Hp H; cbn [foldM] in H.
  - injection H as <-. split; auto.
  - ubind H. destruct (fill_block _ _ _ _ _ E) as [L1 V1]. destruct (IH _ _ Hp H) as [L2 V2]. split; [congruence|].
    intros c j Hc Hj. rewrite V2 by auto. rewrite V1 by nia. cbn [existsb].
    assert (K : existsb (fun d => c0 * n + posn d =? c * n + j) (zseq k) = (c =? c0) && existsb (fun d => posn d =? j) (zseq k)).
    { destruct (existsb (fun d => posn d =? j) (zseq k)) eqn:E1.
      - rewrite andb_true_r. destruct (Z.eqb_spec c c0) as [->|Hn].
        + apply existsb_exists in E1. destruct E1 as (d & D1 & D2). apply existsb_exists. exists d. split; auto. apply Z.eqb_eq in D2. apply Z.eqb_eq. lia.
        + apply not_true_is_false. intros E2. apply existsb_exists in E2. destruct E2 as (d & D1 & D2). apply in_zseq in D1. specialize (Hp d D1). apply Z.eqb_eq in D2. apply Hn. nia.
      - rewrite andb_false_r. apply not_true_is_false. intros E2. apply existsb_exists in E2. destruct E2 as (d & D1 & D2). pose proof D1 as D1'. apply in_zseq in D1. specialize (Hp d D1). apply Z.eqb_eq in D2.
        assert (c0 = c) by nia. subst. assert (posn d = j) by lia. rewrite (proj2 (existsb_exists _ _)) in E1; [discriminate|]. exists d. split; auto. apply Z.eqb_eq. auto. }
    rewrite K. destruct (Z.eqb_spec c c0) as [->|]; cbn [orb andb].
    + destruct (existsb (fun d => posn d =? j) (zseq k)); [|rewrite !andb_false_r; reflexivity].
      cbn [andb]. destruct (existsb (Z.eqb c0) cs); reflexivity.
    + reflexivity.
Qed.

Lemma comps_ltb : forall c, 0 <= c -> existsb (Z.eqb c) comps = (c <? 6).
Proof.
  intros c Hc. destruct (Z.ltb_spec c 6).
  - apply existsb_exists. exists c. split; [apply in_comps; lia|apply Z.eqb_refl].
  - apply not_true_is_false. intros E. apply existsb_exists in E. destruct E as (x & X1 & X2). apply in_comps in X1. apply Z.eqb_eq in X2. lia.
Qed.

Lemma fillLeft_val : forall n gh v6 all all', 0 <= gh <= n -> fillLeft n gh v6 all = Ok all' ->
  length all' = length all /\ forall c j, 0 <= c -> 0 <= j < n ->
    nthZ all' (c * n + j) = if (c <? 6) && (j <? gh) then nth (Z.to_nat c) v6 0%R else nthZ all (c * n + j).
Proof.
  intros n gh v6 all all' Hg H. unfold fillLeft in H.
  destruct (fill_all n (fun d => d) (fun c => nth (Z.to_nat c) v6 0%R) (Z.to_nat gh) _ _ _ ltac:(intros; lia) H) as [L V]. split; auto.
  intros c j Hc Hj. rewrite V by auto. rewrite comps_ltb by auto.
  match goal with |- context [existsb ?f ?l] => assert (K : existsb f l = (j <? gh)); [|rewrite K; reflexivity] end.
  destruct (Z.ltb_spec j gh).
  - apply existsb_exists. exists j. split; [apply in_zseq; lia|apply Z.eqb_refl].
  - apply not_true_is_false. intros E. apply existsb_exists in E. destruct E as (x & X1 & X2). apply in_zseq in X1. apply Z.eqb_eq in X2. lia.
Qed.
Lemma fillRight_val : forall n gh v6 all all', 0 <= gh <= n -> fillRight n gh v6 all = Ok all' ->
  length all' = length all /\ forall c j, 0 <= c -> 0 <= j < n ->
    nthZ all' (c * n + j) = if (c <? 6) && (n - gh <=? j) then nth (Z.to_nat c) v6 0%R else nthZ all (c * n + j).
Proof.
  intros n gh v6 all all' Hg H. unfold fillRight in H.
  assert (H' : foldM (fun all c => foldM (fun all dof => zset all (c * n + (n - 1 - dof)) (nth (Z.to_nat c) v6 0%R)) (zseq (Z.to_nat gh)) all) comps all = Ok all').
  { rewrite <- H. apply foldM_ext_in. intros b c _. apply foldM_ext_in. intros b' d _. f_equal. lia. }
  destruct (fill_all n (fun d => n - 1 - d) (fun c => nth (Z.to_nat c) v6 0%R) (Z.to_nat gh) _ _ _ ltac:(intros; lia) H') as [L V]. split; auto.
  intros c j Hc Hj. rewrite V by auto. rewrite comps_ltb by auto.
  match goal with |- context [existsb ?f ?l] => assert (K : existsb f l = (n - gh <=? j)); [|rewrite K; reflexivity] end.
  destruct (Z.leb_spec (n - gh) j).
  - apply existsb_exists. exists (n - 1 - j). split; [apply in_zseq; lia|apply Z.eqb_eq; lia].
  - apply not_true_is_false. intros E. apply existsb_exists in E. destruct E as (x & X1 & X2). apply in_zseq in X1. apply Z.eqb_eq in X2. lia.
Qed.

(** Left and then, for a two-sided layer, right filling is [ghosted]. *)
Lemma list_nthZ : forall (l1 l2 : list R), length l1 = length l2 -> (forall i, 0 <= i < Z.of_nat (length l1) -> nthZ l1 i = nthZ l2 i) -> l1 = l2.
Proof.
  intros l1 l2 Hl Hv. apply nth_ext with (d := 0%R) (d' := 0%R); auto. intros k Hk. specialize (Hv (Z.of_nat k) ltac:(lia)).
  unfold nthZ in Hv. rewrite Nat2Z.id in Hv. exact Hv.
Qed.
Lemma nthZ_map_zseq : forall (f : Z -> R) n i, 0 <= i < Z.of_nat n -> nthZ (map f (zseq n)) i = f i.
Proof.
  intros f n i Hi. unfold nthZ, zseq. rewrite map_map. rewrite (nth_indep _ _ (f (Z.of_nat 0))) by (rewrite map_length, seq_length; lia).
  rewrite (map_nth (fun k => f (Z.of_nat k))), seq_nth by lia. f_equal. lia.
Qed.

Lemma fill_ghosted : forall n gh lr l6 r6 l r all all', 0 <= gh -> 2 * gh < n ->
  (forall c, 0 <= c < 6 -> nth (Z.to_nat c) l6 0%R = l c) -> (lr = true -> forall c, 0 <= c < 6 -> nth (Z.to_nat c) r6 0%R = r c) ->
  (a <- fillLeft n gh l6 all ;; if lr : bool then fillRight n gh r6 a else Ok a) = Ok all' ->
  all' = ghosted n gh lr l r all.
Proof.
  intros n gh lr l6 r6 l r all all' Hg Hn Hl Hr H. ubind H. destruct (fillLeft_val n gh _ _ _ ltac:(lia) E) as [L1 V1].
  assert (K : length all' = length all /\ forall c j, 0 <= c -> 0 <= j < n ->
    nthZ all' (c * n + j) = if lr && ((c <? 6) && (n - gh <=? j)) then nth (Z.to_nat c) r6 0%R else nthZ v (c * n + j)).
  { destruct lr.
    - destruct (fillRight_val n gh _ _ _ ltac:(lia) H) as [L2 V2]. split; [congruence|]. exact V2.
    - injection H as <-. split; auto. }
  destruct K as [L2 V2]. unfold ghosted. apply list_nthZ; [rewrite map_length, zseq_length; auto|].
  intros i Hi. rewrite L2 in Hi. rewrite nthZ_map_zseq by auto. cbv zeta.
  pose proof (Z.div_pos i n ltac:(lia) ltac:(lia)) as Hc. pose proof (Z.mod_pos_bound i n ltac:(lia)) as Hj.
  pose proof (Z.div_mod i n ltac:(lia)) as Hd. assert (Ei : i = i / n * n + i mod n) by lia.
  set (c := i / n) in *. set (j := i mod n) in *. rewrite Ei. rewrite V2, V1 by auto.
  destruct (Z.ltb_spec c 6) as [Hc6|]; cbn [andb].
  - destruct (Z.ltb_spec j gh), (Z.leb_spec (n - gh) j); cbn [andb]; try lia.
    + rewrite andb_false_r. apply Hl. lia.
    + destruct lr; cbn [andb]; auto.
    + rewrite andb_false_r. reflexivity.
  - rewrite andb_false_r. reflexivity.
Qed.

Lemma updateGhosts_val : forall w input ndofs s all all', roomy w ->
  updateGhosts (w_n w) (w_gh w) input (Z.of_nat ndofs) s all = Ok all' ->
  all' = ghosted (w_n w) (w_gh w) (two s) (intoFrame (s_rot s) (at_dof ndofs input (s_gl s))) (intoFrame (s_rot s) (at_dof ndofs input (s_gr s))) all.
Proof.
  intros w input ndofs s all all' [Hg Hn] H. unfold updateGhosts in H. ubind H. destruct (getEH_val _ _ _ _ E) as [_ Vl].
  unfold two. destruct (Z.eqb_spec (s_gr s) (-1)) as [Hr|Hr]; cbn [negb].
  - refine (fill_ghosted _ _ false (rotIn (s_rot s) v) [] _ _ _ _ Hg Hn _ _ H); [intros c Hc; apply rotIn_val; auto|discriminate].
  - ubind H. ubind H. destruct (getEH_val _ _ _ _ E1) as [_ Vr].
    apply (fill_ghosted _ _ true (rotIn (s_rot s) v) (rotIn (s_rot s) v1)); auto; [intros c Hc; apply rotIn_val; auto|intros _ c Hc; apply rotIn_val; auto|].
    rewrite E0. exact H.
Qed.

Lemma ghostsAt_val : forall ndofs v s l r, ghostsAt ndofs v s = Ok (l, r) ->
  length l = 6%nat /\ length r = 6%nat /\
  (forall c, 0 <= c < 6 -> nth (Z.to_nat c) l 0%R = intoFrame (s_rot s) (at_dof ndofs v (s_gl s)) c) /\
  (two s = true -> forall c, 0 <= c < 6 -> nth (Z.to_nat c) r 0%R = intoFrame (s_rot s) (at_dof ndofs v (s_gr s)) c).
Proof.
  intros ndofs v s l r H. unfold ghostsAt in H. ubind H. destruct (getEH_val _ _ _ _ E) as [_ Vl]. unfold two.
  destruct (Z.eqb_spec (s_gr s) (-1)) as [Hr|Hr]; cbn [negb].
  - injection H as <- <-. repeat split; [|discriminate]. intros c Hc; apply rotIn_val; auto.
  - ubind H. destruct (getEH_val _ _ _ _ E0) as [_ Vr]. injection H as <- <-. repeat split; [|intros _]; intros c Hc; apply rotIn_val; auto.
Qed.

Lemma updateInterp_val : forall w ndofs v0 v1 s a lo ln ro rn all all', roomy w ->
  ghostsAt ndofs v0 s = Ok (lo, ro) -> ghostsAt ndofs v1 s = Ok (ln, rn) ->
  updateInterp (w_n w) (w_gh w) a lo ln ro rn s all = Ok all' ->
  all' = ghosted (w_n w) (w_gh w) (two s) (between ndofs v0 v1 (s_rot s) (s_gl s) a) (between ndofs v0 v1 (s_rot s) (s_gr s) a) all.
Proof.
  intros w ndofs v0 v1 s a lo ln ro rn all all' [Hg Hn] H0 H1 H.
  destruct (ghostsAt_val _ _ _ _ _ H0) as (A1 & A2 & A3 & A4). destruct (ghostsAt_val _ _ _ _ _ H1) as (B1 & B2 & B3 & B4).
  unfold updateInterp in H. ubind H.
  apply (fill_ghosted _ _ (two s) (lerp a lo ln) (lerp a ro rn)); auto.
  - intros c Hc. rewrite lerp_val by lia. rewrite A3, B3 by lia. reflexivity.
  - intros Ht c Hc. rewrite lerp_val by lia. rewrite A4, B4 by (auto; lia). reflexivity.
  - rewrite E. cbn [bind]. unfold two. destruct (s_gr s =? -1); exact H.
Qed.

(** ** Solves *)
Lemma row_dot_val : forall row x y, row_dot row x = Ok y -> y = dot row x.
Proof.
  intros row x y. unfold row_dot. assert (K : forall row s y, foldM (fun s cv => xi <- zget x (fst cv) ;; Ok (s + snd cv * xi)%R) row s = Ok y -> y = (s + dot row x)%R).
  { clear. intros row. induction row as [|cv row IH]; intros s y H; cbn [foldM] in H.
    - injection H as <-. cbn. lra.
    - ubind H. ubind E. injection E as <-. apply IH in H. rewrite H. apply zget_val in E0. destruct E0 as [_ <-]. cbn [dot fold_right]. unfold dot, nthZ. lra. }
  intros H. apply K in H. lra.
Qed.
Lemma spmv_val : forall A x y, spmv A x = Ok y -> y = map (fun row => dot row x) A.
Proof.
  intros A x. induction A as [|r A IH]; intros y H; unfold spmv in *; cbn [mapM] in H.
  - injection H as <-. reflexivity.
  - ubind H. ubind H. injection H as <-. cbn [map]. f_equal; [apply row_dot_val; auto|apply IH; auto].
Qed.

Section L.
Variable inv : list (list R) -> list R -> list R.

Lemma runProg_exec : forall A p c x c', avoids p -> cache_ok A c -> runProg inv A p c = Ok (x, c') -> x = exec inv A p /\ cache_ok A c'.
Proof.
  intros A p. induction p as [y|dt y k IH]; intros c x c' Ha Hc H; cbn [runProg] in H.
  - injection H as <- <-. auto.
  - destruct Ha as [Hd Hk]. unfold subImplicitSolve in H. ubind H. destruct v as [r c1]. ubind E. rewrite denseSolve_ok in E by auto. injection E as <- <-.
    apply spmv_val in E0. subst. cbn [exec]. apply IH with (c := mkCache true dt (Some (jac A dt))); auto. apply cache_ok_set.
Qed.

Lemma solve_exec : forall w t h d d', sane w -> (0 < h)%R -> cache_ok (w_A w) (d_cache d) -> solve inv w t h d = Ok d' ->
  d_all d' = (if Rlt_dec h (/ 1000000000) then d_all d else exec inv (w_A w) (w_ode w t h (d_all d))) /\ cache_ok (w_A w) (d_cache d').
Proof.
  intros w t h d d' Hs Hh Hc H. unfold solve in H. rewrite Rabs_right in H by lra. destruct Rlt_dec as [Hl|Hl].
  - injection H as <-. auto.
  - cbv zeta in H. cbn [d_all d_time d_final d_dt d_cache] in H. replace (Rmin h (t + h - t)) with h in H by (rewrite Rmin_left; lra).
    ubind H. destruct v as [x c]. injection H as <-. cbn [d_all d_cache]. eapply runProg_exec; eauto.
Qed.

Lemma parts_nsteps : forall sub dt m, (0 < dt)%R -> nsteps sub dt = Ok m -> m = parts sub dt.
Proof.
  intros sub dt m Hdt H. unfold nsteps in H. unfold parts. destruct Rlt_dec as [Hs|Hs]; [|injection H as <-; auto].
  destruct Rlt_dec as [Hd|Hd].
  - unfold ceil_int in H. match type of H with (if ?b then _ else _) = _ => destruct b; [|discriminate] end. injection H as <-.
    assert (1 < dt / sub)%R. { apply Rmult_lt_reg_r with sub; [lra|]. field_simplify; lra. }
    pose proof (Zceil_ub (dt / sub)). assert (IZR 1 < IZR (Zceil (dt / sub)))%R by lra. apply lt_IZR in H1. lia.
  - injection H as <-. assert (dt / sub <= 1)%R. { apply Rmult_le_reg_r with sub; [lra|]. field_simplify; lra. }
    assert (Zceil (dt / sub) <= 1) by (apply Zceil_glb; lra). lia.
Qed.

Lemma advance_evolve : forall w base dt lr l r gh s d s' d', sane w -> (0 < dt)%R -> cache_ok (w_A w) (d_cache d) ->
  (forall a k all all', gh a k all = Ok all' -> all' = ghosted (w_n w) (w_gh w) lr (l a) (r a) all) ->
  advance inv w base dt gh s d = Ok (s', d') ->
  s' = with_fs s (evolve inv w base dt lr l r (s_fs s)) /\ cache_ok (w_A w) (d_cache d').
Proof.
  intros w base dt lr l r gh s d s' d' Hs Hdt Hc Hg H. unfold advance in H. ubind H. rename v into m.
  pose proof (nsteps_pos _ _ _ E) as Hm. pose proof (parts_nsteps _ _ _ Hdt E) as Em. cbv zeta in H. ubind H. injection H as <- <-.
  unfold evolve. rewrite <- Em. cbv zeta.
  set (h := (dt / IZR m)%R) in *.
  assert (Hh : (0 < h)%R). { apply Rmult_lt_0_compat; auto. apply Rinv_0_lt_compat. apply IZR_lt. lia. }
  assert (K : forall ks d d', cache_ok (w_A w) (d_cache d) ->
    foldM (fun d step => all <- gh ((IZR step + 1) / IZR m)%R step (d_all d) ;; solve inv w (base + IZR step * h)%R h (set_all d all)) ks d = Ok d' ->
    d_all d' = fold_left (fun fs k => if Rlt_dec h (/ 1000000000) then ghosted (w_n w) (w_gh w) lr (l ((IZR k + 1) / IZR m)%R) (r ((IZR k + 1) / IZR m)%R) fs
      else exec inv (w_A w) (w_ode w (base + IZR k * h)%R h (ghosted (w_n w) (w_gh w) lr (l ((IZR k + 1) / IZR m)%R) (r ((IZR k + 1) / IZR m)%R) fs))) ks (d_all d)
    /\ cache_ok (w_A w) (d_cache d')).
  { intros ks. induction ks as [|k ks IH]; intros d1 d2 Hc1 H; cbn [foldM] in H.
    - injection H as <-. auto.
    - ubind H. ubind E1. apply Hg in E2. apply solve_exec in E1; auto. destruct E1 as [A1 A2]. destruct (IH _ _ A2 H) as [B1 B2].
      split; auto. rewrite B1, A1. cbn [fold_left set_all d_all]. subst v1. destruct Rlt_dec; reflexivity. }
  apply K in E0; auto. destruct E0 as [E1 E2]. split; auto. rewrite E1. reflexivity.
Qed.

(** ** Quiescence *)
Lemma sumsq6 : forall (l : list R) u, length l = 6%nat -> (forall c, 0 <= c < 6 -> nth (Z.to_nat c) l 0%R = u c) -> sumsq l = power u.
Proof.
  intros l u Hl Hu. do 6 (destruct l as [|?x l]; [discriminate|]). destruct l; [|discriminate]. unfold power.
  rewrite <- (Hu 0), <- (Hu 1), <- (Hu 2), <- (Hu 3), <- (Hu 4), <- (Hu 5) by lia. cbv -[Rplus Rmult Ropp IZR]. lra.
Qed.
Lemma loud_val : forall ndofs v s b, loud ndofs v s = Ok b -> if b : bool then ~ quiet ndofs v s else quiet ndofs v s.
Proof.
  intros ndofs v s b H. unfold loud in H. unfold quiet. fold (norml2 (s_fs s)). unfold thr in *.
  destruct Rle_dec as [Hl|Hl]; [injection H as <-; intros [H1 _]; lra|].
  ubind H. injection H as <-. rewrite <- thr_sq. unfold thr.
  assert (Ev : v0 = (power (at_dof ndofs v (s_gl s)) + (if s_gr s =? -1 then 0 else power (at_dof ndofs v (s_gr s))))%R).
  { unfold ifaceNormSq in E. ubind E. destruct (getEH_val _ _ _ _ E0) as [L1 V1]. destruct (s_gr s =? -1).
    - injection E as <-. rewrite (sumsq6 v1 (at_dof ndofs v (s_gl s))) by auto. lra.
    - ubind E. destruct (getEH_val _ _ _ _ E1) as [L2 V2]. injection E as <-.
      rewrite (sumsq6 v1 (at_dof ndofs v (s_gl s))), (sumsq6 v2 (at_dof ndofs v (s_gr s))) by auto. lra. }
  rewrite <- Ev. destruct Rle_dec; [intros [_ H2]; lra|split; lra].
Qed.
Lemma anyLoud_val : forall ndofs v l b, anyLoud ndofs v l = Ok b -> if b : bool then ~ (forall s, In s l -> quiet ndofs v s) else (forall s, In s l -> quiet ndofs v s).
Proof.
  intros ndofs v l. induction l as [|s l IH]; intros b H; cbn [anyLoud] in H.
  - injection H as <-. intros s [].
  - ubind H. apply loud_val in E. destruct v0.
    + injection H as <-. intros K. apply E, K. left; auto.
    + apply IH in H. destruct b.
      * intros K. apply H. intros s' Hs'. apply K. right; auto.
      * intros s' [<-|Hs']; auto.
Qed.
Lemma allQuiet_flat : forall ndofs v gs, allQuiet ndofs v gs <-> (forall s, In s (flat_map g_states gs) -> quiet ndofs v s).
Proof.
  intros. split.
  - intros H s Hs. apply in_flat_map in Hs. destruct Hs as (g & G1 & G2). eapply H; eauto.
  - intros H g s Hg Hs. apply H. apply in_flat_map. eauto.
Qed.

(** ** The loops over the states *)
Lemma overStates_map : forall A (g : sstate -> sstate) f ss d ss' d',
  (forall s d s' d', In s ss -> cache_ok A (d_cache d) -> f s d = Ok (s', d') -> s' = g s /\ cache_ok A (d_cache d')) ->
  cache_ok A (d_cache d) -> overStates f ss d = Ok (ss', d') -> ss' = map g ss /\ cache_ok A (d_cache d').
Proof.
  intros A g f ss. induction ss as [|s ss IH]; intros d ss' d' Hf Hc H; cbn [overStates] in H.
  - injection H as <- <-. auto.
  - ubind H. destruct v as [s1 d1]. ubind H. destruct v as [s2 d2]. injection H as <- <-.
    apply Hf in E; auto; [|left; auto]. destruct E as [-> Hc1]. destruct (IH d1 s2 d2) as [-> Hc2]; auto. intros; eapply Hf; eauto. right; auto.
Qed.
Lemma overPairs_map : forall A (g : sstate * (list R * (list R * list R)) -> sstate) f ss d ss' d',
  (forall s d s' d', In s ss -> cache_ok A (d_cache d) -> f s d = Ok (s', d') -> s' = g s /\ cache_ok A (d_cache d')) ->
  cache_ok A (d_cache d) -> overPairs f ss d = Ok (ss', d') -> ss' = map g ss /\ cache_ok A (d_cache d').
Proof.
  intros A g f ss. induction ss as [|s ss IH]; intros d ss' d' Hf Hc H; cbn [overPairs] in H.
  - injection H as <- <-. auto.
  - ubind H. destruct v as [s1 d1]. ubind H. destruct v as [s2 d2]. injection H as <- <-.
    apply Hf in E; auto; [|left; auto]. destruct E as [-> Hc1]. destruct (IH d1 s2 d2) as [-> Hc2]; auto. intros; eapply Hf; eauto. right; auto.
Qed.
(** ** Layers in the middle and at the end of a step *)
Variables ndofs nbr : nat.
Variable Aop : matrix.
Variables Top Sop : option matrix.
Variable hasTF : bool.
Variable sub2par : list Z.
Variable src : R -> list (list R).
Variables elem1 elem2 : list Z.
Variable junk : nat -> list R.
Hypothesis junk_len : forall n, length (junk n) = n.
Variable gmres : R -> list R -> list R -> list R.
Notation runSteps := (runSteps inv ndofs nbr Aop Top Sop hasTF sub2par src elem1 elem2 junk gmres).
Notation runStep := (runStep inv ndofs nbr Aop Top Sop hasTF sub2par src elem1 elem2 junk gmres).
Notation runOps := (runOps inv ndofs nbr Aop Top Sop hasTF sub2par src elem1 elem2 junk gmres).
Notation midStep := (midStep inv ndofs nbr Aop Top Sop hasTF sub2par src elem1 elem2 junk gmres).
Notation rel := (rel ndofs nbr Aop).
Notation relS := (relS ndofs nbr Aop).
Notation good := (good ndofs nbr Aop).

Definition stored (v : list R) (s : sstate) (p : list R * (list R * list R)) : Prop :=
  fst p = s_fs s /\ ghostsAt ndofs v s = Ok (snd p).

Lemma commit_val : forall e1 base dt v c, commit ndofs e1 base dt v = Ok c ->
  e_groups c = e_groups e1 /\ e_base c = base /\ e_dt c = dt /\
  exists cps, e_cp c = Some cps /\ Forall2 (fun g cp => Forall2 (stored v) (g_states g) cp) (e_groups e1) cps.
Proof.
  intros e1 base dt v c H. unfold commit in H. ubind H. injection H as <-. cbn. repeat split; auto. exists v0. split; auto.
  revert v0 E. induction (e_groups e1) as [|g gs IH]; intros cps E; cbn [mapM] in E.
  - injection E as <-. constructor.
  - ubind E. ubind E. injection E as <-. constructor; [|apply IH; auto]. clear - E0. revert v0 E0.
    induction (g_states g) as [|s ss IH]; intros cp E; cbn [mapM] in E.
    + injection E as <-. constructor.
    + ubind E. ubind E. injection E as <-. ubind E0. injection E0 as <-. constructor; [|apply IH; auto]. split; auto.
Qed.

Lemma restoreStates_val : forall v ss1 ss2 cp, Forall2 same_state ss1 ss2 -> Forall2 (stored v) ss1 cp -> restoreStates ss2 cp = ss1.
Proof.
  intros v ss1 ss2 cp Hs. revert cp. induction Hs as [|[a b c d] [a' b' c' d'] ss1 ss2 (H1 & H2 & H3) Hs IH]; intros cp Hc; inversion Hc; subst; cbn; auto.
  f_equal; [|apply IH; auto]. destruct H4 as [H4 _]. cbn in *. subst. reflexivity.
Qed.

Definition usable (g g' : group) : Prop :=
  g_w g' = g_w g /\ g_states g' = g_states g /\ sane (g_w g') /\ cache_ok (w_A (g_w g')) (d_cache (g_d g')).
Lemma restored : forall e1 base dt v c e gs, commit ndofs e1 base dt v = Ok c -> rel c e ->
  restore (e_groups e) (e_cp e) = Ok gs -> Forall2 usable (e_groups e1) gs.
Proof.
  intros e1 base dt v c e gs Hc Hr H. destruct (commit_val _ _ _ _ _ Hc) as (G & _ & _ & cps & Ecp & Hst).
  destruct Hr as (_ & (_ & Hok & _) & Hcp & _ & _ & Hsg). rewrite <- Hcp, Ecp in H. cbn [restore] in H. injection H as <-.
  rewrite G in Hsg. clear G Hcp Ecp Hc. revert cps Hst Hok. generalize (e_groups e1) (e_groups e) Hsg. clear.
  intros l1 l2 Hsg. induction Hsg as [|g1 g2 l1 l2 [Hw Hs] Hl IH]; intros cps Hst Hok; inversion Hst; subst; cbn [combine map]; constructor.
  - inversion Hok; subst. destruct H2. split; [|split; [|split]]; cbn; auto. eapply restoreStates_val; eauto.
  - inversion Hok; subst. apply IH; auto.
Qed.

Lemma usable_flat : forall l1 l2, Forall2 usable l1 l2 -> flat_map g_states l2 = flat_map g_states l1.
Proof. intros l1 l2 H. induction H as [|a b l1 l2 (_ & Hs & _) Hl IH]; cbn; auto. rewrite Hs, IH. reflexivity. Qed.

Lemma usable_same : forall (P : wrapper -> sstate -> sstate -> Prop) l1 l2, Forall2 usable l1 l2 -> (forall g s, In g l1 -> In s (g_states g) -> P (g_w g) s s) -> layerwise P l1 l2.
Proof.
  intros P l1 l2 H. induction H as [|a b l1 l2 (Hw & Hs & _) Hl IH]; intros HP; constructor.
  - split; auto. rewrite Hs. assert (K : forall s, In s (g_states a) -> P (g_w a) s s) by (intros; apply HP; auto; left; auto).
    clear - K. induction (g_states a); constructor; [apply K; left; auto|]. apply IHl. intros; apply K; right; auto.
  - apply IH. intros; apply HP; auto. right; auto.
Qed.

Lemma multSub_layers : forall e1 base dt v c e t input gs q, (forall g, In g (e_groups e1) -> roomy (g_w g)) ->
  commit ndofs e1 base dt v = Ok c -> rel c e -> Sop <> None -> multSub inv ndofs Sop e t input = Ok (gs, q) ->
  (e_groups e1 <> [] -> (q = true <-> allQuiet ndofs input (e_groups e1))) /\
  layerwise (seenLayer inv ndofs base t input) (e_groups e1) gs.
Proof.
  intros e1 base dt v c e t input gs q Hroom Hc Hr HS H.
  destruct (commit_val _ _ _ _ _ Hc) as (G & Hb & _ & cps & Ecp & Hst). pose proof Hr as (_ & _ & _ & Hbe & _ & Hsg). rewrite G in Hsg.
  unfold multSub in H. destruct Sop as [M|]; [|congruence].
  destruct (e_groups e) as [|g0 gr] eqn:Eg.
  - injection H as <- <-. inversion Hsg; subst. split; [congruence|constructor].
  - assert (Hne : e_groups e1 <> []) by (inversion Hsg; congruence). rewrite <- Eg in *. clear g0 gr Eg.
    cbv zeta in H. ubind H. rename v0 into gs0. pose proof (restored _ _ _ _ _ _ _ Hc Hr E) as HU.
    ubind H. rewrite (usable_flat _ _ HU) in E0. apply anyLoud_val in E0. rewrite <- Hbe, Hb in H.
    destruct v0.
    + rewrite <- allQuiet_flat in E0. destruct Rlt_dec as [Ht|Ht].
      * ubind H. injection H as <- <-. split; [intros _; split; [discriminate|tauto]|]. clear - HU E1 Hroom Ht.
        revert v0 E1. induction HU as [|g g' l1 l2 (Hw & Hs & Hsa & Hca) HU IH]; intros gs' E1; cbn [mapM] in E1.
        -- injection E1 as <-. constructor.
        -- ubind E1. ubind E1. injection E1 as <-. constructor; [|apply IH; auto; intros; apply Hroom; right; auto].
           ubind E. destruct v1 as [ss d]. injection E as <-. cbn [g_w g_states]. split; auto.
           rewrite Hs in E1. rewrite Hw in *. clear IH HU. pose proof (Hroom g (or_introl eq_refl)) as Hg. clear - Hg Hsa Hca Ht E1.
           revert ss d E1 Hca. generalize (g_d g'). induction (g_states g) as [|s l IH]; intros d0 ss d E Hca; cbn [overStates] in E.
           ++ injection E as <- <-. constructor.
           ++ ubind E. destruct v as [s1 d1]. ubind E. destruct v as [s2 d2]. injection E as <- <-.
              assert (K : seenLayer inv ndofs base t input (g_w g) s s1 /\ cache_ok (w_A (g_w g)) (d_cache d1)).
              { unfold subMult in E0. ubind E0. apply loud_val in E. destruct v.
                - eapply advance_evolve in E0; auto; [|lra|intros a k all all' Hu; eapply updateGhosts_val; [exact Hg|exact Hu]].
                  destruct E0 as [-> Hc1]. split; auto. split; [intros [?|?]; [tauto|lra]|]. intros _. reflexivity.
                - injection E0 as <- <-. split; auto. split; [auto|tauto]. }
              destruct K as [K1 K2]. constructor; auto. eapply IH; eauto.
      * injection H as <- <-. split; [intros _; split; [discriminate|tauto]|]. apply usable_same; auto.
        intros g s _ _. split; auto. intros [_ ?]. lra.
    + rewrite <- allQuiet_flat in E0. injection H as <- <-. split; [tauto|]. apply usable_same; auto.
      intros g s Hg Hs. split; auto. intros [K _]. exfalso. apply K. eapply E0; eauto.
Qed.

Lemma finalize_layers : forall e1 base dt v0 c e v1 e2, (forall g, In g (e_groups e1) -> roomy (g_w g)) -> (0 < dt)%R ->
  commit ndofs e1 base dt v0 = Ok c -> rel c e -> finalize inv ndofs e v1 = Ok e2 ->
  layerwise (nextLayer inv ndofs base dt v0 v1 (allQuiet ndofs v1 (e_groups e1))) (e_groups e1) (e_groups e2).
Proof.
  intros e1 base dt v0 c e v1 e2 Hroom Hdt Hc Hr H.
  destruct (commit_val _ _ _ _ _ Hc) as (G & Hb & Hd & cps & Ecp & Hst). pose proof Hr as (_ & _ & Hcp & Hbe & Hde & Hsg).
  unfold finalize in H. ubind H. rename v into gs0. pose proof (restored _ _ _ _ _ _ _ Hc Hr E) as HU. cbv zeta in H.
  ubind H. rewrite (usable_flat _ _ HU) in E0. apply anyLoud_val in E0. rewrite <- Hbe, Hb, <- Hde, Hd, <- Hcp, Ecp in H. destruct v; rewrite <- allQuiet_flat in E0.
  - ubind H. injection H as <-. cbn [e_groups]. set (still := allQuiet ndofs v1 (e_groups e1)) in *. clearbody still.
    clear - HU Hst E1 Hroom E0 Hdt. revert cps v Hst E1. induction HU as [|g g' l1 l2 (Hw & Hs & Hsa & Hca) HU IH]; intros cps gs' Hst E1; inversion Hst; subst; cbn [combine mapM] in E1.
    + injection E1 as <-. constructor.
    + ubind E1. ubind E1. injection E1 as <-. constructor; [|eapply IH; eauto; intros; apply Hroom; right; auto].
      ubind E. destruct v3 as [ss d]. injection E as <-. cbn [g_w g_states]. split; auto.
      rewrite Hs in E1. rewrite Hw in *. pose proof (Hroom g (or_introl eq_refl)) as Hg. clear - Hg Hsa Hca E1 H1 E0 Hdt.
      revert ss d E1 Hca. generalize (g_d g'). induction H1 as [|s p l cp [Hp1 Hp2] Hl IH]; intros d0 ss d E Hca; cbn [combine overPairs] in E.
      * injection E as <- <-. constructor.
      * ubind E. destruct v as [s1 d1]. ubind E. destruct v as [s2 d2]. injection E as <- <-.
        assert (K : nextLayer inv ndofs base dt v0 v1 still (g_w g) s s1 /\ cache_ok (w_A (g_w g)) (d_cache d1)).
        { unfold finState in E1. cbn [fst snd] in E1. ubind E1. destruct v as [ln rn]. destruct p as [fs [lo ro]]. cbn [snd] in *.
          eapply advance_evolve in E1; auto; [|intros a k all all' Hu; eapply updateInterp_val; [exact Hg|exact Hp2|exact E|exact Hu]].
          destruct E1 as [-> Hc1]. split; auto. split; [tauto|]. intros _. reflexivity. }
        destruct K as [K1 K2]. constructor; auto. eapply IH; eauto.
  - injection H as <-. cbn [e_groups]. apply usable_same; auto. intros g s _ _. split; auto. tauto.
Qed.

Lemma steps_same : forall l e e', good e -> Forall (good_step ndofs nbr) l -> runSteps e l = Ok e' -> good e' /\ Forall2 same_group (e_groups e) (e_groups e').
Proof.
  intros l. induction l as [|st l IH]; intros e e' Hg Hl H; unfold EvolHist_Proofs.runSteps in *; cbn [foldM] in H.
  - injection H as <-. split; auto. apply Forall2_refl, same_group_refl.
  - inversion Hl; subst. destruct H2 as [Hdt Hev]. ubind H. unfold EvolHist_Proofs.runStep in E. ubind E. ubind E.
    pose proof (commit_agree ndofs nbr Aop e e (st_base st) (st_dt st) (st_fields st) Hdt (relS_refl ndofs nbr Aop e Hg)) as RC. rewrite E0 in RC. cbn in RC. destruct RC as [(Gc & _) _].
    pose proof (evals_keep inv ndofs nbr Aop Top Sop hasTF sub2par src elem1 elem2 junk junk_len gmres _ _ _ Hev Gc E1) as K.
    assert (Rv1 : rel v1 v1) by (apply rel_refl; apply K).
    pose proof (finalize_agree inv ndofs nbr Aop v1 v1 (st_end st) Rv1) as RF. rewrite E in RF. cbn in RF. destruct RF as [_ (_ & Gv & _ & _ & _ & Sv)].
    destruct (IH v e' Gv H3 H) as [Ge Se]. split; auto.
    destruct (commit_val _ _ _ _ _ E0) as (Gr & _). destruct K as (_ & _ & _ & _ & _ & Sk). rewrite Gr in Sk.
    eapply Forall2_trans; [apply same_group_trans|exact Sk|]. eapply Forall2_trans; [apply same_group_trans|exact Sv|exact Se].
Qed.

Lemma roomy_same : forall l1 l2, Forall2 same_group l1 l2 -> (forall g, In g l1 -> roomy (g_w g)) -> forall g, In g l2 -> roomy (g_w g).
Proof.
  intros l1 l2 H. induction H as [|a b l1 l2 [Hw _] Hl IH]; intros Hr g Hg; [destruct Hg|].
  destruct Hg as [<-|Hg]; [rewrite <- Hw; apply Hr; left; auto|]. apply IH; auto. intros; apply Hr; right; auto.
Qed.

(** The layers Mult uses, in the middle of any step of any history. *)
Lemma layers_in_mult : forall e0 hist base dt v calls e t input gs q, (forall g, In g (e_groups e0) -> roomy (g_w g)) ->
  midStep e0 hist base dt v calls e -> Sop <> None -> multSub inv ndofs Sop e t input = Ok (gs, q) ->
  exists e1, runSteps e0 hist = Ok e1 /\
  (e_groups e1 <> [] -> (q = true <-> allQuiet ndofs input (e_groups e1))) /\
  layerwise (seenLayer inv ndofs base t input) (e_groups e1) gs.
Proof.
  intros e0 hist base dt v calls e t input gs q Hroom HM HS H.
  destruct (mid_good inv ndofs nbr Aop Top Sop hasTF sub2par src elem1 elem2 junk junk_len gmres _ _ _ _ _ _ _ HM) as (c & HMc & Gc & Ge & Hops).
  destruct HM as (Hf & Hh & Hdt & Hcalls & _). destruct HMc as (_ & _ & _ & _ & HMc).
  ubind HMc. ubind HMc. unfold EvolHist_Proofs.runOps in HMc. cbn in HMc. injection HMc as <-. exists v0. split; auto.
  pose proof (evals_keep inv ndofs nbr Aop Top Sop hasTF sub2par src elem1 elem2 junk junk_len gmres _ _ _ Hcalls Gc Hops) as K.
  destruct (steps_same _ _ _ (fresh_good ndofs nbr Aop e0 Hf) Hh E) as [_ Ss].
  eapply multSub_layers; eauto. eapply roomy_same; eauto.
Qed.

(** The layers after one more step of any history. *)
Lemma layers_after_step : forall e0 hist st e2, (forall g, In g (e_groups e0) -> roomy (g_w g)) ->
  fresh e0 -> Forall (good_step ndofs nbr) (hist ++ [st]) -> runSteps e0 (hist ++ [st]) = Ok e2 ->
  exists e1, runSteps e0 hist = Ok e1 /\
  layerwise (nextLayer inv ndofs (st_base st) (st_dt st) (st_fields st) (st_end st) (allQuiet ndofs (st_end st) (e_groups e1))) (e_groups e1) (e_groups e2).
Proof.
  intros e0 hist st e2 Hroom Hf Hl H. unfold EvolHist_Proofs.runSteps in *. rewrite foldM_app in H. ubind H. exists v. split; auto.
  cbn [foldM] in H. ubind H. injection H as <-. apply Forall_app in Hl. destruct Hl as [Hl Hst]. inversion Hst; subst. destruct H1 as [Hdt Hev].
  destruct (steps_same _ _ _ (fresh_good ndofs nbr Aop e0 Hf) Hl E) as [Gv Ss].
  unfold EvolHist_Proofs.runStep in E0. ubind E0. ubind E0.
  pose proof (commit_agree ndofs nbr Aop v v (st_base st) (st_dt st) (st_fields st) Hdt (relS_refl ndofs nbr Aop v Gv)) as RC. rewrite E1 in RC. cbn in RC. destruct RC as [(Gc & _) _].
  pose proof (evals_keep inv ndofs nbr Aop Top Sop hasTF sub2par src elem1 elem2 junk junk_len gmres _ _ _ Hev Gc E2) as K.
  eapply finalize_layers; eauto. eapply roomy_same; eauto.
Qed.
End L.

(** ** The face frame *)
Lemma frame_round : forall r u c, orthonormal r -> 0 <= c < 6 -> seen Transparent r u (intoFrame r u) c = u c.
Proof.
  intros r u c [_ Ho] Hc.
  pose proof (Ho 0 0 ltac:(lia) ltac:(lia)) as A00. pose proof (Ho 0 1 ltac:(lia) ltac:(lia)) as A01. pose proof (Ho 0 2 ltac:(lia) ltac:(lia)) as A02.
  pose proof (Ho 1 1 ltac:(lia) ltac:(lia)) as A11. pose proof (Ho 1 2 ltac:(lia) ltac:(lia)) as A12. pose proof (Ho 2 2 ltac:(lia) ltac:(lia)) as A22.
  cbn in A00, A01, A02, A11, A12, A22. unfold nthZ in *. cbn in A00, A01, A02, A11, A12, A22.
  assert (K : c = 0 \/ c = 1 \/ c = 2 \/ c = 3 \/ c = 4 \/ c = 5) by lia.
  destruct K as [->|[->|[->|[->|[->| ->]]]]]; cbn; unfold intoFrame, nthZ; cbn;
  set (r0 := nth 0 r 0%R) in *; set (r1 := nth (Pos.to_nat 1) r 0%R) in *; set (r2 := nth (Pos.to_nat 2) r 0%R) in *; set (r3 := nth (Pos.to_nat 3) r 0%R) in *;
  set (r4 := nth (Pos.to_nat 4) r 0%R) in *; set (r5 := nth (Pos.to_nat 5) r 0%R) in *; set (r6 := nth (Pos.to_nat 6) r 0%R) in *; set (r7 := nth (Pos.to_nat 7) r 0%R) in *; set (r8 := nth (Pos.to_nat 8) r 0%R) in *;
  clearbody r0 r1 r2 r3 r4 r5 r6 r7 r8.
  - transitivity ((r0*r0+r3*r3+r6*r6) * u 0%Z + (r0*r1+r3*r4+r6*r7) * u 1%Z + (r0*r2+r3*r5+r6*r8) * u 2%Z)%R; [ring|rewrite A00, A01, A02; ring].
  - transitivity ((r0*r1+r3*r4+r6*r7) * u 0%Z + (r1*r1+r4*r4+r7*r7) * u 1%Z + (r1*r2+r4*r5+r7*r8) * u 2%Z)%R; [ring|rewrite A01, A11, A12; ring].
  - transitivity ((r0*r2+r3*r5+r6*r8) * u 0%Z + (r1*r2+r4*r5+r7*r8) * u 1%Z + (r2*r2+r5*r5+r8*r8) * u 2%Z)%R; [ring|rewrite A02, A12, A22; ring].
  - transitivity ((r0*r0+r3*r3+r6*r6) * u 3%Z + (r0*r1+r3*r4+r6*r7) * u 4%Z + (r0*r2+r3*r5+r6*r8) * u 5%Z)%R; [ring|rewrite A00, A01, A02; ring].
  - transitivity ((r0*r1+r3*r4+r6*r7) * u 3%Z + (r1*r1+r4*r4+r7*r7) * u 4%Z + (r1*r2+r4*r5+r7*r8) * u 5%Z)%R; [ring|rewrite A01, A11, A12; ring].
  - transitivity ((r0*r2+r3*r5+r6*r8) * u 3%Z + (r1*r2+r4*r5+r7*r8) * u 4%Z + (r2*r2+r5*r5+r8*r8) * u 5%Z)%R; [ring|rewrite A02, A12, A22; ring].
Qed.

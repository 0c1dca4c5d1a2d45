From Coq Require Import String ZArith List Bool Reals Lra Lia Psatz Arith.
From Flocq Require Import Core.Core.
From Verif Require Import Common Print_Model Print_Spec Print_Proofs Export_Model Export_Spec.
Import ListNotations.
Local Open Scope R_scope.

(** * Threshold *)
Definition big (tol : R) (e : nat * R) : bool := if Rlt_dec tol (Rabs (snd e)) then true else false.
Definition ent (m : spmat) (k : nat) : nat * R := (nth k (sp_J m) O, nth k (sp_A m) 0).

Lemma keep_entries : forall tol m ks acc, fold_left (keepEntry tol m) ks acc =
  (fst acc ++ map fst (filter (big tol) (map (ent m) ks)), snd acc ++ map snd (filter (big tol) (map (ent m) ks))).
Proof.
  intros tol m. induction ks as [|k ks IH]; intros acc; cbn [fold_left map filter].
  - rewrite !app_nil_r. destruct acc; reflexivity.
  - rewrite IH. assert (E : big tol (ent m k) = if Rlt_dec tol (Rabs (nth k (sp_A m) 0)) then true else false) by reflexivity.
    rewrite E. unfold keepEntry. destruct (Rlt_dec tol (Rabs (nth k (sp_A m) 0))).
    + cbn [map fst snd]. unfold ent at 3 5. cbn [fst snd]. rewrite <- !app_assoc. reflexivity.
    + reflexivity.
Qed.

(** Compressed rows made from a list of rows. *)
Definition offs (F : nat -> list (nat * R)) (k : nat) : nat := length (flat_map F (seq 0 k)).
Lemma offs_S : forall F k, offs F (S k) = (offs F k + length (F k))%nat.
Proof. intros F k. unfold offs. rewrite seq_S, flat_map_app, app_length. cbn [flat_map plus]. rewrite app_nil_r. reflexivity. Qed.

Lemma keep_rows : forall tol m n, fold_left (keepRow tol m) (seq 0 n) ([O], ([], [])) =
  let F := fun i => filter (big tol) (rowOf m i) in
  (map (offs F) (seq 0 (S n)), (map fst (flat_map F (seq 0 n)), map snd (flat_map F (seq 0 n)))).
Proof.
  intros tol m n. cbv zeta. set (F := fun i => filter (big tol) (rowOf m i)). induction n as [|n IH].
  - reflexivity.
  - rewrite seq_S, fold_left_app, IH. cbn [fold_left plus]. unfold keepRow. cbn [fst snd]. rewrite keep_entries. cbn [fst snd].
    fold (rowOf m n). change (map (ent m) (seq (nth n (sp_I m) 0%nat) (nth (S n) (sp_I m) 0%nat - nth n (sp_I m) 0%nat))) with (rowOf m n).
    fold (F n). rewrite <- !map_app. rewrite flat_map_app. cbn [flat_map]. rewrite app_nil_r.
    f_equal. rewrite (seq_S (S n)), (map_app (offs F)). cbn [map plus]. apply f_equal. apply (f_equal (fun z => [z])).
    rewrite map_length, app_length, offs_S. reflexivity.
Qed.

Lemma row_from : forall F n w i, (i < n)%nat ->
  rowOf (mkSp n w (map (offs F) (seq 0 (S n))) (map fst (flat_map F (seq 0 n))) (map snd (flat_map F (seq 0 n)))) i = F i.
Proof.
  intros F n w i Hi. unfold rowOf. cbn [sp_I sp_J sp_A].
  assert (N : forall k, (k <= n)%nat -> nth k (map (offs F) (seq 0 (S n))) O = offs F k).
  { intros k Hk. rewrite (nth_indep _ O (offs F O)) by (rewrite map_length, seq_length; lia).
    rewrite map_nth, seq_nth by lia. reflexivity. }
  rewrite !N by lia. rewrite offs_S. replace (offs F i + length (F i) - offs F i)%nat with (length (F i)) by lia.
  assert (Sp : flat_map F (seq 0 n) = flat_map F (seq 0 i) ++ F i ++ flat_map F (seq (S i) (n - S i))).
  { replace n with (i + S (n - S i))%nat at 1 by lia. rewrite seq_app, flat_map_app. cbn [plus seq flat_map]. reflexivity. }
  rewrite Sp. apply (nth_ext _ _ (O, 0) (O, 0)).
  - rewrite map_length, seq_length. reflexivity.
  - intros k Hk. rewrite map_length, seq_length in Hk.
    set (g := fun k0 : nat => _).
    rewrite (nth_indep _ (O, 0) (g O)) by (rewrite map_length, seq_length; lia).
    rewrite map_nth, seq_nth by lia. unfold g.
    assert (P1 : forall (l : list (nat * R)) q, nth q (map fst l) O = fst (nth q l (O, 0))) by (intros l q; apply (map_nth fst l (O, 0))).
    assert (P2 : forall (l : list (nat * R)) q, nth q (map snd l) 0 = snd (nth q l (O, 0))) by (intros l q; apply (map_nth snd l (O, 0))).
    rewrite P1, P2.
    unfold offs. rewrite app_nth2_plus, app_nth1 by lia. destruct (nth k (F i) (O, 0)); reflexivity.
Qed.

Lemma threshold_row : forall tol m i, (i < sp_h m)%nat -> rowOf (threshold tol m) i = filter (big tol) (rowOf m i).
Proof.
  intros tol m i Hi. unfold threshold. rewrite keep_rows. cbn [fst snd]. apply row_from. exact Hi.
Qed.
Lemma threshold_matching : forall tol m, matching (threshold tol m).
Proof.
  intros tol m. unfold threshold. rewrite keep_rows. unfold matching. cbn [fst snd sp_h sp_I sp_J sp_A].
  set (F := fun i => _).
  rewrite (nth_indep _ O (offs F O)) by (rewrite map_length, seq_length; lia). rewrite map_nth, seq_nth by lia.
  rewrite !map_length, seq_length. cbn [plus]. unfold offs. auto.
Qed.
Lemma filter_thinned : forall l, thinned l (filter (big (1 / 10 ^ 20)) l).
Proof.
  induction l as [|e l IH]; [constructor|]. cbn [filter]. unfold big at 1. destruct (Rlt_dec (1 / 10 ^ 20) (Rabs (snd e))).
  - constructor; assumption.
  - apply thin_drop; assumption.
Qed.

(** * Reading *)
Lemma take_ints : forall xs r, takeInts (length xs) (map LInt xs ++ r) = Some (xs, r).
Proof. induction xs as [|x xs IH]; intros r; [reflexivity|]. cbn. rewrite IH. reflexivity. Qed.
Lemma take_reals : forall xs r, takeReals (length xs) (map LReal xs ++ r) = Some (xs, r).
Proof. induction xs as [|x xs IH]; intros r; [reflexivity|]. cbn. rewrite IH. reflexivity. Qed.
Lemma map_nth_seq : forall {A B} (f : A -> B) (l : list A) d, map (fun k => f (nth k l d)) (seq 0 (length l)) = map f l.
Proof.
  intros A B f l d. induction l as [|a l IH]; [reflexivity|]. cbn [length seq map]. rewrite <- seq_shift, map_map. cbn [nth]. rewrite IH. reflexivity.
Qed.
Lemma last_nth : forall (l : list nat) n, length l = S n -> last l O = nth n l O.
Proof.
  induction l as [|a l IH]; intros n H; [discriminate|]. destruct l as [|b l].
  - cbn in H. injection H as <-. reflexivity.
  - destruct n as [|n]; [discriminate|]. cbn [last nth]. apply IH. cbn in *. lia.
Qed.
Lemma read_print : forall m, matching m ->
  readCsr (printCSR2 m) = Some (mkSp (sp_h m) (sp_w m) (sp_I m) (sp_J m) (map (significant 6) (sp_A m))).
Proof.
  intros m (A & B & C).
  assert (P : printCSR2 m = LInt (sp_h m) :: LInt (sp_w m) :: (map LInt (sp_I m) ++ (map LInt (sp_J m) ++ (map LReal (map (significant 6) (sp_A m)) ++ [])))).
  { unfold printCSR2. rewrite app_nil_r. rewrite <- A, map_nth_seq.
    replace (map (fun k => LInt (nth k (sp_J m) O)) (seq 0 (nth (sp_h m) (sp_I m) O))) with (map LInt (sp_J m))
      by (rewrite <- B; symmetry; apply map_nth_seq).
    replace (map (fun k => LReal (significant 6 (nth k (sp_A m) 0))) (seq 0 (nth (sp_h m) (sp_I m) O))) with (map LReal (map (significant 6) (sp_A m)))
      by (rewrite <- C, map_map; symmetry; apply (map_nth_seq (fun v => LReal (significant 6 v)))).
    reflexivity. }
  rewrite P. unfold readCsr.
  match goal with |- context [takeInts 2 (_ :: _ :: ?r)] => change (takeInts 2 (LInt (sp_h m) :: LInt (sp_w m) :: r)) with (Some ([sp_h m; sp_w m], r)) end.
  cbv iota beta. rewrite <- A, take_ints. rewrite (last_nth _ (sp_h m) A), <- B, take_ints.
  rewrite B, <- C. rewrite <- (map_length (significant 6) (sp_A m)), take_reals. reflexivity.
Qed.
Lemma text_row : forall h w off J A i, rowOf (mkSp h w off J (map (significant 6) A)) i =
  map (fun e => (fst e, significant 6 (snd e))) (rowOf (mkSp h w off J A) i).
Proof.
  intros h w off J A i. unfold rowOf. cbn [sp_I sp_J sp_A]. rewrite map_map. apply map_ext. intros k. cbn [fst snd].
  f_equal. rewrite <- six_0 at 1. apply map_nth.
Qed.

(** * The content of the files *)
Lemma text_close : forall row, closeRow row (map (fun e => (fst e, significant 6 (snd e))) row).
Proof. induction row as [|e row IH]; constructor; [|exact IH]. cbn. split; [reflexivity|]. apply (time_closest (snd e)). Qed.
Lemma read_rows : forall m m', matching m -> readCsr (printCSR2 m) = Some m' ->
  sp_h m' = sp_h m /\ sp_w m' = sp_w m /\ forall i, closeRow (rowOf m i) (rowOf m' i).
Proof.
  intros m m' M E. rewrite (read_print m M) in E. injection E as <-. cbn [sp_h sp_w]. repeat split. intros i. rewrite text_row. destruct m; cbn. apply text_close.
Qed.
Lemma close_error : forall v v', closest 6 v v' -> Rabs (v' - v) <= 5 / 10 ^ 6 * Rabs v.
Proof.
  intros v v' (_ & H). eapply Rle_trans; [apply (H (timeText v)); apply (time_closest v)|]. exact (six_error v).
Qed.
Lemma close_apply : forall x row row', closeRow row row' -> Rabs (applyRow row' x - applyRow row x) <= 5 / 10 ^ 6 * weight row x.
Proof.
  intros x row row' H. induction H as [|e e' row row' (A & B) H IH]; cbn [applyRow weight fold_right].
  - rewrite Rminus_0_r, Rabs_R0. lra.
  - fold (applyRow row' x) (applyRow row x) (weight row x). rewrite A.
    replace (snd e' * x (fst e) + applyRow row' x - (snd e * x (fst e) + applyRow row x))
      with ((snd e' - snd e) * x (fst e) + (applyRow row' x - applyRow row x)) by ring.
    eapply Rle_trans; [apply Rabs_triang|]. rewrite !Rabs_mult. pose proof (close_error _ _ B). pose proof (Rabs_pos (x (fst e))).
    nra.
Qed.
Lemma thin_apply : forall x row row', thinned row row' -> Rabs (applyRow row' x - applyRow row x) <= 1 / 10 ^ 20 * load row x /\ weight row' x <= weight row x.
Proof.
  intros x row row' H. induction H as [|e row row' L H (IH & IW)|e row row' L H (IH & IW)]; cbn [applyRow weight load fold_right];
    repeat match goal with |- context [fold_right (fun (e : nat * R) (s : R) => snd e * x (fst e) + s) 0 ?l] => change (fold_right (fun (e : nat * R) (s : R) => snd e * x (fst e) + s) 0 l) with (applyRow l x)
    | |- context [fold_right (fun (e : nat * R) (s : R) => Rabs (snd e * x (fst e)) + s) 0 ?l] => change (fold_right (fun (e : nat * R) (s : R) => Rabs (snd e * x (fst e)) + s) 0 l) with (weight l x)
    | |- context [fold_right (fun (e : nat * R) (s : R) => Rabs (x (fst e)) + s) 0 ?l] => change (fold_right (fun (e : nat * R) (s : R) => Rabs (x (fst e)) + s) 0 l) with (load l x) end.
  - split; [|lra]. rewrite Rminus_0_r, Rabs_R0. lra.
  - split; [|lra]. replace (snd e * x (fst e) + applyRow row' x - (snd e * x (fst e) + applyRow row x)) with (applyRow row' x - applyRow row x) by ring.
    pose proof (Rabs_pos (x (fst e))). lra.
  - pose proof (Rabs_pos (snd e * x (fst e))). split; [|lra].
    replace (applyRow row' x - (snd e * x (fst e) + applyRow row x)) with (- (snd e * x (fst e)) + (applyRow row' x - applyRow row x)) by ring.
    eapply Rle_trans; [apply Rabs_triang|]. rewrite Rabs_Ropp, Rabs_mult. unfold large in L. apply Rnot_lt_le in L.
    pose proof (Rabs_pos (x (fst e))). nra.
Qed.

Lemma app_inj : forall p x y : string, (p ++ x)%string = (p ++ y)%string -> x = y.
Proof. induction p as [|c p IH]; intros x y H; [exact H|]. cbn in H. injection H as H. exact (IH _ _ H). Qed.
Lemma names_differ : forall s, globalName s <> sourceName s.
Proof. intros s H. unfold globalName, sourceName in H. repeat (apply app_inj in H). discriminate H. Qed.

(** * Which files *)
Lemma exports_throw : forall s, (1 <= s_world s)%nat ->
  (exports s = Throw <-> (wantsGlobal s /\ s_opens s (globalName s) = false) \/ (wantsSource s /\ s_opens s (sourceName s) = false)) /\ exports s <> UB.
Proof.
  intros s W. unfold exports, wantsGlobal, wantsSource, finishGlobal, writeOperator.
  change (exportPath s "_global.csr") with (globalName s). change (exportPath s "_tfsf.csr") with (sourceName s).
  assert (D : (s_world s = 1)%nat \/ (1 < s_world s)%nat) by lia.
  destruct D as [D|D].
  - rewrite D. change (1 <? 1)%nat with false. change (Nat.eqb 1 1) with true. cbv iota.
    destruct (s_evolution s), (s_export s), (s_curved s), (s_tfsf s), (s_opens s (globalName s)), (s_opens s (sourceName s)); cbn;
      (split; [split; [intros Q; try discriminate Q|intros Q; intuition congruence]|intros Q; discriminate Q]); intuition congruence.
  - assert (E1 : (1 <? s_world s)%nat = true) by (apply Nat.ltb_lt; lia). assert (E2 : Nat.eqb (s_world s) 1 = false) by (apply Nat.eqb_neq; lia).
    rewrite E1, E2. destruct (s_evolution s), (s_export s), (s_curved s), (s_tfsf s); cbn;
      (split; [split; [intros Q; discriminate Q|intros Q; exfalso; lia]|intros Q; discriminate Q]).
Qed.
Lemma exports_files : forall s o fs, (1 <= s_world s)%nat -> exports s = Ok (o, fs) ->
  (forall n f, In (n, f) fs <-> (wantsGlobal s /\ n = globalName s /\ f = printCSR2 (threshold (1 / 10 ^ 20) (s_merged s))) \/ (wantsSource s /\ n = sourceName s /\ f = printCSR2 (s_source s))) /\
  NoDup (map fst fs).
Proof.
  intros s o fs W. unfold exports, wantsGlobal, wantsSource, finishGlobal, writeOperator.
  change (exportPath s "_global.csr") with (globalName s). change (exportPath s "_tfsf.csr") with (sourceName s).
  pose proof (names_differ s) as Nd. generalize dependent (sourceName s). generalize (globalName s). intros gn sn Nd.
  generalize (printCSR2 (threshold (1 / 10 ^ 20) (s_merged s))). generalize (printCSR2 (s_source s)). intros fs1 fg.
  generalize (threshold (1 / 10 ^ 20) (s_merged s)). intros op.
  assert (D : (s_world s = 1)%nat \/ (1 < s_world s)%nat) by lia.
  assert (N0 : NoDup (map (@fst string (list line)) [])) by constructor.
  assert (N1 : forall a b, NoDup (map (@fst string (list line)) [(a, b)])) by (intros a b; cbn; constructor; [intros []|constructor]).
  assert (N2 : NoDup (map fst [(gn, fg); (sn, fs1)])) by (cbn; constructor; [cbn; intuition congruence|constructor; [intros []|constructor]]).
  destruct D as [D|D].
  - rewrite D. change (1 <? 1)%nat with false. change (Nat.eqb 1 1) with true. cbv iota.
    destruct (s_evolution s), (s_export s), (s_curved s), (s_tfsf s), (s_opens s gn), (s_opens s sn); cbn [bind fst snd app];
      intros Q; try discriminate Q; injection Q as <- <-; (split; [|auto]); intros n f; cbn [In]; split; intros Q; intuition congruence.
  - assert (E1 : (1 <? s_world s)%nat = true) by (apply Nat.ltb_lt; lia). assert (E2 : Nat.eqb (s_world s) 1 = false) by (apply Nat.eqb_neq; lia).
    rewrite E1, E2. destruct (s_evolution s), (s_export s), (s_curved s), (s_tfsf s); cbn [bind fst snd app];
      intros Q; injection Q as <- <-; (split; [|auto]); intros n f; cbn [In]; split; intros Q; intuition (try lia; try congruence).
Qed.
Lemma exports_quiet : forall s o fs, exports s = Ok (o, fs) -> exports (quietly s) = Ok (o, []).
Proof.
  intros s o fs. unfold exports, finishGlobal, writeOperator, quietly.
  cbn [s_evolution s_export s_world s_curved s_tfsf s_mesh s_opens s_merged s_source].
  destruct (s_evolution s), (s_export s), (s_curved s), (s_tfsf s), (1 <? s_world s)%nat, (Nat.eqb (s_world s) 1), (s_opens s (exportPath s "_global.csr")), (s_opens s (exportPath s "_tfsf.csr"));
    cbn [bind fst snd]; intros Q; try discriminate Q; injection Q as <- <-; reflexivity.
Qed.

Lemma threshold_close : forall m m', readCsr (printCSR2 (threshold (1 / 10 ^ 20) m)) = Some m' ->
  sp_h m' = sp_h m /\ sp_w m' = sp_w m /\ forall i, (i < sp_h m)%nat -> exists row, thinned (rowOf m i) row /\ closeRow row (rowOf m' i).
Proof.
  intros m m' E. destruct (read_rows _ _ (threshold_matching _ _) E) as (A & B & C). repeat split; [exact A|exact B|].
  intros i Hi. exists (filter (big (1 / 10 ^ 20)) (rowOf m i)). split; [apply filter_thinned|]. rewrite <- threshold_row by exact Hi. apply C.
Qed.
Lemma readable : forall m, matching m -> exists m', readCsr (printCSR2 m) = Some m'.
Proof. intros m M. rewrite (read_print m M). eauto. Qed.

Lemma global_content : forall s o fs f, (1 <= s_world s)%nat -> exports s = Ok (o, fs) -> In (globalName s, f) fs ->
  exists m', readCsr f = Some m' /\ sp_h m' = sp_h (s_merged s) /\ sp_w m' = sp_w (s_merged s) /\
  forall i, (i < sp_h (s_merged s))%nat -> exists row, thinned (rowOf (s_merged s) i) row /\ closeRow row (rowOf m' i).
Proof.
  intros s o fs f W E H. apply (proj1 (exports_files s o fs W E)) in H. destruct H as [(_ & _ & ->)|(_ & Q & _)].
  - destruct (readable _ (threshold_matching (1 / 10 ^ 20) (s_merged s))) as (m' & R). exists m'. split; [exact R|]. exact (threshold_close _ _ R).
  - destruct (names_differ s Q).
Qed.
Lemma source_content : forall s o fs f, (1 <= s_world s)%nat -> matching (s_source s) -> exports s = Ok (o, fs) -> In (sourceName s, f) fs ->
  exists m', readCsr f = Some m' /\ sp_h m' = sp_h (s_source s) /\ sp_w m' = sp_w (s_source s) /\ forall i, closeRow (rowOf (s_source s) i) (rowOf m' i).
Proof.
  intros s o fs f W M E H. apply (proj1 (exports_files s o fs W E)) in H. destruct H as [(_ & Q & _)|(_ & _ & ->)].
  - symmetry in Q. destruct (names_differ s Q).
  - destruct (readable _ M) as (m' & R). exists m'. split; [exact R|]. exact (read_rows _ _ M R).
Qed.
Lemma global_product : forall s o fs f m' i x, (1 <= s_world s)%nat -> exports s = Ok (o, fs) -> In (globalName s, f) fs -> readCsr f = Some m' ->
  (i < sp_h (s_merged s))%nat ->
  Rabs (applyRow (rowOf m' i) x - applyRow (rowOf (s_merged s) i) x) <=
  5 / 10 ^ 6 * weight (rowOf (s_merged s) i) x + 1 / 10 ^ 20 * load (rowOf (s_merged s) i) x.
Proof.
  intros s o fs f m' i x W E H R Hi. destruct (global_content s o fs f W E H) as (m2 & R2 & _ & _ & C).
  rewrite R in R2. injection R2 as <-. destruct (C i Hi) as (row & T & Cl).
  pose proof (close_apply x _ _ Cl) as P. destruct (thin_apply x _ _ T) as (P2 & P3).
  replace (applyRow (rowOf m' i) x - applyRow (rowOf (s_merged s) i) x) with
    ((applyRow (rowOf m' i) x - applyRow row x) + (applyRow row x - applyRow (rowOf (s_merged s) i) x)) by ring.
  eapply Rle_trans; [apply Rabs_triang|]. lra.
Qed.
Lemma run_operator : forall s m fs, exports s = Ok (Some m, fs) ->
  sp_h m = sp_h (s_merged s) /\ sp_w m = sp_w (s_merged s) /\ matching m /\
  forall i, (i < sp_h (s_merged s))%nat -> thinned (rowOf (s_merged s) i) (rowOf m i).
Proof.
  intros s m fs E. assert (m = threshold (1 / 10 ^ 20) (s_merged s)) as ->.
  { apply exports_quiet in E. unfold exports, finishGlobal, quietly in E. cbn [s_evolution s_export s_curved s_tfsf s_merged] in E.
    destruct (s_evolution s), (s_curved s), (s_tfsf s); cbn [bind fst snd] in E; try discriminate E; injection E as <-; reflexivity. }
  split; [reflexivity|]. split; [reflexivity|]. split; [apply threshold_matching|]. intros i Hi. rewrite threshold_row by exact Hi. apply filter_thinned.
Qed.
Lemma six_opp : forall v, significant 6 (- v) = - significant 6 v.
Proof. intros v. unfold significant. apply round_NE_opp. Qed.
Lemma values : exists g : R -> R, (forall v, closest 6 v (g v)) /\ (forall v, g (- v) = - g v) /\ (forall v w, v <= w -> g v <= g w) /\
  (forall v, v <> 0 -> 0 < g v * v) /\
  forall m, matching m -> readCsr (printCSR2 m) = Some (mkSp (sp_h m) (sp_w m) (sp_I m) (sp_J m) (map g (sp_A m))).
Proof.
  exists (significant 6). repeat split.
  - apply (time_closest v).
  - intros w Hw. apply (time_closest v). exact Hw.
  - exact six_opp.
  - exact six_le.
  - intros v Hv. pose proof (six_error v) as E. apply Rabs_def2b in E || idtac. unfold Rabs in E. destruct (Rcase_abs v), (Rcase_abs (significant 6 v - v)); nra.
  - exact read_print.
Qed.

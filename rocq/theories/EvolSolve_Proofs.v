(** Proofs: implicit stages, sub-steps, schedules. *)
From Coq Require Import ZArith List Bool Reals Lra Lia.
From Flocq Require Import Core.Raux.
From Verif Require Import Common Probe_Model Evol_Model Evol_Spec Evol_Proofs EvolHist_Proofs.
Import ListNotations.
Local Open Scope Z_scope.

(** ** J k = k - dt A k *)
Lemma ddot_cons : forall a r b x, ddot (a :: r) (b :: x) = (a * b + ddot r x)%R.
Proof. reflexivity. Qed.

(** Sum over positions of (entry of the row) * x. *)
Lemma ddot_map2 : forall (f : nat -> R) (s : nat) x, ddot (map f (seq s (length x))) x = fold_right Rplus 0%R (map (fun i => f (s + i)%nat * nth i x 0)%R (seq 0 (length x))).
Proof.
  intros f s x. revert s. induction x as [|a x IH]; intros s; [reflexivity|].
  cbn [length seq map]. rewrite ddot_cons, IH. cbn [fold_right nth]. f_equal; [f_equal; f_equal; lia|].
  f_equal. rewrite <- (seq_shift (length x) 0), map_map. apply map_ext. intros i. cbn [nth]. f_equal. f_equal. lia.
Qed.

Definition entry (row : list (Z * R)) (j : Z) : R := fold_right (fun cv s => if Z.eqb (fst cv) j then snd cv + s else s)%R 0%R row.

Lemma denseRow_eq : forall n row, denseRow n row = map (fun j => entry row (Z.of_nat j)) (seq 0 n).
Proof. intros n row. unfold denseRow, zseq. rewrite map_map. reflexivity. Qed.

Lemma jacRow_eq : forall n dt i row, jacRow n dt i row = map (fun j => (- dt * entry row (Z.of_nat j) + (if Nat.eqb i j then 1 else 0))%R) (seq 0 n).
Proof.
  intros n dt i row. unfold jacRow. rewrite denseRow_eq.
  assert (HC : forall {A B} (f : A -> B) l, combine l (map f l) = map (fun a => (a, f a)) l).
  { intros A B f l. induction l; cbn; f_equal; auto. }
  rewrite HC, map_map. reflexivity.
Qed.

Lemma sum_plus : forall (f g : nat -> R) l, fold_right Rplus 0%R (map (fun i => f i + g i)%R l) = (fold_right Rplus 0 (map f l) + fold_right Rplus 0 (map g l))%R.
Proof. intros f g l. induction l; cbn; [lra|]. rewrite IHl. lra. Qed.
Lemma sum_scal : forall a (f : nat -> R) l, fold_right Rplus 0%R (map (fun i => a * f i)%R l) = (a * fold_right Rplus 0 (map f l))%R.
Proof. intros a f l. induction l; cbn; [lra|]. rewrite IHl. lra. Qed.
Lemma sum_ext : forall (f g : nat -> R) l, (forall i, In i l -> f i = g i) -> fold_right Rplus 0%R (map f l) = fold_right Rplus 0%R (map g l).
Proof. intros f g l Hl. f_equal. apply map_ext_in. auto. Qed.
Lemma sum_zero : forall (f : nat -> R) l, (forall i, In i l -> f i = 0%R) -> fold_right Rplus 0%R (map f l) = 0%R.
Proof. intros f l. induction l as [|a l IH]; intros Hl; cbn; auto. rewrite Hl by (left; auto). rewrite IH; [lra|]. intros; apply Hl; right; auto. Qed.

Lemma sum_delta : forall (g : nat -> R) i n s, (s <= i < s + n)%nat ->
  fold_right Rplus 0%R (map (fun j => (if Nat.eqb i j then 1 else 0) * g j)%R (seq s n)) = g i.
Proof.
  intros g i n. induction n as [|n IH]; intros s Hi; [lia|]. cbn [seq map fold_right].
  destruct (Nat.eqb_spec i s) as [->|Hne].
  - rewrite sum_zero; [lra|]. intros j Hj. apply in_seq in Hj. destruct (Nat.eqb_spec s j); [lia|lra].
  - rewrite IH by lia. lra.
Qed.

Lemma entry_dot : forall n row x, colsIn n row -> 
  fold_right Rplus 0%R (map (fun j => entry row (Z.of_nat j) * nth j x 0)%R (seq 0 n)) = dot row x.
Proof.
  intros n row x Hr. induction Hr as [|[c v] row Hc Hr IH]; cbn [dot fold_right entry fst snd].
  - apply sum_zero. intros; cbn; lra.
  - fold (dot row x). rewrite <- IH. cbn [fst] in Hc.
    rewrite <- (sum_delta (fun j => v * nth j x 0)%R (Z.to_nat c) n 0) by lia. rewrite <- sum_plus.
    apply sum_ext. intros j Hj. apply in_seq in Hj. fold (entry row (Z.of_nat j)).
    destruct (Z.eqb_spec c (Z.of_nat j)), (Nat.eqb_spec (Z.to_nat c) j); try lia; lra.
Qed.

Lemma jac_row_dot : forall n dt i row k, colsIn n row -> length k = n -> (i < n)%nat ->
  ddot (jacRow n dt i row) k = (nth i k 0 - dt * dot row k)%R.
Proof.
  intros n dt i row k Hr Hk Hi. rewrite jacRow_eq, <- Hk, ddot_map2. cbn [plus]. rewrite Hk.
  transitivity (fold_right Rplus 0 (map (fun j => (- dt) * (entry row (Z.of_nat j) * nth j k 0)) (seq 0 n)) +
                fold_right Rplus 0 (map (fun j => (if Nat.eqb i j then 1 else 0) * nth j k 0) (seq 0 n)))%R.
  - rewrite <- sum_plus. apply sum_ext. intros. lra.
  - rewrite sum_scal, entry_dot by auto. rewrite sum_delta by lia. lra.
Qed.

Lemma jac_nth : forall A dt i, (i < length A)%nat -> nth i (jac A dt) [] = jacRow (length A) dt i (nth i A []).
Proof.
  intros A dt i Hi. unfold jac.
  assert (G : forall s l i, (i < length l)%nat -> nth i (map (fun ir => jacRow (length A) dt (fst ir) (snd ir)) (combine (seq s (length l)) l)) [] = jacRow (length A) dt (s + i) (nth i l [])).
  { intros s l. revert s. induction l as [|r l IH]; intros s j Hj; [cbn in Hj; lia|]. cbn [length seq combine map].
    destruct j; cbn [nth fst snd]; [f_equal; lia|]. rewrite IH by (cbn in Hj; lia). f_equal; lia. }
  rewrite G by auto. reflexivity.
Qed.

Lemma row_dot_ok : forall row x, colsIn (length x) row -> row_dot row x = Ok (dot row x).
Proof.
  intros row x Hr. unfold row_dot.
  assert (G : forall s, foldM (fun s cv => xi <- zget x (fst cv) ;; Ok (s + snd cv * xi)%R) row s = Ok (s + dot row x)%R).
  { induction Hr as [|[c v] row Hc Hr IH]; intros s; cbn [foldM].
    - cbn. f_equal. lra.
    - cbn [fst snd] in *. destruct (zget_in_range x c Hc) as (a & -> & Hn). cbn [bind]. rewrite IH. cbn [dot fold_right fst snd].
      rewrite (nth_error_nth _ _ _ Hn). fold (dot row x). f_equal. lra. }
  rewrite G. f_equal. lra.
Qed.
Lemma spmv_ok : forall A x, Forall (colsIn (length x)) A -> spmv A x = Ok (map (fun r => dot r x) A).
Proof.
  intros A x HA. unfold spmv. induction HA as [|r A Hr HA IH]; cbn [mapM map]; auto. rewrite row_dot_ok by auto. cbn [bind]. rewrite IH. reflexivity.
Qed.

Lemma jac_length : forall A dt, length (jac A dt) = length A.
Proof. intros. unfold jac. rewrite map_length, combine_length, seq_length. lia. Qed.

Lemma dense_solves : forall inv A dt rhs c k c', Forall (colsIn (length A)) A -> length rhs = length A ->
  dt <> (-1)%R -> cache_ok A c -> solves inv (jac A dt) -> denseSolve inv A dt rhs c = Ok (k, c') ->
  cache_ok A c' /\ length k = length A /\ forall i, (i < length A)%nat -> (nth i k 0 - dt * dot (nth i A []) k)%R = nth i rhs 0%R.
Proof.
  intros inv A dt rhs c k c' HA Hl Hd Hc Hs E. rewrite denseSolve_ok in E by auto. injection E as <- <-.
  split; [apply cache_ok_set|]. destruct (Hs rhs) as [H1 H2]; [rewrite jac_length; auto|]. rewrite jac_length in *.
  split; auto. intros i Hi. rewrite <- H2 by auto. rewrite jac_nth by auto. symmetry. apply jac_row_dot; auto.
  rewrite Forall_forall in HA. apply HA. apply nth_In. auto.
Qed.

(** Any sequence of solves with one cache. *)
Section Seq.
Variable inv : list (list R) -> list R -> list R.
Variable A : matrix.
Definition solveAll (l : list (R * list R)) (c : cache) : res (list (list R) * cache) :=
  foldM (fun acc p => '(k, c') <- denseSolve inv A (fst p) (snd p) (snd acc) ;; Ok (fst acc ++ [k], c')) l ([], c).

Lemma solveAll_spec : Forall (colsIn (length A)) A ->
  forall l, Forall (fun p => fst p <> (-1)%R /\ length (snd p) = length A /\ solves inv (jac A (fst p))) l ->
  exists ks c, solveAll l newCache = Ok (ks, c) /\
    Forall2 (fun p k => forall i, (i < length A)%nat -> (nth i k 0 - fst p * dot (nth i A []) k)%R = nth i (snd p) 0%R) l ks.
Proof.
  intros HA l Hl. unfold solveAll.
  assert (G : forall acc c, cache_ok A c -> exists ks c', foldM (fun acc p => '(k, c') <- denseSolve inv A (fst p) (snd p) (snd acc) ;; Ok (fst acc ++ [k], c')) l (acc, c) = Ok (acc ++ ks, c') /\
    Forall2 (fun p k => forall i, (i < length A)%nat -> (nth i k 0 - fst p * dot (nth i A []) k)%R = nth i (snd p) 0%R) l ks).
  { induction Hl as [|[dt rhs] l (Hd & Hr & Hs) Hl IH]; intros acc c Hc; cbn [foldM].
    - exists [], c. rewrite app_nil_r. split; auto.
    - cbn [fst snd] in *. pose proof (denseSolve_ok inv A dt rhs c Hd Hc) as E. rewrite E. cbn [bind].
      destruct (dense_solves inv A dt rhs c _ _ HA Hr Hd Hc Hs E) as (C1 & C2 & C3).
      destruct (IH (acc ++ [inv (jac A dt) rhs]) _ C1) as (ks & c' & E2 & F2).
      exists (inv (jac A dt) rhs :: ks), c'. rewrite E2, <- app_assoc. split; auto. }
  destruct (G [] newCache (cache_ok_new A)) as (ks & c' & E & F). exists ks, c'. auto.
Qed.

Lemma first_minus_one_ub : forall rhs, denseSolve inv A (-1) rhs newCache = UB.
Proof. intros rhs. unfold denseSolve, newCache. cbn. destruct Req_EM_T; [reflexivity|contradiction]. Qed.
End Seq.

(** ** Sub-steps *)
Lemma nsteps_spec : forall sub dt, (0 < sub)%R -> (0 < dt)%R -> (dt / sub <= 2147483647)%R ->
  exists m, nsteps sub dt = Ok m /\ 1 <= m /\ (dt / IZR m <= sub)%R /\ (1 < m -> (IZR (m - 1) * sub < dt)%R).
Proof.
  intros sub dt Hs Hd Hmax. unfold nsteps. destruct (Rlt_dec 0 sub); [|lra]. destruct (Rlt_dec sub dt).
  - unfold ceil_int. cbv zeta.
    assert (H1 : (1 < dt / sub)%R) by (apply (Rmult_lt_reg_r sub); [auto|]; unfold Rdiv; rewrite Rmult_assoc, Rinv_l by lra; lra).
    pose proof (Zceil_ub (dt / sub)) as Hub.
    assert (H2 : 1 < Zceil (dt / sub)) by (apply lt_IZR; lra).
    assert (H3 : Zceil (dt / sub) <= 2147483647) by (apply Zceil_glb; lra).
    assert (H4 : (IZR (Zceil (dt / sub)) - 1 < dt / sub)%R).
    { assert (Zceil (dt / sub) - 1 < Zceil (dt / sub)) by lia.
      destruct (Rlt_le_dec (IZR (Zceil (dt / sub)) - 1) (dt / sub)) as [|Hc]; auto.
      rewrite <- minus_IZR in Hc. apply Zceil_glb in Hc. lia. }
    replace ((-2147483648 <=? Zceil (dt / sub)) && (Zceil (dt / sub) <=? 2147483647)) with true.
    2: { symmetry. apply andb_true_intro. split; apply Z.leb_le; lia. }
    eexists. split; [reflexivity|]. split; [lia|].
    assert (Hm : (0 < IZR (Zceil (dt / sub)))%R) by lra.
    split.
    + apply (Rmult_le_reg_r (IZR (Zceil (dt / sub)))); auto. unfold Rdiv at 1. rewrite Rmult_assoc, Rinv_l by lra. rewrite Rmult_1_r.
      apply (Rmult_le_compat_r sub) in Hub; [|lra]. unfold Rdiv at 1 in Hub. rewrite Rmult_assoc, Rinv_l in Hub by lra. lra.
    + intros _. rewrite minus_IZR. apply (Rmult_lt_compat_r sub) in H4; auto. unfold Rdiv at 2 in H4. rewrite (Rmult_assoc dt), Rinv_l in H4 by lra. lra.
  - exists 1. split; auto. split; [lia|]. split; [unfold Rdiv; rewrite Rinv_1; lra|lia].
Qed.

Section Adv.
Variable inv : list (list R) -> list R -> list R.

Lemma solve_time : forall w t dt d d', (/ 1000000000 <= dt)%R -> solve inv w t dt d = Ok d' -> d_time d' = (t + dt)%R.
Proof.
  intros w t dt d d' Hd Hs. unfold solve in Hs. rewrite Rabs_right in Hs by lra. destruct Rlt_dec; [lra|].
  cbv zeta in Hs. cbn [d_all d_time d_final d_dt d_cache] in Hs. ubind Hs. destruct v as [x c]. injection Hs as <-. cbn.
  rewrite Rmin_left by lra. reflexivity.
Qed.

(** The layer is advanced exactly to the end of the interval. *)
Lemma advance_time : forall w base dt gh s d s' d' m, nsteps (w_rec w) dt = Ok m -> (/ 1000000000 <= dt / IZR m)%R ->
  advance inv w base dt gh s d = Ok (s', d') -> d_time d' = (base + dt)%R.
Proof.
  intros w base dt gh s d s' d' m Hm Hb Ha. pose proof (nsteps_pos _ _ _ Hm) as Hp. unfold advance in Ha. rewrite Hm in Ha. cbn [bind] in Ha. cbv zeta in Ha.
  ubind Ha. injection Ha as _ <-.
  assert (HN : exists k, Z.to_nat m = S k) by (exists (Z.to_nat (m - 1)); lia). destruct HN as (k & Hk).
  rewrite Hk, zseq_S, foldM_app in E. ubind E. cbn [foldM] in E. ubind E. injection E as <-. ubind E1.
  apply solve_time in E1; auto. rewrite E1. rewrite <- INR_IZR_INZ.
  assert (HK : IZR m = (INR k + 1)%R) by (rewrite <- S_INR, <- Hk, INR_IZR_INZ; f_equal; lia).
  rewrite HK. assert (0 < INR k + 1)%R by (rewrite <- HK; apply IZR_lt; lia). field. lra.
Qed.

(** Below a nanosecond-like threshold nothing is solved: the fields only get
    their ghost values refreshed. *)
Lemma advance_frozen : forall w base dt gh s d s' d' m, nsteps (w_rec w) dt = Ok m -> (Rabs (dt / IZR m) < / 1000000000)%R ->
  advance inv w base dt gh s d = Ok (s', d') ->
  foldM (fun all step => gh ((IZR step + 1) / IZR m)%R step all) (zseq (Z.to_nat m)) (s_fs s) = Ok (s_fs s').
Proof.
  intros w base dt gh s d s' d' m Hm Hb Ha. unfold advance in Ha. rewrite Hm in Ha. cbn [bind] in Ha. cbv zeta in Ha.
  ubind Ha. injection Ha as <- <-. cbn [s_fs with_fs].
  change (s_fs s) with (d_all (set_all d (s_fs s))).
  revert E. generalize (set_all d (s_fs s)). induction (zseq (Z.to_nat m)) as [|x l IH]; intros d0 E; cbn [foldM] in *.
  - injection E as <-. reflexivity.
  - ubind E. ubind E0. rewrite E1. cbn [bind]. unfold solve in E0. destruct Rlt_dec; [|contradiction]. injection E0 as <-.
    apply (IH (set_all d0 v1)) in E. exact E.
Qed.
End Adv.

(** The last sub-step uses the weight 1, starts one part before the end and takes
    one part. *)
Lemma advance_last : forall inv w base dt gh s d s' d' m, nsteps (w_rec w) dt = Ok m ->
  advance inv w base dt gh s d = Ok (s', d') ->
  exists d1 all, gh 1%R (m - 1) (d_all d1) = Ok all /\
    solve inv w (base + dt - dt / IZR m)%R (dt / IZR m)%R (set_all d1 all) = Ok d' /\ s_fs s' = d_all d'.
Proof.
  intros inv w base dt gh s d s' d' m Hm Ha. pose proof (nsteps_pos _ _ _ Hm) as Hp. unfold advance in Ha. rewrite Hm in Ha. cbn [bind] in Ha. cbv zeta in Ha.
  ubind Ha. injection Ha as <- <-.
  assert (HN : exists k, Z.to_nat m = S k) by (exists (Z.to_nat (m - 1)); lia). destruct HN as (k & Hk).
  rewrite Hk, zseq_S, foldM_app in E. ubind E. cbn [foldM] in E. ubind E. injection E as <-. ubind E1.
  assert (Hz : Z.of_nat k = m - 1) by lia. rewrite Hz in *.
  assert (Hr : (0 < IZR m)%R) by (apply IZR_lt; lia).
  replace ((IZR (m - 1) + 1) / IZR m)%R with 1%R in E by (rewrite minus_IZR; field; lra).
  replace (base + IZR (m - 1) * (dt / IZR m))%R with (base + dt - dt / IZR m)%R in E1 by (rewrite minus_IZR; field; lra).
  eexists _, _. split; [exact E|]. split; [exact E1|]. reflexivity.
Qed.

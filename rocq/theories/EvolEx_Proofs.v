(** Concrete systems: the hypotheses of the theorems are met, and the cases where
    a property fails. *)
From Coq Require Import ZArith List Bool Reals Lra Lia.
From Flocq Require Import Core.Raux.
From Verif Require Import Common Probe_Model Evol_Model Evol_Spec Evol_Proofs EvolHist_Proofs EvolSolve_Proofs EvolRhs_Proofs EvolStage_Proofs EvolReach_Proofs.
Import ListNotations.
Local Open Scope Z_scope.

(** Two mesh dofs, one two-sided layer between them with a conducting left side. *)
Definition id9 : list R := [1; 0; 0; 0; 1; 0; 0; 0; 1]%R.
Definition axpy (x : list R) (dt : R) (k : list R) : list R := map (fun p => (fst p + dt * snd p)%R) (combine x k).
(** Implicit Euler as an integrator of the layer. *)
Definition euler (t dt : R) (x : list R) : prog := Call dt x (fun k => Ret (axpy x dt k)).
Definition exW : wrapper := mkW 3 1 1%R PEC Transparent (repeat [] 18) euler.
Definition exD : wdyn := mkD [] 0%R 0%R 0%R newCache.
Definition exS : sstate := mkS 0 1 id9 (zeros 18).
Definition exE : evol := mkEvol [] [mkG exW exD [exS]] None 0%R 0%R newCache.
Definition exA : matrix := [(1, 1%R)] :: [(0, (-1)%R)] :: repeat [] 10.
Definition exM : matrix := [(0, 1%R); (1, (-1)%R)] :: repeat [] 11.
Definition exIn : list R := 1%R :: zeros 11.
Definition exInv : list (list R) -> list R -> list R := fun _ r => r.
Definition exJunk (n : nat) : list R := repeat 7%R n.
Notation exMult := (mult exInv 2 0 exA None (Some exM) false [] (fun _ => []) [0] [1] exJunk).

Ltac dec := repeat (match goal with |- context [Rlt_dec ?a ?b] => destruct (Rlt_dec a b); [|try lra] | |- context [Rle_dec ?a ?b] => destruct (Rle_dec a b); [|try lra] end).

Lemma exW_sane : sane exW.
Proof. intros t dt x Hdt. cbn. split; [lra|auto]. Qed.
Lemma exE_fresh : fresh exE.
Proof. repeat split; auto. constructor; auto. cbn. split; [apply exW_sane|auto]. Qed.
Lemma exJunk_len : forall n, length (exJunk n) = n.
Proof. intros. apply repeat_length. Qed.

Lemma ex_commit : exists e, commit 2 exE 0 1 exIn = Ok e /\ e_groups e = e_groups exE /\ e_work e = [] /\ e_base e = 0%R.
Proof. eexists. repeat split. Qed.

Lemma ex_quiet : forall e, commit 2 exE 0 1 exIn = Ok e -> exists d fs, length fs = 18%nat /\ multSub exInv 2 (Some exM) e 1 exIn = Ok ([mkG exW d [with_fs exS fs]], false).
Proof.
  intros e He. injection He as <-. 
  unfold multSub. cbn [e_groups e_cp e_base restore bind combine map exE fst snd flat_map g_states g_w g_d exS restoreStates with_fs app s_gl s_gr s_rot s_fs].
  cbn [anyLoud].
  assert (L : loud 2 exIn exS = Ok true).
  { unfold loud. cbn -[sumsq Rle_dec Rmult thr norml2].
    match goal with |- context [Rle_dec ?a ?b] => destruct (Rle_dec a b) end; auto.
    assert (E : exists x, ifaceNormSq 2 exIn exS = Ok x /\ (1 <= x)%R).
    { eexists. split; [reflexivity|]. cbn. lra. }
    destruct E as (x & -> & Hx). cbn [bind]. destruct (Rle_dec (thr * thr) x) as [|Hn]; auto. exfalso. apply Hn. unfold thr. lra. }
  change (with_fs exS (zeros 18)) with exS. rewrite L. cbn [bind].
  destruct Rlt_dec as [|Hn]; [|exfalso; apply Hn; lra].
  cbn [mapM overStates g_w g_d g_states]. unfold subMult at 1. rewrite L. cbn [bind].
  unfold advance. unfold nsteps. cbn [w_rec exW].
  destruct Rlt_dec as [|Hn]; [|lra]. destruct Rlt_dec as [|Hn]; [lra|]. cbn [bind]. cbv zeta.
  change (zseq (Z.to_nat 1)) with [0]. cbn [foldM].
  assert (G : exists all, updateGhosts 3 1 exIn 2 exS (d_all (set_all exD (s_fs exS))) = Ok all /\ length all = 18%nat).
  { eexists. split; reflexivity. }
  destruct G as (all & G & Hl). change (w_n exW) with 3. change (w_gh exW) with 1. change (nZ 2) with 2. rewrite G. cbn [bind].
  unfold solve. destruct Rlt_dec as [Hc|_].
  { exfalso. rewrite Rabs_right in Hc; lra. }
  cbv zeta. cbn [w_ode w_A exW euler runProg d_all d_time d_final d_dt d_cache set_all exD].
  unfold subImplicitSolve.
  assert (Hsp : spmv (repeat [] 18) all = Ok (zeros 18)) by reflexivity. rewrite Hsp. cbn [bind].
  rewrite denseSolve_ok; [|rewrite Rmin_left; lra|apply cache_ok_new]. cbn [bind runProg].
  eexists. eexists. split; [|reflexivity]. cbn [d_all]. unfold axpy. rewrite map_length, combine_length, Hl. reflexivity.
Qed.

Lemma ex_wstates : forall d fs, wstates [mkG exW d [with_fs exS fs]] = [(exW, with_fs exS fs)].
Proof. reflexivity. Qed.

Lemma ex_mult_A : forall A e, length A = 12%nat -> Forall (colsIn 12) A -> nth 0 A [] = [(1, 1%R)] \/ nth 0 A [] = [] ->
  commit 2 exE 0 1 exIn = Ok e ->
  exists out e', mult exInv 2 0 A None (Some exM) false [] (fun _ => []) [0] [1] exJunk e 1%R [] exIn = Ok (out, e') /\ nthZ out 0 = 2%R.
Proof.
  intros A e LA CA HA0 He. destruct (ex_quiet e He) as (d & fs & Hl & HS).
  destruct (rhs_formula exInv 2 0 A None (Some exM) false [] (fun _ => []) [0] [1] exJunk exJunk_len e 1%R [] exIn _ _ HS)
    as (P & F & W1 & W2 & out & e' & HP & _ & H1 & H2 & Hm & _ & Hv).
  - split; [reflexivity|]. intros H; congruence.
  - exact LA.
  - exact CA.
  - discriminate.
  - discriminate.
  - intros M HM. injection HM as <-. split; [reflexivity|]. repeat constructor; cbn; lia.
  - rewrite ex_wstates. constructor; auto. cbn. rewrite Hl. repeat split; auto; try lia.
  - rewrite ex_wstates. cbn. repeat constructor; cbn; intuition lia.
  - repeat constructor; cbn; tauto.
  - repeat constructor; cbn; tauto.
  - cbn. intros; lia.
  - cbn. intros; lia.
  - exists out, e'. split; auto. specialize (Hv 0 0 ltac:(lia) ltac:(cbn; lia)). cbv zeta in Hv.
    change (0 * nZ 2 + 0) with 0 in Hv. rewrite Hv.
    destruct (in_dec Z.eq_dec 0 [0]) as [_|Hn]; [|exfalso; apply Hn; left; auto].
    destruct (in_dec Z.eq_dec 0 [1]) as [Hn|_]; [exfalso; cbn in Hn; lia|].
    change (nth (Z.to_nat 0) A []) with (nth 0 A []). change (nth (Z.to_nat 0) exM []) with [(0, 1%R); (1, (-1)%R)].
    assert (HD : dot (nth 0 A []) P = 0%R).
    { destruct HP as (_ & HP & _). pose proof (HP 0 1 ltac:(lia) ltac:(cbn; lia)) as HP01. change (nthZ exIn (0 * Z.of_nat 2 + 1)) with 0%R in HP01.
      destruct HA0 as [-> | ->]; cbn [dot fold_right fst snd]; auto. unfold nthZ in HP01. change (Z.to_nat (0 * Z.of_nat (2 + 0) + 1)) with (Z.to_nat 1) in HP01. rewrite HP01. lra. }
    rewrite HD. unfold dot. cbn [fold_right fst snd]. fold (nthZ W1 0) (nthZ W1 1).
    destruct H1 as (_ & H1 & _). destruct (H1 exW (with_fs exS fs) 0 (or_introl eq_refl) ltac:(lia)) as [HA HB]. specialize (HB ltac:(cbn; lia)).
    cbn [s_gl s_gr with_fs exS] in HA, HB. change (0 * Z.of_nat (2 + 0) + 1) with 1 in *. change (0 * Z.of_nat (2 + 0) + 0) with 0 in *.
    change (0 * Z.of_nat 2 + 1) with 1 in *. change (0 * Z.of_nat 2 + 0) with 0 in *.
    cbn [seen w_left exW Z.ltb Z.compare] in HB. change (nthZ exIn 0) with 1%R in HA. cbv beta in HB. change (nthZ exIn (0 * Z.of_nat 2 + 0)) with 1%R in HB. cbv iota in *. rewrite HA, HB. lra.
Qed.

Lemma ex_mult : forall e, commit 2 exE 0 1 exIn = Ok e -> exists out e', exMult e 1%R [] exIn = Ok (out, e') /\ nthZ out 0 = 2%R.
Proof. intros e He. apply ex_mult_A; auto. repeat constructor; cbn; lia. Qed.

(** One sub-step of the example layer. *)
Lemma ex_adv : forall base dt gh s d, dt = 1%R -> length (s_fs s) = 18%nat -> cache_ok (w_A exW) (d_cache d) ->
  (forall a k all, length all = 18%nat -> exists all', gh a k all = Ok all' /\ length all' = 18%nat) ->
  exists fs d', advance exInv exW base dt gh s d = Ok (with_fs s fs, d') /\ length fs = 18%nat.
Proof.
  intros base dt gh s d -> Hs Hc Hg. unfold advance, nsteps. cbn [w_rec exW].
  destruct (Rlt_dec 0 1) as [|Hn]; [|lra]. destruct (Rlt_dec 1 1) as [Hn|]; [lra|]. cbn [bind]. cbv zeta.
  change (zseq (Z.to_nat 1)) with [0]. cbn [foldM].
  destruct (Hg ((0 + 1) / 1)%R 0 (d_all (set_all d (s_fs s))) Hs) as (all & G & Hl). rewrite G. cbn [bind].
  unfold solve. destruct Rlt_dec as [Hx|_]. { exfalso. rewrite Rabs_right in Hx; lra. }
  cbv zeta. cbn [w_ode w_A exW euler runProg d_all d_time d_final d_dt d_cache set_all].
  unfold subImplicitSolve. assert (Hsp : spmv (repeat [] 18) all = Ok (zeros 18)) by reflexivity. rewrite Hsp. cbn [bind].
  rewrite denseSolve_ok; [|rewrite Rmin_left; lra|exact Hc]. cbn [bind runProg].
  eexists. eexists. split; [reflexivity|]. cbn [d_all]. unfold axpy. rewrite map_length, combine_length, Hl. reflexivity.
Qed.

Ltac explode l := do 18 (destruct l as [|?x l]; [discriminate|]); destruct l; [|discriminate].

Lemma ex_finalize : forall e d fs, e_groups e = [mkG exW d [with_fs exS fs]] -> length fs = 18%nat -> cache_ok (w_A exW) (d_cache d) ->
  (exists lo ro, e_cp e = Some [[(zeros 18, (lo, ro))]]) -> e_dt e = 1%R ->
  exists e', finalize exInv 2 e exIn = Ok e'.
Proof.
  intros e d fs Hg Hl Hc (lo & ro & Hcp) Hdt. unfold finalize. rewrite Hg, Hcp.
  cbn [restore combine map bind fst snd g_w g_d g_states restoreStates flat_map app]. change (with_fs (with_fs exS fs) (zeros 18)) with exS.
  destruct (anyLoud 2 exIn [exS]) as [b| |] eqn:EL.
  - cbn [bind]. destruct b; [|eauto]. cbn [combine mapM overPairs g_w g_d g_states fst snd].
    unfold finState at 1. cbn [fst snd].
    assert (Gh : exists p, ghostsAt 2 exIn exS = Ok p) by (eexists; reflexivity). destruct Gh as ([ln rn] & Gh). rewrite Gh. cbn [bind fst snd].
    destruct (ex_adv (e_base e) (e_dt e) (fun alpha _ all => updateInterp (w_n exW) (w_gh exW) alpha lo ln ro rn exS all) exS d Hdt eq_refl Hc) as (fs' & d' & E & _).
    + intros a k all Ha. explode all. eexists. split; reflexivity.
    + rewrite E. cbn [bind]. eauto.
  - exfalso. cbn [anyLoud] in EL. unfold loud in EL. destruct Rle_dec; [discriminate|]. 
    assert (E : exists x, ifaceNormSq 2 exIn exS = Ok x) by (eexists; reflexivity). destruct E as (x & E). rewrite E in EL. cbn [bind] in EL. destruct Rle_dec; discriminate.
  - exfalso. cbn [anyLoud] in EL. unfold loud in EL. destruct Rle_dec; [discriminate|]. 
    assert (E : exists x, ifaceNormSq 2 exIn exS = Ok x) by (eexists; reflexivity). destruct E as (x & E). rewrite E in EL. cbn [bind] in EL. destruct Rle_dec; discriminate.
Qed.

(** Two histories with the same outline, one with an evaluation in its step. *)
Definition stepA : tstep := mkStep 0 1 exIn [OMult 1 [] exIn] exIn.
Definition stepB : tstep := mkStep 0 1 exIn [] exIn.
Notation exRun := (runSteps exInv 2 0 exA None (Some exM) false [] (fun _ => []) [0] [1] exJunk (fun _ _ k0 => k0)).
Lemma ex_outline : Forall2 same_outline [stepA] [stepB] /\ Forall (good_step 2 0) [stepA] /\ Forall (good_step 2 0) [stepB].
Proof.
  split; [repeat constructor|]. split; constructor; auto; split; cbn; try lra; auto.
  constructor; auto. cbn. split; auto. intros H; congruence.
Qed.

Lemma ex_steps : (exists f, exRun exE [stepA] = Ok f) /\ (exists f, exRun exE [stepB] = Ok f).
Proof.
  pose proof ex_commit as (e & He & Hg & Hw & Hb).
  assert (Hgood : good 2 0 exA e).
  { pose proof (commit_agree 2 0 exA exE exE 0 1 exIn Rlt_0_1 (relS_refl 2 0 exA exE (fresh_good 2 0 exA exE exE_fresh))) as Hag.
    rewrite He in Hag. cbn [agree] in Hag. apply Hag. }
  split.
  - unfold runSteps. cbn [foldM]. unfold runStep. cbn [st_base st_dt st_fields st_calls st_end stepA]. rewrite He. cbn [bind runOps foldM apply].
    destruct (ex_mult e He) as (out & e' & Hm & _). unfold runOps. cbn [foldM apply]. rewrite Hm. cbn [bind snd].
    assert (Hk : exists d fs lo ro, e_groups e' = [mkG exW d [with_fs exS fs]] /\ length fs = 18%nat /\ e_cp e' = Some [[(zeros 18, (lo, ro))]] /\ e_dt e' = 1%R).
    { destruct (ex_quiet e He) as (d & fs & Hl & HS). unfold mult in Hm. rewrite HS in Hm. cbn [bind] in Hm. ubind Hm. ubind Hm. cbv zeta in Hm. ubind Hm. destruct v1. ubind Hm. destruct v1. injection Hm as _ <-.
      injection He as <-. cbn [e_groups e_cp e_dt]. do 4 eexists. split; [reflexivity|]. split; [exact Hl|]. split; reflexivity. }
    destruct Hk as (d & fs & lo & ro & K1 & K2 & K3 & K4).
    assert (Hk : rel 2 0 exA e e').
    { eapply (mult_keeps exInv 2 0 exA None (Some exM) false [] (fun _ => []) [0] [1] exJunk exJunk_len (fun _ _ k0 => k0)); [exact Hgood| |exact Hm]. split; auto. intros H; congruence. }
    destruct Hk as (_ & (_ & Hgo & _) & _). rewrite K1 in Hgo. inversion Hgo as [|x y [_ Hc] _]; subst x y. cbn in Hc.
    destruct (ex_finalize e' d fs K1 K2 Hc) as (f & Hf); eauto. rewrite Hf. cbn. eauto.
  - unfold runSteps. cbn [foldM]. unfold runStep. cbn [st_base st_dt st_fields st_calls st_end stepB]. rewrite He. cbn [bind runOps foldM].
    destruct (ex_finalize e exD (zeros 18)) as (f & Hf); auto.
    + apply cache_ok_new.
    + injection He as <-. cbn [e_cp]. eauto.
    + injection He as <-. reflexivity.
    + rewrite Hf. cbn. eauto.
Qed.

(** ** Where a property fails *)

Definition zA : matrix := repeat [] 12.
Lemma zA_solves : forall dt, solves exInv (jac zA dt).
Proof.
  intros dt rhs Hl. split; [exact Hl|]. change (length (jac zA dt)) with 12%nat in *.
  do 12 (destruct rhs as [|?x rhs]; [discriminate|]). destruct rhs; [|discriminate].
  intros i Hi. do 12 (destruct i as [|i]; [cbn; ring|]). lia.
Qed.

(** The stage vector of ImplicitSolve leaves out the layers: it is not the
    right-hand side at the stage point. *)
Lemma stage_layers_refuted : exists e k e2 y out e3,
  fresh exE /\ commit 2 exE 0 1 exIn = Ok e /\ solves exInv (jac zA 1) /\
  implicitSolve exInv 2 0 zA None false [] (fun _ => []) exJunk (fun _ _ k0 => k0) e 1 1 [] exIn (zeros 12) = Ok (k, e2) /\
  (forall i, nth i y 0 = nth i exIn 0 + 1 * nth i k 0)%R /\
  mult exInv 2 0 zA None (Some exM) false [] (fun _ => []) [0] [1] exJunk e 1 [] y = Ok (out, e3) /\
  nthZ k 0 = 0%R /\ nthZ out 0 = 2%R.
Proof.
  destruct ex_commit as (e & He & _). destruct (ex_mult_A zA e) as (out & e3 & Hm & Ho); auto.
  { repeat constructor. }
  exists e, (zeros 12). assert (HI : exists e2, implicitSolve exInv 2 0 zA None false [] (fun _ => []) exJunk (fun _ _ k0 => k0) e 1 1 [] exIn (zeros 12) = Ok (zeros 12, e2)).
  { unfold implicitSolve. cbn [Nat.eqb]. change (spmv zA exIn) with (@Ok (list R) (zeros 12)). cbn [bind]. change (length exIn) with 12%nat. cbn [andb Nat.leb].
    rewrite denseSolve_ok; [|lra|]. { cbn [bind]. eauto. } injection He as <-. apply cache_ok_new. }
  destruct HI as (e2 & HI). exists e2, exIn, out, e3. split; [apply exE_fresh|]. split; [exact He|]. split; [apply zA_solves|]. split; [exact HI|].
  split; [|split; [exact Hm|]; split; [reflexivity|exact Ho]].
  intros i. replace (nth i (zeros 12) 0%R) with 0%R; [lra|]. destruct (Nat.lt_ge_cases i 12); [symmetry; apply nth_repeat|symmetry; apply nth_overflow; cbn; lia].
Qed.

(** Mult throws while no step has begun. *)
Lemma mult_before_commit : forall inv ndofs nbr Aop Top M hasTF s2p src el1 el2 junk e t nd input,
  e_cp e = None -> e_groups e <> [] -> mult inv ndofs nbr Aop Top (Some M) hasTF s2p src el1 el2 junk e t nd input = Throw.
Proof.
  intros. unfold mult, multSub. destruct (e_groups e) as [|g gs] eqn:E; [congruence|]. cbv zeta. unfold restore. rewrite H. reflexivity.
Qed.

(** A layer whose recommended step is below 1e-9 is never advanced. *)
Lemma thin_layer_frozen : forall inv w base dt gh s d s' d', (0 < w_rec w < / 1000000000)%R -> (w_rec w < dt)%R -> (dt / w_rec w <= 2147483647)%R ->
  (forall a k all, gh a k all = Ok all) ->
  advance inv w base dt gh s d = Ok (s', d') -> s_fs s' = s_fs s.
Proof.
  intros inv w base dt gh s d s' d' Hr Hd Hm Hg Ha.
  destruct (nsteps_spec (w_rec w) dt) as (m & En & H1 & Hle & _); try lra.
  assert (Hp : (0 < dt / IZR m)%R) by (apply Rmult_lt_0_compat; [lra|]; apply Rinv_0_lt_compat; apply IZR_lt; lia).
  apply (advance_frozen inv w base dt gh s d s' d' m En) in Ha; [|rewrite Rabs_right; lra].
  clear - Ha Hg. revert Ha. generalize (s_fs s). induction (zseq (Z.to_nat m)); intros fs Ha; cbn [foldM] in Ha; [congruence|].
  rewrite Hg in Ha. cbn [bind] in Ha. auto.
Qed.

(** Two layers that share a mesh dof: the value written for the first is replaced
    by that of the second, so the field behind the second layer enters the flux of
    the first. *)
Definition shW : wrapper := mkW 3 1 1%R PEC PEC (repeat [] 18) euler.
Definition shE : evol := mkEvol [] [mkG shW exD [mkS 0 1 id9 (zeros 18); mkS 0 2 id9 (zeros 18)]] None 0%R 0%R newCache.
Definition shM : matrix := [] :: [(0, 1%R)] :: repeat [] 16.
Notation shMult := (mult exInv 3 0 (repeat [] 18) None (Some shM) false [] (fun _ => []) [0] [1; 2] exJunk).
Definition shIn (a : R) : list R := 0%R :: 1%R :: a :: zeros 15.

Lemma sh_mult : forall a, exists e out e', commit 3 shE 0 1 (shIn a) = Ok e /\ shMult e 0%R [] (shIn a) = Ok (out, e') /\ nthZ out 1 = (- a)%R.
Proof.
  intros a. eexists. 
  assert (HS : forall e, commit 3 shE 0 1 (shIn a) = Ok e -> exists gs, gs = e_groups shE /\ multSub exInv 3 (Some shM) e 0 (shIn a) = Ok (gs, false)).
  { intros e He. injection He as <-. exists (e_groups shE). split; auto. unfold multSub. cbn [e_groups e_cp e_base restore bind combine map shE fst snd flat_map g_states g_w g_d restoreStates with_fs app s_gl s_gr s_rot s_fs].
    cbn [anyLoud].
    assert (L : loud 3 (shIn a) (mkS 0 1 id9 (zeros 18)) = Ok true).
    { unfold loud. match goal with |- context [Rle_dec ?a ?b] => destruct (Rle_dec a b) end; auto.
      assert (E : exists x, ifaceNormSq 3 (shIn a) (mkS 0 1 id9 (zeros 18)) = Ok x /\ (1 <= x)%R).
      { eexists. split; [reflexivity|]. cbn. lra. }
      destruct E as (x & -> & Hx). cbn [bind]. destruct (Rle_dec (thr * thr) x) as [|Hn]; auto. exfalso. apply Hn. unfold thr. lra. }
    unfold with_fs. cbn [s_gl s_gr s_rot s_fs]. rewrite L. cbn [bind]. destruct Rlt_dec as [Hn|_]; [lra|]. reflexivity. }
  destruct (HS _ eq_refl) as (gs & -> & HS'). 
  eexists. eexists. split; [reflexivity|]. unfold mult. rewrite HS'. split; [reflexivity|].
  cbv -[Rplus Rmult Ropp IZR]. lra.
Qed.

Lemma shared_dof_refuted : exists a b e1 e2 o1 o2 f1 f2,
  commit 3 shE 0 1 (shIn a) = Ok e1 /\ commit 3 shE 0 1 (shIn b) = Ok e2 /\
  shMult e1 0%R [] (shIn a) = Ok (o1, f1) /\ shMult e2 0%R [] (shIn b) = Ok (o2, f2) /\
  (forall i, i <> 2 -> 0 <= i -> nthZ (shIn a) i = nthZ (shIn b) i) /\ nthZ o1 1 <> nthZ o2 1.
Proof.
  destruct (sh_mult 0%R) as (e1 & o1 & f1 & A1 & A2 & A3). destruct (sh_mult 5%R) as (e2 & o2 & f2 & B1 & B2 & B3).
  exists 0%R, 5%R, e1, e2, o1, o2, f1, f2. split; [exact A1|]. split; [exact B1|]. split; [exact A2|]. split; [exact B2|]. split.
  - intros i Hi Hp. unfold nthZ, shIn. destruct (Z.to_nat i) as [|[|[|n]]] eqn:E; auto. lia.
  - rewrite A3, B3. lra.
Qed.

(** ** Solves *)
Definition rotA : matrix := [[(1, 1%R)]; [(0, (-1)%R)]].
(** Cramer's rule for 2 by 2 systems. *)
Definition cramer (J : list (list R)) (r : list R) : list R :=
  match J, r with
  | [[a; b]; [c; d]], [x; y] => [(x * d - b * y) / (a * d - b * c); (a * y - c * x) / (a * d - b * c)]%R
  | _, _ => []
  end.
Lemma cramer_solves : forall dt, solves cramer (jac rotA dt).
Proof.
  intros dt rhs Hl. change (length (jac rotA dt)) with 2%nat in *. destruct rhs as [|x [|y [|]]]; try discriminate.
  assert (H : (0 < 1 + dt * dt)%R) by nra.
  split; [reflexivity|]. intros i Hi. destruct i as [|[|i]]; [| |lia]; cbn; field; nra.
Qed.

(** ** The hypotheses of the theorems are met *)
Lemma ex_solveAll : Forall (colsIn (length rotA)) rotA /\
  Forall (fun p => fst p <> (-1)%R /\ length (snd p) = length rotA /\ solves cramer (jac rotA (fst p)))
    [(1, [1; 0]); (1, [0; 1]); (1/2, [1; 0]); (1, [3; 4])]%R.
Proof.
  split; [repeat constructor; cbn; lia|]. repeat constructor; cbn [fst snd]; try lra; intros; try apply cramer_solves; auto.
Qed.
Lemma ex_history :
  fresh exE /\ Forall2 same_outline [stepA] [stepB] /\ Forall (good_step 2 0) [stepA] /\ Forall (good_step 2 0) [stepB] /\
  (exists f, exRun exE [stepA] = Ok f) /\ (exists f, exRun exE [stepB] = Ok f) /\
  exists e, midStep exInv 2 0 exA None (Some exM) false [] (fun _ => []) [0] [1] exJunk (fun _ _ k0 => k0) exE [] 0 1 exIn [] e /\
  exists out e', mult exInv 2 0 exA None (Some exM) false [] (fun _ => []) [0] [1] exJunk e 1 [] exIn = Ok (out, e') /\ nthZ out 0 = 2%R.
Proof.
  pose proof ex_outline as (H1 & H2 & H3). pose proof ex_steps as (H4 & H5).
  split; [apply exE_fresh|]. do 5 (split; [assumption|]).
  destruct ex_commit as (e & He & _). exists e. split; [|apply ex_mult; exact He].
  split; [apply exE_fresh|]. split; [constructor|]. split; [lra|]. split; [constructor|].
  unfold runSteps, runOps. cbn [foldM bind]. rewrite He. reflexivity.
Qed.
Lemma ex_layer_time : nsteps (w_rec exW) 1 = Ok 1 /\ (/ 1000000000 <= 1 / IZR 1)%R /\
  exists fs d', advance exInv exW 0 1 (fun _ _ all => Ok all) exS exD = Ok (with_fs exS fs, d').
Proof.
  split; [|split; [lra|]].
  - unfold nsteps. cbn [w_rec exW]. destruct (Rlt_dec 0 1); [|lra]. destruct (Rlt_dec 1 1); [lra|auto].
  - destruct (ex_adv 0 1 (fun _ _ all => Ok all) exS exD eq_refl eq_refl (cache_ok_new _)) as (fs & d' & E & _); [eauto|]. eauto.
Qed.
Lemma ex_nsteps : exists m, nsteps (3 / 10) 1 = Ok m /\ m = 4.
Proof.
  destruct (nsteps_spec (3 / 10) 1) as (m & E & H1 & H2 & H3); try lra. exists m. split; auto.
  assert (Hm : (0 < IZR m)%R) by (apply IZR_lt; lia).
  assert (1 < m). { destruct (Z.eq_dec m 1); [subst; lra|lia]. }
  specialize (H3 H). rewrite minus_IZR in H3.
  assert (1 <= 3 / 10 * IZR m)%R. { apply (Rmult_le_reg_r (/ IZR m)); [apply Rinv_0_lt_compat; auto|]. rewrite Rmult_assoc, Rinv_r by lra. unfold Rdiv in H2 at 1. lra. }
  assert (3 < m) by (apply lt_IZR; lra). assert (m < 5) by (apply lt_IZR; lra). lia.
Qed.
Lemma ex_rhs : forall e, commit 2 exE 0 1 exIn = Ok e ->
  exists d fs, let gs := [mkG exW d [with_fs exS fs]] in
  multSub exInv 2 (Some exM) e 1 exIn = Ok (gs, false) /\ Forall (fits 2) (wstates gs) /\ NoDup (flat_map dofsOf (wstates gs)) /\
  sized 2 0 [] exIn /\ length exA = 12%nat /\ Forall (colsIn 12) exA /\ length exM = 12%nat /\ Forall (colsIn 12) exM.
Proof.
  intros e He. destruct (ex_quiet e He) as (d & fs & Hl & HS). exists d, fs. cbv zeta. split; [exact HS|].
  rewrite ex_wstates. split; [|split; [|split; [|repeat split; repeat constructor; cbn; lia]]].
  - constructor; [|constructor]. unfold fits, with_fs. cbn [s_gl s_gr s_fs exS w_gh w_n exW]. rewrite Hl. cbn. lia.
  - cbn. repeat constructor; cbn; lia.
  - split; [reflexivity|]. intros H; congruence.
Qed.
Lemma ex_stage : forall dt, solves exInv (jac zA dt) /\ length zA = 12%nat /\ Forall (colsIn 12) zA /\ cache_ok zA newCache.
Proof. intros dt. split; [apply zA_solves|]. split; [reflexivity|]. split; [repeat constructor|apply cache_ok_new]. Qed.

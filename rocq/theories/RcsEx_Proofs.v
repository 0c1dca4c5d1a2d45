(** Concrete cases for the far-field tool, and the output files. *)
From Coq Require Import ZArith List Bool Reals Lra Lia.
From Verif Require Import Common Rcs_Model Rcs_Spec Rcs_Proofs.
Import ListNotations.
Local Open Scope R_scope.

(** A rank with one surface point, unit forms in all directions, field Ex = 1 at the
    given time. *)
Definition exRank (dim : Z) (t : R) : rank :=
  mkRank dim 1 [mkSnap t (fun c _ => if Nat.eqb c 0 then 1 else 0)] (fun _ _ _ _ => (1, 0)).
Definition exWave : pwave := mkPw 1 0 0.

Lemma exKept : forall dim t, kept None (exRank dim t) = r_snaps (exRank dim t).
Proof. reflexivity. Qed.
Lemma cis_1 : forall t, cos (2 * PI * 1 * t) = cos (2 * PI * t) /\ sin (2 * PI * 1 * t) = sin (2 * PI * t).
Proof. intros. now rewrite Rmult_1_r. Qed.

Lemma exSpectrum : forall dim t f c v, cos (2 * PI * f * t) = 1 -> sin (2 * PI * f * t) = 0 ->
  spectrum (r_snaps (exRank dim t)) f c v = ((if Nat.eqb c 0 then 1 else 0), 0).
Proof.
  intros dim t f c v Hc Hs. unfold spectrum, exRank. cbn [r_snaps List.length map csum sn_v sn_t INR].
  unfold cis_neg, creal, cplus. cbn [fst snd]. rewrite Hc, Hs. f_equal; field.
Qed.

Lemma exLint : forall dim t f a i, cos (2 * PI * f * t) = 1 -> sin (2 * PI * f * t) = 0 ->
  Lint (exRank dim t) (r_snaps (exRank dim t)) f a i = (match i with O => 0 | S O => -1 | _ => 1 end, 0).
Proof.
  intros dim t f a i Hc Hs. unfold Lint. change (r_ndofs (exRank dim t)) with 1%nat. cbn [seq map csum].
  change (fun d => r_lf (exRank dim t) f a d 0%nat) with (fun _ : nat => (1, 0)).
  assert (E : cross (fun _ => (1, 0)) (fun c => spectrum (r_snaps (exRank dim t)) f c 0) i =
              (match i with O => 0 | S O => 1 | _ => -1 end, 0)).
  { unfold cross.
    rewrite !(exSpectrum dim t f _ _ Hc Hs). cbn [Nat.eqb]. destruct i as [|[|]]; unfold cminus, cmul; cbn [fst snd]; f_equal; ring. }
  rewrite E. destruct i as [|[|]]; unfold creal, cplus; cbn [fst snd]; f_equal; ring.
Qed.
Lemma exNint : forall dim t f a i, cos (2 * PI * f * t) = 1 -> sin (2 * PI * f * t) = 0 ->
  Nint (exRank dim t) (r_snaps (exRank dim t)) f a i = (0, 0).
Proof.
  intros dim t f a i Hc Hs. unfold Nint. change (r_ndofs (exRank dim t)) with 1%nat. cbn [seq map csum].
  change (fun d => r_lf (exRank dim t) f a d 0%nat) with (fun _ : nat => (1, 0)).
  assert (E : cross (fun _ => (1, 0)) (fun c => spectrum (r_snaps (exRank dim t)) f (3 + c) 0) i = (0, 0)).
  { unfold cross.
    rewrite !(exSpectrum dim t f _ _ Hc Hs). cbn [Nat.eqb Nat.add]. destruct i as [|[|]]; unfold cminus, cmul; cbn [fst snd]; f_equal; ring. }
  rewrite E. unfold cplus; cbn [fst snd]; f_equal; ring.
Qed.

Lemma exIntensity : forall dim ts f a, (forall t, In t ts -> cos (2 * PI * f * t) = 1 /\ sin (2 * PI * f * t) = 0) ->
  intensity None (map (exRank dim) ts) f a =
    (INR (List.length ts) * cos (snd a)) ^ 2 + (INR (List.length ts) * (cos (fst a) * sin (snd a) + sin (fst a))) ^ 2.
Proof.
  intros dim ts f a H. unfold intensity. cbv zeta. rewrite !map_map.
  assert (G : forall (g : rank -> C) z, (forall t, In t ts -> g (exRank dim t) = z) -> csum (map (fun t => g (exRank dim t)) ts) = creal (INR (List.length ts)) z).
  { intros g z. clear H. induction ts as [|t l IH]; intros Hg.
    - cbn [map csum List.length INR]. unfold creal. now rewrite !Rmult_0_l.
    - change (List.length (t :: l)) with (S (List.length l)). rewrite S_INR. cbn [map csum]. rewrite IH by (intros; apply Hg; now right).
      rewrite (Hg t) by (now left). unfold creal, cplus. cbn [fst snd]. f_equal; ring. }
  rewrite (G (fun r => alongPhi a (Lint r (kept None r) f a)) (- cos (snd a), 0)).
  2:{ intros t Ht. destruct (H t Ht) as [Hc Hs]. rewrite exKept. unfold alongPhi. rewrite !exLint by assumption.
      unfold creal, cplus; cbn [fst snd]; f_equal; ring. }
  rewrite (G (fun r => alongTheta a (Nint r (kept None r) f a)) (0, 0)).
  2:{ intros t Ht. destruct (H t Ht) as [Hc Hs]. rewrite exKept. unfold alongTheta. rewrite !exNint by assumption.
      unfold creal, cplus; cbn [fst snd]; f_equal; ring. }
  rewrite (G (fun r => alongTheta a (Lint r (kept None r) f a)) (- (cos (fst a) * sin (snd a)) - sin (fst a), 0)).
  2:{ intros t Ht. destruct (H t Ht) as [Hc Hs]. rewrite exKept. unfold alongTheta. rewrite !exLint by assumption.
      unfold creal, cplus; cbn [fst snd]; f_equal; ring. }
  rewrite (G (fun r => alongPhi a (Nint r (kept None r) f a)) (0, 0)).
  2:{ intros t Ht. destruct (H t Ht) as [Hc Hs]. rewrite exKept. unfold alongPhi. rewrite !exNint by assumption.
      unfold creal, cplus; cbn [fst snd]; f_equal; ring. }
  unfold cmod2, cplus, cminus, creal. cbn [fst snd]. ring.
Qed.

(** The incident power of the example pulse sampled once. *)
Lemma exPower : forall t f, cos (2 * PI * f * t) = 1 -> sin (2 * PI * f * t) = 0 -> pulsePower exWave [t] f = exp (- t ^ 2) / 2.
Proof.
  intros t f Hc Hs. unfold pulsePower, pulse, exWave. cbn [pw_spread pw_mean pw_freq List.length INR map csum].
  rewrite Rabs_R0. replace (2 * PI * 0 * (t - 0)) with 0 by ring. rewrite cos_0.
  unfold cmod2, creal, cplus, cis_neg. cbn [fst snd]. rewrite Hc, Hs.
  replace (- t ^ 2) with (- (t - 0) ^ 2 / (2 * 1 ^ 2) + - (t - 0) ^ 2 / (2 * 1 ^ 2)) by field. rewrite exp_plus.
  field.
Qed.

Lemma at_0 : forall f, cos (2 * PI * f * 0) = 1 /\ sin (2 * PI * f * 0) = 0.
Proof. intros. rewrite Rmult_0_r. split; [apply cos_0 | apply sin_0]. Qed.
Lemma at_1 : cos (2 * PI * 1 * 1) = 1 /\ sin (2 * PI * 1 * 1) = 0.
Proof. rewrite !Rmult_1_r. split; [apply cos_2PI | apply sin_2PI]. Qed.

Lemma tol_pos : 0 <= / 10 ^ 8.
Proof. left. apply Rinv_0_lt_compat. apply pow_lt. lra. Qed.
Lemma ex_usable3 : forall ts angles, ts <> [] -> usable 3 None (map (exRank 3) ts) angles.
Proof.
  intros ts angles H. split; [destruct ts; [congruence|discriminate]|]. split; [|discriminate].
  intros r Hr. apply in_map_iff in Hr. destruct Hr as (t & <- & _). split; [reflexivity|]. rewrite exKept. discriminate.
Qed.
Lemma ex_same : sameRun 3 None [0] [exRank 3 0; exRank 3 0] [(0, 0); (1, 0)].
Proof.
  split; [discriminate|]. split; [discriminate|]. split; [|discriminate].
  intros r [<-|[<-|[]]]; split; reflexivity.
Qed.
Lemma ex_same2 : sameRun 2 None [0] [exRank 2 0; exRank 2 0] [(PI / 2, 0); (PI / 2, 1)].
Proof.
  split; [discriminate|]. split; [discriminate|]. split.
  - intros r [<-|[<-|[]]]; split; reflexivity.
  - intros _ a [<-|[<-|[]]]; cbn [fst]; rewrite Rminus_diag_eq, Rabs_R0 by reflexivity; apply tol_pos.
Qed.

(** Value of the example: one rank, one angle. *)
Lemma ex_section3 : forall ts t0, (forall t, In t ts -> cos (2 * PI * 1 * t) = 1 /\ sin (2 * PI * 1 * t) = 0) ->
  cos (2 * PI * 1 * t0) = 1 -> sin (2 * PI * 1 * t0) = 0 ->
  crossSection 3 None exWave [t0] (map (exRank 3) ts) 1 (0, 0) = Some (PI * INR (List.length ts) ^ 2 * exp (t0 ^ 2)).
Proof.
  intros ts t0 H Hc Hs. unfold crossSection. cbv zeta. rewrite exPower by assumption. rewrite exIntensity by assumption. cbn [fst snd Z.eqb Pos.eqb].
  pose proof (exp_pos (- t0 ^ 2)). destruct (Req_EM_T _ _) as [E|E]; [lra|]. f_equal.
  rewrite cos_0, sin_0. replace (exp (t0 ^ 2)) with (/ exp (- t0 ^ 2)).
  2:{ rewrite <- exp_Ropp. f_equal. ring. }
  pose proof PI_neq0. field. split; lra.
Qed.

Lemma fnorm : nfs [speedOfLight_SI] = [1].
Proof. unfold nfs. cbn [map]. f_equal. unfold speedOfLight_SI. field. Qed.

(** ** Refutations *)
Lemma order_refuted : exists w ranks ranks' f a,
  Permutation.Permutation ranks ranks' /\ usable 3 None ranks [a] /\
  exists far rcs far' rcs' x x',
    computeResults None (Ok w) ranks [f] [a] = Ok (far, rcs) /\ computeResults None (Ok w) ranks' [f] [a] = Ok (far', rcs') /\
    rcs (a, f / speedOfLight_SI) = Some x /\ rcs' (a, f / speedOfLight_SI) = Some x' /\ x <> x'.
Proof.
  exists exWave, (map (exRank 3) [0; 1]), (map (exRank 3) [1; 0]), speedOfLight_SI, (0, 0).
  split; [apply Permutation.perm_swap|]. split; [apply ex_usable3; discriminate|].
  destruct (results_value 3 None exWave (map (exRank 3) [0; 1]) [speedOfLight_SI] [(0, 0)] (ex_usable3 [0; 1] _ ltac:(discriminate))) as (far & rcs & E & V).
  destruct (results_value 3 None exWave (map (exRank 3) [1; 0]) [speedOfLight_SI] [(0, 0)] (ex_usable3 [1; 0] _ ltac:(discriminate))) as (far' & rcs' & E' & V').
  assert (F : speedOfLight_SI / speedOfLight_SI = 1) by (unfold speedOfLight_SI; field).
  rewrite fnorm in V, V'.
  destruct (V (0, 0) 1 (or_introl eq_refl) (or_introl eq_refl)) as [_ R1]. destruct (V' (0, 0) 1 (or_introl eq_refl) (or_introl eq_refl)) as [_ R2].
  change (firstTimes None (map (exRank 3) [0; 1])) with [0] in R1. change (firstTimes None (map (exRank 3) [1; 0])) with [1] in R2.
  rewrite ex_section3 in R1; [|intros t [<-|[<-|[]]]; [apply at_0|apply at_1] | apply at_0 | apply at_0].
  rewrite ex_section3 in R2; [|intros t [<-|[<-|[]]]; [apply at_1|apply at_0] | apply at_1 | apply at_1].
  rewrite F. exists far, rcs, far', rcs'. eexists. eexists. split; [exact E|]. split; [exact E'|]. split; [exact R1|]. split; [exact R2|].
  assert (C1 : timesAsked [(0, 0)] [1] (0, 0) 1 = 1%nat).
  { unfold timesAsked. cbn [count_occ]. destruct (angle_dec (0, 0) (0, 0)); [|congruence]. destruct (Req_EM_T 1 1); [reflexivity|congruence]. }
  rewrite C1. cbn [INR List.length].
  replace (0 ^ 2) with 0 by ring. rewrite exp_0. pose proof PI_RGT_0. assert (1 < exp (1 ^ 2)).
  { pose proof (exp_increasing 0 (1 ^ 2) ltac:(lra)) as X. now rewrite exp_0 in X. }
  nra.
Qed.

Lemma negative_refuted : exists w ranks f a, usable 2 None ranks [a] /\
  exists far rcs x, computeResults None (Ok w) ranks [f] [a] = Ok (far, rcs) /\ rcs (a, f / speedOfLight_SI) = Some x /\ x < 0.
Proof.
  exists exWave, [exRank 2 0], (- speedOfLight_SI), (PI / 2, 0).
  assert (U : usable 2 None [exRank 2 0] [(PI / 2, 0)]).
  { split; [discriminate|]. split.
    - intros r [<-|[]]. split; [reflexivity|]. rewrite exKept. discriminate.
    - intros _ a [<-|[]]; cbn [fst]; rewrite Rminus_diag_eq, Rabs_R0 by reflexivity; apply tol_pos. }
  split; [exact U|].
  destruct (results_value 2 None exWave _ [- speedOfLight_SI] [(PI / 2, 0)] U) as (far & rcs & E & V).
  assert (F : - speedOfLight_SI / speedOfLight_SI = -1) by (unfold speedOfLight_SI; field).
  assert (NF : nfs [- speedOfLight_SI] = [-1]) by (unfold nfs; cbn [map]; now rewrite F).
  rewrite NF in V. rewrite F.
  destruct (V (PI / 2, 0) (-1) (or_introl eq_refl) (or_introl eq_refl)) as [_ R1].
  change (firstTimes None [exRank 2 0]) with [0] in R1.
  unfold crossSection in R1. cbv zeta in R1. rewrite exPower in R1 by apply at_0.
  change [exRank 2 0] with (map (exRank 2) [0]) in R1. rewrite exIntensity in R1 by (intros t [<-|[]]; apply at_0).
  cbn [fst snd Z.eqb Pos.eqb] in R1. replace (- 0 ^ 2) with 0 in R1 by ring. rewrite exp_0 in R1. pose proof PI_RGT_0.
  destruct (Req_EM_T _ _) as [E0|E0]; [lra|]. cbn [option_map] in R1.
  exists far, rcs. eexists. split; [exact E|]. split; [exact R1|].
  assert (C1 : timesAsked [(PI / 2, 0)] [-1] (PI / 2, 0) (-1) = 1%nat).
  { unfold timesAsked. cbn [count_occ]. destruct (angle_dec _ _); [|congruence]. destruct (Req_EM_T _ _); [reflexivity|congruence]. }
  rewrite C1. cbn [INR List.length]. rewrite cos_0, sin_0, cos_PI2, sin_PI2. lra.
Qed.

(** The tool's own way of asking for angles can repeat one: start = end. *)
Lemma linspace_repeats : linspace 0 0 2 = [0; 0].
Proof. unfold linspace. cbn [seq map Nat.sub INR]. f_equal; [field|]. f_equal. field. Qed.
Lemma repeated_refuted : exists w ranks f th ph, usable 3 None ranks (angleList (linspace th th 2) (linspace ph ph 1)) /\
  exists far rcs far1 rcs1 x x1,
    computeResults None (Ok w) ranks [f] (angleList (linspace th th 2) (linspace ph ph 1)) = Ok (far, rcs) /\
    computeResults None (Ok w) ranks [f] (angleList (linspace th th 1) (linspace ph ph 1)) = Ok (far1, rcs1) /\
    rcs ((th, ph), f / speedOfLight_SI) = Some x /\ rcs1 ((th, ph), f / speedOfLight_SI) = Some x1 /\ 0 < x1 /\ x = 4 * x1.
Proof.
  exists exWave, (map (exRank 3) [0]), speedOfLight_SI, 0, 0. rewrite linspace_repeats.
  change (angleList [0; 0] (linspace 0 0 1)) with [(0, 0); (0, 0)]. change (angleList (linspace 0 0 1) (linspace 0 0 1)) with [(0, 0)].
  split; [apply ex_usable3; discriminate|].
  destruct (results_repeated 3 None exWave (map (exRank 3) [0]) [speedOfLight_SI] [(0, 0); (0, 0)] (ex_usable3 [0] _ ltac:(discriminate))) as (far & rcs & E & V).
  destruct (V (0, 0) speedOfLight_SI (or_introl eq_refl) (or_introl eq_refl)) as (far1 & rcs1 & E1 & _ & A).
  destruct (results_value 3 None exWave (map (exRank 3) [0]) [speedOfLight_SI] [(0, 0)] (ex_usable3 [0] _ ltac:(discriminate))) as (far2 & rcs2 & E2 & V2).
  pose proof (eq_trans (eq_sym E1) E2) as E3. injection E3 as <- <-.
  rewrite fnorm in V2. destruct (V2 (0, 0) 1 (or_introl eq_refl) (or_introl eq_refl)) as [_ B].
  change (firstTimes None (map (exRank 3) [0])) with [0] in B.
  rewrite ex_section3 in B; [|intros t [<-|[]]; apply at_0 | apply at_0 | apply at_0].
  assert (F : speedOfLight_SI / speedOfLight_SI = 1) by (unfold speedOfLight_SI; field).
  rewrite F in *. rewrite B in A. cbn [option_map] in A, B.
  exists far, rcs, far1, rcs1. eexists. eexists. split; [exact E|]. split; [exact E1|]. split; [exact A|]. split; [exact B|].
  assert (C1 : timesAsked [(0, 0)] [1] (0, 0) 1 = 1%nat).
  { unfold timesAsked. cbn [count_occ]. destruct (angle_dec (0, 0) (0, 0)); [|congruence]. destruct (Req_EM_T 1 1); [reflexivity|congruence]. }
  assert (C2 : timesAsked [(0, 0); (0, 0)] [speedOfLight_SI] (0, 0) speedOfLight_SI = 2%nat).
  { unfold timesAsked. cbn [count_occ]. destruct (angle_dec (0, 0) (0, 0)); [|congruence]. destruct (Req_EM_T _ _); [reflexivity|congruence]. }
  rewrite C1, C2. cbn [INR List.length]. split; [|ring].
  replace (0 ^ 2) with 0 by ring. rewrite exp_0. pose proof PI_RGT_0. lra.
Qed.

(** ** Output files *)
Lemma files_value : forall dim nf data angles a, In a angles ->
  (forall b, In b angles -> fileName b = fileName a -> b = a) ->
  writeFiles dim nf data angles (fileName a) = Some (fileRows dim nf data a).
Proof.
  intros dim nf data angles a. unfold writeFiles.
  induction angles as [|b l IH] using rev_ind; intros Ha Hu; [destruct Ha|].
  rewrite fold_left_app. cbn [fold_left].
  destruct (Z.eqb_spec (fst (fileName a)) (fst (fileName b))) as [E1|E1]; cbn [andb].
  - destruct (Z.eqb_spec (snd (fileName a)) (snd (fileName b))) as [E2|E2].
    + rewrite (Hu b); [reflexivity|apply in_or_app; right; now left|]. destruct (fileName a), (fileName b); cbn in *; congruence.
    + apply IH; [|intros; apply Hu; [apply in_or_app; now left|assumption]].
      apply in_app_or in Ha. destruct Ha as [Ha|[->|[]]]; [assumption|congruence].
  - apply IH; [|intros; apply Hu; [apply in_or_app; now left|assumption]].
    apply in_app_or in Ha. destruct Ha as [Ha|[->|[]]]; [assumption|congruence].
Qed.

Lemma label_small : forall x, 0 <= x < 1 / (2 * 10 ^ 6) -> label x = 0%Z.
Proof.
  intros x H. unfold label. destruct (base_Int_part (x * 10 ^ 6 + / 2)) as [A B].
  assert (IZR (Int_part (x * 10 ^ 6 + / 2)) < 1) by lra. assert (-1 < IZR (Int_part (x * 10 ^ 6 + / 2))) by lra.
  apply lt_IZR in H0. apply lt_IZR in H1. lia.
Qed.
Lemma files_refuted : exists a b, a <> b /\ forall dim nf data, nf <> [] ->
  writeFiles dim nf data [a; b] (fileName a) <> Some (fileRows dim nf data a) /\
  forall n rows, writeFiles dim nf data [a; b] n = Some rows -> rows = fileRows dim nf data b.
Proof.
  exists (0, 0), (0, 1 / 10 ^ 7).
  assert (N : fileName (0, 0) = (0%Z, 0%Z)) by (unfold fileName; cbn [fst snd]; rewrite label_small by lra; reflexivity).
  assert (M : fileName (0, 1 / 10 ^ 7) = (0%Z, 0%Z)) by (unfold fileName; cbn [fst snd]; rewrite !label_small by lra; reflexivity).
  split; [intros E; injection E; lra|]. intros dim nf data Hnf. unfold writeFiles. cbn [fold_left]. rewrite N, M. cbn [fst snd]. split.
  - cbn [Z.eqb andb]. destruct nf as [|f nf]; [congruence|]. unfold fileRows. cbn [map]. intros E. injection E as E _ _. cbn [fst snd] in E. lra.
  - intros n rows. destruct (_ && _)%bool; [intros E; now injection E|discriminate].
Qed.

(** ** Sweeps and rows *)
Lemma linspace_value : forall a b N, length (linspace a b N) = N /\
  ((0 < N)%nat -> nth 0 (linspace a b N) 0 = a) /\
  ((1 < N)%nat -> nth (N - 1) (linspace a b N) 0 = b) /\
  (forall i, (S i < N)%nat -> nth (S i) (linspace a b N) 0 - nth i (linspace a b N) 0 = (b - a) / INR (N - 1)).
Proof.
  intros a b N. destruct N as [|[|N]].
  - split; [reflexivity|]. split; [lia|]. split; [lia|]. intros; lia.
  - split; [reflexivity|]. split; [reflexivity|]. split; [lia|]. intros; lia.
  - set (M := S (S N)). assert (L : length (linspace a b M) = M) by (unfold linspace, M; rewrite map_length, seq_length; reflexivity).
    assert (V : forall i, (i < M)%nat -> nth i (linspace a b M) 0 = a + INR i * ((b - a) / INR (M - 1))).
    { intros i Hi. set (g := fun i => a + INR i * ((b - a) / INR (M - 1))). change (linspace a b M) with (map g (seq 0 M)).
      rewrite (nth_indep _ 0 (g 0%nat)) by (rewrite map_length, seq_length; exact Hi). rewrite map_nth, seq_nth by exact Hi. reflexivity. }
    assert (P : INR (M - 1) <> 0) by (apply not_0_INR; unfold M; lia).
    split; [exact L|]. split; [|split].
    + intros _. rewrite V by (unfold M; lia). cbn [INR]. ring.
    + intros _. rewrite V by (unfold M; lia). field. exact P.
    + intros i Hi. rewrite !V by lia. rewrite S_INR. field. exact P.
Qed.
Lemma rows_content : forall dim freqs data a i f, nth_error freqs i = Some f -> f <> 0 ->
  let lam := speedOfLight_SI / f in
  nth_error (fileRows dim (map (fun f => f / speedOfLight_SI) freqs) data a) i =
  Some (mkRow (fst a) (snd a) f (data (a, f / speedOfLight_SI)) (Some (if (dim =? 2)%Z then lam else lam * lam))).
Proof.
  intros dim freqs data a i f Hf Hz lam. unfold fileRows. rewrite map_map.
  rewrite (map_nth_error _ i freqs Hf). f_equal.
  assert (S0 : speedOfLight_SI <> 0) by (unfold speedOfLight_SI; lra).
  assert (E : rdiv speedOfLight (f / speedOfLight_SI) = Some lam).
  { unfold rdiv. destruct (Req_EM_T (f / speedOfLight_SI) 0) as [E|_].
    - exfalso. apply Hz. replace f with (f / speedOfLight_SI * speedOfLight_SI) by (field; exact S0). rewrite E. ring.
    - f_equal. unfold lam, speedOfLight. field. split; assumption. }
  rewrite E. cbn [omul]. f_equal; [field; exact S0|]. destruct (dim =? 2)%Z; reflexivity.
Qed.

Lemma label_apart : forall x y, 1 / 10 ^ 6 <= Rabs (x - y) -> label x <> label y.
Proof.
  intros x y H E. unfold label in E.
  destruct (base_Int_part (x * 10 ^ 6 + / 2)) as [A B]. destruct (base_Int_part (y * 10 ^ 6 + / 2)) as [C D].
  rewrite E in A, B. assert (K : Rabs (x - y) < 1 / 10 ^ 6); [|lra]. apply Rabs_def1; lra.
Qed.
Lemma files_apart : forall dim nf data angles a, In a angles ->
  (forall b, In b angles -> b = a \/ 1 / 10 ^ 6 <= Rabs (fst b - fst a) \/ 1 / 10 ^ 6 <= Rabs (snd b - snd a)) ->
  writeFiles dim nf data angles (fileName a) = Some (fileRows dim nf data a) /\ (forall b, In b angles -> b <> a -> fileName b <> fileName a).
Proof.
  intros dim nf data angles a Ha Hu.
  assert (K : forall b, In b angles -> b <> a -> fileName b <> fileName a).
  { intros b Hb N E. apply (f_equal fst) in E as E1. apply (f_equal snd) in E. unfold fileName in E, E1. cbn [fst snd] in E, E1.
    destruct (Hu b Hb) as [->|[L|L]]; [exact (N eq_refl)|exact (label_apart _ _ L E1)|exact (label_apart _ _ L E)]. }
  split; [|exact K]. apply files_value; [exact Ha|]. intros b Hb E.
  destruct (Hu b Hb) as [->|[L|L]]; [reflexivity| |];
    destruct (Req_dec (fst b) (fst a)) as [X|X]; destruct (Req_dec (snd b) (snd a)) as [Y|Y];
    try (destruct a as [a1 a2], b as [b1 b2]; cbn [fst snd] in *; congruence);
    exfalso; refine (K b Hb _ E); intros ->; congruence.
Qed.
Lemma apart_ex : forall b : R * R, In b [(0, 0); (0, 1)] -> b = (0, 0) \/ 1 / 10 ^ 6 <= Rabs (fst b - fst (0, 0)) \/ 1 / 10 ^ 6 <= Rabs (snd b - snd (0, 0)).
Proof.
  intros b [<-|[<-|[]]]; [left; reflexivity|right; right]. cbn [snd]. replace (1 - 0) with 1 by ring. rewrite Rabs_R1. lra.
Qed.

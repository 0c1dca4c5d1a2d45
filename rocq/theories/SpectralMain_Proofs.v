(** The action of the spectral matrix and of the estimator's matrix; the checks on the
    eigenvalues. *)
From Coq Require Import ZArith List Bool Reals Lia Lra ZifyBool.
From Verif Require Import Common Csr_Model Csr_Spec Assembly_Model Assembly_Spec Assembly_Proofs Setup_Model Spectral_Model Spectral_Spec Spectral_Proofs.
Import ListNotations.
Local Open Scope Z_scope.

(** A call: rows, field and direction of the block row and of the block column, sign. *)
Record bcall := mkB { bc_rows : list (list (Z * R)); bc_f : Z; bc_d : Z; bc_f' : Z; bc_d' : Z; bc_s : R }.

Section Sum.
Variable n : Z.
Hypothesis Hn : 0 <= n.

Definition bcall_ok (b : bcall) : Prop :=
  (forall row e, In row (bc_rows b) -> In e row -> 0 <= fst e < n) /\
  0 <= bc_f b <= 1 /\ 0 <= bc_d b <= 2 /\ 0 <= bc_f' b <= 1 /\ 0 <= bc_d' b <= 2.

Definition bmat (b : bcall) : mat := blk n (bc_rows b) (n * (3 * bc_f b + bc_d b)) (n * (3 * bc_f' b + bc_d' b)) (bc_s b).

Definition cval (x : list R) (f d : Z) (i : nat) (b : bcall) : R :=
  if (bc_f b =? f) && (bc_d b =? d)
  then (bc_s b * rsum (map (fun e => snd e * comp n 0 x (bc_f' b) (bc_d' b) (fst e)) (nth i (bc_rows b) [])))%R
  else 0%R.

Definition is_sum (M M0 : mat) (bs : list bcall) : Prop :=
  forall r c, M r c = (M0 r c + rsum (map (fun b => bmat b r c) bs))%R.

Lemma is_sum_nil : forall M, is_sum M M [].
Proof. intros M r c. unfold rsum. cbn [map fold_right]. lra. Qed.

Lemma is_sum_cons : forall M0 M1 M b bs,
  (forall r c, M1 r c = (M0 r c + bmat b r c)%R) -> is_sum M M1 bs -> is_sum M M0 (b :: bs).
Proof.
  intros M0 M1 M b bs H1 H2 r c. rewrite H2, H1. cbn [map]. change (rsum (?x :: ?l)) with (x + rsum l)%R. lra.
Qed.

Lemma is_sum_app : forall M0 M1 M bs bs', is_sum M1 M0 bs -> is_sum M M1 bs' -> is_sum M M0 (bs ++ bs').
Proof.
  intros M0 M1 M bs bs' H1 H2 r c. rewrite H2, H1, rsum_map_app. lra.
Qed.

Lemma sum_matVec : forall bs M M0 x f d i, Forall bcall_ok bs -> is_sum M M0 bs ->
  0 <= f <= 1 -> 0 <= d <= 2 -> (i < Z.to_nat n)%nat ->
  matVecRow n M x ((3 * f + d) * n + Z.of_nat i) =
  (matVecRow n M0 x ((3 * f + d) * n + Z.of_nat i) + rsum (map (cval x f d i) bs))%R.
Proof.
  induction bs as [|b bs IH]; intros M M0 x f d i Hok Hs Hf Hd Hi.
  - rewrite (matVec_plus n M0 zeroMat M).
    + rewrite matVec_zero. unfold rsum. cbn [map fold_right]. lra.
    + intros r c. rewrite (Hs r c). unfold zeroMat, rsum. cbn [map fold_right]. lra.
  - inversion Hok as [|? ? Hb Hbs]; subst.
    set (M1 := fun r c => (M0 r c + bmat b r c)%R).
    rewrite (IH M M1 x f d i Hbs); auto.
    + rewrite (matVec_plus n M0 (bmat b) M1) by reflexivity.
      cbn [map]. change (rsum (?u :: ?l)) with (u + rsum l)%R.
      assert (E : matVecRow n (bmat b) x ((3 * f + d) * n + Z.of_nat i) = cval x f d i b).
      { destruct Hb as (Hr & H1 & H2 & H3 & H4). unfold cval, bmat.
        destruct ((bc_f b =? f) && (bc_d b =? d)) eqn:Q.
        - assert (bc_f b = f /\ bc_d b = d) as [<- <-] by lia.
          now apply blk_same.
        - apply blk_other; auto. intros Q'. inversion Q'. lia. }
      rewrite E. lra.
    + intros r c. unfold M1. rewrite (Hs r c). cbn [map]. change (rsum (?u :: ?l)) with (u + rsum l)%R. lra.
Qed.

End Sum.

Section Spectral.
Variable op : opname -> list (list (Z * R)).
Variable n : Z.
Hypothesis Hn : 0 <= n.
Hypothesis Hop : ops_ok op n 0.

Definition toB (k : call) : bcall :=
  let '(o, (f, d), s) := k in
  let f0 := nth 0 f 0 in let d0 := nth 0 d 0 in
  mkB (op o) f0 d0 (if (1 <? length d)%nat then nth 1 f 0 else f0) (if (1 <? length d)%nat then nth 1 d 0 else d0) s.

Definition call_ok (k : call) : Prop :=
  let '(o, (f, d), s) := k in
  exists f0 f1, f = [f0; f1] /\ 0 <= f0 <= 1 /\ 0 <= f1 <= 1 /\
    ((exists d0, d = [d0] /\ 0 <= d0 <= 2) \/ (exists d0 d1, d = [d0; d1] /\ 0 <= d0 <= 2 /\ 0 <= d1 <= 2)).

Lemma toB_ok : forall k, call_ok k -> bcall_ok n (toB k).
Proof.
  intros [[o [f d]] s] (f0 & f1 & -> & H0 & H1 & Hd).
  assert (Hr : forall row e, In row (op o) -> In e row -> 0 <= fst e < n).
  { intros row e I1 I2. destruct (Hop o) as (_ & Hc). specialize (Hc row e I1 I2). lia. }
  destruct Hd as [(d0 & -> & Hd0)|(d0 & d1 & -> & Hd0 & Hd1)]; cbn;
    (split; [exact Hr|]); cbn; lia.
Qed.

Lemma doCall_sum : forall k M, call_ok k ->
  exists M', doCall op n M k = Ok M' /\ forall r c, M' r c = (M r c + bmat n (toB k) r c)%R.
Proof.
  intros [[o [f d]] s] M (f0 & f1 & -> & H0 & H1 & [(d0 & -> & Hd0)|(d0 & d1 & -> & Hd0 & Hd1)]).
  - apply alloc_one; auto.
  - apply alloc_two; auto.
Qed.

Lemma calls_sum : forall ks M, Forall call_ok ks ->
  exists M', foldM (doCall op n) ks M = Ok M' /\ is_sum n M' M (map toB ks).
Proof.
  induction ks as [|k ks IH]; intros M Hk.
  - exists M. split; [reflexivity|apply is_sum_nil].
  - inversion Hk; subst. destruct (doCall_sum k M) as (M1 & E1 & S1); auto.
    destruct (IH M1) as (M' & E' & S'); auto. exists M'. split.
    + cbn [foldM]. rewrite E1. exact E'.
    + cbn [map]. eapply is_sum_cons; eassumption.
Qed.

Definition inb (a m : Z) : bool := (0 <=? a) && (a <=? m).
Definition call_okb (k : call) : bool :=
  let '(o, (f, d), s) := k in
  match f, d with
  | [f0; f1], [d0] => inb f0 1 && inb f1 1 && inb d0 2
  | [f0; f1], [d0; d1] => inb f0 1 && inb f1 1 && inb d0 2 && inb d1 2
  | _, _ => false
  end.

Lemma call_okb_sound : forall k, call_okb k = true -> call_ok k.
Proof.
  intros [[o [f d]] s] Q. cbn [call_okb] in Q.
  destruct f as [|f0 [|f1 [|]]]; try discriminate.
  destruct d as [|d0 [|d1 [|]]]; try discriminate; unfold inb in Q; exists f0, f1;
    (split; [reflexivity|]); (split; [lia|]); (split; [lia|]).
  - left. exists d0. split; [reflexivity|lia].
  - right. exists d0, d1. split; [reflexivity|lia].
Qed.

Lemma forallb_ok : forall ks, forallb call_okb ks = true -> Forall call_ok ks.
Proof. intros ks Q. apply Forall_forall. intros k Ik. apply call_okb_sound. rewrite forallb_forall in Q. auto. Qed.

Lemma calls_ok : forall alpha x, 0 <= x <= 2 -> Forall call_ok (spectralCalls alpha x).
Proof.
  intros alpha x Hx. unfold spectralCalls. rewrite Forall_app. split.
  - apply forallb_ok. assert (x = 0 \/ x = 1 \/ x = 2) as [-> |[-> | ->]] by lia; reflexivity.
  - destruct (Rlt_dec 0 alpha); [|constructor].
    apply forallb_ok. assert (x = 0 \/ x = 1 \/ x = 2) as [-> |[-> | ->]] by lia; reflexivity.
Qed.

Lemma spectral_sum : forall alpha,
  exists M, spectralMatrix op n alpha = Ok M /\
    is_sum n M zeroMat (map toB (spectralCalls alpha 0 ++ spectralCalls alpha 1 ++ spectralCalls alpha 2)).
Proof.
  intros alpha. unfold spectralMatrix, dirs.
  destruct (calls_sum (spectralCalls alpha 0) zeroMat) as (M0 & E0 & S0); [apply calls_ok; lia|].
  destruct (calls_sum (spectralCalls alpha 1) M0) as (M1 & E1 & S1); [apply calls_ok; lia|].
  destruct (calls_sum (spectralCalls alpha 2) M1) as (M2 & E2 & S2); [apply calls_ok; lia|].
  exists M2. split.
  - cbn [foldM bind]. rewrite E0. cbn [bind]. rewrite E1. cbn [bind]. rewrite E2. reflexivity.
  - rewrite !map_app. eapply is_sum_app; [exact S0|]. eapply is_sum_app; eassumption.
Qed.

Lemma spectral_calls_ok : forall alpha,
  Forall (bcall_ok n) (map toB (spectralCalls alpha 0 ++ spectralCalls alpha 1 ++ spectralCalls alpha 2)).
Proof.
  intros alpha. apply Forall_map. rewrite !Forall_app.
  repeat split; (eapply Forall_impl; [apply toB_ok|apply calls_ok; lia]).
Qed.

Lemma six : forall f d, 0 <= f <= 1 -> 0 <= d <= 2 ->
  (f = 0 \/ f = 1) /\ (d = 0 \/ d = 1 \/ d = 2).
Proof. intros. lia. Qed.

Definition kval (t : opname -> list R -> Z -> Z -> nat -> R) (x : list R) (f d : Z) (i : nat) (k : call) : R :=
  let '(o, (fs, ds), s) := k in
  match fs, ds with
  | [f0; f1], [d0; d1] => if (f0 =? f) && (d0 =? d) then (s * t o x f1 d1 i)%R else 0%R
  | [f0; f1], [d0] => if (f0 =? f) && (d0 =? d) then (s * t o x f0 d0 i)%R else 0%R
  | _, _ => 0%R
  end.

Lemma kval_cval : forall x f d i ks, Forall call_ok ks ->
  rsum (map (cval n x f d i) (map toB ks)) = rsum (map (kval (Assembly_Spec.app op n 0) x f d i) ks).
Proof.
  intros x f d i ks Hk. rewrite map_map. apply rsum_ext. intros k Ik.
  rewrite Forall_forall in Hk. specialize (Hk k Ik).
  destruct k as [[o [fs ds]] s]. destruct Hk as (f0 & f1 & -> & _ & _ & [(d0 & -> & _)|(d0 & d1 & -> & _ & _)]); reflexivity.
Qed.

Lemma all_calls_ok : forall alpha, Forall call_ok (spectralCalls alpha 0 ++ spectralCalls alpha 1 ++ spectralCalls alpha 2).
Proof. intros alpha. rewrite !Forall_app. repeat split; apply calls_ok; lia. Qed.

Ltac crunch f d Hf Hd :=
  destruct (six f d Hf Hd) as [[-> | ->] [-> |[-> | ->]]];
  unfold fluxCalls, penaltyCalls, altField, E, H, ifdim, sgn, rsum; cbn -[Rplus Rmult Ropp Rminus IZR]; ring.

Lemma spectral_action : forall alpha, (0 < alpha)%R ->
  exists M, spectralMatrix op n alpha = Ok M /\
    forall x f d i, 0 <= f <= 1 -> 0 <= d <= 2 -> (i < Z.to_nat n)%nat ->
      matVecRow n M x ((3 * f + d) * n + Z.of_nat i) =
      (curl_term op 3 n 0 x f d i + jump_term op 3 n 0 OpOneNormal x f d i +
       penalty_term op 3 n 0 OpZeroNormal OpTwoNormal x f d i)%R.
Proof.
  intros alpha Ha. destruct (spectral_sum alpha) as (M & EM & SM). exists M. split; [exact EM|].
  intros x f d i Hf Hd Hi.
  rewrite (sum_matVec n Hn _ M zeroMat x f d i (spectral_calls_ok alpha) SM Hf Hd Hi), matVec_zero.
  rewrite (kval_cval x f d i _ (all_calls_ok alpha)).
  unfold spectralCalls. destruct (Rlt_dec 0 alpha) as [_|Q]; [|contradiction].
  unfold curl_term, jump_term, penalty_term.
  generalize (Assembly_Spec.app op n 0). intros t. crunch f d Hf Hd.
Qed.

Lemma spectral_noalpha : forall alpha, (alpha <= 0)%R ->
  exists M, spectralMatrix op n alpha = Ok M /\
    forall x f d i, 0 <= f <= 1 -> 0 <= d <= 2 -> (i < Z.to_nat n)%nat ->
      matVecRow n M x ((3 * f + d) * n + Z.of_nat i) =
      (curl_term op 3 n 0 x f d i + jump_term op 3 n 0 OpOneNormal x f d i)%R.
Proof.
  intros alpha Ha. destruct (spectral_sum alpha) as (M & EM & SM). exists M. split; [exact EM|].
  intros x f d i Hf Hd Hi.
  rewrite (sum_matVec n Hn _ M zeroMat x f d i (spectral_calls_ok alpha) SM Hf Hd Hi), matVec_zero.
  rewrite (kval_cval x f d i _ (all_calls_ok alpha)).
  unfold spectralCalls. destruct (Rlt_dec 0 alpha) as [Q|_]; [lra|].
  unfold curl_term, jump_term.
  generalize (Assembly_Spec.app op n 0). intros t. crunch f d Hf Hd.
Qed.

(** In lower dimensions the terms beyond the dimension vanish. *)
Lemma app_empty : forall o x f d i, nth i (op o) [] = [] -> Assembly_Spec.app op n 0 o x f d i = 0%R.
Proof. intros o x f d i Q. unfold Assembly_Spec.app. rewrite Q. reflexivity. Qed.

Lemma vacuum_rhs : forall dim x f d i, 1 <= dim <= 3 -> vacuumOps op dim -> 0 <= f <= 1 -> 0 <= d <= 2 ->
  (curl_term op 3 n 0 x f d i + jump_term op 3 n 0 OpOneNormal x f d i +
       penalty_term op 3 n 0 OpZeroNormal OpTwoNormal x f d i)%R = rhs op dim n 0 false x f d i.
Proof.
  intros dim x f d i Hdim (V1 & V2 & V3 & V4) Hf Hd.
  assert (T1 : forall g k a b, 0 <= k <= 2 -> ifdim 3 k (Assembly_Spec.app op n 0 (OpDerivative g k) x a b i) = ifdim dim k (Assembly_Spec.app op n 0 (OpDerivative g k) x a b i)).
  { intros g k a b Hk. unfold ifdim. replace (k <? 3) with true by lia.
    destruct (k <? dim) eqn:Q; [reflexivity|]. apply app_empty, V1. lia. }
  assert (T2 : forall g h k a b, 0 <= k <= 2 -> ifdim 3 k (Assembly_Spec.app op n 0 (OpOneNormal g h k) x a b i) = ifdim dim k (Assembly_Spec.app op n 0 (OpOneNormal g h k) x a b i)).
  { intros g h k a b Hk. unfold ifdim. replace (k <? 3) with true by lia.
    destruct (k <? dim) eqn:Q; [reflexivity|]. apply app_empty, V2. lia. }
  assert (T3 : forall g k k' a b, 0 <= k' <= 2 -> ifdim 3 k' (Assembly_Spec.app op n 0 (OpTwoNormal g k k') x a b i) = ifdim dim k' (Assembly_Spec.app op n 0 (OpTwoNormal g k k') x a b i)).
  { intros g k k' a b Hk. unfold ifdim. replace (k' <? 3) with true by lia.
    destruct (k' <? dim) eqn:Q; [reflexivity|]. apply app_empty, V3. right. lia. }
  assert (Hy : 0 <= (d + 1) mod 3 < 3) by (apply Z.mod_pos_bound; lia).
  assert (Hz : 0 <= (d + 2) mod 3 < 3) by (apply Z.mod_pos_bound; lia).
  unfold rhs, curl_term, jump_term, penalty_term, conductive_term.
  rewrite !T1, !T2, !T3 by lia.
  replace (if f =? 0 then (- Assembly_Spec.app op n 0 OpConductive x 0 d i)%R else 0%R) with 0%R.
  2:{ rewrite app_empty by apply V4. destruct (f =? 0); lra. }
  assert (T4 : forall u v w, 
    ifdim 3 d (ifdim dim 0 (Assembly_Spec.app op n 0 (OpTwoNormal f d 0) x f u i) +
               ifdim dim 1 (Assembly_Spec.app op n 0 (OpTwoNormal f d 1) x f v i) +
               ifdim dim 2 (Assembly_Spec.app op n 0 (OpTwoNormal f d 2) x f w i))%R =
    ifdim dim d (ifdim dim 0 (Assembly_Spec.app op n 0 (OpTwoNormal f d 0) x f u i) +
               ifdim dim 1 (Assembly_Spec.app op n 0 (OpTwoNormal f d 1) x f v i) +
               ifdim dim 2 (Assembly_Spec.app op n 0 (OpTwoNormal f d 2) x f w i))%R).
  { intros u v w. destruct (d <? dim) eqn:Q.
    - unfold ifdim at 1 5. rewrite Q. replace (d <? 3) with true by lia. reflexivity.
    - unfold ifdim at 5. rewrite Q. rewrite !app_empty by (apply V3; left; lia).
      unfold ifdim. destruct (d <? 3), (0 <? dim), (1 <? dim), (2 <? dim); lra. }
  rewrite T4. lra.
Qed.

Lemma spectral_is_evolution : forall alpha dim, (0 < alpha)%R -> 1 <= dim <= 3 -> vacuumOps op dim ->
  exists M, spectralMatrix op n alpha = Ok M /\
    forall x f d i, 0 <= f <= 1 -> 0 <= d <= 2 -> (i < Z.to_nat n)%nat -> length x = Z.to_nat (6 * n) ->
      exists m, buildGlobalOperator R Rplus Rmult 1%R (-1)%R op dim n 0 false = Ok m /\
        csr_mult_row m x ((3 * f + d) * n + Z.of_nat i) =
        Ok (matVecRow n M x ((3 * f + d) * n + Z.of_nat i)).
Proof.
  intros alpha dim Ha Hdim Hv. destruct (spectral_action alpha Ha) as (M & EM & AM).
  exists M. split; [exact EM|]. intros x f d i Hf Hd Hi Hx.
  destruct (global_action op n 0 Hn (Z.le_refl 0) Hop dim false x f d i Hdim Hf Hd Hi) as (m & Em & Am).
  { rewrite Z.add_0_r. exact Hx. }
  exists m. split; [exact Em|]. rewrite Am, AM by assumption. f_equal. symmetry. now apply vacuum_rhs.
Qed.

(** ** The estimator *)
Variable twoAlt : Z -> Z -> Z -> Z -> list (list (Z * R)).
Hypothesis Halt : forall f g d d' row e, In row (twoAlt f g d d') -> In e row -> 0 <= fst e < n.

Lemma offset_ok : forall f d, 0 <= f <= 1 -> 0 <= d <= 2 -> getOffset n f d = Ok (n * (3 * f + d)).
Proof.
  intros f d Hf Hd. destruct (six f d Hf Hd) as [[-> | ->] [-> |[-> | ->]]];
  cbn [getOffset E H Z.eqb Pos.eqb]; apply f_equal; lia.
Qed.

Lemma addBlock_sum : forall M f d f' d' s rows, 0 <= f <= 1 -> 0 <= d <= 2 -> 0 <= f' <= 1 -> 0 <= d' <= 2 ->
  addBlockAt n M f d f' d' s rows = Ok (addDense n M (n * (3 * f + d)) (n * (3 * f' + d')) s rows).
Proof. intros. unfold addBlockAt. rewrite !offset_ok by assumption. reflexivity. Qed.

Definition penB (f d : Z) : list bcall :=
  [ mkB (op (OpZeroNormal f)) f d f d 1%R;
    mkB (twoAlt f (altField f) d 0) f 0 f d (-1)%R;
    mkB (twoAlt f (altField f) d 1) f 1 f d (-1)%R;
    mkB (twoAlt f (altField f) d 2) f 2 f d (-1)%R ].
Definition fluB (f x : Z) : list bcall :=
  let sg := (if f =? H then (-1)%R else 1%R) in
  let y := (x + 1) mod 3 in
  let z := (x + 2) mod 3 in
  [ mkB (op (OpDerivative f z)) f x (altField f) y (- sg)%R;
    mkB (op (OpOneNormal f (altField f) z)) f x (altField f) y (- sg)%R;
    mkB (op (OpDerivative f y)) f x (altField f) z sg;
    mkB (op (OpOneNormal f (altField f) y)) f x (altField f) z sg ].

Lemma alt_range' : forall f, 0 <= f <= 1 -> 0 <= altField f <= 1.
Proof. intros. apply alt_range. Qed.

Lemma op_cols : forall o row e, In row (op o) -> In e row -> 0 <= fst e < n.
Proof. intros o row e I1 I2. destruct (Hop o) as (_ & Hc). specialize (Hc row e I1 I2). lia. Qed.

Lemma pen_sum : forall f d M, 0 <= f <= 1 -> 0 <= d <= 2 ->
  exists M', estimatorPenalty op n twoAlt f M d = Ok M' /\ is_sum n M' M (penB f d).
Proof.
  intros f d M Hf Hd. unfold estimatorPenalty.
  rewrite addBlock_sum by lia. cbn [bind]. rewrite addBlock_sum by lia. cbn [bind].
  rewrite addBlock_sum by lia. cbn [bind]. rewrite addBlock_sum by lia.
  eexists. split; [reflexivity|]. unfold penB.
  eapply is_sum_cons; [intros r c; apply addDense_blk|].
  eapply is_sum_cons; [intros r c; apply addDense_blk|].
  eapply is_sum_cons; [intros r c; apply addDense_blk|].
  eapply is_sum_cons; [intros r c; apply addDense_blk|]. apply is_sum_nil.
Qed.

Lemma flu_sum : forall f x M, 0 <= f <= 1 -> 0 <= x <= 2 ->
  exists M', estimatorFlux op n f M x = Ok M' /\ is_sum n M' M (fluB f x).
Proof.
  intros f x M Hf Hx. unfold estimatorFlux.
  assert (Hy : 0 <= (x + 1) mod 3 < 3) by (apply Z.mod_pos_bound; lia).
  assert (Hz : 0 <= (x + 2) mod 3 < 3) by (apply Z.mod_pos_bound; lia).
  assert (Ha : 0 <= altField f <= 1) by apply alt_range.
  rewrite addBlock_sum by lia. cbn [bind]. rewrite addBlock_sum by lia. cbn [bind].
  rewrite addBlock_sum by lia. cbn [bind]. rewrite addBlock_sum by lia.
  eexists. split; [reflexivity|]. unfold fluB.
  eapply is_sum_cons; [intros r c; apply addDense_blk|].
  eapply is_sum_cons; [intros r c; apply addDense_blk|].
  eapply is_sum_cons; [intros r c; apply addDense_blk|].
  eapply is_sum_cons; [intros r c; apply addDense_blk|]. apply is_sum_nil.
Qed.

Definition estB (f : Z) : list bcall := (penB f 0 ++ penB f 1) ++ fluB f 0 ++ fluB f 1 ++ fluB f 2.

Lemma est_field : forall f M, 0 <= f <= 1 ->
  exists M', (M <- foldM (estimatorPenalty op n twoAlt f) [0; 1] M ;; foldM (estimatorFlux op n f) dirs M) = Ok M' /\
    is_sum n M' M (estB f).
Proof.
  intros f M Hf. unfold dirs.
  destruct (pen_sum f 0 M Hf ltac:(lia)) as (M1 & E1 & S1).
  destruct (pen_sum f 1 M1 Hf ltac:(lia)) as (M2 & E2 & S2).
  destruct (flu_sum f 0 M2 Hf ltac:(lia)) as (M3 & E3 & S3).
  destruct (flu_sum f 1 M3 Hf ltac:(lia)) as (M4 & E4 & S4).
  destruct (flu_sum f 2 M4 Hf ltac:(lia)) as (M5 & E5 & S5).
  exists M5. split.
  - cbn [foldM]. rewrite E1. cbn [bind]. rewrite E2. cbn [bind]. rewrite E3. cbn [bind]. rewrite E4. cbn [bind].
    rewrite E5. reflexivity.
  - unfold estB. eapply is_sum_app; [eapply is_sum_app; eassumption|].
    eapply is_sum_app; [eassumption|]. eapply is_sum_app; eassumption.
Qed.

Lemma estB_ok : forall f, 0 <= f <= 1 -> Forall (bcall_ok n) (estB f).
Proof.
  intros f Hf. apply Forall_forall. intros b Ib.
  assert (Ha : 0 <= altField f <= 1) by apply alt_range.
  assert (Hm : forall k, 0 <= k mod 3 <= 2) by (intros k; pose proof (Z.mod_pos_bound k 3 ltac:(lia)); lia).
  assert (HP : forall d, 0 <= d <= 2 -> forall b, In b (penB f d) -> bcall_ok n b).
  { intros d Hd b' [<-|[<-|[<-|[<-|[]]]]]; (split; [first [apply op_cols|apply Halt]|]); cbn [bc_f bc_d bc_f' bc_d']; lia. }
  assert (HF : forall x, 0 <= x <= 2 -> forall b, In b (fluB f x) -> bcall_ok n b).
  { intros x Hx b' Ib'. pose proof (Hm (x + 1)). pose proof (Hm (x + 2)). unfold fluB in Ib'. cbn zeta in Ib'.
    destruct Ib' as [<-|[<-|[<-|[<-|[]]]]]; (split; [apply op_cols|]); cbn [bc_f bc_d bc_f' bc_d']; lia. }
  unfold estB in Ib. rewrite !in_app_iff in Ib.
  destruct Ib as [[Q|Q]|[Q|[Q|Q]]]; [apply (HP 0)|apply (HP 1)|apply (HF 0)|apply (HF 1)|apply (HF 2)]; auto; lia.
Qed.

Lemma estimator_action :
  exists M, estimatorMatrix op n twoAlt = Ok M /\
    forall x f d i, 0 <= f <= 1 -> 0 <= d <= 2 -> (i < Z.to_nat n)%nat ->
      matVecRow n M x ((3 * f + d) * n + Z.of_nat i) =
      (curl_term op 3 n 0 x f d i - jump_term op 3 n 0 OpOneNormal x f d i +
       (if d <? 2 then Assembly_Spec.app op n 0 (OpZeroNormal f) x f d i else 0) -
       altApp n twoAlt f 0 d x i - altApp n twoAlt f 1 d x i)%R.
Proof.
  unfold estimatorMatrix, fields.
  destruct (est_field 0 zeroMat ltac:(lia)) as (M0 & E0 & S0).
  destruct (est_field 1 M0 ltac:(lia)) as (M1 & E1 & S1).
  exists M1. split.
  { set (g := fun (M : mat) (f : Z) => M <- foldM (estimatorPenalty op n twoAlt f) [0; 1] M;; foldM (estimatorFlux op n f) dirs M) in *.
    change (g zeroMat 0 = Ok M0) in E0. change (g M0 1 = Ok M1) in E1.
    unfold E, H. cbn [foldM]. rewrite E0. cbn [bind]. rewrite E1. reflexivity. }
  intros x f d i Hf Hd Hi.
  assert (S : is_sum n M1 zeroMat (estB 0 ++ estB 1)) by (eapply is_sum_app; eassumption).
  rewrite (sum_matVec n Hn _ M1 zeroMat x f d i) with (2 := S); auto.
  2:{ rewrite Forall_app. split; apply estB_ok; lia. }
  rewrite matVec_zero.
  set (t := Assembly_Spec.app op n 0).
  set (u := fun f g d d' (x : list R) (i : nat) => rsum (map (fun e => snd e * comp n 0 x f d (fst e))%R (nth i (twoAlt f g d d') []))).
  unfold curl_term, jump_term. change (Assembly_Spec.app op n 0) with t.
  change (altApp n twoAlt f 0 d x i) with (u f (1 - f) 0 d x i). change (altApp n twoAlt f 1 d x i) with (u f (1 - f) 1 d x i).
  assert (K1 : forall o f0 d0 f1 d1 s, cval n x f d i (mkB (op o) f0 d0 f1 d1 s) = if (f0 =? f) && (d0 =? d) then (s * t o x f1 d1 i)%R else 0%R) by reflexivity.
  assert (K2 : forall g k k' f0 d0 d1 s, cval n x f d i (mkB (twoAlt f0 g k k') f0 d0 f0 d1 s) = 
     if (f0 =? f) && (d0 =? d) then (s * rsum (map (fun e => snd e * comp n 0 x f0 d1 (fst e))%R (nth i (twoAlt f0 g k k') [])))%R else 0%R) by reflexivity.
  unfold estB, penB, fluB. cbn zeta.
  cbn [List.app map]. rewrite !K1, !K2. clear K1 K2.
  change (rsum (map (fun e => snd e * comp n 0 x ?f0 ?d1 (fst e))%R (nth i (twoAlt ?f0 ?g ?d1 ?k') []))) with (u f0 g d1 k' x i).
  clearbody t u. unfold rsum.
  crunch f d Hf Hd.
Qed.

End Spectral.

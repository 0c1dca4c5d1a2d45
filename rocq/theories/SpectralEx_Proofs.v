(** Examples and counterexamples for the spectral analysis. *)
From Coq Require Import ZArith List Bool Reals Lia Lra.
From Verif Require Import Common Csr_Spec Assembly_Model Assembly_Spec Setup_Model Spectral_Model Spectral_Spec Spectral_Proofs SpectralMain_Proofs SpectralStab_Proofs.
Import ListNotations.
Local Open Scope Z_scope.

(** One dof; only one kind of form is not zero. *)
Definition only (p : opname -> bool) (o : opname) : list (list (Z * R)) := if p o then [[(0, 1%R)]] else [[]].
Lemma only_ok : forall p, ops_ok (only p) 1 0.
Proof.
  intros p o. unfold only. destruct (p o); (split; [reflexivity|]); intros row e [<-|[]] Ie; [|destruct Ie].
  destruct Ie as [<-|[]]. cbn [fst]. lia.
Qed.
Definition isZero (o : opname) : bool := match o with OpZeroNormal _ => true | _ => false end.
Definition isOne (o : opname) : bool := match o with OpOneNormal _ _ d => d <? 3 | _ => false end.
Lemma only_vacuum : forall p, (forall f d, p (OpDerivative f d) = true -> d < 3) -> (forall f g d, p (OpOneNormal f g d) = true -> d < 3) ->
  (forall f d d', p (OpTwoNormal f d d') = false) -> p OpConductive = false -> vacuumOps (only p) 3.
Proof.
  intros p H1 H2 H3 H4. assert (Z0 : forall i, nth i [([] : list (Z * R))] [] = []) by (intros [|[|i]]; reflexivity).
  unfold vacuumOps, only. split; [|split; [|split]].
  - intros f d i L. destruct (p (OpDerivative f d)) eqn:Q; [apply H1 in Q; lia|apply Z0].
  - intros f g d i L. destruct (p (OpOneNormal f g d)) eqn:Q; [apply H2 in Q; lia|apply Z0].
  - intros f d d' i _. rewrite H3. apply Z0.
  - intros i. rewrite H4. apply Z0.
Qed.

Definition unitState : list R := [1; 0; 0; 0; 0; 0]%R.
Definition unitHz : list R := [0; 0; 0; 0; 0; 1]%R.

(** Without upwinding the penalty of the absorbing boundaries is missing from the matrix. *)
Lemma alpha0_refuted : exists op n M x f d i,
  ops_ok op n 0 /\ vacuumOps op 3 /\ spectralMatrix op n 0 = Ok M /\ length x = Z.to_nat (6 * n) /\
  0 <= f <= 1 /\ 0 <= d <= 2 /\ (i < Z.to_nat n)%nat /\
  matVecRow n M x ((3 * f + d) * n + Z.of_nat i) <> rhs op 3 n 0 false x f d i.
Proof.
  destruct (spectral_noalpha (only isZero) 1 ltac:(lia) (only_ok _) 0%R ltac:(lra)) as (M & EM & AM).
  exists (only isZero), 1, M, unitState, 0, 0, 0%nat.
  split; [apply only_ok|]. split; [apply only_vacuum; cbn [isZero]; intros; try discriminate; reflexivity|].
  split; [exact EM|]. split; [reflexivity|]. split; [lia|]. split; [lia|]. split; [cbn; lia|].
  rewrite AM by (lia || (cbn; lia)). vm_compute. lra.
Qed.

Lemma estimator_refuted : exists op n twoAlt M x f d i,
  ops_ok op n 0 /\ vacuumOps op 3 /\ (forall f g d d' row e, In row (twoAlt f g d d') -> In e row -> 0 <= fst e < n) /\
  estimatorMatrix op n twoAlt = Ok M /\ length x = Z.to_nat (6 * n) /\
  0 <= f <= 1 /\ 0 <= d <= 2 /\ (i < Z.to_nat n)%nat /\
  rhs op 3 n 0 false x f d i <> 0%R /\
  matVecRow n M x ((3 * f + d) * n + Z.of_nat i) = (- rhs op 3 n 0 false x f d i)%R.
Proof.
  destruct (estimator_action (only isOne) 1 ltac:(lia) (only_ok _) (fun _ _ _ _ => []) ltac:(intros; contradiction)) as (M & EM & AM).
  exists (only isOne), 1, (fun _ _ _ _ => []), M, unitHz, 0, 0, 0%nat.
  split; [apply only_ok|]. split; [apply only_vacuum; cbn [isOne]; intros; try discriminate; try reflexivity; now apply Z.ltb_lt|].
  split; [intros; contradiction|]. split; [exact EM|]. split; [reflexivity|]. split; [lia|]. split; [lia|]. split; [cbn; lia|].
  split; [vm_compute; lra|]. rewrite AM by (lia || (cbn; lia)). vm_compute. lra.
Qed.

(** A stable system that the check rejects. *)
Definition stableA : (R * R) * (R * R) := ((-2, 1), (1, -2))%R.
Definition unstableA : (R * R) * (R * R) := ((-1, 2), (2, -1))%R.

Lemma rk4_sym : forall p q h a b,
  rk4 (app2 ((p, q), (q, p))) h [a; b] =
  (let c1 := 1 + p * h + (p * p + q * q) * h * h / 2 + (p * p * p + 3 * p * q * q) * h * h * h / 6 + (p * p * p * p + 6 * p * p * q * q + q * q * q * q) * h * h * h * h / 24 in
   let c2 := q * h + 2 * p * q * h * h / 2 + (3 * p * p * q + q * q * q) * h * h * h / 6 + (4 * p * p * p * q + 4 * p * q * q * q) * h * h * h * h / 24 in
   [c1 * a + c2 * b; c2 * a + c1 * b])%R.
Proof.
  intros. cbn [rk4 app2 axpy combine map fst snd]. cbv zeta.
  f_equal; [field|]. f_equal. field.
Qed.

Lemma false_alarm : exists A h ev,
  (exists v w, eigenpair2 A (-1) v /\ eigenpair2 A (-3) w) /\ (ev = [(-1, 0); (-3, 0)] \/ ev = [(-3, 0); (-1, 0)])%R /\ (0 < h)%R /\
  (forall a b, exists a' b', rk4 (app2 A) h [a; b] = [a'; b'] /\ a' * a' + b' * b' <= a * a + b * b)%R /\
  evaluateStability (rk4 (app2 A) h) ev = Throw.
Proof.
  exists stableA, (/ 10)%R, [(-1, 0); (-3, 0)]%R. split.
  { exists [1; 1]%R, [1; -1]%R. split; [exists 1%R, 1%R|exists 1%R, (-1)%R]; (split; [reflexivity|]); (split; [lra|]);
    unfold stableA; cbn [app2 fst snd]; f_equal; try lra; f_equal; lra. }
  split; [now left|]. split; [lra|]. split.
  - intros a b. eexists. eexists. split; [apply (rk4_sym (-2) 1)|]. cbv zeta. nra.
  - destruct (stability_check (rk4 (app2 stableA) (/ 10)) [(-1, 0); (-3, 0)]%R) as [[_ S]|[E _]].
    + cbn [map fst snd]. unfold stableA. rewrite rk4_sym. reflexivity.
    + cbn [map fst snd]. unfold stableA. rewrite rk4_sym. reflexivity.
    + exfalso. specialize (S 0%nat (-1, 0)%R eq_refl ltac:(intros Q; inversion Q; lra)).
      cbn [map fst snd] in S. unfold stableA in S. rewrite !rk4_sym in S. cbv zeta in S. unfold cmod2 in S. cbn [nth fst snd] in S. nra.
    + exact E.
Qed.

Lemma missed_instability : exists A h ev v g,
  (exists w, eigenpair2 A 1 v /\ eigenpair2 A (-3) w) /\ (ev = [(1, 0); (-3, 0)] \/ ev = [(-3, 0); (1, 0)])%R /\ (0 < h)%R /\
  rk4 (app2 A) h v = map (Rmult g) v /\ (1 < g)%R /\
  evaluateStability (rk4 (app2 A) h) ev = Ok tt.
Proof.
  exists unstableA, (/ 10)%R, [(1, 0); (-3, 0)]%R, [1; 1]%R, (1 + /10 + / 200 + / 6000 + / 240000)%R. split.
  { exists [1; -1]%R. split; [exists 1%R, 1%R|exists 1%R, (-1)%R]; (split; [reflexivity|]); (split; [lra|]);
    unfold unstableA; cbn [app2 fst snd]; f_equal; try lra; f_equal; lra. }
  split; [now left|]. split; [lra|]. split.
  { unfold unstableA. rewrite rk4_sym. cbv zeta. cbn [map]. f_equal; [field|]. f_equal. field. }
  split; [lra|].
  destruct (stability_check (rk4 (app2 unstableA) (/ 10)) [(1, 0); (-3, 0)]%R) as [[E _]|[_ S]].
  + cbn [map fst snd]. unfold unstableA. rewrite rk4_sym. reflexivity.
  + cbn [map fst snd]. unfold unstableA. rewrite rk4_sym. reflexivity.
  + exact E.
  + exfalso. apply S. intros k z Hk _. cbn [map fst snd]. unfold unstableA. rewrite !rk4_sym. cbv zeta. unfold cmod2.
    destruct k as [|[|k]]; cbn [nth_error] in Hk; [| |destruct k; discriminate]; inversion Hk; subst; cbn [nth fst snd]; nra.
Qed.

Lemma max_refuted : exists ev z, In z ev /\ (findMaxEigenvalueModulus ev < sqrt (cmod2 z))%R.
Proof.
  exists [(2, 0)]%R, (2, 0)%R. split; [now left|].
  assert (E : modulus (2, 0)%R = 2%R).
  { unfold modulus. cbn [fst snd]. replace (2 * 2 + 0 * 0)%R with (2 * 2)%R by ring. apply sqrt_square. lra. }
  unfold findMaxEigenvalueModulus. cbn [fold_left]. rewrite E. destruct (Rle_dec 2 1) as [Q|_]; [lra|].
  change (sqrt (cmod2 (2, 0)%R)) with (modulus (2, 0)%R). rewrite E. lra.
Qed.

Lemma max_ex : (forall z, In z [(/ 2, 0); (0, - / 3)]%R -> (cmod2 z <= 1)%R) /\ exists z, In z [(/ 2, 0); (0, - / 3)]%R /\ cmod2 z <> 0%R.
Proof.
  split.
  - intros z [<-|[<-|[]]]; unfold cmod2; cbn [fst snd]; lra.
  - exists (/ 2, 0)%R. split; [now left|]. unfold cmod2. cbn [fst snd]. lra.
Qed.

(** A derivative in one direction, an absorbing face and the identity as penalty, in 1D. *)
Definition lineOp (o : opname) : list (list (Z * R)) :=
  match o with
  | OpDerivative _ 0 => [[(0, (-1)%R); (1, 1%R)]; [(0, (-1)%R); (1, 1%R)]]
  | OpOneNormal _ _ 0 => [[(0, 1%R)]; [(1, (-1)%R)]]
  | OpTwoNormal _ 0 0 => [[(0, 1%R)]; [(1, 1%R)]]
  | OpZeroNormal _ => [[(0, 1%R)]; [(1, 1%R)]]
  | _ => [[]; []]
  end.
Lemma line_ops : ops_ok lineOp 2 0 /\ vacuumOps lineOp 1.
Proof.
  assert (Z0 : forall i, nth i [([] : list (Z * R)); []] [] = []) by (intros [|[|[|i]]]; reflexivity).
  split.
  - intros o. split; [destruct o as [? []| |? ? []|? [] []| | | | | | | ]; reflexivity|].
    intros row e Hr He. destruct o as [? []| |? ? []|? [] []| | | | | | | ]; cbn in Hr; destruct Hr as [<-|[<-|[]]]; cbn in He; intuition (subst; cbn; lia).
  - unfold vacuumOps. split; [|split; [|split]].
    + intros f d i L. destruct d; [lia|apply Z0|apply Z0].
    + intros f g d i L. destruct d; [lia|apply Z0|apply Z0].
    + intros f d d' i L. destruct d; [destruct d'; [lia|apply Z0|apply Z0]|apply Z0|apply Z0].
    + intros i. apply Z0.
Qed.
Lemma regular_ex : regular 3 4 4.
Proof. unfold regular. auto 10. Qed.
Lemma stab_ex : length (rk4 (app2 stableA) (/ 10) [1; 2]%R) = 2%nat /\ stayed (rk4 (app2 stableA) 0) [(-1, 0); (-3, 0)]%R.
Proof.
  split; [unfold stableA; rewrite rk4_sym; reflexivity|].
  intros k z Hk _. cbn [map fst snd]. unfold stableA. rewrite !rk4_sym. cbv zeta. unfold cmod2.
  destruct k as [|[|k]]; cbn [nth_error] in Hk; [| |destruct k; discriminate]; inversion Hk; subst; cbn [nth fst snd]; lra.
Qed.

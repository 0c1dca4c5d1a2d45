(** C79: the spectral analysis. *)
From Coq Require Import ZArith List Bool Reals.
From Verif Require Import Common Csr_Model Csr_Spec Assembly_Model Assembly_Spec Setup_Model Spectral_Model Spectral_Spec Spectral_Proofs SpectralMain_Proofs SpectralStab_Proofs SpectralEx_Proofs.
Import ListNotations.
Local Open Scope Z_scope.

(** With upwinding the matrix analysed for an element is, entry by entry of its action, the
    operator that evolves that element alone in vacuum. *)
Theorem C79_matrix_partial : forall (op : opname -> list (list (Z * R))) (n : Z) (alpha : R) (dim : Z),
  0 <= n -> ops_ok op n 0 -> (0 < alpha)%R -> 1 <= dim <= 3 -> vacuumOps op dim ->
  exists M, spectralMatrix op n alpha = Ok M /\
    forall x f d i, 0 <= f <= 1 -> 0 <= d <= 2 -> (i < Z.to_nat n)%nat -> length x = Z.to_nat (6 * n) ->
      exists m, buildGlobalOperator R Rplus Rmult 1%R (-1)%R op dim n 0 false = Ok m /\
        csr_mult_row m x ((3 * f + d) * n + Z.of_nat i) = Ok (matVecRow n M x ((3 * f + d) * n + Z.of_nat i)).
Proof. intros op n alpha dim Hn Hop. exact (spectral_is_evolution op n Hn Hop alpha dim). Qed.
Print Assumptions C79_matrix_partial.
Example C79_matrix_ex : ops_ok lineOp 2 0 /\ vacuumOps lineOp 1.
Proof. exact line_ops. Qed.

(** Without upwinding it is not: the matrix omits the penalty that absorbing boundaries keep. *)
Theorem C79_alpha0_refuted : exists op n M x f d i,
  ops_ok op n 0 /\ vacuumOps op 3 /\ spectralMatrix op n 0 = Ok M /\ length x = Z.to_nat (6 * n) /\
  0 <= f <= 1 /\ 0 <= d <= 2 /\ (i < Z.to_nat n)%nat /\
  matVecRow n M x ((3 * f + d) * n + Z.of_nat i) <> rhs op 3 n 0 false x f d i.
Proof. exact alpha0_refuted. Qed.
Print Assumptions C79_alpha0_refuted.

(** Without upwinding the matrix consists of the curl and jump terms. *)
Theorem C79_alpha0 : forall (op : opname -> list (list (Z * R))) (n : Z) (alpha : R), 0 <= n -> ops_ok op n 0 -> (alpha <= 0)%R ->
  exists M, spectralMatrix op n alpha = Ok M /\
    forall x f d i, 0 <= f <= 1 -> 0 <= d <= 2 -> (i < Z.to_nat n)%nat ->
      matVecRow n M x ((3 * f + d) * n + Z.of_nat i) =
      (curl_term op 3 n 0 x f d i + jump_term op 3 n 0 OpOneNormal x f d i)%R.
Proof. intros op n alpha Hn Hop. exact (spectral_noalpha op n Hn Hop alpha). Qed.
Print Assumptions C79_alpha0.
Example C79_alpha0_ex : ops_ok lineOp 2 0 /\ vacuumOps lineOp 1.
Proof. exact line_ops. Qed.

(** The matrix of the eigenvalue estimator: the curl is that of the evolution, the jump has the
    opposite sign, and so do the penalty terms, which are moreover those of the directions X and Y
    only and use the boundary coefficients of the other field. *)
Theorem C79_estimator : forall (op : opname -> list (list (Z * R))) (n : Z) (twoAlt : Z -> Z -> Z -> Z -> list (list (Z * R))),
  0 <= n -> ops_ok op n 0 -> (forall f g d d' row e, In row (twoAlt f g d d') -> In e row -> 0 <= fst e < n) ->
  exists M, estimatorMatrix op n twoAlt = Ok M /\
    forall x f d i, 0 <= f <= 1 -> 0 <= d <= 2 -> (i < Z.to_nat n)%nat ->
      matVecRow n M x ((3 * f + d) * n + Z.of_nat i) =
      (curl_term op 3 n 0 x f d i - jump_term op 3 n 0 OpOneNormal x f d i +
       (if d <? 2 then Assembly_Spec.app op n 0 (OpZeroNormal f) x f d i else 0) -
       altApp n twoAlt f 0 d x i - altApp n twoAlt f 1 d x i)%R.
Proof. intros op n twoAlt Hn Hop. exact (estimator_action op n Hn Hop twoAlt). Qed.
Print Assumptions C79_estimator.
Example C79_estimator_ex : ops_ok lineOp 2 0 /\ vacuumOps lineOp 1.
Proof. exact line_ops. Qed.

Theorem C79_estimator_refuted : exists op n twoAlt M x f d i,
  ops_ok op n 0 /\ vacuumOps op 3 /\ (forall f g d d' row e, In row (twoAlt f g d d') -> In e row -> 0 <= fst e < n) /\
  estimatorMatrix op n twoAlt = Ok M /\ length x = Z.to_nat (6 * n) /\
  0 <= f <= 1 /\ 0 <= d <= 2 /\ (i < Z.to_nat n)%nat /\
  rhs op 3 n 0 false x f d i <> 0%R /\
  matVecRow n M x ((3 * f + d) * n + Z.of_nat i) = (- rhs op 3 n 0 false x f d i)%R.
Proof. exact estimator_refuted. Qed.
Print Assumptions C79_estimator_refuted.

(** The analysis of a case ends normally exactly when, in every element, no non-zero component of
    the vector of eigenvalues grows in one step; otherwise it reports the error. *)
Theorem C79_check : forall (eigs : Z -> list (R * R)) (step : Z -> list R -> list R) (ne : nat),
  (forall e, length (step e (map fst (eigs e))) = length (eigs e) /\ length (step e (map snd (eigs e))) = length (eigs e)) ->
  (performSpectralAnalysis eigs step ne = Ok tt <-> forall e, 0 <= e < Z.of_nat ne -> stayed (step e) (eigs e)) /\
  (performSpectralAnalysis eigs step ne = Ok tt \/ performSpectralAnalysis eigs step ne = Throw).
Proof. exact analysis_check. Qed.
Print Assumptions C79_check.
Example C79_check_ex : length (rk4 (app2 stableA) (/ 10) [1; 2]%R) = 2%nat /\ stayed (rk4 (app2 stableA) 0) [(-1, 0); (-3, 0)]%R.
Proof. exact stab_ex. Qed.

(** That is not a stability criterion: it rejects a system whose evolution never grows ... *)
Theorem C79_rejects_stable_refuted : exists A h ev,
  (exists v w, eigenpair2 A (-1) v /\ eigenpair2 A (-3) w) /\ (ev = [(-1, 0); (-3, 0)] \/ ev = [(-3, 0); (-1, 0)])%R /\ (0 < h)%R /\
  (forall a b, exists a' b', rk4 (app2 A) h [a; b] = [a'; b'] /\ a' * a' + b' * b' <= a * a + b * b)%R /\
  evaluateStability (rk4 (app2 A) h) ev = Throw.
Proof. exact false_alarm. Qed.
Print Assumptions C79_rejects_stable_refuted.

(** ... and accepts one with a mode that grows at every step. *)
Theorem C79_accepts_unstable_refuted : exists A h ev v g,
  (exists w, eigenpair2 A 1 v /\ eigenpair2 A (-3) w) /\ (ev = [(1, 0); (-3, 0)] \/ ev = [(-3, 0); (1, 0)])%R /\ (0 < h)%R /\
  rk4 (app2 A) h v = map (Rmult g) v /\ (1 < g)%R /\
  evaluateStability (rk4 (app2 A) h) ev = Ok tt.
Proof. exact missed_instability. Qed.
Print Assumptions C79_accepts_unstable_refuted.

(** Every face of the element alone is an absorbing boundary. *)
Theorem C79_boundaries : forall dim elemType nbe, regular dim elemType nbe ->
  exists battrs conds, spectralBdrAttributes elemType nbe = Ok battrs /\ assignAttToBdrByDimForSpectral dim elemType = Ok conds /\
    length battrs = nbe /\ map fst conds = battrs /\ (forall a, In a battrs <-> 1 <= a <= Z.of_nat nbe) /\ (forall p, In p conds -> snd p = SMA).
Proof. exact spectral_bdr. Qed.
Print Assumptions C79_boundaries.
Example C79_boundaries_ex : regular 3 4 4.
Proof. exact regular_ex. Qed.

(** The material of the element plays no part: attribute 1 is analysed as vacuum and any other
    attribute reads outside the table of coefficients. *)
Theorem C79_material : forall isE dim elemType nbe att, regular dim elemType nbe ->
  spectralCoefficient isE elemType dim nbe att = if att =? 1 then Ok 1%R else UB.
Proof. exact spectral_material. Qed.
Print Assumptions C79_material.
Example C79_material_ex : regular 3 4 4.
Proof. exact regular_ex. Qed.

(** The eigenvalue of largest modulus. *)
Theorem C79_highest : forall ev,
  (forall z, In z ev -> (cmod2 z <= cmod2 (calcHighestModulus ev))%R) /\
  (In (calcHighestModulus ev) ev \/ calcHighestModulus ev = (0, 0)%R /\ forall z, In z ev -> z = (0, 0)%R).
Proof. exact highest_max. Qed.
Print Assumptions C79_highest.

Theorem C79_max_modulus : forall ev, (forall z, In z ev -> (cmod2 z <= 1)%R) ->
  (forall z, In z ev -> (sqrt (cmod2 z) <= findMaxEigenvalueModulus ev)%R) /\
  ((exists z, In z ev /\ findMaxEigenvalueModulus ev = sqrt (cmod2 z)) \/ ev = []).
Proof. exact find_max. Qed.
Print Assumptions C79_max_modulus.
Example C79_max_modulus_ex : (forall z, In z [(/ 2, 0); (0, - / 3)]%R -> (cmod2 z <= 1)%R) /\ exists z, In z [(/ 2, 0); (0, - / 3)]%R /\ cmod2 z <> 0%R.
Proof. exact max_ex. Qed.
Theorem C79_max_refuted : exists ev z, In z ev /\ (findMaxEigenvalueModulus ev < sqrt (cmod2 z))%R.
Proof. exact max_refuted. Qed.
Print Assumptions C79_max_refuted.

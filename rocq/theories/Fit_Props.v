(** Properties of the pole-residue fit (C53) and of its exactness (C74). *)
From Coq Require Import ZArith List Bool Reals Permutation.
From Coquelicot Require Import Complex.
From Verif Require Import Common Fit_Model Fit_Spec Fit_Proofs FitExact_Proofs FitFreq_Proofs FitEx_Proofs.
Import ListNotations.

(** C53: the first stable fit within the tolerance, otherwise the best stable one (the first
    of equals), otherwise the empty result. *)
Theorem C53_selection_partial : forall (calc : nat -> fitRes) (max_poles : nat) (tol : R),
  chosen calc max_poles tol (findOptimal calc max_poles tol).
Proof. exact findOptimal_chosen. Qed.
Print Assumptions C53_selection_partial.

(** C53: for numbers, the error recorded is the largest relative deviation and the flag tells
    whether every pole is left of the margin. *)
Theorem C53_quality_partial : forall (ss zs ps rs : list C), length rs = length ps -> length zs = length ss -> (forall s, In s ss -> ~ In s ps) ->
  let q := checkQuality (map Some ss) (map Some zs) (map Some ps) (map Some rs) (length ps) in
  (forall s z, In (s, z) (combine ss zs) -> (relErr ps rs s z <= f_err q)%R) /\
  (f_err q = 0%R \/ exists s z, In (s, z) (combine ss zs) /\ f_err q = relErr ps rs s z) /\
  (f_stable q = true <-> forall p, In p ps -> (fst p <= / 10 ^ 6)%R) /\
  f_poles q = map Some ps /\ f_res q = map Some rs /\ f_N q = Z.of_nat (length ps).
Proof. exact quality_true. Qed.
Print Assumptions C53_quality_partial.

(** C53 is false of a fit that is not made of numbers: it counts as stable with error 0. *)
Theorem C53_nan_refuted : exists (s z : list cx) (r : fitRes), length s = 2%nat /\
  findOptimal (fun n => checkQuality s z (repeat None n) (repeat None n) n) 4 (/ 10)%R = r /\
  f_stable r = true /\ f_err r = 0%R /\ f_poles r = [None].
Proof. exact nan_refuted. Qed.
Print Assumptions C53_nan_refuted.

(** C53: when no order is stable the result returned is flagged unstable and is empty. *)
Theorem C53_none_refuted : findOptimal unstableFit 10 1%R = noFit /\ f_stable noFit = false /\ f_poles noFit = [].
Proof. exact none_refuted. Qed.
Print Assumptions C53_none_refuted.

(** C53: a fit that grows in time is returned when its growth rate is below the margin. *)
Theorem C53_margin_refuted : exists r, findOptimal marginFit 1 1%R = r /\ f_stable r = true /\ f_poles r = [Some marginPole] /\ (0 < fst marginPole)%R.
Proof. exact margin_refuted. Qed.
Print Assumptions C53_margin_refuted.

(** C74: with exact linear algebra, the fit of order N of a sum of N simple poles sampled at
    2 N + 1 distinct frequencies or more is that sum. *)
Theorem C74_recovery : forall (solve : list (list C) -> list C -> list C) (eig : list (list C) -> list C) (freqs : list R) (ps rs : list C),
  exactSolve solve -> exactEig eig -> NoDup freqs -> (1 <= length ps)%nat -> (2 * length ps + 1 <= length freqs)%nat -> NoDup ps ->
  ~ In (RtoC 0) ps -> length rs = length ps -> (forall r, In r rs -> r <> RtoC 0) -> (forall f, In f freqs -> ~ In (sOf f) ps) ->
  let r := calcPolesAndResidues solve eig freqs (map (fun f => sumPoles ps rs (sOf f)) freqs) (length ps) in
  (exists ps' rs', f_poles r = map Some ps' /\ f_res r = map Some rs' /\ length rs' = length ps' /\ Permutation (combine ps rs) (combine ps' rs')) /\
  f_err r = 0%R /\ f_N r = Z.of_nat (length ps) /\ (f_stable r = true <-> forall p, In p ps -> (fst p <= / 10 ^ 6)%R).
Proof. exact recovered. Qed.
Print Assumptions C74_recovery.

(** C74: so the search returns a stable fit within any tolerance, of no higher order. *)
Theorem C74_search : forall (solve : list (list C) -> list C -> list C) (eig : list (list C) -> list C) (freqs : list R) (ps rs : list C) (max_poles : nat) (tol : R),
  exactSolve solve -> exactEig eig -> NoDup freqs -> (1 <= length ps <= max_poles)%nat -> (2 * length ps + 1 <= length freqs)%nat -> NoDup ps ->
  ~ In (RtoC 0) ps -> length rs = length ps -> (forall r, In r rs -> r <> RtoC 0) -> (forall p, In p ps -> (fst p < 0)%R) -> (0 < tol)%R ->
  let r := findOptimalPoles solve eig freqs (map (fun f => sumPoles ps rs (sOf f)) freqs) max_poles tol in
  f_stable r = true /\ (f_err r < tol)%R /\ (f_N r <= Z.of_nat (length ps))%Z.
Proof. exact recovered_search. Qed.
Print Assumptions C74_search.
Example C74_oracles_ex : exists solve eig, exactSolve solve /\ exactEig eig.
Proof. exact exact_exists. Qed.
Example C74_recovery_ex : NoDup exF /\ (1 <= length exPs <= 10)%nat /\ (2 * length exPs + 1 <= length exF)%nat /\ NoDup exPs /\
  ~ In (RtoC 0) exPs /\ length exRs = length exPs /\ (forall r, In r exRs -> r <> RtoC 0) /\ (forall p, In p exPs -> (fst p < 0)%R) /\
  (forall f, In f exF -> ~ In (sOf f) exPs).
Proof. exact exact_ex. Qed.

(** C74: the frequencies sampled are distinct, in geometric progression from the first to the last. *)
Theorem C74_frequencies : forall (a b : R) (n : nat), (0 < a)%R -> (a < b)%R -> (1 <= n)%nat ->
  exists l, frequencies a b (S n) = Ok l /\ length l = S n /\ nth 0 l 0%R = a /\ nth n l 0%R = b /\ NoDup l /\
    (forall i, (i < n)%nat -> (nth i l 0 < nth (S i) l 0)%R) /\
    forall i, (S i < n)%nat -> (nth (S i) l 0 * nth (S i) l 0 = nth i l 0 * nth (S (S i)) l 0)%R.
Proof. exact frequencies_geometric. Qed.
Print Assumptions C74_frequencies.
(** No point asked: undefined behaviour. *)
Theorem C74_points_refuted : forall a b, frequencies a b 0 = UB.
Proof. exact frequencies_ub. Qed.
Print Assumptions C74_points_refuted.

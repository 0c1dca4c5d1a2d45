(** C45, C46: the far-field tool. *)
From Coq Require Import ZArith List Bool Reals Permutation.
From Verif Require Import Common Rcs_Model Rcs_Spec Rcs_Proofs RcsEx_Proofs.
Import ListNotations.
Local Open Scope R_scope.

(** Every requested entry has the value of the closed formulas, times the square of
    how often it was asked for; the incident pulse is sampled at the times of the
    rank read first. *)
Theorem C45_value : forall dim maxTime w ranks freqs angles, usable dim maxTime ranks angles ->
  exists far rcs, computeResults maxTime (Ok w) ranks freqs angles = Ok (far, rcs) /\
    forall a f, In a angles -> In f (map (fun f => f / speedOfLight_SI) freqs) ->
      far (a, f) = Some (INR (timesAsked angles (map (fun f => f / speedOfLight_SI) freqs) a f) ^ 2 * radiated dim maxTime ranks f a) /\
      rcs (a, f) = option_map (fun x => INR (timesAsked angles (map (fun f => f / speedOfLight_SI) freqs) a f) ^ 2 * x)
                     (crossSection dim maxTime w (firstTimes maxTime ranks) ranks f a).
Proof. exact results_value. Qed.
Print Assumptions C45_value.

(** Never negative; missing: negative frequencies in two dimensions (refuted). *)
Theorem C45_nonnegative_partial : forall dim maxTime w ranks freqs angles, usable dim maxTime ranks angles -> (dim = 2%Z -> forall f, In f freqs -> 0 <= f) ->
  exists far rcs, computeResults maxTime (Ok w) ranks freqs angles = Ok (far, rcs) /\
    forall a f, In a angles -> In f (map (fun f => f / speedOfLight_SI) freqs) ->
      (exists x, far (a, f) = Some x /\ 0 <= x) /\ (forall x, rcs (a, f) = Some x -> 0 <= x).
Proof. exact results_nonneg. Qed.
Print Assumptions C45_nonnegative_partial.

(** The order of the ranks does not matter; missing: ranks sampled at different times
    (refuted). *)
Theorem C45_order_partial : forall dim maxTime times w ranks ranks' freqs angles, sameRun dim maxTime times ranks angles -> Permutation ranks ranks' ->
  exists far rcs far' rcs', computeResults maxTime (Ok w) ranks freqs angles = Ok (far, rcs) /\
    computeResults maxTime (Ok w) ranks' freqs angles = Ok (far', rcs') /\
    forall a f, In a angles -> In f (map (fun f => f / speedOfLight_SI) freqs) -> far (a, f) = far' (a, f) /\ rcs (a, f) = rcs' (a, f).
Proof. exact results_order. Qed.
Print Assumptions C45_order_partial.

(** Nor does the distribution of the surface points: two ranks can be replaced by one
    holding the points of both. *)
Theorem C45_distribution_partial : forall dim maxTime times w l1 r1 r2 l2 freqs angles,
  sameRun dim maxTime times (l1 ++ r1 :: r2 :: l2) angles -> map sn_t (r_snaps r1) = map sn_t (r_snaps r2) ->
  exists far rcs far' rcs', computeResults maxTime (Ok w) (l1 ++ r1 :: r2 :: l2) freqs angles = Ok (far, rcs) /\
    computeResults maxTime (Ok w) (l1 ++ join r1 r2 :: l2) freqs angles = Ok (far', rcs') /\
    forall a f, In a angles -> In f (map (fun f => f / speedOfLight_SI) freqs) -> far (a, f) = far' (a, f) /\ rcs (a, f) = rcs' (a, f).
Proof. exact results_join. Qed.
Print Assumptions C45_distribution_partial.

Example C45_hypotheses_met : sameRun 3 None [0] [exRank 3 0; exRank 3 0] [(0, 0); (1, 0)] /\
  sameRun 2 None [0] [exRank 2 0; exRank 2 0] [(PI / 2, 0); (PI / 2, 1)] /\
  crossSection 3 None exWave [0] (map (exRank 3) [0; 0]) 1 (0, 0) = Some (PI * INR 2 ^ 2 * exp (0 ^ 2)).
Proof. exact (conj ex_same (conj ex_same2 (ex_section3 [0; 0] 0 (fun t H => match H with or_introl E => eq_ind 0 (fun t => cos (2 * PI * 1 * t) = 1 /\ sin (2 * PI * 1 * t) = 0) (at_0 1) t E | or_intror (or_introl E) => eq_ind 0 (fun t => cos (2 * PI * 1 * t) = 1 /\ sin (2 * PI * 1 * t) = 0) (at_0 1) t E | or_intror (or_intror F) => False_ind _ F end) (proj1 (at_0 1)) (proj2 (at_0 1))))). Qed.

Theorem C45_order_refuted : exists w ranks ranks' f a,
  Permutation ranks ranks' /\ usable 3 None ranks [a] /\
  exists far rcs far' rcs' x x',
    computeResults None (Ok w) ranks [f] [a] = Ok (far, rcs) /\ computeResults None (Ok w) ranks' [f] [a] = Ok (far', rcs') /\
    rcs (a, f / speedOfLight_SI) = Some x /\ rcs' (a, f / speedOfLight_SI) = Some x' /\ x <> x'.
Proof. exact order_refuted. Qed.
Print Assumptions C45_order_refuted.

Theorem C45_negative_refuted : exists w ranks f a, usable 2 None ranks [a] /\
  exists far rcs x, computeResults None (Ok w) ranks [f] [a] = Ok (far, rcs) /\ rcs (a, f / speedOfLight_SI) = Some x /\ x < 0.
Proof. exact negative_refuted. Qed.
Print Assumptions C45_negative_refuted.

(** Without repetitions each entry is what asking for it alone gives. *)
Theorem C46_alone_partial : forall dim maxTime w ranks freqs angles, usable dim maxTime ranks angles -> NoDup angles -> NoDup freqs ->
  exists far rcs, computeResults maxTime (Ok w) ranks freqs angles = Ok (far, rcs) /\
    forall a f, In a angles -> In f freqs ->
      exists far1 rcs1, computeResults maxTime (Ok w) ranks [f] [a] = Ok (far1, rcs1) /\
        far (a, f / speedOfLight_SI) = far1 (a, f / speedOfLight_SI) /\ rcs (a, f / speedOfLight_SI) = rcs1 (a, f / speedOfLight_SI).
Proof. exact results_alone. Qed.
Print Assumptions C46_alone_partial.

(** In general it is multiplied by the square of how often it was asked for. *)
Theorem C46_repeated_partial : forall dim maxTime w ranks freqs angles, usable dim maxTime ranks angles ->
  exists far rcs, computeResults maxTime (Ok w) ranks freqs angles = Ok (far, rcs) /\
    forall a f, In a angles -> In f freqs ->
      exists far1 rcs1, computeResults maxTime (Ok w) ranks [f] [a] = Ok (far1, rcs1) /\
        far (a, f / speedOfLight_SI) =
          option_map (fun x => INR (timesAsked angles freqs a f) ^ 2 * x) (far1 (a, f / speedOfLight_SI)) /\
        rcs (a, f / speedOfLight_SI) =
          option_map (fun x => INR (timesAsked angles freqs a f) ^ 2 * x) (rcs1 (a, f / speedOfLight_SI)).
Proof. exact results_repeated. Qed.
Print Assumptions C46_repeated_partial.

(** Repetitions are within reach of the tool's input: equal start and end. *)
Theorem C46_repeated_refuted : exists w ranks f th ph, usable 3 None ranks (angleList (linspace th th 2) (linspace ph ph 1)) /\
  exists far rcs far1 rcs1 x x1,
    computeResults None (Ok w) ranks [f] (angleList (linspace th th 2) (linspace ph ph 1)) = Ok (far, rcs) /\
    computeResults None (Ok w) ranks [f] (angleList (linspace th th 1) (linspace ph ph 1)) = Ok (far1, rcs1) /\
    rcs ((th, ph), f / speedOfLight_SI) = Some x /\ rcs1 ((th, ph), f / speedOfLight_SI) = Some x1 /\ 0 < x1 /\ x = 4 * x1.
Proof. exact repeated_refuted. Qed.
Print Assumptions C46_repeated_refuted.

(** Each angle's file holds its rows when no other angle rounds to the same name. *)
Theorem C46_files_partial : forall dim nf data angles a, In a angles ->
  (forall b, In b angles -> fileName b = fileName a -> b = a) ->
  writeFiles dim nf data angles (fileName a) = Some (fileRows dim nf data a).
Proof. exact files_value. Qed.
Print Assumptions C46_files_partial.

Theorem C46_files_refuted : exists a b, a <> b /\ forall dim nf data, nf <> [] ->
  writeFiles dim nf data [a; b] (fileName a) <> Some (fileRows dim nf data a) /\
  forall n rows, writeFiles dim nf data [a; b] n = Some rows -> rows = fileRows dim nf data b.
Proof. exact files_refuted. Qed.
Print Assumptions C46_files_refuted.

(** A sweep of N values starts and ends at the requested limits, in equal steps. *)
Theorem C45_sweep : forall a b N, length (linspace a b N) = N /\
  ((0 < N)%nat -> nth 0 (linspace a b N) 0 = a) /\
  ((1 < N)%nat -> nth (N - 1) (linspace a b N) 0 = b) /\
  (forall i, (S i < N)%nat -> nth (S i) (linspace a b N) 0 - nth i (linspace a b N) 0 = (b - a) / INR (N - 1)).
Proof. exact linspace_value. Qed.
Print Assumptions C45_sweep.

(** Row i of a file carries the i-th requested frequency in Hz, the value stored for it
    and the wavelength (2D) or its square (3D). *)
Theorem C46_rows : forall dim freqs data a i f, nth_error freqs i = Some f -> f <> 0 ->
  let lam := speedOfLight_SI / f in
  nth_error (fileRows dim (map (fun f => f / speedOfLight_SI) freqs) data a) i =
  Some (mkRow (fst a) (snd a) f (data (a, f / speedOfLight_SI)) (Some (if (dim =? 2)%Z then lam else lam * lam))).
Proof. exact rows_content. Qed.
Print Assumptions C46_rows.

(** Angles at least 1e-6 apart in theta or in phi have files of their own. *)
Theorem C46_files_apart : forall dim nf data angles a, In a angles ->
  (forall b, In b angles -> b = a \/ 1 / 10 ^ 6 <= Rabs (fst b - fst a) \/ 1 / 10 ^ 6 <= Rabs (snd b - snd a)) ->
  writeFiles dim nf data angles (fileName a) = Some (fileRows dim nf data a) /\ (forall b, In b angles -> b <> a -> fileName b <> fileName a).
Proof. exact files_apart. Qed.
Print Assumptions C46_files_apart.
Example C46_files_apart_ex : forall b : R * R, In b [(0, 0); (0, 1)] -> b = (0, 0) \/ 1 / 10 ^ 6 <= Rabs (fst b - fst (0, 0)) \/ 1 / 10 ^ 6 <= Rabs (snd b - snd (0, 0)).
Proof. exact apart_ex. Qed.

(** C117: the impedance of a conducting layer. *)
From Coq Require Import ZArith List Bool Reals.
From Coquelicot Require Import Complex.
From Verif Require Import Common Fit_Model Slab_Model Slab_Spec Slab_Proofs SlabEx_Proofs.
Import ListNotations.
Local Open Scope R_scope.

(** At a positive frequency the value is the ratio of the electric to the magnetic field on the near side, for
    all fields in a slab of the material of the first layer that have no magnetic field on the far side,
    and its resistance is not negative. *)
Theorem C117_slab_partial : forall l ls freqs zs k z E H, usable l -> 0 < total (map sl_width (l :: ls)) ->
  generateTarget (l :: ls) freqs = Ok zs -> (k < length freqs)%nat -> 0 < nth k freqs 0 -> nth k zs None = Some z ->
  slabFields (vacuumEps * sl_eps l) (vacuumMu * sl_mu l) (sl_sigma l) (2 * PI * nth k freqs 0) (total (map sl_width (l :: ls))) E H ->
  E 0 = Cmult z (H 0) /\ 0 <= fst z.
Proof. exact target_slab. Qed.
Print Assumptions C117_slab_partial.

(** There are such fields. *)
Theorem C117_fields : forall eps mu sigma w d, 0 < eps -> 0 < mu -> 0 < sigma -> 0 < w -> 0 < d ->
  exists E H, slabFields eps mu sigma w d E H /\ H 0 <> RtoC 0.
Proof. exact fields_exist. Qed.
Print Assumptions C117_fields.

(** A conducting layer has a value at every positive frequency, and its resistance is positive. *)
Theorem C117_conducting : forall l ls freqs zs k, usable l -> 0 < sl_sigma l -> 0 < total (map sl_width (l :: ls)) ->
  generateTarget (l :: ls) freqs = Ok zs -> (k < length freqs)%nat -> 0 < nth k freqs 0 ->
  exists z, nth k zs None = Some z /\ 0 < fst z.
Proof. exact target_lossy. Qed.
Print Assumptions C117_conducting.

Example C117_copper_example : usable copper /\ 0 < sl_sigma copper /\ 0 < total (map sl_width [copper]).
Proof. exact ex_copper. Qed.

(** One value for each frequency; without layers the behaviour is undefined. *)
Theorem C117_outcome : forall layers freqs,
  (layers = [] /\ generateTarget layers freqs = UB) \/ (exists zs, generateTarget layers freqs = Ok zs /\ length zs = length freqs).
Proof. exact target_outcome. Qed.
Print Assumptions C117_outcome.

(** The material of the layers behind the first one has no effect. *)
Theorem C117_layers_refuted : exists freqs, freqs = [10 ^ 9] /\ generateTarget [carbon 1; copper] freqs = generateTarget [carbon 1; carbon 1] freqs /\ copper <> carbon 1.
Proof. exact layers_refuted. Qed.
Print Assumptions C117_layers_refuted.

(** A layer without losses has frequencies without a value, and no layer has one at frequency zero. *)
Theorem C117_value_refuted :
  (~ forall l freqs zs k, usable l -> 0 < sl_width l -> generateTarget [l] freqs = Ok zs -> (k < length freqs)%nat -> 0 < nth k freqs 0 -> nth k zs None <> None) /\
  (forall eps mu sigma d, impedance eps mu sigma d 0 = None).
Proof. exact (conj values_refuted zero_frequency). Qed.
Print Assumptions C117_value_refuted.

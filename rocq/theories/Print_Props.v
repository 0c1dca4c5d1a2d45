(** C115: the numbers in the text files of a run. *)
From Coq Require Import ZArith List Reals.
From Verif Require Import Common Rcs_Model Far_Model Print_Model Print_Spec Print_Proofs PrintEx_Proofs.
Import ListNotations.
Local Open Scope R_scope.

(** The time of a snapshot and every entry of a probe table is written as the closest number of six
    digits, an entry of a reduced-order snapshot as the closest number of 17 digits. *)
Theorem C115_digits : forall x, closest 6 x (timeText x) /\ closest 6 x (tableText x) /\ closest 17 x (morText x).
Proof. exact (fun x => conj (time_closest x) (conj (table_closest x) (mor_closest x))). Qed.
Print Assumptions C115_digits.

(** A reduced-order snapshot read back gives every double of the run exactly. *)
Theorem C115_mor_exact : forall x, isDouble x -> stod (morText x) = x.
Proof. exact mor_exact. Qed.
Print Assumptions C115_mor_exact.

Example C115_back_example : isDouble (1 + / 4503599627370496) /\ stod (morText (1 + / 4503599627370496)) = 1 + / 4503599627370496 /\ getTime t2 <> t2.
Proof. exact ex_back. Qed.

(** Table entries are right to five parts in a million. *)
Theorem C115_table_error : forall x, Rabs (tableText x - x) <= 5 / 10 ^ 6 * Rabs x.
Proof. exact table_error. Qed.
Print Assumptions C115_table_error.

(** The far-field tool reads the time of a snapshot to 5.1 parts in a million ... *)
Theorem C115_time_error : forall t, plainTime t -> Rabs (getTime t - t) <= 51 / 10 ^ 7 * Rabs t.
Proof. exact time_error. Qed.
Print Assumptions C115_time_error.
(** ... never in the wrong order ... *)
Theorem C115_time_order : forall x y, x <= y -> getTime x <= getTime y.
Proof. exact time_order. Qed.
Print Assumptions C115_time_order.
(** ... and apart from each other when they are further apart than that. *)
Theorem C115_time_distinct : forall x y, plainTime x -> plainTime y -> 102 / 10 ^ 7 * Rmax (Rabs x) (Rabs y) < y - x -> getTime x < getTime y.
Proof. exact time_distinct. Qed.
Print Assumptions C115_time_distinct.

Example C115_times_example : plainTime 0 /\ plainTime t1 /\ plainTime 2048 /\ getTime 0 < getTime t1 < getTime 2048.
Proof. exact ex_times. Qed.

(** Times are not read back as they were, and snapshots with different times can be read with one. *)
Theorem C115_times_refuted : ~ (forall t, isDouble t -> getTime t = t) /\
  ~ (forall a b, isDouble a -> isDouble b -> 0 < a -> a + / 10 ^ 4 < b -> getTime a < getTime b).
Proof. exact times_refuted. Qed.
Print Assumptions C115_times_refuted.

(** The effect on the spectrum of a field: its error is at most 2 pi f times 5.1e-6 times the mean of
    |value * time|. *)
Theorem C115_spectrum : forall snaps f c v, (forall s, In s snaps -> plainTime (sn_t s)) ->
  let bound := 2 * PI * Rabs f * (51 / 10 ^ 7) * mean (map (fun s => Rabs (sn_v s c v) * Rabs (sn_t s)) snaps) in
  Rabs (fst (freqField (map readSnap snaps) f c v) - fst (freqField snaps f c v)) <= bound /\
  Rabs (snd (freqField (map readSnap snaps) f c v) - snd (freqField snaps f c v)) <= bound.
Proof. exact spectrum_error. Qed.
Print Assumptions C115_spectrum.

Example C115_spectrum_example : exists snaps, (forall s, In s snaps -> plainTime (sn_t s)) /\ map readSnap snaps <> snaps.
Proof. exact ex_spectrum. Qed.

(** The position of a probe is written to half a millionth of the unit of length of the mesh ... *)
Theorem C115_position_error : forall x, Rabs (positionText x - x) <= 5 / 10 ^ 7.
Proof. exact position_error. Qed.
Print Assumptions C115_position_error.
(** ... so that probes at different positions can have the same head. *)
Theorem C115_position_refuted : ~ forall a b, isDouble a -> isDouble b -> a <> b -> positionText a <> positionText b.
Proof. exact position_lost. Qed.
Print Assumptions C115_position_refuted.

(** C66: the Fourier transform of the surface data does not depend on the number of
    threads nor on how they interleave. *)
From Coq Require Import List Arith Reals ZArith.
From Verif Require Import Common Rcs_Model Dft_Model Dft_Proofs DftRcs_Proofs.
Import ListNotations.

(** For any scalars and any addition (rounded or not): each entry is the terms of the
    snapshots added in order, whatever the threads, the division of the frequencies
    among them and the interleaving of their loads and stores. *)
Theorem C66_schedule_independent : forall (A : Type) (add : A -> A -> A) (term : nat -> nat -> nat -> nat -> A)
    nThr nSnap nFreq nDofs owner zero c,
  (forall fi, fi < nFreq -> owner fi < nThr) ->
  steps add (initial term nThr nFreq nSnap nDofs owner zero) c -> finished c ->
  forall comp fi v, comp < 6 -> fi < nFreq -> v < nDofs ->
    cf_mem c (comp, fi, v) = fold_left add (map (fun t => term t comp fi v) (seq 0 nSnap)) zero.
Proof. exact (fun A add term nThr nSnap nFreq nDofs owner => static_serial A add term owner nThr nSnap nFreq nDofs). Qed.
Print Assumptions C66_schedule_independent.

(** The same, against the serial loops of the far-field computation. *)
Theorem C66_equals_serial : forall snaps nf nDofs nThr owner c,
  (forall fi, fi < List.length nf -> owner fi < nThr) ->
  steps cadd (initial (rcsTerm snaps nf) nThr (List.length nf) (List.length snaps) nDofs owner c0) c -> finished c ->
  forall comp fi v, comp < 6 -> fi < List.length nf -> v < nDofs ->
    cf_mem c (comp, fi, v) = dftLoops snaps nf nDofs comp fi v.
Proof. exact parallel_rcs. Qed.
Print Assumptions C66_equals_serial.

(** Every region can be run to its end, so the theorems speak about something. *)
Example C66_can_finish : forall (A : Type) (add : A -> A -> A) (term : nat -> nat -> nat -> nat -> A) nThr nSnap nFreq nDofs owner zero,
  exists c, steps add (initial term nThr nFreq nSnap nDofs owner zero) c /\ finished c.
Proof. exact (fun A add term nThr nSnap nFreq nDofs owner zero => can_finish A add (initial term nThr nFreq nSnap nDofs owner zero)). Qed.

(** The fixed division matters: if frequencies could move between threads from one
    snapshot to the next, an addition could be lost. *)
Example C66_fixed_division_needed :
  exists c, steps Z.add (mkConf (map (fun tid => mkThread (program (fun _ _ _ _ => 1%Z) 2 1 (fun t => if Nat.eqb t tid then [0] else [])) 0%Z) [0; 1])
                           (fun _ => 0%Z)) c /\
    finished c /\ cf_mem c (0, 0, 0) = 1%Z.
Proof. exact moving_share_loses. Qed.

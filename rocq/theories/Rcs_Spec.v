(** What the far-field tool should compute, as closed formulas. *)
From Coq Require Import ZArith List Bool Reals Lra.
From Verif Require Import Common Rcs_Model.
Import ListNotations.
Local Open Scope R_scope.

(** Complex arithmetic needed beyond the type of pairs. *)
Definition cmul (a b : C) : C := (fst a * fst b - snd a * snd b, fst a * snd b + snd a * fst b).
Definition cplus (a b : C) : C := (fst a + fst b, snd a + snd b).
Definition cminus (a b : C) : C := (fst a - fst b, snd a - snd b).
Definition creal (x : R) (a : C) : C := (x * fst a, x * snd a).
Definition cmod2 (a : C) : R := fst a ^ 2 + snd a ^ 2.
Fixpoint csum (l : list C) : C := match l with [] => (0, 0) | a :: m => cplus a (csum m) end.
(** exp(-i x). *)
Definition cis_neg (x : R) : C := (cos x, - sin x).

(** The mean over the snapshots of the value times exp(-2 pi i f t). *)
Definition spectrum (snaps : list snap) (f : R) (c v : nat) : C :=
  creal (/ INR (List.length snaps)) (csum (map (fun s => creal (sn_v s c v) (cis_neg (2 * PI * f * sn_t s))) snaps)).

(** Cross product of complex vectors. *)
Definition cross (u w : nat -> C) (i : nat) : C :=
  match i with
  | O => cminus (cmul (u 1%nat) (w 2%nat)) (cmul (u 2%nat) (w 1%nat))
  | S O => cminus (cmul (u 2%nat) (w 0%nat)) (cmul (u 0%nat) (w 2%nat))
  | _ => cminus (cmul (u 0%nat) (w 1%nat)) (cmul (u 1%nat) (w 0%nat))
  end.
(** The surface integrals of n x H and of -n x E with the phase factor, over one
    rank's dofs. *)
Definition Nint (r : rank) (snaps : list snap) (f : R) (a : angle) (i : nat) : C :=
  csum (map (fun v => cross (fun d => r_lf r f a d v) (fun c => spectrum snaps f (3 + c) v) i) (seq 0 (r_ndofs r))).
Definition Lint (r : rank) (snaps : list snap) (f : R) (a : angle) (i : nat) : C :=
  creal (-1) (csum (map (fun v => cross (fun d => r_lf r f a d v) (fun c => spectrum snaps f c v) i) (seq 0 (r_ndofs r)))).
(** Components along the unit vectors of the angle. *)
Definition alongTheta (a : angle) (w : nat -> C) : C :=
  cplus (cplus (creal (cos (fst a) * cos (snd a)) (w 0%nat)) (creal (cos (fst a) * sin (snd a)) (w 1%nat)))
        (creal (- sin (fst a)) (w 2%nat)).
Definition alongPhi (a : angle) (w : nat -> C) : C := cplus (creal (- sin (snd a)) (w 0%nat)) (creal (cos (snd a)) (w 1%nat)).

(** The snapshots that count: those not after [maxTime]. *)
Definition before (maxTime : option R) (s : snap) : bool :=
  match maxTime with None => true | Some m => if Rle_dec (sn_t s) m then true else false end.
Definition kept (maxTime : option R) (r : rank) : list snap := filter (before maxTime) (r_snaps r).

(** |L_phi + N_theta|^2 + |L_theta - N_phi|^2 of the sums over all ranks. *)
Definition intensity (maxTime : option R) (ranks : list rank) (f : R) (a : angle) : R :=
  let tot g := csum (map g ranks) in
  let Nth := tot (fun r => alongTheta a (Nint r (kept maxTime r) f a)) in
  let Nph := tot (fun r => alongPhi a (Nint r (kept maxTime r) f a)) in
  let Lth := tot (fun r => alongTheta a (Lint r (kept maxTime r) f a)) in
  let Lph := tot (fun r => alongPhi a (Lint r (kept maxTime r) f a)) in
  cmod2 (cplus Lph Nth) + cmod2 (cminus Lth Nph).

(** The incident pulse and its power at a frequency. *)
Definition pulse (w : pwave) (t : R) : R :=
  exp (- (t - Rabs (pw_mean w)) ^ 2 / (2 * pw_spread w ^ 2)) * cos (2 * PI * pw_freq w * (t - Rabs (pw_mean w))).
Definition pulsePower (w : pwave) (times : list R) (f : R) : R :=
  cmod2 (creal (/ INR (List.length times)) (csum (map (fun t => creal (pulse w t) (cis_neg (2 * PI * f * t))) times))) / 2.

(** Scattering width in two dimensions, radar cross section in three; [None] when
    the quotient is undefined. *)
Definition crossSection (dim : Z) (maxTime : option R) (w : pwave) (times : list R) (ranks : list rank) (f : R) (a : angle) : option R :=
  let k := 2 * PI * f in
  let P := pulsePower w times f in
  let S := intensity maxTime ranks f a in
  if (dim =? 2)%Z
  then if Req_EM_T (k * P) 0 then None else Some (k / (8 * P) * S)
  else if Req_EM_T P 0 then None else Some (k ^ 2 / (8 * PI * P) * S).

(** The power sent towards the angle. *)
Definition radiated (dim : Z) (maxTime : option R) (ranks : list rank) (f : R) (a : angle) : R :=
  (2 * PI * f) ^ 2 / 32 * (if (dim =? 2)%Z then 1 else / PI ^ 2) * intensity maxTime ranks f a.

(** Readable data: same dimension everywhere, something left to transform in each
    rank, and in two dimensions every angle lies in the plane. *)
Definition usable (dim : Z) (maxTime : option R) (ranks : list rank) (angles : list angle) : Prop :=
  ranks <> [] /\ (forall r, In r ranks -> r_dim r = dim /\ kept maxTime r <> []) /\
  (dim = 2%Z -> forall a, In a angles -> Rabs (fst a - PI / 2) <= / 10 ^ 8).
(** The sampling times of the rank read first. *)
Definition firstTimes (maxTime : option R) (ranks : list rank) : list R :=
  match ranks with [] => [] | r :: _ => map sn_t (kept maxTime r) end.

(** All ranks describe the same run: same dimension, same (non-empty) sampling
    times, and in two dimensions every angle lies in the plane. *)
Definition sameRun (dim : Z) (maxTime : option R) (times : list R) (ranks : list rank) (angles : list angle) : Prop :=
  ranks <> [] /\ times <> [] /\
  (forall r, In r ranks -> r_dim r = dim /\ map sn_t (kept maxTime r) = times) /\
  (dim = 2%Z -> forall a, In a angles -> Rabs (fst a - PI / 2) <= / 10 ^ 8).

(** How often an angle or a frequency is asked for. *)
Definition timesAsked (angles : list angle) (freqs : list R) (a : angle) (f : R) : nat :=
  (count_occ angle_dec angles a * count_occ Req_EM_T freqs f)%nat.

(** One rank holding the surface points of two. *)
Definition joinSnap (n : nat) (s1 s2 : snap) : snap :=
  mkSnap (sn_t s1) (fun c v => if (v <? n)%nat then sn_v s1 c v else sn_v s2 c (v - n)%nat).
Definition join (r1 r2 : rank) : rank :=
  mkRank (r_dim r1) (r_ndofs r1 + r_ndofs r2)
    (map (fun p => joinSnap (r_ndofs r1) (fst p) (snd p)) (combine (r_snaps r1) (r_snaps r2)))
    (fun f a d v => if (v <? r_ndofs r1)%nat then r_lf r1 f a d v else r_lf r2 f a d (v - r_ndofs r1)%nat).

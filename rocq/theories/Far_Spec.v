(** What the snapshot far-field tool should compute. *)
From Coq Require Import ZArith List Bool Reals Lra Permutation.
From Verif Require Import Common Rcs_Model Rcs_Spec Merge_Model Far_Model.
Import ListNotations.
Local Open Scope R_scope.

(** The direction of observation, the scalar product and exp(i x). *)
Definition rhat (a : angle) : R * R * R := (sin (fst a) * cos (snd a), sin (fst a) * sin (snd a), cos (fst a)).
Definition inner (u v : R * R * R) : R := let '(a, b, c) := u in let '(x, y, z) := v in a * x + b * y + c * z.
Definition cis (x : R) : C := (cos x, sin x).
(** In two dimensions everything lies in the plane z = 0. *)
Definition flat (dim : Z) (v : R * R * R) : R * R * R := if (dim =? 2)%Z then let '(x, y, _) := v in (x, y, 0) else v.
Definition coordinate (v : R * R * R) (i : nat) : R := let '(x, y, z) := v in match i with O => x | S O => y | _ => z end.

(** The frequency-domain field at a surface point: the interpolated field, averaged
    over the snapshots with exp(-2 pi i f t). Components 0, 1, 2 are E and 3, 4, 5 H. *)
Definition fieldAt (snaps : list snap) (n : nat) (f : R) (c : nat) (q : spoint) : C :=
  csum (map (fun v => creal (sp_shape q v) (spectrum snaps f c v)) (seq 0 n)).
(** The surface integral of normal x field with the phase exp(i k r.x), as a
    quadrature sum; the normal points inwards. *)
Definition surfaceInt (r : frank) (f : R) (a : angle) (first i : nat) : C :=
  csum (map (fun q =>
    cmul (cis (2 * PI * f * inner (rhat a) (flat (k_dim r) (sp_x q))))
      (creal (sp_w q)
        (cross (fun d => (- coordinate (flat (k_dim r) (sp_n q)) d, 0)) (fun c => fieldAt (k_snaps r) (k_ndofs r) f (first + c) q) i)))
    (k_pts r)).
(** |L_phi + N_theta|^2 + |L_theta - N_phi|^2 with N of n x H and L of -n x E. *)
Definition farIntensity (r : frank) (f : R) (a : angle) : R :=
  let N := surfaceInt r f a 3 in
  let L := fun i => creal (-1) (surfaceInt r f a 0 i) in
  cmod2 (cplus (alongPhi a L) (alongTheta a N)) + cmod2 (cminus (alongTheta a L) (alongPhi a N)).
(** The power radiated towards the angle, per unit solid angle. *)
Definition farPower (r : frank) (f : R) (a : angle) : R := (2 * PI * f) ^ 2 / (32 * PI ^ 2) * farIntensity r f a.

(** A rank directory the tool can work on, with no surface point at the origin. *)
Definition readable (r : frank) : Prop := (k_dim r = 2 \/ k_dim r = 3)%Z /\ (201 <= k_maxAttr r)%Z /\ k_snaps r <> [].
Definition offOrigin (r : frank) : Prop := forall q, In q (k_pts r) -> flat (k_dim r) (sp_x q) <> (0, 0, 0).

(** The same surface in another place. *)
Definition plus3 (u v : R * R * R) : R * R * R := let '(a, b, c) := u in let '(x, y, z) := v in (a + x, b + y, c + z).
Definition moved (d : R * R * R) (r : frank) : frank :=
  mkFrank (k_dim r) (k_maxAttr r) (k_ndofs r) (k_snaps r) (map (fun q => mkPoint (plus3 (sp_x q) d) (sp_w q) (sp_n q) (sp_shape q)) (k_pts r)).
(** Other snapshots of the same surface. *)
Definition withSnaps (r : frank) (l : list snap) : frank := mkFrank (k_dim r) (k_maxAttr r) (k_ndofs r) l (k_pts r).
(** The surface counted twice: two ranks with the same points in one. *)
Definition twice (r : frank) : frank := mkFrank (k_dim r) (k_maxAttr r) (k_ndofs r) (k_snaps r) (k_pts r ++ k_pts r).

(** The incident wave of a source as seen at the origin: a Gaussian around the time
    minus mean.propagation, times the carrier if there is one. *)
Definition meanAlong (s : srcJson) : option R := option_map (fun m => inner m (j_prop s) / sqrt (inner (j_prop s) (j_prop s))) (j_mean s).
Definition incident (spread m : R) (carrier : option R) (t : R) : R :=
  exp (- (t + m) ^ 2 / (2 * spread ^ 2)) * (match carrier with None => 1 | Some f => cos (2 * PI * (f / 299792458) * (t + m)) end).
(** Power at a frequency of a signal sampled at some times. *)
Definition powerOf (g : R -> R) (times : list R) (f : R) : R :=
  cmod2 (creal (/ INR (List.length times)) (csum (map (fun t => creal (g t) (cis_neg (2 * PI * f * t))) times))) / 2.

(** The surface data the other tool reads for the same rank: same snapshots, and the
    forms of the same quadrature points. *)
Definition asSurface (r : frank) : rank :=
  mkRank (k_dim r) (k_ndofs r) (k_snaps r)
    (fun f a d v => csum (map (fun q =>
       creal (- coordinate (flat (k_dim r) (sp_n q)) d * sp_w q * sp_shape q v) (cis (2 * PI * f * inner (rhat a) (flat (k_dim r) (sp_x q))))) (k_pts r))).

(** Sum of real numbers. *)
Definition total (l : list R) : R := fold_right Rplus 0 l.
(** The wavelength of a frequency in Hz, in metres, and the normalisation column. *)
Definition normCol (dim : Z) (f : R) : R := if (dim =? 2)%Z then 299792458 / f else (299792458 / f) ^ 2.

(** The wave the tool assumes: a Gaussian around the time |mean.propagation|, without
    carrier; and what it divides by, up to the number of snapshots. *)
Definition toolPulse (spread m t : R) : R := exp (- (t - Rabs m) ^ 2 / (2 * spread ^ 2)).
Definition toolPower (s : srcJson) (m : R) (r : frank) (f : R) : R := powerOf (toolPulse (j_spread s) m) (map sn_t (k_snaps r)) f.
(** The cross section the tool reports for one rank. *)
Definition toolSection (s : srcJson) (m : R) (r : frank) (f : R) (a : angle) : R :=
  4 * PI / (INR (length (k_snaps r)) * toolPower s m r f) * farPower r f a.
(** In two dimensions theta must be exactly pi/2. *)
Definition anglesFit (r : frank) (angles : list angle) : Prop := k_dim r = 2%Z -> forall a, In a angles -> fst a = PI / 2.
(** Every snapshot taken twice. *)
Definition sampledTwice (r : frank) : frank := withSnaps r (k_snaps r ++ k_snaps r).
(** No two angles share a result file (see Rcs_Props, C46_files_apart). *)
Definition ownFiles (angles : list angle) : Prop := forall a b, In a angles -> In b angles -> fileName b = fileName a -> b = a.
(** The cross section: 4 pi times the radiated power over the incident power. *)
Definition trueSection (s : srcJson) (m : R) (r : frank) (f : R) (a : angle) : R :=
  4 * PI * farPower r f a / powerOf (incident (j_spread s) m (j_freq s)) (map sn_t (k_snaps r)) f.
(** The same rank with its snapshots in another order. *)
Definition reordered (r r' : frank) : Prop := exists l, Permutation (k_snaps r) l /\ r' = withSnaps r l.

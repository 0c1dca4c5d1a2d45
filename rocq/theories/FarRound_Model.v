(** The argument of std::acos in the phase of the far-field tools, in IEEE binary64
    arithmetic (components/FarField.cpp 11-37). *)
From Coq Require Import ZArith List Bool.
From Flocq Require Import Core.Core IEEE754.BinarySingleNaN.
From Verif Require Import Common Time_Model.
Import ListNotations.

Section Ieee.
Let Hprec : FLX.Prec_gt_0 53 := eq_refl _.
Let Hmax : Prec_lt_emax 53 1024 := eq_refl _.
(** Division, FarField.cpp 30 and 36. *)
Definition ddiv (x y : double) : double := @Bdiv 53 1024 Hprec Hmax mode_NE x y.
(** Square root in Norml2, FarField.cpp 30 and 36. *)
Definition dsqrt (x : double) : double := @Bsqrt 53 1024 Hprec Hmax mode_NE x.
(** Absolute value in Norml2, FarField.cpp 30 and 36. *)
Definition dabs (x : double) : double := @Babs 53 1024 x.
(** The constant 1, FarField.cpp 30 and 36. *)
Definition done : double := @B754_finite 53 1024 false 4503599627370496 (-52) (eq_refl _).
(** The constant -1, FarField.cpp 30 and 36. *)
Definition dmone : double := @B754_finite 53 1024 true 4503599627370496 (-52) (eq_refl _).
(** obs_radius, FarField.h 26: 8589934592000000 * 2^-33. *)
Definition dradius : double := @B754_finite 53 1024 false 8589934592000000 (-33) (eq_refl _).

(** Vector::Norml2 of MFEM, called in FarField.cpp 30 and 36 and not part of /repo: taken to
    scale by the largest entry met so far, or to be the plain root of the sum of squares. *)
Definition normScaled (v : list double) : double :=
  let '(scale, sum) := fold_left (fun ss x =>
    let '(scale, sum) := ss in
    let a := dabs x in
    if dlt dzero a then
      if dle scale a then let q := ddiv scale a in (a, dadd done (dmul sum (dmul q q)))
      else let q := ddiv a scale in (scale, dadd sum (dmul q q))
    else ss) v (dzero, dzero) in
  dmul scale (dsqrt sum).
(** The other reading of Norml2 in FarField.cpp 30 and 36. *)
Definition normPlain (v : list double) : double := dsqrt (fold_left (fun s x => dadd s (dmul x x)) v dzero).

(** buildObsPointVec, FarField.cpp 11-21, from the sines and cosines returned by libm. *)
Definition obsPointF (st ct sp cp : double) : list double :=
  [dmul (dmul dradius st) cp; dmul (dmul dradius st) sp; dmul dradius ct].
(** The argument of std::acos, FarField.cpp 36, evaluated from left to right without
    fused operations. *)
Definition acosArg (norm : list double -> double) (vec p : list double) : double :=
  match vec, p with
  | [v0; v1; v2], [p0; p1; p2] => ddiv (dadd (dadd (dmul v0 p0) (dmul v1 p1)) (dmul v2 p2)) (dmul (norm vec) (norm p))
  | _, _ => dzero
  end.
(** std::acos returns NaN unless its argument is in [-1, 1]. FarField.cpp 36. *)
Definition acosIsNaN (x : double) : bool := negb (dle dmone x && dle x done).
End Ieee.

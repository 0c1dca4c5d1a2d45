(** Model of the numbers in the text files of a run: the streams of solver/ProbesManager.cpp and the
    reading of a snapshot time in components/FarField.cpp.  A text is represented by the decimal number it
    denotes; infinities and NaN are not modelled. *)
From Coq Require Import ZArith List Bool Reals.
From Flocq Require Import Core.Core.
From Verif Require Import Common Rcs_Model Far_Model.
Import ListNotations.
Local Open Scope R_scope.

(** The base of the printed numbers.  ProbesManager.cpp 213, 368, 404, 453, 495, 643. *)
Definition radix10 : radix := Build_radix 10 (refl_equal true).
(** ofstream << double without manipulators or with a precision: that many significant digits, to nearest
    even (the C library, default rounding).  ProbesManager.cpp 453, 495. *)
Definition significant (digits : Z) (x : R) : R := round radix10 (FLX_exp digits) ZnearestE x.
(** std::scientific with std::setprecision(p): one digit before and p after the point.
    ProbesManager.cpp 368, 404, 643. *)
Definition scientific (p : Z) (x : R) : R := significant (p + 1) x.
(** std::to_string(double): six digits after the point.  ProbesManager.cpp 214, 252. *)
Definition fixedPoint (x : R) : R := round radix10 (FIX_exp (-6)) ZnearestE x.

(** time.txt of a near-field or domain snapshot, ProbesManager.cpp 450-454 and 494-495: the precision of a
    new stream is six. *)
Definition timeText (t : R) : R := significant 6 t.
(** The rows of point and field probe tables, ProbesManager.cpp 368-369 and 404-407. *)
Definition tableText (x : R) : R := scientific 5 x.
(** The position in the head of these tables, ProbesManager.cpp 214 and 252. *)
Definition positionText (x : R) : R := fixedPoint x.
(** Times and values of reduced-order snapshots, ProbesManager.cpp 643-648. *)
Definition morText (x : R) : R := scientific 16 x.

(** std::stod: the nearest double, FarField.cpp 202 (no overflow). *)
Definition stod (v : R) : R := round radix2 (SpecFloat.fexp 53 1024) ZnearestE v.
(** getTime, FarField.cpp 194-203, of a time.txt written by the probe. *)
Definition getTime (t : R) : R := stod (timeText t).
(** The snapshots as calculateFreqFields sees them, FarField.cpp 322-336. *)
Definition readSnap (s : snap) : snap := mkSnap (getTime (sn_t s)) (sn_v s).

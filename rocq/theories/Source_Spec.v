(** What excitations should be, stated without the model's helpers. *)
From Coq Require Import ZArith List Bool Reals.
From Verif Require Import Common.
Import ListNotations.
Local Open Scope R_scope.

(** ** Fields of position and time *)
Definition vfield := Z -> Z -> R -> list R -> R.
(** Maxwell's equations without charges or currents, with unit speed of light, at one time
    and point: there are time derivatives [T] and partial derivatives [G], and they satisfy
    dE/dt = curl H, dH/dt = - curl E, div E = div H = 0. *)
Definition maxwellAt (F : vfield) (t : R) (p : list R) : Prop :=
  exists (T : Z -> Z -> R) (G : Z -> Z -> Z -> R),
    (forall f d, (0 <= f <= 1)%Z -> (0 <= d <= 2)%Z -> derivable_pt_lim (fun s => F f d s p) t (T f d)) /\
    (forall f d k, (0 <= f <= 1)%Z -> (0 <= d <= 2)%Z -> (0 <= k <= 2)%Z ->
       derivable_pt_lim (fun s => F f d t (upd p (Z.to_nat k) s)) (nth (Z.to_nat k) p 0) (G f d k)) /\
    (T 0%Z 0%Z = G 1%Z 2%Z 1%Z - G 1%Z 1%Z 2%Z /\ T 0%Z 1%Z = G 1%Z 0%Z 2%Z - G 1%Z 2%Z 0%Z /\ T 0%Z 2%Z = G 1%Z 1%Z 0%Z - G 1%Z 0%Z 1%Z) /\
    (T 1%Z 0%Z = - (G 0%Z 2%Z 1%Z - G 0%Z 1%Z 2%Z) /\ T 1%Z 1%Z = - (G 0%Z 0%Z 2%Z - G 0%Z 2%Z 0%Z) /\ T 1%Z 2%Z = - (G 0%Z 1%Z 0%Z - G 0%Z 0%Z 1%Z)) /\
    (forall f, (0 <= f <= 1)%Z -> G f 0%Z 0%Z + G f 1%Z 1%Z + G f 2%Z 2%Z = 0).
Definition dot3 (a b : list R) : R := nth 0 a 0 * nth 0 b 0 + nth 1 a 0 * nth 1 b 0 + nth 2 a 0 * nth 2 b 0.
Definition cross3 (a b : list R) : list R :=
  [nth 1 a 0 * nth 2 b 0 - nth 2 a 0 * nth 1 b 0; nth 2 a 0 * nth 0 b 0 - nth 0 a 0 * nth 2 b 0; nth 0 a 0 * nth 1 b 0 - nth 1 a 0 * nth 0 b 0].
(** The vector a field takes. *)
Definition vec (F : vfield) (f : Z) (t : R) (p : list R) : list R := [F f 0%Z t p; F f 1%Z t p; F f 2%Z t p].
(** The point moved by [s] along [k]. *)
Definition move (p k : list R) (s : R) : list R := [nth 0 p 0 + s * nth 0 k 0; nth 1 p 0 + s * nth 1 k 0; nth 2 p 0 + s * nth 2 k 0].

(** ** Superposition *)
Definition total {A} (h : A -> R) (l : list A) : R := fold_right (fun a s => h a + s) 0 l.
(** An initial field as the user means it: a profile around a centre times a polarisation. *)
Record ideal := mkIdeal { id_ft : Z; id_pol : list R; id_center : list R; id_phi : list R -> R }.
Definition idealAt (a : ideal) (p : list R) (f d : Z) : R :=
  if (f =? id_ft a)%Z then id_phi a (map (fun q => fst q - snd q) (combine p (id_center a))) * nth (Z.to_nat d) (id_pol a) 0 else 0.
Definition optAt (o : option ideal) (p : list R) (f d : Z) : R := match o with Some a => idealAt a p f d | None => 0 end.

(** ** Injection around a surface *)
(** The dofs around a surface: [el i e] says that dof [i] belongs to element [e]; [tf] and
    [sf] list the elements of the two sides.  A two-sided split puts every element on one
    side; the incident field enters with half its value on the total side and minus half on
    the scattered side.  With no scattered side it enters whole. *)
Definition weight (el : Z -> Z -> Prop) (tf : list Z) (sf : option (list Z)) (i : Z) (w : R) : Prop :=
  match sf with
  | None => w = 1
  | Some l => exists e, el i e /\ ((In e tf /\ ~ In e l /\ w = / 2) \/ (In e l /\ ~ In e tf /\ w = - / 2))
  end.
(** The incident field of a source that has one. *)
Definition optInc (o : option (list R -> Z -> Z -> R)) (p : list R) (f d : Z) : R := match o with Some F => F p f d | None => 0 end.

(** ** What the sources of an input file require *)
(** Half the inverse of the spatial width, in hertz, above the carrier. *)
Definition edgeOf (carrier spread : R) : R := carrier + 299792458 / (2 * spread).

(** ** The field of a dipole *)
(** A Hertzian dipole of moment [l * q] along z at the origin, in units with unit speed of light and
    permittivity: [q'] and [q''] are the derivatives of [q].  With r = |p|,
    E = l/(4 pi) ((3 z p / r^2 - ez) (q/r^3 + q'/r^2) + (z p / r^2 - ez) q''/r) and
    H = l/(4 pi) (ez x p) / r (q''/r + q'/r^2), at the retarded time t - r. *)
Definition ezAt (d : Z) : R := if (d =? 2)%Z then 1 else 0.
Definition ezCross (p : list R) (d : Z) : R := if (d =? 0)%Z then - nth 1 p 0 else if (d =? 1)%Z then nth 0 p 0 else 0.
Definition hertz (l : R) (q q' q'' : R -> R) (f d : Z) (t : R) (p : list R) : R :=
  let r := sqrt (dot3 p p) in let s := t - r in let z := nth 2 p 0 in let c := nth (Z.to_nat d) p 0 in
  if (f =? 0)%Z then l / (4 * PI) * ((3 * z * c / r ^ 2 - ezAt d) * (q s / r ^ 3 + q' s / r ^ 2) + (z * c / r ^ 2 - ezAt d) * (q'' s / r))
  else l / (4 * PI) * (ezCross p d / r) * (q'' s / r + q' s / r ^ 2).
(** A pulse whose derivative has peaks of height one. *)
Definition dipolePulse (spread mean s : R) : R := spread * sqrt 2 * exp 1 / 2 * exp (- ((s - mean) / (spread * sqrt 2)) ^ 2).

(** ** The automatic delay *)
(** The mean of the vertices, coordinate by coordinate. *)
Definition isCentroid (vs : list (list R)) (c : list R) : Prop :=
  forall d, (d < length c)%nat -> INR (length vs) * nth d c 0 = total (fun v => nth d v 0) vs.
(** The smallest of the values of a list, zero when there is none. *)
Definition leastOr0 (l : list R) (m : R) : Prop := (l = [] /\ m = 0) \/ (In m l /\ forall v, In v l -> m <= v).

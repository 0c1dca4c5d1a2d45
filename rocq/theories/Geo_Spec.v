(** Plain vector geometry and the plain description of a layered wall, against which
    Geo_Model is judged. *)
From Coq Require Import ZArith List Bool Reals.
Import ListNotations.
Local Open Scope R_scope.

Definition v3 : Type := (R * R * R)%type.
Definition dotp (a b : v3) : R := let '(x, y, z) := a in let '(u, v, w) := b in x * u + y * v + z * w.
Definition crossp (a b : v3) : v3 :=
  let '(x, y, z) := a in let '(u, v, w) := b in (y * w - z * v, z * u - x * w, x * v - y * u).
Definition lenp (a : v3) : R := sqrt (dotp a a).
Definition scalep (k : R) (a : v3) : v3 := let '(x, y, z) := a in (k * x, k * y, k * z).
Definition addp (a b : v3) : v3 := let '(x, y, z) := a in let '(u, v, w) := b in (x + u, y + v, z + w).
Definition unitp (a : v3) : v3 := scalep (/ lenp a) a.
Definition listp (a : v3) : list R := let '(x, y, z) := a in [x; y; z].

(** A right-handed orthonormal frame. *)
Definition rightFrame (a b c : v3) : Prop :=
  dotp a a = 1 /\ dotp b b = 1 /\ dotp c c = 1 /\ dotp a b = 0 /\ dotp b c = 0 /\ dotp a c = 0 /\ crossp a b = c.

(** The local directions at a point off the axis: outwards, around the axis, and the
    one that completes the frame. *)
Definition outward (p : v3) : v3 := unitp p.
Definition around (p : v3) : v3 := unitp (crossp (0, 0, 1) p).
Definition downward (p : v3) : v3 := crossp (around p) (outward p).

(** A wall: widths and numbers of segments of its layers. [k] segments into it, how
    far and in which layer. *)
Fixpoint depth (ls : list (R * nat)) (k : nat) : R :=
  match ls with
  | [] => 0
  | (w, n) :: t => if (k <=? n)%nat then w * INR k / INR n else w + depth t (k - n)
  end.
Fixpoint layerOf (ls : list (R * nat)) (k : nat) : nat :=
  match ls with
  | [] => 0%nat
  | (w, n) :: t => if (k <? n)%nat then 0%nat else S (layerOf t (k - n))
  end.
Fixpoint sumWidth (ls : list (R * nat)) : R := match ls with [] => 0 | (w, _) :: t => w + sumWidth t end.
Fixpoint sumSegs (ls : list (R * nat)) : nat := match ls with [] => 0%nat | (_, n) :: t => (n + sumSegs t)%nat end.

(** One list read cyclically from somewhere gives the other. *)
Definition cyclic {A} (a b : list A) : Prop := exists u v, b = u ++ v /\ a = v ++ u.

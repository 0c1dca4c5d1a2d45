(** Fields in a slab, without complex roots or hyperbolic functions. *)
From Coq Require Import Reals.
From Coquelicot Require Import Complex.
From Verif Require Import Slab_Model.
Local Open Scope R_scope.

(** A complex function of a real variable has the derivative [l]. *)
Definition cderiv (f : R -> C) (x : R) (l : C) : Prop :=
  derivable_pt_lim (fun t => fst (f t)) x (fst l) /\ derivable_pt_lim (fun t => snd (f t)) x (snd l).
(** Fields of angular frequency [w] in a slab of width [d] (time factor exp(i w t)):
    E' = - i w mu H, H' = - (sigma + i w eps) E, and no magnetic field on the far side. *)
Definition slabFields (eps mu sigma w d : R) (E H : R -> C) : Prop :=
  (forall x, cderiv E x (Copp (Cmult (0, w * mu) (H x)))) /\
  (forall x, cderiv H x (Copp (Cmult (sigma, w * eps) (E x)))) /\
  H d = RtoC 0.
(** The sum of a list. *)
Fixpoint total (l : list R) : R := match l with nil => 0 | cons a t => a + total t end.
(** A usable material. *)
Definition usable (l : slayer) : Prop := 0 < sl_eps l /\ 0 < sl_mu l /\ 0 <= sl_sigma l.
(** Permittivity and permeability of free space, SI units. *)
Definition vacuumEps : R := 8.8541878188 / 10 ^ 12.
Definition vacuumMu : R := 4 * PI / 10 ^ 7.

(** Energy of the nodal scheme: the discrete identities a nodal discontinuous Galerkin
    discretisation satisfies, and the energy its faces should exchange. *)
From Coq Require Import ZArith List Bool Reals Permutation.
From Verif Require Import Common Geo_Spec Nodal_Model Nodal_Spec.
Import ListNotations.
Local Open Scope R_scope.

Definition sq (v : v3) : R := dotp v v.
(** Power flowing out through a face of outward normal [n]. *)
Definition outflow (n E H : v3) : R := dotp n (crossp E H).
(** Energy an element gains per unit of face area: minus the outflow, plus the work of
    the numerical corrections (half of each, the weight used by the scheme). *)
Definition sideRate (alpha : R) (n E H dE dH : v3) : R :=
  - outflow n E H + / 2 * (dotp E (hatE alpha n dE dH) + dotp H (hatH alpha n dE dH)).

(** A quadrature point on one side of a face: weight, unit normal pointing out of
    the element, and interpolation weights on the face nodes of the element. *)
Record side := { sd_el : helem; sd_w : R; sd_n : v3; sd_phi : nat -> R }.

Definition interp (a : side) (g : nat -> R) : R := sumN (elFlux (sd_el a)) (fun i => sd_phi a i * g i).
Definition trace (s : nodal) (a : side) (f : Z -> R) : R := interp a (fun i => f (fst (pairAt s (elPos (sd_el a) i)))).
Definition traceN (s : nodal) (a : side) (f : Z -> R) : R := interp a (fun i => f (snd (pairAt s (elPos (sd_el a) i)))).
Definition trE (s : nodal) (u : Z -> Z -> R) (a : side) : v3 := (trace s a (u 0%Z), trace s a (u 1%Z), trace s a (u 2%Z)).
Definition trH (s : nodal) (u : Z -> Z -> R) (a : side) : v3 := (trace s a (u 3%Z), trace s a (u 4%Z), trace s a (u 5%Z)).

(** v^T M y on one element. *)
Definition form (el : helem) (M : nat -> nat -> R) (v y : nat -> R) : R :=
  sumN (elSize el) (fun j => sumN (elSize el) (fun k => v j * M j k * y k)).
Definition onEl (el : helem) (f : Z -> R) (k : nat) : R := f (elDof el k).
Definition diff (el : helem) (d : nat) (f : Z -> R) (k : nat) : R :=
  sumN (elSize el) (fun j => entry (dirMat el d) k j * f (elDof el j)).
Definition lift1 (s : nodal) (el : helem) (g : nat -> R) (k : nat) : R :=
  sumN (elFlux el) (fun i => entry (nd_lift s) k i * (nth i (el_fscale el) 0 / 2 * g i)).

(** The element's matrices come from a mass matrix [M] and the face points [sds]:
    derivatives satisfy integration by parts, the lifting is the mass inverse of half
    the face integral, and the normal is the same at all the nodes of a face. *)
Definition discretises (s : nodal) (M : nat -> nat -> R) (el : helem) (sds : list side) : Prop :=
  (forall a, In a sds -> sd_el a = el /\ sq (sd_n a) = 1 /\
     forall i, (i < elFlux el)%nat -> sd_phi a i <> 0 -> elNormal el i = sd_n a) /\
  (forall d, (d < 3)%nat -> forall v u : Z -> R,
     form el M (onEl el v) (diff el d u) + form el M (onEl el u) (diff el d v) =
     suml (fun a => sd_w a * pick (sd_n a) (Z.of_nat d) * trace s a v * trace s a u) sds) /\
  (forall (v : Z -> R) (g : nat -> R),
     form el M (onEl el v) (lift1 s el g) = suml (fun a => sd_w a * / 2 * trace s a v * interp a g) sds).

(** All the nodes a face point interpolates carry condition [k] and no incident field. *)
Definition onKind (s : nodal) (k : kind) (a : side) : Prop :=
  forall i, (i < elFlux (sd_el a))%nat -> sd_phi a i <> 0 ->
    kindAt (nd_bdr s) (elPos (sd_el a) i) = k /\
    incE s (elPos (sd_el a) i) = (0, 0, 0) /\ incH s (elPos (sd_el a) i) = (0, 0, 0).

Inductive facept := Inner (a b : side) | Outer (k : kind) (a : side).
Definition faceSides (f : facept) : list side := match f with Inner a b => [a; b] | Outer _ a => [a] end.
(** Interior points match: same place seen from both sides. *)
Definition faceOk (s : nodal) (f : facept) : Prop :=
  match f with
  | Inner a b => sd_w a = sd_w b /\ sd_n b = scalep (-1) (sd_n a) /\
      (forall g, traceN s a g = trace s b g) /\ (forall g, traceN s b g = trace s a g) /\
      onKind s KInterior a /\ onKind s KInterior b
  | Outer k a => k <> KInterior /\ onKind s k a
  end.

(** Energy exchanged at a face point, per unit weight. *)
Definition faceRate (s : nodal) (u : Z -> Z -> R) (f : facept) : R :=
  let al := nd_alpha s in
  match f with
  | Inner a b => - (al / 2) * (sq (tang (sd_n a) (subp (trE s u b) (trE s u a))) + sq (tang (sd_n a) (subp (trH s u b) (trH s u a))))
  | Outer k a =>
    let n := sd_n a in let E := trE s u a in let H := trH s u a in
    let Et := sq (tang n E) in let Ht := sq (tang n H) in
    match k with
    | KInterior => 0
    | KPEC => - al * Et
    | KPMC => - al * Ht
    | KSMA => (/ al - 1) * outflow n E H - / 2 * (Et + Ht)
    | KiPEC => - / 2 * outflow n E H - al / 2 * Et
    | KiPMC => - / 2 * outflow n E H - al / 2 * Ht
    | KiSMA => - / 2 * outflow n E H - al / 4 * (Et + Ht)
    end
  end.
Definition faceWeight (f : facept) : R := match f with Inner a _ => sd_w a | Outer _ a => sd_w a end.

(** Rate of the energy (half the mass norm squared of the six components) of the
    linear elements when the state is [u] and its time derivative [o]. *)
Definition energyRate (s : nodal) (mass : helem -> nat -> nat -> R) (u o : Z -> Z -> R) : R :=
  suml (fun el => suml (fun c => form el (mass el) (onEl el (u c)) (onEl el (o c))) [0; 1; 2; 3; 4; 5]%Z) (nd_lin s).
Definition energyOf (s : nodal) (mass : helem -> nat -> nat -> R) (u : Z -> Z -> R) : R :=
  / 2 * suml (fun el => suml (fun c => form el (mass el) (onEl el (u c)) (onEl el (u c))) [0; 1; 2; 3; 4; 5]%Z) (nd_lin s).

(** A discretisation of the whole domain: the element sides are exactly the sides of
    a list of matching face points. *)
Definition discretised (s : nodal) (mass : helem -> nat -> nat -> R) (sides : helem -> list side) (fps : list facept) : Prop :=
  Forall (fun el => discretises s (mass el) el (sides el)) (nd_lin s) /\
  Permutation (flat_map sides (nd_lin s)) (flat_map faceSides fps) /\
  Forall (faceOk s) fps.

(** What the nodal operator should compute, written with vectors of R^3, ghost
    states and finite sums, without the model's loops. *)
From Coq Require Import ZArith List Bool Reals.
From Verif Require Import Common Geo_Spec Nodal_Model.
Import ListNotations.
Local Open Scope R_scope.

Definition sumN (n : nat) (f : nat -> R) : R := fold_right Rplus 0 (map f (seq 0 n)).
Definition suml {A} (f : A -> R) (l : list A) : R := fold_right Rplus 0 (map f l).

(** Component [c] at dof [i] of a state vector with [n] dofs per component. *)
Definition comp6 (n : Z) (x : list R) (c i : Z) : R := nth (Z.to_nat (c * n + i)) x 0.
Definition E3 (u : Z -> Z -> R) (i : Z) : v3 := (u 0%Z i, u 1%Z i, u 2%Z i).
Definition H3 (u : Z -> Z -> R) (i : Z) : v3 := (u 3%Z i, u 4%Z i, u 5%Z i).
Definition pick (v : v3) (d : Z) : R := let '(a, b, c) := v in if Z.eqb d 0 then a else if Z.eqb d 1 then b else c.

Definition subp (a b : v3) : v3 := addp a (scalep (-1) b).
(** Part of [v] orthogonal to the unit vector [n]. *)
Definition tang (n v : v3) : v3 := subp v (scalep (dotp n v) n).
(** Upwind (alpha = 1) / centred (alpha = 0) corrections of the curl equations, for
    jumps taken outside minus inside. *)
Definition hatE (alpha : R) (n dE dH : v3) : v3 := addp (crossp n dH) (scalep alpha (tang n dE)).
Definition hatH (alpha : R) (n dE dH : v3) : v3 := addp (scalep (-1) (crossp n dE)) (scalep alpha (tang n dH)).

(** Condition at a face node. *)
Inductive kind := KInterior | KPEC | KPMC | KSMA | KiPEC | KiPMC | KiSMA.

Definition mem (p : Z) (ls : list (list Z)) : bool := existsb (existsb (Z.eqb p)) ls.
Definition imem (p : Z) (b : ibmaps) : bool := mem p (mapB1 b) || mem p (mapB2 b).

(** One condition per face node; if the maps list several, the later of this order:
    PEC, PMC, SMA, interior PEC, PMC, SMA. *)
Definition kindAt (b : bdrMaps) (p : Z) : kind :=
  if imem p (iSMA b) then KiSMA else if imem p (iPMC b) then KiPMC else if imem p (iPEC b) then KiPEC else
  if mem p (mapB (bSMA b)) then KSMA else if mem p (mapB (bPMC b)) then KPMC else
  if mem p (mapB (bPEC b)) then KPEC else KInterior.

(** State seen on the other side of the face, from the own value and the
    neighbour's: mirror images at the boundaries. *)
Definition ghostE (alpha : R) (k : kind) (own nbr : v3) : v3 :=
  match k with
  | KInterior => nbr
  | KPEC => scalep (-1) own
  | KPMC => own
  | KSMA => scalep (1 - / alpha) own
  | KiPEC => scalep 0 own
  | KiPMC => own
  | KiSMA => scalep (/ 2) own
  end.
Definition ghostH (alpha : R) (k : kind) (own nbr : v3) : v3 :=
  match k with
  | KInterior => nbr
  | KPEC => own
  | KPMC => scalep (-1) own
  | KSMA => scalep (1 - / alpha) own
  | KiPEC => own
  | KiPMC => scalep 0 own
  | KiSMA => scalep (/ 2) own
  end.

(** Incident field added to the jump at face node [p]: each source is subtracted on
    the scattered side and added on the total side. *)
Definition tfEntries (b : ibmaps) : list (Z * Z * Z) :=
  flat_map (fun t => combine (combine (fst (fst t)) (snd (fst t))) (snd t))
           (combine (combine (mapB1 b) (mapB2 b)) (vmapB1 b)).
Definition is (a b : Z) : R := if Z.eqb a b then 1 else 0.
Definition incident (s : nodal) (f d p : Z) : R :=
  suml (fun src => match src with
                   | None => 0
                   | Some ev => suml (fun t => (is (snd (fst t)) p - is (fst (fst t)) p) * ev (snd t) f d) (tfEntries (bTFSF (nd_bdr s)))
                   end) (nd_src s).
Definition incE (s : nodal) (p : Z) : v3 := (incident s 0 0 p, incident s 0 1 p, incident s 0 2 p).
Definition incH (s : nodal) (p : Z) : v3 := (incident s 1 0 p, incident s 1 1 p, incident s 1 2 p).

(** Jumps at a face node joining dofs [a] (own) and [b]. *)
Definition jumpE (s : nodal) (u : Z -> Z -> R) (p a b : Z) : v3 :=
  addp (subp (ghostE (nd_alpha s) (kindAt (nd_bdr s) p) (E3 u a) (E3 u b)) (E3 u a)) (incE s p).
Definition jumpH (s : nodal) (u : Z -> Z -> R) (p a b : Z) : v3 :=
  addp (subp (ghostH (nd_alpha s) (kindAt (nd_bdr s) p) (H3 u a) (H3 u b)) (H3 u a)) (incH s p).

(** Element data as plain functions. *)
Definition entry (A : list (list R)) (i j : nat) : R := nth j (nth i A []) 0.
Definition elSize (el : helem) : nat := length (el_dofs el).
Definition elFlux (el : helem) : nat := length (el_fscale el).
Definition elDof (el : helem) (k : nat) : Z := (el_id el * Z.of_nat (elSize el) + Z.of_nat k)%Z.
Definition elPos (el : helem) (i : nat) : Z := (el_id el * Z.of_nat (elFlux el) + Z.of_nat i)%Z.
Definition elNormal (el : helem) (i : nat) : v3 := (entry (el_nor el) 0 i, entry (el_nor el) 1 i, entry (el_nor el) 2 i).
Definition dirMat (el : helem) (d : nat) : list (list R) := nth d (el_dir el) [].

(** Derivative of component [c] along [d] at dof [k] of the element. *)
Definition deriv (el : helem) (u : Z -> Z -> R) (d : nat) (c : Z) (k : nat) : R :=
  sumN (elSize el) (fun j => entry (dirMat el d) k j * u c (elDof el j)).
(** Curl of the field whose components are b, b+1, b+2. *)
Definition curl (el : helem) (u : Z -> Z -> R) (b : Z) (k : nat) : v3 :=
  (deriv el u 1 (b + 2) k - deriv el u 2 (b + 1) k,
   deriv el u 2 b k - deriv el u 0 (b + 2) k,
   deriv el u 0 (b + 1) k - deriv el u 1 b k).

(** Lifting of a face quantity: sum over face nodes. *)
Definition lifted (s : nodal) (el : helem) (g : nat -> v3) (k : nat) : v3 :=
  let t d := sumN (elFlux el) (fun i => entry (nd_lift s) k i * (nth i (el_fscale el) 0 / 2 * pick (g i) d)) in
  (t 0%Z, t 1%Z, t 2%Z).

Definition pairAt (s : nodal) (p : Z) : Z * Z := nth (Z.to_nat p) (nd_global s) (0, 0)%Z.
Definition dE (s : nodal) (u : Z -> Z -> R) (el : helem) (i : nat) : v3 :=
  let p := elPos el i in jumpE s u p (fst (pairAt s p)) (snd (pairAt s p)).
Definition dH (s : nodal) (u : Z -> Z -> R) (el : helem) (i : nat) : v3 :=
  let p := elPos el i in jumpH s u p (fst (pairAt s p)) (snd (pairAt s p)).

(** Right-hand side at dof [k] of a linear element. *)
Definition rhsE (s : nodal) (u : Z -> Z -> R) (el : helem) (k : nat) : v3 :=
  addp (curl el u 3 k)
       (lifted s el (fun i => hatE (nd_alpha s) (elNormal el i) (dE s u el i) (dH s u el i)) k).
Definition rhsH (s : nodal) (u : Z -> Z -> R) (el : helem) (k : nat) : v3 :=
  addp (scalep (-1) (curl el u 0 k))
       (lifted s el (fun i => hatH (nd_alpha s) (elNormal el i) (dE s u el i) (dH s u el i)) k).

(** ** Well-formed operator data *)
Definition inR (a n : Z) : Prop := (0 <= a < n)%Z.
Definition wfB (g : list (Z * Z)) (b : bmaps) : Prop :=
  Forall2 (Forall2 (fun p v => inR p (Z.of_nat (length g)) /\ fst (nth (Z.to_nat p) g (0, 0)%Z) = v)) (mapB b) (vmapB b).
(** Positions 1 and 2 of an interior face node pair refer to opposite entries. *)
Inductive wfI (g : list (Z * Z)) : list (list Z) -> list (list Z) -> list (list Z) -> list (list Z) -> Prop :=
| wfI_nil : wfI g [] [] [] []
| wfI_cons : forall m1 m2 v1 v2 M1 M2 V1 V2,
    length m1 = length m2 -> length m1 = length v1 -> length m1 = length v2 ->
    (forall k, (k < length m1)%nat ->
       inR (nth k m1 0%Z) (Z.of_nat (length g)) /\ inR (nth k m2 0%Z) (Z.of_nat (length g)) /\
       nth (Z.to_nat (nth k m1 0%Z)) g (0, 0)%Z = (nth k v1 0%Z, nth k v2 0%Z) /\
       nth (Z.to_nat (nth k m2 0%Z)) g (0, 0)%Z = (nth k v2 0%Z, nth k v1 0%Z)) ->
    wfI g M1 M2 V1 V2 -> wfI g (m1 :: M1) (m2 :: M2) (v1 :: V1) (v2 :: V2).
Definition wfIB (g : list (Z * Z)) (b : ibmaps) : Prop := wfI g (mapB1 b) (mapB2 b) (vmapB1 b) (vmapB2 b).

Definition matShape (A : list (list R)) (r c : nat) : Prop := length A = r /\ Forall (fun row => length row = c) A.

(** A linear element: dofs numbered consecutively from id * size, square directional
    matrices, three lists of normals, face nodes owned by the element. *)
Definition wfEl (s : nodal) (el : helem) : Prop :=
  (0 <= el_id el)%Z /\
  (forall k, (k < elSize el)%nat -> nth k (el_dofs el) 0%Z = elDof el k /\ inR (elDof el k) (nd_N s) /\ inCurved s (elDof el k) = false) /\
  length (el_dir el) = 3%nat /\ Forall (fun A => matShape A (elSize el) (elSize el)) (el_dir el) /\
  length (el_nor el) = 3%nat /\ Forall (fun l => length l = elFlux el) (el_nor el) /\
  matShape (nd_lift s) (elSize el) (elFlux el) /\
  (forall i, (i < elFlux el)%nat -> inR (elPos el i) (Z.of_nat (length (nd_global s))) /\
     exists k, (k < elSize el)%nat /\ fst (pairAt s (elPos el i)) = elDof el k).

Definition curRows (s : nodal) : list (Z * list (Z * R)) := flat_map cu_rows (nd_cur s).

Definition wfNodal (s : nodal) : Prop :=
  (0 <= nd_N s)%Z /\
  Forall (fun ab => inR (fst ab) (nd_N s) /\ inR (snd ab) (nd_N s)) (nd_global s) /\
  wfB (nd_global s) (bPEC (nd_bdr s)) /\ wfB (nd_global s) (bPMC (nd_bdr s)) /\ wfB (nd_global s) (bSMA (nd_bdr s)) /\
  wfIB (nd_global s) (iPEC (nd_bdr s)) /\ wfIB (nd_global s) (iPMC (nd_bdr s)) /\ wfIB (nd_global s) (iSMA (nd_bdr s)) /\
  wfIB (nd_global s) (bTFSF (nd_bdr s)) /\
  (nd_alpha s <> 0 \/ vmapB (bSMA (nd_bdr s)) = []) /\
  Forall (wfEl s) (nd_lin s) /\ NoDup (map el_id (nd_lin s)) /\
  (forall e1 e2, In e1 (nd_lin s) -> In e2 (nd_lin s) -> elSize e1 = elSize e2) /\
  NoDup (map fst (curRows s)) /\
  Forall (fun r => exists d c, inR d (nd_N s) /\ inR c 6 /\ fst r = (c * nd_N s + d)%Z /\ inCurved s d = true /\
                     Forall (fun cv => inR (fst cv) (6 * nd_N s)) (snd r)) (curRows s).

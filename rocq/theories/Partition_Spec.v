(** What the partition adjustment must achieve, independent of the algorithm. *)
From Coq Require Import ZArith List Relations.
Import ListNotations.
Local Open Scope Z_scope.

(** A coupling: a pair both of whose elements exist. *)
Definition coupled (NE : Z) (pairs : list (Z * Z)) (a b : Z) : Prop :=
  In (a, b) pairs /\ 0 <= a < NE /\ 0 <= b < NE.

(** Connected through a chain of couplings. *)
Definition linked (NE : Z) (pairs : list (Z * Z)) : Z -> Z -> Prop :=
  clos_refl_sym_trans Z (coupled NE pairs).

Definition occurs (pairs : list (Z * Z)) (e : Z) : Prop :=
  exists p, In p pairs /\ (fst p = e \/ snd p = e).

(** Rank of element [e]. *)
Definition rank_of (part : list Z) (e : Z) : option Z :=
  if e <? 0 then None else nth_error part (Z.to_nat e).

(** True load of rank [r]: total weight of the elements placed there. *)
Fixpoint true_load (part weight : list Z) (r : Z) : Z :=
  match part, weight with
  | q :: part', w :: weight' => (if q =? r then w else 0) + true_load part' weight' r
  | _, _ => 0
  end.

(** [load] lists the true loads of ranks 0..P-1. *)
Definition loads_right (P : Z) (part weight load : list Z) : Prop :=
  length load = Z.to_nat P /\
  forall r, 0 <= r < P -> nth_error load (Z.to_nat r) = Some (true_load part weight r).

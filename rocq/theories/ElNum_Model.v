(** Model of the element numbering helpers and the element type check of src/components/Model.cpp. *)
From Coq Require Import ZArith List Bool Arith Reals.
From Verif Require Import Common.
Import ListNotations.

(** A position: mfem::Vector, Types.h through Model.cpp 8. *)
Notation position := (list R).
(** std::map<ElementId, ElementId> as a partial function; Model.cpp 32. *)
Definition idmap := nat -> option nat.
(** The map without entries.  Model.cpp 32. *)
Definition noIds : idmap := fun _ => None.
(** res[k] = v.  Model.cpp 36. *)
Definition setId (m : idmap) (k v : nat) : idmap := fun i => if Nat.eqb i k then Some v else m i.

(** std::map<ElementId, Position> as its entries in key order: the element centres in the order of the
    elements.  Model.cpp 8-26 (the serial and the partitioned version do the same); the centres
    themselves are an oracle of the mesh. *)
Definition elem2Center (centres : list position) : list (nat * position) := combine (seq 0 (length centres)) centres.

(** Vector::DistanceTo, used in Model.cpp 35; exact arithmetic. *)
Fixpoint distance2 (a b : position) : R :=
  match a, b with
  | x :: a', y :: b' => ((x - y) * (x - y) + distance2 a' b')%R
  | _, _ => 0%R
  end.
(** The tolerance, Model.cpp 31. *)
Definition tol : R := (/ 100000)%R.
(** The test of Model.cpp 35. *)
Definition near (a b : position) : bool := if Rle_dec (sqrt (distance2 a b)) tol then true else false.

(** The inner loop, Model.cpp 34-38. *)
Definition scanLocal (local : list (nat * position)) (res : idmap) (g : nat * position) : idmap :=
  fold_left (fun m l => if near (snd g) (snd l) then setId m (fst g) (fst l) else m) local res.
(** Model.cpp 29-41. *)
Definition globalToLocal (serial local : list (nat * position)) : idmap := fold_left (scanLocal local) serial noIds.

(** The loop of Model.cpp 46-50 over the types of the elements after the first. *)
Fixpoint sameTypes (type : Z) (rest : list Z) : res unit :=
  match rest with
  | [] => Ok tt
  | k :: t => if Z.eqb type k then sameTypes type t else Throw
  end.
(** Model.cpp 43-51: the type of element 0 is read from a mesh that may have none. *)
Definition ensureSameType (types : list Z) : res unit :=
  type <- zget types 0 ;; sameTypes type (tl types).

(** The elements of the process [rank] in the order of the serial mesh: what ParMesh(comm, serialMesh_,
    partitioning) keeps, Model.cpp 59 (MFEM, trusted). *)
Fixpoint keep {A} (rank : nat) (part : list nat) (l : list A) : list A :=
  match part, l with
  | p :: part', a :: l' => if Nat.eqb p rank then a :: keep rank part' l' else keep rank part' l'
  | _, _ => []
  end.
(** The three calls a caller makes on one process, Model.cpp 8-41. *)
Definition mapOnRank (rank : nat) (part : list nat) (centres : list position) : idmap :=
  globalToLocal (elem2Center centres) (elem2Center (keep rank part centres)).

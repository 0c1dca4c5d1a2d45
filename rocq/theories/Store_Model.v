(** Model of the store of shared matrices of the nodal operator: MatrixCompareLessThan,
    src/evolution/HesthavenEvolutionMethods.h 28-55, and its use in
    HesthavenEvolution::storeDirectionalMatrices, src/evolution/HesthavenEvolution.cpp 158-168.
    Entries are IEEE binary64 numbers, with infinities and NaN. *)
From Coq Require Import ZArith List Bool.
From Flocq Require Import IEEE754.Binary IEEE754.Bits.
From Verif Require Import Common.
Import ListNotations.

(** [!=] and [<] on double: NaN differs from everything and is less than nothing.
    Used in [lessThan], HesthavenEvolutionMethods.h 30-53. *)
Definition fne (x y : binary64) : bool := match b64_compare x y with Some Eq => false | _ => true end.
(** Used in [lessThan], HesthavenEvolutionMethods.h 30-53. *)
Definition flt (x y : binary64) : bool := match b64_compare x y with Some Lt => true | _ => false end.

(** Eigen::MatrixXd. Used in [lessThan], HesthavenEvolutionMethods.h 30-53. *)
Record dmat := mkD { d_rows : nat; d_cols : nat; d_at : nat -> nat -> binary64 }.

(** HesthavenEvolutionMethods.h 45-52: the loop over the entries, row after row. *)
Definition positions (r c : nat) : list (nat * nat) := flat_map (fun i => map (fun j => (i, j)) (seq 0 c)) (seq 0 r).
(** Used in [lessThan], HesthavenEvolutionMethods.h 30-53. *)
Fixpoint entriesLess (l r : dmat) (ps : list (nat * nat)) : bool :=
  match ps with
  | [] => false
  | (i, j) :: t => if fne (d_at l i j) (d_at r i j) then flt (d_at l i j) (d_at r i j) else entriesLess l r t
  end.
(** MatrixCompareLessThan::operator(), HesthavenEvolutionMethods.h 30-53. *)
Definition lessThan (l r : dmat) : bool :=
  if (d_rows l <? d_rows r)%nat then true
  else if (d_rows r <? d_rows l)%nat then false
  else if (d_cols l <? d_cols r)%nat then true
  else if (d_cols r <? d_cols l)%nat then false
  else entriesLess l r (positions (d_rows l) (d_cols l)).

(** std::set as the search tree of the standard library.
    Used in [inorder], HesthavenEvolution.cpp 150-168. *)
Inductive tree := Leaf | Node (l : tree) (k : dmat) (r : tree).
(** HesthavenEvolution.cpp 150-168. *)
Fixpoint inorder (t : tree) : list dmat := match t with Leaf => [] | Node l k r => inorder l ++ k :: inorder r end.
(** std::set::find: lower bound, then one comparison.
    Used in [store], HesthavenEvolution.cpp 158-168. *)
Fixpoint lowerBound (k : dmat) (t : tree) (y : option dmat) : option dmat :=
  match t with
  | Leaf => y
  | Node l v r => if lessThan v k then lowerBound k r y else lowerBound k l (Some v)
  end.
(** Used in [store], HesthavenEvolution.cpp 158-168. *)
Definition find (k : dmat) (t : tree) : option dmat :=
  match lowerBound k t None with
  | None => None
  | Some j => if lessThan k j then None else Some j
  end.
(** std::set::insert: down to a leaf; the predecessor of the place decides whether the key is
    already there. Used in [store], HesthavenEvolution.cpp 158-168. *)
Fixpoint insertAt (k : dmat) (t : tree) (pred : option dmat) : option tree :=
  match t with
  | Leaf => match pred with
            | None => Some (Node Leaf k Leaf)
            | Some p => if lessThan p k then Some (Node Leaf k Leaf) else None
            end
  | Node l v r => if lessThan k v then option_map (fun l' => Node l' v r) (insertAt k l pred)
                  else option_map (fun r' => Node l v r') (insertAt k r (Some v))
  end.
(** Used in [store], HesthavenEvolution.cpp 158-168. *)
Definition insert (k : dmat) (t : tree) : tree := match insertAt k t None with Some t' => t' | None => t end.

(** storeDirectionalMatrices, HesthavenEvolution.cpp 158-168, for one direction: the matrix the element is given
    (the address of a node of the set).  Dereferencing end() is undefined. *)
Definition store (t : tree) (k : dmat) : res (tree * dmat) :=
  match find k t with
  | Some v => Ok (t, v)
  | None => let t' := insert k t in match find k t' with Some v => Ok (t', v) | None => UB end
  end.
(** A history of calls; the set may rebalance its tree after each (nodes stay where they
    are). HesthavenEvolution.cpp 150-168. *)
Inductive stores : tree -> list dmat -> list dmat -> tree -> Prop :=
| stores_nil : forall t, stores t [] [] t
| stores_cons : forall t k ks t1 v t2 vs t3, store t k = Ok (t1, v) -> inorder t2 = inorder t1 -> stores t2 ks vs t3 ->
    stores t (k :: ks) (v :: vs) t3.

(** Which faces of a sub-mesh lie on the surface that was asked for. *)
From Coq Require Import ZArith List Bool.
From Verif Require Import Common Sub_Model SurfGeo_Model SurfTag_Model.
Import ListNotations.
Local Open Scope Z_scope.

(** The [i]-th boundary element of the child lies on a boundary element of the parent that has one of the tags. *)
Definition onTagged (m : mesh) (tags : list Z) (f : family) (i : nat) : Prop :=
  exists be b face cface, nth_error (m_bdr m) be = Some b /\ In (b_attr b) tags /\
    nth_error (fa_f2b f) face = Some (Z.of_nat be) /\
    nth_error (fa_map f) cface = Some (Z.of_nat face) /\
    nth_error (fa_cf2b f) cface = Some (Z.of_nat i).

(** Every boundary element has one face. *)
Definition oneFace (l : list Z) : Prop :=
  forall i j x, 0 <= x -> nth_error l i = Some x -> nth_error l j = Some x -> i = j.
(** The arrays of a mesh and of its sub-mesh. *)
Definition goodFamily (m : mesh) (maxAttr : Z) (f : family) : Prop :=
  (forall b, In b (m_bdr m) -> 1 <= b_attr b <= maxAttr) /\
  oneFace (fa_f2b f) /\ NoDup (fa_map f) /\ length (fa_cf2b f) = length (fa_map f) /\
  (forall b, In b (fa_cf2b f) -> b < Z.of_nat (length (fa_attr f))) /\
  length (fa_rule f) = length (fa_attr f) /\ (forall a, In a (fa_attr f) -> 1 <= a).
(** The tags are attributes of the mesh. *)
Definition goodTags (maxAttr : Z) (tags : list Z) : Prop := forall t, In t tags -> 1 <= t <= maxAttr.

(** The points of the rules that are picked. *)
Fixpoint pick (sel : list bool) (rules : list (option (list bpoint))) : list bpoint :=
  match sel, rules with
  | s :: sel', r :: rules' => (if s then match r with Some ps => ps | None => [] end else []) ++ pick sel' rules'
  | _, _ => []
  end.

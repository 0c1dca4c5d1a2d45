(** What the layers attached to a mesh should be. *)
From Coq Require Import ZArith List Bool Reals Sorting.Sorted.
From Verif Require Import Common Evol_Model Setup_Model Geo_Model Geo_Spec Input_Model Wall_Model Sub_Model Sub_Spec Attach_Model.
Import ListNotations.
Open Scope Z_scope.

(** Element [e] has dof [d]. *)
Definition holds (dofs : list (list Z)) (e d : Z) : Prop := exists l, zget dofs e = Ok l /\ In d l.
(** Discontinuous elements: every dof belongs to one element. *)
Definition tableOk (dofs : list (list Z)) (ndofs : nat) : Prop :=
  NoDup (concat dofs) /\ Forall (fun d => 0 <= d < Z.of_nat ndofs) (concat dofs).
(** A boundary element whose attribute is set in a marker. *)
Definition setIn (mk : list Z) (a : Z) : Prop := zget mk (a - 1) = Ok 1.

(** The direction a list of two or three numbers gives, in space. *)
Definition vec (n : list R) : v3 := (nth 0 n 0%R, nth 1 n 0%R, nth 2 n 0%R).
(** The first axis of a frame. *)
Definition axis (rot : list R) : v3 := (nth 0 rot 0%R, nth 1 rot 0%R, nth 2 rot 0%R).
(** A normal in the plane or in space that is not zero. *)
Definition normalOk (dim : Z) (n : list R) : Prop :=
  ((dim = 2 /\ List.length n = 2%nat) \/ (dim = 3 /\ List.length n = 3%nat)) /\ (dotp (vec n) (vec n) <> 0)%R.

(** The normal of a face point that no other is closer to [x] than. *)
Definition nearestNormal (q : list (point * list R)) (x : point) (n : list R) : Prop :=
  exists y, In (y, n) q /\ forall y' n', In (y', n') q -> (distSq y x <= distSq y' x)%R.
(** The position in the reference element of a dof of an element. *)
Definition dofAt (dofs : list (list Z)) (nodes : Z -> list point) (e d : Z) (x : point) : Prop :=
  exists l i, zget dofs e = Ok l /\ nth_error l i = Some d /\ nth_error (nodes e) i = Some x.

Section Sits.
Variables (m : mesh) (dofs : list (list Z)) (nodes : Z -> list point) (quad : Z -> list (point * list R)).
(** A state sits on a boundary element: its dofs belong to the elements it names, those beside
    the face, and its first axis is the normal that points from the first to the second. *)
Inductive sits (be : Z) (s : astate) : Prop :=
| sits_along : forall f e1 e2 x n, beside m be f e1 e2 -> 0 <= e2 -> as_e1 s = e1 -> as_e2 s = e2 ->
    holds dofs e1 (s_gl (as_state s)) -> holds dofs e2 (s_gr (as_state s)) ->
    dofAt dofs nodes e1 (s_gl (as_state s)) x -> nearestNormal (quad be) x n ->
    axis (s_rot (as_state s)) = unitp (vec n) -> sits be s
| sits_against : forall f e1 e2 x n, beside m be f e1 e2 -> 0 <= e2 -> as_e1 s = e2 -> as_e2 s = e1 ->
    holds dofs e2 (s_gl (as_state s)) -> holds dofs e1 (s_gr (as_state s)) ->
    dofAt dofs nodes e1 (s_gr (as_state s)) x -> nearestNormal (quad be) x n ->
    axis (s_rot (as_state s)) = scalep (-1) (unitp (vec n)) -> sits be s
| sits_outer : forall f e1 e2 x n, beside m be f e1 e2 -> as_e1 s = e1 -> as_e2 s = -1 -> s_gr (as_state s) = -1 ->
    holds dofs e1 (s_gl (as_state s)) ->
    dofAt dofs nodes e1 (s_gl (as_state s)) x -> nearestNormal (quad be) x n ->
    axis (s_rot (as_state s)) = unitp (vec n) -> sits be s.
End Sits.

(** The pairs a boundary element contributes, with their order: those of an inner face, turned
    when the orientation is negative, and the single dofs of an outer face. *)
Section Pairs.
Variables (m : mesh) (mkI mkB : list Z) (facePairs : Z -> res (list (Z * Z))) (faceNodes : Z -> res (list Z)).
Definition turned (o : R) (qs : list (Z * Z)) (ps : list (Z * Z)) : Prop :=
  ((o < 0)%R -> ps = map (fun q => (snd q, fst q)) qs) /\ ((0 <= o)%R -> ps = qs).
Definition innerOf (be a : Z) (ps : list (Z * Z)) : Prop :=
  (setIn mkI a -> exists qs o, facePairs be = Ok qs /\ faceOrientation m be = Ok o /\ turned o qs ps) /\ (~ setIn mkI a -> ps = []).
Definition outerOf (be a : Z) (ps : list (Z * Z)) : Prop :=
  (setIn mkB a -> exists ns, faceNodes be = Ok ns /\ ps = map (fun d => (d, -1)) ns) /\ (~ setIn mkB a -> ps = []).
Definition contributed (be : Z) (ps : list (Z * Z)) : Prop :=
  exists b p q, zget (m_bdr m) be = Ok b /\ innerOf be (b_attr b) p /\ outerOf be (b_attr b) q /\ ps = p ++ q.
End Pairs.
(** The boundary elements with an attribute, in order. *)
Definition withTag (m : mesh) (t : Z) : list Z :=
  filter (fun be => match zget (m_bdr m) be with Ok b => b_attr b =? t | _ => false end) (zseq (List.length (m_bdr m))).
(** How many times a list of walls names a tag. *)
Definition named (sb : list sprops) (t : Z) : nat := fold_right (fun p n => (count_occ Z.eq_dec (sp_tags p) t + n)%nat) 0%nat sb.
(** The dofs of a set of elements, each once, in order. *)
Definition dofSet (dofs : list (list Z)) (P : Z -> Prop) (l : list Z) : Prop :=
  Sorted Z.lt l /\ forall d, In d l <-> exists e, P e /\ holds dofs e d.

(** The frame of a state: nine numbers, rows of a right-handed orthonormal frame. *)
Definition rowp (r : list R) (i : nat) : v3 := (nth (3 * i) r 0%R, nth (3 * i + 1) r 0%R, nth (3 * i + 2) r 0%R).
Definition framed (s : astate) : Prop :=
  List.length (s_rot (as_state s)) = 9%nat /\ rightFrame (rowp (s_rot (as_state s)) 0) (rowp (s_rot (as_state s)) 1) (rowp (s_rot (as_state s)) 2).

(** What the mesh library must provide at a marked face: the dofs of the face belong to the
    elements beside it, the element has a position for each dof, and there are integration points
    with normals. *)
Section Sites.
Variables (m : mesh) (mkI mkB : list Z) (dofs : list (list Z)) (facePairs : Z -> res (list (Z * Z))) (faceNodes : Z -> res (list Z))
  (nodes : Z -> list point) (quad : Z -> list (point * list R)).
Definition pointsOk (be e1 : Z) : Prop :=
  (exists l, zget dofs e1 = Ok l /\ List.length (nodes e1) = List.length l) /\ quad be <> [] /\
  (forall y n, In (y, n) (quad be) -> normalOk (m_dim m) n) /\
  (forall x y n, In x (nodes e1) -> In (y, n) (quad be) -> (distSq y x < 10 ^ 30)%R).
Definition siteOk (be : Z) : Prop :=
  forall b, zget (m_bdr m) be = Ok b ->
    (setIn mkI (b_attr b) -> exists f e1 e2 ps o, beside m be f e1 e2 /\ 0 <= e2 /\ facePairs be = Ok ps /\ faceOrientation m be = Ok o /\
       Forall (fun p => holds dofs e1 (fst p) /\ holds dofs e2 (snd p)) ps /\ pointsOk be e1) /\
       (setIn mkB (b_attr b) -> exists f e1 e2 ns, beside m be f e1 e2 /\ faceNodes be = Ok ns /\ Forall (holds dofs e1) ns /\ pointsOk be e1).
Definition sitesOk : Prop :=
  (m_dim m = 2 \/ m_dim m = 3) /\ (mkI = [] \/ covers m mkI) /\ (mkB = [] \/ covers m mkB) /\ forall be, siteOk be.
End Sites.

(** A line of [n] elements, numbered along it, with [p + 1] dofs each: the dofs run along it too. *)
Definition lineDofs (p : Z) (n : nat) : list (list Z) := map (fun e => map (fun i => e * (p + 1) + i) (zseq (Z.to_nat (p + 1)))) (zseq n).
(** The dof of an element at its first (second) vertex, on a line. *)
Definition firstDof (dofs : list (list Z)) (e d : Z) : Prop := exists l, zget dofs e = Ok (d :: l).
Definition lastDof (dofs : list (list Z)) (e d : Z) : Prop := exists l, zget dofs e = Ok (l ++ [d]).

(** How the thin layers are attached to the mesh: the first part of the constructor of
    GlobalEvolution, GlobalEvolution.cpp 46-308, with computePerDofFaceNormals of
    SubMesher.cpp 138-197. *)
From Coq Require Import ZArith List Bool Reals.
From Verif Require Import Common Evol_Model Setup_Model Geo_Model Input_Model Wall_Model Conn_Model Sub_Model.
Import ListNotations.
Open Scope Z_scope.

(** A pair of dofs (the second -1 on an outer face) and its frame, GlobalEvolution.cpp 46. *)
Definition raw : Type := (Z * Z) * list R.

Section Attach.
Variable m : mesh.
(** fec->GetOrder() *)
Variable order : Z.
(** model_.getMarker(SGBC, true) and (SGBC, false) *)
Variables mkI mkB : list Z.
(** The element to dof table. *)
Variable dofs : list (list Z).
Variable ndofs : nat.
(** buildConnectivityForInteriorBdrFace for the face of a boundary element (Conn_Model,
    nodePairs): both vectors on an inner face, the first one on an outer face. *)
Variable facePairs : Z -> res (list (Z * Z)).
Variable faceNodes : Z -> res (list Z).
(** The reference positions of the dofs of an element, fe->GetNodes(). *)
Variable nodes : Z -> list point.
(** For the face of a boundary element, its integration points taken into the first element by
    Loc1, with CalcOrtho of the face there. *)
Variable quad : Z -> list (point * list R).

(** The search for the closest point, SubMesher.cpp 174-190: distance and index so far. *)
Fixpoint closest (q : list (point * list R)) (x : point) (i : nat) (best : R * nat) : R * nat :=
  match q with
  | [] => best
  | (y, _) :: t => closest t x (S i) (if Rlt_dec (distSq y x) (fst best) then (distSq y x, i) else best)
  end.
(** The normal at a dof, SubMesher.cpp 168-193, with getNormalAtRefPoint 117-136. *)
Definition normalAt (q : list (point * list R)) (x : point) : res (list R) :=
  match nth_error q (snd (closest q x 0 ((10 ^ 30)%R, 0%nat))) with Some (_, n) => Ok n | None => UB end.
(** mfem::Array::Find; a dof that is not found gives the index -1 of elemNodes.IntPoint.
    Used in [dofNormal], GlobalEvolution.cpp 97-106. *)
Fixpoint indexIn (d : Z) (l : list Z) (i : nat) : res nat :=
  match l with [] => UB | x :: t => if x =? d then Ok i else indexIn d t (S i) end.
(** GlobalEvolution.cpp 97-106, 158-166 and the normal of one dof. *)
Definition dofNormal (be e1 d : Z) : res (list R) :=
  d1 <- zget dofs e1 ;; i <- indexIn d d1 0 ;;
  match nth_error (nodes e1) i with Some x => normalAt (quad be) x | None => UB end.
(** Used in [innerPairs], GlobalEvolution.cpp 77-133. *)
Definition idRot : list R := [1; 0; 0; 0; 1; 0; 0; 0; 1]%R.

(** An inner face, GlobalEvolution.cpp 77-133. *)
Definition innerPairs (be e1 : Z) : res (list raw) :=
  if m_dim m =? 1 then Ok [((e1 * (order + 1) + order, e1 * (order + 1) + order + 1), idRot)]
  else
    ps <- facePairs be ;;
    o <- faceOrientation m be ;;
    mapM (fun ab => n <- dofNormal be e1 (fst ab) ;;
                    if Rlt_dec o 0
                    then r <- faceRotation (map Ropp n) (m_dim m) ;; Ok ((snd ab, fst ab), r)
                    else r <- faceRotation n (m_dim m) ;; Ok ((fst ab, snd ab), r)) ps.
(** An outer face, GlobalEvolution.cpp 135-175. *)
Definition outerPairs (be e1 : Z) : res (list raw) :=
  if m_dim m =? 1 then
    (if e1 =? 0 then Ok [((0, -1), idRot)] else Ok [((e1 * (order + 1) + order, -1), idRot)])
  else
    ns <- faceNodes be ;;
    mapM (fun a => n <- dofNormal be e1 a ;; r <- faceRotation n (m_dim m) ;; Ok ((a, -1), r)) ns.

(** [marker.Size() != 0 && marker[attr - 1] == 1], GlobalEvolution.cpp 63-68. *)
Definition bit (mk : list Z) (attr : Z) : res bool :=
  match mk with [] => Ok false | _ => v <- zget mk (attr - 1) ;; Ok (v =? 1) end.
(** raw_pairs[attr].push_back on a std::map. Used in [pushAll], GlobalEvolution.cpp 57-177. *)
Fixpoint mpush {A} (t : Z) (xs : list A) (l : list (Z * list A)) : list (Z * list A) :=
  match l with
  | [] => [(t, xs)]
  | (u, ys) :: r => if t <? u then (t, xs) :: l else if t =? u then (u, ys ++ xs) :: r else (u, ys) :: mpush t xs r
  end.
(** The loop on the boundary elements, GlobalEvolution.cpp 57-177.  A tag whose face has no pair at all is not
    inserted. *)
Definition pushAll {A} (t : Z) (xs : list A) (l : list (Z * list A)) : list (Z * list A) :=
  match xs with [] => l | _ => mpush t xs l end.
(** Used in [attach], GlobalEvolution.cpp 46-308. *)
Definition pairsOf (acc : list (Z * list raw)) (be : Z) : res (list (Z * list raw)) :=
  b <- zget (m_bdr m) be ;;
  i <- bit mkI (b_attr b) ;;
  o <- bit mkB (b_attr b) ;;
  if negb i && negb o then Ok acc
  else
    ' (e1, _) <- faceTrans m be ;;
    a <- (if i : bool then ps <- innerPairs be e1 ;; Ok (pushAll (b_attr b) ps acc) else Ok acc) ;;
    if o : bool then ps <- outerPairs be e1 ;; Ok (pushAll (b_attr b) ps a) else Ok a.
(** Used in [attach], GlobalEvolution.cpp 46-308. *)
Definition rawPairs : res (list (Z * list raw)) :=
  match mkI, mkB with
  | [], [] => Ok []
  | _, _ => foldM pairsOf (zseq (length (m_bdr m))) []
  end.

(** temp_dof_to_elem, GlobalEvolution.cpp 180-191. *)
Definition dofToElem : res (list Z) :=
  foldM (fun t ed => foldM (fun t d => zset t d (fst ed)) (snd ed) t)
        (combine (zseq (length dofs)) dofs) (repeat (-1) ndofs).

(** SGBCState with its element pair, SolverExtension.h 45-65. *)
Record astate := mkAS { as_state : sstate; as_e1 : Z; as_e2 : Z }.
(** getStateSize, SolverExtension.cpp 170-172: six fields on the mesh of the wall. *)
Definition fieldSize (w : wall) : nat := (length (wl_attrs w) * (Z.to_nat (so_order (wl_opts w)) + 1))%nat.
(** Used in [attachTag], GlobalEvolution.cpp 202-240. *)
Definition stateSize (w : wall) : nat := (6 * fieldSize w)%nat.
(** One state, GlobalEvolution.cpp 212-231. *)
Definition newState (d2e : list Z) (size : nat) (r : raw) : res astate :=
  let '((a, b), rot) := r in
  e1 <- zget d2e a ;;
  e2 <- (if b =? -1 then Ok (-1) else zget d2e b) ;;
  Ok (mkAS (mkS a b rot (zeros size)) e1 e2).

(** The properties that list a tag, once for each time, GlobalEvolution.cpp 204-206. *)
Definition listing (sb : list sprops) (tag : Z) : list sprops :=
  flat_map (fun p => map (fun _ => p) (filter (Z.eqb tag) (sp_tags p))) sb.
(** The loop on one tag, GlobalEvolution.cpp 202-240: the states so far, the last wall, the static flag of the
    wall's constructor. *)
Definition attachTag (d2e : list Z) (sb : list sprops) (tag : Z) (rs : list raw) (checked : bool)
  : res (list astate * option wall * bool) :=
  foldM (fun st p =>
    ' (w, _, c) <- buildWall (snd st) p ;;
    ss <- mapM (newState d2e (stateSize w)) rs ;;
    Ok (fst (fst st) ++ ss, Some w, c)) (listing sb tag) ([], None, checked).
(** A tag of sgbc_states_ and sgbc_wrapper_map_.
    Used in [attachAll], GlobalEvolution.cpp 202-240. *)
Record attached := mkAt { at_tag : Z; at_wall : wall; at_states : list astate }.
(** GlobalEvolution.cpp 202-240 *)
Definition attachAll (d2e : list Z) (sb : list sprops) (checked : bool) (rp : list (Z * list raw)) : res (list attached * bool) :=
  foldM (fun st tr =>
    ' (ss, w, c) <- attachTag d2e sb (fst tr) (snd tr) (snd st) ;;
    match w with Some w => Ok (fst st ++ [mkAt (fst tr) w ss], c) | None => Ok (fst st, c) end) rp ([], checked).
(** The tasks, GlobalEvolution.cpp 244-249. *)
Definition tasks (at_ : list attached) : list (Z * nat) :=
  flat_map (fun g => map (fun i => (at_tag g, i)) (seq 0 (length (at_states g)))) at_.
(** collectDofs, GlobalEvolution.cpp 295-306: the dofs of a set of elements, sorted. *)
Definition collectDofs (els : list Z) : res (list Z) :=
  ds <- mapM (zget dofs) els ;; Ok (sortBy Z.leb (nodup Z.eq_dec (concat ds))).
(** GlobalEvolution.cpp 282-308 *)
Definition elem1Dofs (at_ : list attached) : res (list Z) :=
  collectDofs (nodup Z.eq_dec (map as_e1 (flat_map at_states at_))).
(** Used in [attach], GlobalEvolution.cpp 46-308. *)
Definition elem2Dofs (at_ : list attached) : res (list Z) :=
  collectDofs (nodup Z.eq_dec (filter (fun e => negb (e =? -1)) (map as_e2 (flat_map at_states at_)))).
(** GlobalEvolution.cpp 46-308 *)
Definition attach (sb : list sprops) (checked : bool) : res (list attached * list Z * list Z) :=
  rp <- rawPairs ;;
  d2e <- dofToElem ;;
  ' (a, _) <- attachAll d2e sb checked rp ;;
  l1 <- elem1Dofs a ;; l2 <- elem2Dofs a ;; Ok (a, l1, l2).
End Attach.

(** The wall as Evol_Model uses it: sides as in 889-893, indices as in SolverExtension.cpp
    187-198; its operator and integrator are those of the inner solver. *)
Definition endSide (c : option cond) : side :=
  match c with Some PEC => Evol_Model.PEC | Some PMC => Evol_Model.PMC | Some SMA => Evol_Model.SMA | _ => Transparent end.
(** SolverExtension.cpp 187-198. *)
Definition wrapperOf (A : wall -> matrix) (ode : wall -> R -> R -> list R -> prog) (w : wall) : wrapper :=
  let ls := map sl_layer (sp_layers (wl_props w)) in
  mkW (Z.of_nat (fieldSize w)) (leftInterface ls) (wl_rec w) (endSide (sp_left (wl_props w))) (endSide (sp_right (wl_props w))) (A w) (ode w).
(** A tag with its wall and states; the step of the inner solver is set before it is read.
    GlobalEvolution.cpp 202-240. *)
Definition groupOf (A : wall -> matrix) (ode : wall -> R -> R -> list R -> prog) (g : attached) : group :=
  mkG (wrapperOf A ode (at_wall g)) (mkD (zeros (stateSize (at_wall g))) 0 2 0 newCache) (map as_state (at_states g)).

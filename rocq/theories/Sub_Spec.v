(** What the sub-meshers should select. *)
From Coq Require Import ZArith List Bool Reals Permutation.
From Verif Require Import Common Sub_Model.
Import ListNotations.
Local Open Scope Z_scope.

(** [f] is the local face [l] of element [e]. *)
Definition localFace (m : mesh) (e f l : Z) : Prop := exists fs, zget (m_efaces m) e = Ok fs /\ zget fs l = Ok f.
(** A conforming mesh. *)
Record wfMesh (m : mesh) : Prop := mkWf {
  wf_efaces : length (m_efaces m) = length (m_everts m);
  wf_fverts : length (m_fverts m) = length (m_fels m);
  wf_face : forall f e1 e2, zget (m_fels m) f = Ok (e1, e2) ->
    0 <= e1 < numElems m /\ (e2 = -1 \/ 0 <= e2 < numElems m) /\ e1 <> e2 /\
    (exists l, localFace m e1 f l) /\ (0 <= e2 -> exists l, localFace m e2 f l);
  wf_local : forall e f l, localFace m e f l -> 0 <= f < Z.of_nat (length (m_fels m));
  wf_distinct : forall e l l' f f' v v', localFace m e f l -> localFace m e f' l' ->
    zget (m_fverts m) f = Ok v -> zget (m_fverts m) f' = Ok v' -> Permutation v v' -> l = l';
  wf_bdr : forall be b, zget (m_bdr m) be = Ok b -> exists v, zget (m_fverts m) (b_face b) = Ok v /\ Permutation (b_verts b) v }.
(** Every attribute of the boundary is covered by the marker. *)
Definition covers (m : mesh) (marker : list Z) : Prop := forall b, In b (m_bdr m) -> 1 <= b_attr b <= Z.of_nat (length marker).
(** Vertices have coordinates and faces have enough vertices. *)
Definition wfGeo (m : mesh) : Prop :=
  (forall vs v, In vs (m_everts m) -> In v vs -> 0 <= v < Z.of_nat (length (m_coord m))) /\
  (forall vs v, In vs (m_fverts m) -> In v vs -> 0 <= v < Z.of_nat (length (m_coord m))) /\
  (forall vs, In vs (m_fverts m) -> m_dim m <= Z.of_nat (length vs)) /\
  (forall b v, In b (m_bdr m) -> In v (b_verts b) -> 0 <= v < Z.of_nat (length (m_coord m))).

(** The marked boundary elements, in order. *)
Definition markedB (m : mesh) (marker : list Z) (be : Z) : bool :=
  match nth_error (m_bdr m) (Z.to_nat be) with
  | Some b => match nth_error marker (Z.to_nat (b_attr b - 1)) with Some k => k =? 1 | None => false end
  | None => false
  end.
Definition marked (m : mesh) (marker : list Z) : list Z := filter (markedB m marker) (zseq (length (m_bdr m))).
(** The elements beside a boundary element, and its face. *)
Definition beside (m : mesh) (be f e1 e2 : Z) : Prop := exists b, zget (m_bdr m) be = Ok b /\ b_face b = f /\ zget (m_fels m) f = Ok (e1, e2).

(** What a marked face adds to the two lists: its two sides to opposite lists, or its single side to one. *)
Definition contributes (m : mesh) (be : Z) (c : list (Z * Z) * list (Z * Z)) : Prop :=
  exists f e1 e2 l1, beside m be f e1 e2 /\ localFace m e1 f l1 /\
  ((0 <= e2 /\ exists l2, localFace m e2 f l2 /\ (c = ([(e1, l1)], [(e2, l2)]) \/ c = ([(e2, l2)], [(e1, l1)]))) \/
   (e2 < 0 /\ (c = ([(e1, l1)], []) \/ c = ([], [(e1, l1)])))).
(** Element [e] is on the total (or scattered) side of a marked face, [d] telling whether the first element is in the total field. *)
Definition onSide (m : mesh) (d : Z -> bool) (be e : Z) (tf : bool) : Prop :=
  exists f e1 e2, beside m be f e1 e2 /\ ((e = e1 /\ tf = d be) \/ (0 <= e2 /\ e = e2 /\ tf = negb (d be))).
Definition touches (m : mesh) (be e : Z) : Prop := exists f e1 e2, beside m be f e1 e2 /\ (e = e1 \/ (0 <= e2 /\ e = e2)).
(** No element is on both sides. *)
Definition consistent (m : mesh) (marker : list Z) (d : Z -> bool) : Prop :=
  forall be be' e, In be (marked m marker) -> In be' (marked m marker) -> onSide m d be e true -> onSide m d be' e false -> False.

(** Signed area: on which side of the line from [a] to [b] lies [p] (positive: left), in the plane. *)
Definition sideOf (a b p : point) : R :=
  let '(ax, ay, _) := a in let '(bx, by_, _) := b in let '(px, py, _) := p in ((bx - ax) * (py - ay) - (by_ - ay) * (px - ax))%R.
(** The vertices [vs] lie on the left (right) of the line, not all on it. *)
Definition allLeft (m : mesh) (a b : point) (vs : list Z) : Prop :=
  (forall v p, In v vs -> zget (m_coord m) v = Ok p -> (0 <= sideOf a b p)%R) /\ exists v p, In v vs /\ zget (m_coord m) v = Ok p /\ (0 < sideOf a b p)%R.
Definition allRight (m : mesh) (a b : point) (vs : list Z) : Prop :=
  (forall v p, In v vs -> zget (m_coord m) v = Ok p -> (sideOf a b p <= 0)%R) /\ exists v p, In v vs /\ zget (m_coord m) v = Ok p /\ (sideOf a b p < 0)%R.
(** The face of [be] runs along its first element counter-clockwise, the second element lies beyond it. *)
Definition ccwFace (m : mesh) (be : Z) : Prop :=
  exists f e1 e2 i j rest a b vs1, beside m be f e1 e2 /\ zget (m_fverts m) f = Ok (i :: j :: rest) /\ rest = [] /\
    zget (m_coord m) i = Ok a /\ zget (m_coord m) j = Ok b /\
    zget (m_everts m) e1 = Ok vs1 /\ allLeft m a b vs1 /\
    (0 <= e2 -> exists vs2, zget (m_everts m) e2 = Ok vs2 /\ allRight m a b vs2).

(** The pair names a local face of the element that is the face of the boundary element. *)
Definition rightPair (m : mesh) (be : Z) (p : Z * Z) : Prop :=
  exists f e1 e2, beside m be f e1 e2 /\ (fst p = e1 \/ (0 <= e2 /\ fst p = e2)) /\ localFace m (fst p) f (snd p).

(** Boundary element [cb] of the child lies on the face of boundary element [be] of the parent. *)
Definition inherits (f2b cf2b fmap : list Z) (be cb : Z) : Prop :=
  exists pf cf, zget f2b pf = Ok be /\ zget fmap cf = Ok pf /\ zget cf2b cf = Ok cb /\ 0 <= cb.
(** What the transfer adds to entry [k]. *)
Definition gathered (map_ : list Z) (src : list R) (k : Z) : R :=
  fold_right Rplus 0%R (map (fun p => if fst p =? k then snd p else 0%R) (combine map_ src)).
(** The marked faces separate the elements of [inside] from the others: each has [inside] on one side
    only, and every face between the two kinds of elements is marked. *)
Definition separates (m : mesh) (marker : list Z) (inside : list Z) : Prop :=
  (forall be f e1 e2, In be (marked m marker) -> beside m be f e1 e2 -> (In e1 inside /\ ~ In e2 inside) \/ (~ In e1 inside /\ In e2 inside)) /\
  (forall f e1 e2, zget (m_fels m) f = Ok (e1, e2) -> 0 <= e2 -> (In e1 inside /\ ~ In e2 inside) \/ (~ In e1 inside /\ In e2 inside) -> exists be, In be (marked m marker) /\ beside m be f e1 e2).
(** The vertices of element [e] satisfy [P]. *)
Definition vertsIn (m : mesh) (P : point -> Prop) (e : Z) : Prop := exists vs, zget (m_everts m) e = Ok vs /\ forall v p, In v vs -> zget (m_coord m) v = Ok p -> P p.

(** A line: the first element of an interior point lies on its left; its ends are those of the first and last elements. *)
Definition lineMesh (m : mesh) : Prop := forall f e1 e2, zget (m_fels m) f = Ok (e1, e2) ->
  (0 <= e2 /\ e2 = e1 + 1 /\ localFace m e1 f 1 /\ localFace m e2 f 0) \/
  (e2 = -1 /\ e1 = 0 /\ localFace m e1 f 0) \/ (e2 = -1 /\ e1 = numElems m - 1 /\ localFace m e1 f 1).
Definition leftEnd (m : mesh) (be : Z) : Prop := exists f, beside m be f 0 (-1) /\ localFace m 0 f 0.
Definition rightEnd (m : mesh) (be : Z) : Prop := exists f, beside m be f (numElems m - 1) (-1) /\ localFace m (numElems m - 1) f 1.

(** The arithmetic mean of points. *)
Definition isMean (ps : list point) (c : point) : Prop :=
  let n := INR (length ps) in let '(x, y, z) := c in
  (n * x = fold_right Rplus 0 (map (fun p => fst (fst p)) ps) /\ n * y = fold_right Rplus 0 (map (fun p => snd (fst p)) ps) /\ n * z = fold_right Rplus 0 (map (fun p : point => snd p) ps))%R.
(** The vertices [vs] have the points [ps]. *)
Definition pointsOf (m : mesh) (vs : list Z) (ps : list point) : Prop := Forall2 (fun v p => zget (m_coord m) v = Ok p) vs ps.
(** The barycentre of an element. *)
Definition isBary (m : mesh) (e : Z) (p : point) : Prop := exists vs ps, zget (m_everts m) e = Ok vs /\ vs <> [] /\ pointsOf m vs ps /\ isMean ps p.
(** The centre of the marked surface: the mean of its vertices, each counted once. *)
Definition isCentre (m : mesh) (marker : list Z) (c : point) : Prop :=
  exists vs ps, NoDup vs /\ (forall v, In v vs <-> exists be b, In be (marked m marker) /\ zget (m_bdr m) be = Ok b /\ In v (b_verts b)) /\ pointsOf m vs ps /\ isMean ps c.
(** Scalar product of [n] with the vector from [a] to [b]. *)
Definition along (n a b : point) : R :=
  let '(nx, ny, nz) := n in let '(ax, ay, az) := a in let '(bx, by_, bz) := b in (nx * (bx - ax) + ny * (by_ - ay) + nz * (bz - az))%R.
(** [b] is reached from [a] in the direction [n]. *)
Definition straight (n a b : point) : Prop :=
  exists k, (0 < k)%R /\ let '(nx, ny, nz) := n in let '(ax, ay, az) := a in let '(bx, by_, bz) := b in (bx - ax = k * nx /\ by_ - ay = k * ny /\ bz - az = k * nz)%R.
Definition middle (a b : point) : point := let '(ax, ay, az) := a in let '(bx, by_, bz) := b in ((ax + bx) / 2, (ay + by_) / 2, (az + bz) / 2)%R.

(** The scalar triple product of the vectors from [a] to [b], from [c] to [d] and from [c] to [e]. *)
Definition triple (a b c d e : point) : R :=
  let '(ax, ay, az) := a in let '(bx, by_, bz) := b in let '(cx, cy, cz) := c in let '(dx, dy, dz) := d in let '(ex, ey, ez) := e in
  ((bx - ax) * ((dy - cy) * (ez - cz) - (dz - cz) * (ey - cy)) +
   (by_ - ay) * ((dz - cz) * (ex - cx) - (dx - cx) * (ez - cz)) +
   (bz - az) * ((dx - cx) * (ey - cy) - (dy - cy) * (ex - cx)))%R.
(** The first vertex of a triangle or quadrilateral and its neighbours, in order. *)
Definition cornerOf (vs : list Z) (i j k : Z) : Prop := vs = [i; j; k] \/ exists h, vs = [i; j; h; k].
(** What is recorded for a face in space: the only side, or the number of the face in its second element
    beside the first element, or beside the second when the barycentres go against the normal. *)
Definition spacePair (m : mesh) (be : Z) (p : Z * Z) : Prop :=
  forall f e1 e2, beside m be f e1 e2 ->
  (e2 < 0 -> fst p = e1 /\ localFace m e1 f (snd p)) /\
  (0 <= e2 -> localFace m e2 f (snd p) /\
     forall b1 b2 vs i j k v0 v1 v2, isBary m e1 b1 -> isBary m e2 b2 -> zget (m_fverts m) f = Ok vs -> cornerOf vs i j k ->
       zget (m_coord m) i = Ok v0 -> zget (m_coord m) j = Ok v1 -> zget (m_coord m) k = Ok v2 ->
       ((triple b1 b2 v0 v1 v2 < 0)%R -> fst p = e2) /\ ((0 <= triple b1 b2 v0 v1 v2)%R -> fst p = e1)).

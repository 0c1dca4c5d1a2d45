(** What the face connectivity should be, in terms of the nodes shared by the faces. *)
From Coq Require Import ZArith List Bool Reals Sorted.
From Verif Require Import Common Face_Model Face_Spec Nodal_Spec Nodal_Model Setup_Model Conn_Model.
Import ListNotations.
Local Open Scope Z_scope.

(** Value of shape function [i] of a side at a point of the face. *)
Definition sh1 (q : qpoint) (i : nat) : R := nth i (q_s1 q) 0%R.
Definition sh2 (q : qpoint) (j : nat) : R := nth j (q_s2 q) 0%R.
(** Product of two shape functions of the first side over the reference face, twice. *)
Definition overlap (F : face) (i j : nat) : R := suml (fun q => q_w q * 2 * (sh1 q i * sh1 q j))%R (f_pts F).

(** The nodes on the face: local numbers in the first and in the second element.  Other
    shape functions vanish on the face and those of a shared node have the same trace. *)
Definition conforms (F : face) (n : nat) (nodes : list (nat * nat)) : Prop :=
  wfFace F /\ f_el1 F = n /\ f_el2 F = Some n /\
  NoDup (map fst nodes) /\ NoDup (map snd nodes) /\
  Forall (fun ij => fst ij < n /\ snd ij < n)%nat nodes /\
  (forall q i, In q (f_pts F) -> (i < n)%nat -> ~ In i (map fst nodes) -> sh1 q i = 0%R) /\
  (forall q j, In q (f_pts F) -> (j < n)%nat -> ~ In j (map snd nodes) -> sh2 q j = 0%R) /\
  (forall q ij, In q (f_pts F) -> In ij nodes -> sh1 q (fst ij) = sh2 q (snd ij)).
(** The overlap of a node with itself stands out. *)
Definition separated (F : face) (nodes : list (nat * nat)) : Prop :=
  (forall ij, In ij nodes -> connTol < overlap F (fst ij) (fst ij))%R /\
  (forall ij kl, In ij nodes -> In kl nodes -> fst ij <> fst kl ->
     connTol <= Rabs (overlap F (fst ij) (fst kl) - overlap F (fst ij) (fst ij)))%R.
(** A face of the boundary: nodes are listed as pairs (i, i). *)
Definition bdrConforms (F : face) (n : nat) (nodes : list (nat * nat)) : Prop :=
  wfFace F /\ f_el1 F = n /\ f_el2 F = None /\
  NoDup (map fst nodes) /\ Forall (fun ij => fst ij < n /\ snd ij = fst ij)%nat nodes /\
  (forall q i, In q (f_pts F) -> (i < n)%nat -> ~ In i (map fst nodes) -> sh1 q i = 0%R) /\
  (forall ij, In ij nodes -> connTol < overlap F (fst ij) (fst ij))%R.

Definition noFace : cface := mkCF 0 0 (mkFace 0 None []).
Definition faceAt (m : cmesh) (f : Z) : cface := nth (Z.to_nat f) (cm_face m) noFace.
Definition interior (m : cmesh) (f : Z) : Prop := 0 <= cf_e2 (faceAt m f).
Definition inF (m : cmesh) (f : Z) : Prop := 0 <= f < Z.of_nat (length (cm_face m)).

(** A conforming mesh of elements with [n] dofs each, numbered element after element. *)
Record conforming (m : cmesh) (n : nat) (nodes : Z -> list (nat * nat)) : Prop := {
  g_dofs : forall e, inR e (Z.of_nat (cm_ne m)) ->
             nth (Z.to_nat e) (cm_dofs m) [] = map (fun k => e * Z.of_nat n + k) (zseq n);
  g_N : cm_N m = Z.of_nat (cm_ne m) * Z.of_nat n;
  g_attr : length (cm_attr m) = cm_ne m;
  g_tag : ~ In meshingTag (cm_attr m);
  g_elface : length (cm_elface m) = cm_ne m;
  (** an element's faces touch it *)
  g_faces : forall e f, inR e (Z.of_nat (cm_ne m)) -> In f (nth (Z.to_nat e) (cm_elface m) []) ->
              inF m f /\ (cf_e1 (faceAt m f) = e \/ cf_e2 (faceAt m f) = e);
  g_el1 : forall f, inF m f -> inR (cf_e1 (faceAt m f)) (Z.of_nat (cm_ne m));
  g_int : forall f, inF m f -> interior m f ->
            cf_e1 (faceAt m f) < cf_e2 (faceAt m f) < Z.of_nat (cm_ne m) /\
            conforms (cf_geo (faceAt m f)) n (nodes f) /\ separated (cf_geo (faceAt m f)) (nodes f);
  g_bdr : forall f, inF m f -> ~ interior m f -> cf_e2 (faceAt m f) = -1 /\ bdrConforms (cf_geo (faceAt m f)) n (nodes f);
  (** two elements share at most one face *)
  g_one : forall f f', inF m f -> inF m f' -> interior m f -> interior m f' ->
            cf_e1 (faceAt m f) = cf_e1 (faceAt m f') -> cf_e2 (faceAt m f) = cf_e2 (faceAt m f') -> f = f' }.

(** Global number of a local node. *)
Definition gdof (n : nat) (e : Z) (k : nat) : Z := e * Z.of_nat n + Z.of_nat k.
(** The pair of a face node as seen from element [e]: own dof, dof of the other side. *)
Definition seenFrom (m : cmesh) (n : nat) (e f : Z) (ij : nat * nat) : Z * Z :=
  let F := faceAt m f in
  if 0 <=? cf_e2 F then
    (if e =? cf_e1 F then (gdof n (cf_e1 F) (fst ij), gdof n (cf_e2 F) (snd ij))
     else (gdof n (cf_e2 F) (snd ij), gdof n (cf_e1 F) (fst ij)))
  else (gdof n e (fst ij), gdof n e (fst ij)).
(** The block of a face of an element: its nodes, each once, in increasing order. *)
Definition isBlock (m : cmesh) (n : nat) (nodes : Z -> list (nat * nat)) (e f : Z) (l : list (Z * Z)) : Prop :=
  StronglySorted (fun p q => fst p < fst q) l /\
  (forall p, In p l <-> exists ij, In ij (nodes f) /\ p = seenFrom m n e f ij).
(** The whole map: the blocks of the faces of each element, element after element. *)
Definition isGlobal (m : cmesh) (n : nat) (nodes : Z -> list (nat * nat)) (g : list (Z * Z)) : Prop :=
  exists blocks : list (list (list (Z * Z))),
    g = concat (map (@concat _) blocks) /\
    Forall2 (fun e bs => Forall2 (isBlock m n nodes e) (nth (Z.to_nat e) (cm_elface m) []) bs) (zseq (cm_ne m)) blocks.

(** ** Positions *)
(** The faces in the order of the map: element after element, face after face. *)
Definition keys (m : cmesh) : list (Z * Z) :=
  flat_map (fun e => map (fun f => (e, f)) (nth (Z.to_nat e) (cm_elface m) [])) (zseq (cm_ne m)).
(** Where the nodes of a face of an element begin. *)
Fixpoint startIn (nodes : Z -> list (nat * nat)) (ks : list (Z * Z)) (e f : Z) : Z :=
  match ks with
  | [] => 0
  | (e', f') :: t => if (e =? e') && (f =? f') then 0 else Z.of_nat (length (nodes f')) + startIn nodes t e f
  end.
Definition start (m : cmesh) (nodes : Z -> list (nat * nat)) (e f : Z) : Z := startIn nodes (keys m) e f.
Definition range (p : Z) (k : nat) : list Z := map (fun i => p + i) (zseq k).
Definition valAt (g : list (Z * Z)) (p : Z) : Z * Z := nth (Z.to_nat p) g (0, 0).

(** Local number of a face node in element [e]. *)
Definition ownLocal (m : cmesh) (e f : Z) (ij : nat * nat) : nat :=
  if (0 <=? cf_e2 (faceAt m f)) && negb (e =? cf_e1 (faceAt m f)) then snd ij else fst ij.
(** Faces of an element: no repetition, no face within another, listed so that the last node
    of a face does not come before the first node of the next one; every side of a face is
    listed by its element; every face has a node. *)
Record faceOrder (m : cmesh) (n : nat) (nodes : Z -> list (nat * nat)) : Prop := {
  o_nodup : forall e, inR e (Z.of_nat (cm_ne m)) -> NoDup (nth (Z.to_nat e) (cm_elface m) []);
  o_listed : forall f, inF m f -> In f (nth (Z.to_nat (cf_e1 (faceAt m f))) (cm_elface m) []) /\
               (interior m f -> In f (nth (Z.to_nat (cf_e2 (faceAt m f))) (cm_elface m) []));
  o_some : forall f, inF m f -> nodes f <> [];
  o_distinct : forall e f f', inR e (Z.of_nat (cm_ne m)) ->
                 In f (nth (Z.to_nat e) (cm_elface m) []) -> In f' (nth (Z.to_nat e) (cm_elface m) []) -> f <> f' ->
                 exists ij, In ij (nodes f) /\ ~ In (ownLocal m e f ij) (map (ownLocal m e f') (nodes f'));
  o_descend : forall e l f f' r, inR e (Z.of_nat (cm_ne m)) -> nth (Z.to_nat e) (cm_elface m) [] = l ++ f :: f' :: r ->
                 exists ij kl, In ij (nodes f) /\ In kl (nodes f') /\ (ownLocal m e f' kl <= ownLocal m e f ij)%nat }.

(** ** Boundary elements and markers *)
Definition bdrFace (m : cmesh) (b : Z) : Z := fst (nth (Z.to_nat b) (cm_bdr m) (0, 0)).
Definition bdrAttr (m : cmesh) (b : Z) : Z := snd (nth (Z.to_nat b) (cm_bdr m) (0, 0)).
Definition inB (m : cmesh) (b : Z) : Prop := 0 <= b < Z.of_nat (length (cm_bdr m)).
(** One boundary element per face at most; attributes within the markers. *)
Definition wfBdrs (m : cmesh) (mks : list (cond * list Z)) : Prop :=
  NoDup (map fst (cm_bdr m)) /\
  (forall b, inB m b -> inF m (bdrFace m b)) /\
  (forall b mk, inB m b -> In mk mks -> 1 <= bdrAttr m b <= Z.of_nat (length (snd mk))).
Definition condEqb (a b : cond) : bool :=
  match a, b with
  | PEC, PEC | PMC, PMC | SMA, SMA | SurfaceCond, SurfaceCond | NearToFarField, NearToFarField
  | TotalFieldIn, TotalFieldIn | SGBC, SGBC => true
  | _, _ => false
  end.
Definition isMarked (mk : list Z) (a : Z) : bool := nth (Z.to_nat (a - 1)) mk 0 =? 1.
(** The boundary elements of [bs] on which a marker of condition [c] is set, in order. *)
Definition wanted (m : cmesh) (mks : list (cond * list Z)) (c : cond) (bs : list Z) : list Z :=
  flat_map (fun b => map (fun _ => b) (filter (fun mk => condEqb (fst mk) c && isMarked (snd mk) (bdrAttr m b)) mks)) bs.
Definition isTrueB (m : cmesh) (b : Z) : bool := negb (0 <=? cf_e2 (faceAt m (bdrFace m b))).
Definition trueB (m : cmesh) : list Z := filter (isTrueB m) (zseq (length (cm_bdr m))).

(** The maps of a condition on the boundary: the positions of the nodes of each face, and
    their dofs. *)
Definition isBMap (m : cmesh) (nodes : Z -> list (nat * nat)) (g : list (Z * Z)) (bs : list Z) (bm : bmaps) : Prop :=
  mapB bm = map (fun b => let f := bdrFace m b in range (start m nodes (cf_e1 (faceAt m f)) f) (length (nodes f))) bs /\
  vmapB bm = map (map (fun p => fst (valAt g p))) (mapB bm).

(** The maps of a condition on an interior face: positions of its nodes seen from the first
    element and from the second, and the dofs on both sides. *)
Definition quad := (list Z * list Z * list Z * list Z)%type.
Definition flipQ (q : quad) : quad := let '(a, b, c, d) := q in (b, a, d, c).
Definition isSides (m : cmesh) (nodes : Z -> list (nat * nat)) (g : list (Z * Z)) (b : Z) (q : quad) : Prop :=
  let f := bdrFace m b in let F := faceAt m f in let k := length (nodes f) in
  let '(m1, m2, v1, v2) := q in
  m1 = range (start m nodes (cf_e1 F) f) k /\
  v1 = map (fun p => fst (valAt g p)) m1 /\ v2 = map (fun p => snd (valAt g p)) m1 /\
  Forall2 (fun p p1 => start m nodes (cf_e2 F) f <= p < start m nodes (cf_e2 F) f + Z.of_nat k /\
                       valAt g p = swapP (valAt g p1)) m2 m1.
Definition ofQuads (qs : list quad) : ibmaps :=
  mkIB (map (fun q => fst (fst (fst q))) qs) (map (fun q => snd (fst (fst q))) qs) (map (fun q => snd (fst q)) qs) (map snd qs).
Definition isIMap (m : cmesh) (nodes : Z -> list (nat * nat)) (g : list (Z * Z)) (bs : list Z) (im : ibmaps) : Prop :=
  exists qs, im = ofQuads qs /\ Forall2 (isSides m nodes g) bs qs.
(** Total field surface: the scattered side is the first element when the orientation is not
    negative. *)
Definition isTMap (m : cmesh) (nodes : Z -> list (nat * nat)) (g : list (Z * Z)) (bs : list Z) (im : ibmaps) : Prop :=
  exists qs, im = ofQuads qs /\
    Forall2 (fun b q => isSides m nodes g b (if Rle_dec 0 (nth (Z.to_nat b) (cm_ori m) 0%R) then q else flipQ q)) bs qs.

(** All boundary elements; conditions on them that the maps of interior faces can hold. *)
Definition allB (m : cmesh) : list Z := zseq (length (cm_bdr m)).
Definition intOk (m : cmesh) (mks : list (cond * list Z)) : Prop :=
  forall b mk, inB m b -> In mk mks -> isMarked (snd mk) (bdrAttr m b) = true ->
    interior m (bdrFace m b) /\ (fst mk = PEC \/ fst mk = PMC \/ fst mk = SMA \/ fst mk = TotalFieldIn).

(** Every element has [nf] faces of [k] nodes. *)
Definition uniform (m : cmesh) (nodes : Z -> list (nat * nat)) (nf k : nat) : Prop :=
  (forall e, inR e (Z.of_nat (cm_ne m)) -> length (nth (Z.to_nat e) (cm_elface m) []) = nf) /\
  (forall f, inF m f -> length (nodes f) = k).

(** ** One dimension *)
(** First and last dof of an element of order [p]. *)
Definition firstDof (p e : Z) : Z := e * (p + 1).
Definition lastDof (p e : Z) : Z := e * (p + 1) + p.

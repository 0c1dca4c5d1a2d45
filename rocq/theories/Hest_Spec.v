(** What the matrices of the nodal operator should be: those of a discontinuous Galerkin
    scheme with the mass matrix and the faces of each element itself. *)
From Coq Require Import ZArith List Bool Reals Sorted Permutation.
From Verif Require Import Common Geo_Spec Face_Model Face_Spec Nodal_Model Nodal_Spec NodalEnergy_Spec Step_Model Setup_Model Conn_Model Conn_Spec Hest_Model.
Import ListNotations.
Local Open Scope R_scope.

(** [B] is a right inverse of the matrix [A] of size [n]. *)
Definition isInverse (n : nat) (A B : nat -> nat -> R) : Prop :=
  forall i j, (i < n)%nat -> (j < n)%nat -> sumN n (fun k => A i k * B k j) = if (i =? j)%nat then 1 else 0.

(** The nodes of a face of the reference element, in increasing order.  Shape functions of the
    other nodes vanish on the face. *)
Definition faceHas (n : nat) (F : face) (ns : list nat) : Prop :=
  wfFace F /\ f_el1 F = n /\ f_el2 F = None /\ StronglySorted lt ns /\ Forall (fun k => (k < n)%nat) ns /\
  (forall q i, In q (f_pts F) -> (i < n)%nat -> ~ In i ns -> sh1 q i = 0) /\
  (forall k, In k ns -> / 1000000 <= overlap F k k).
(** A reference element whose faces have [nf] nodes each. *)
Definition refShape (fc : fecol) (t : etype) (nf : nat) (nodes : list (list nat)) : Prop :=
  Forall2 (fun F ns => faceHas (fc_n fc t) F ns /\ length ns = nf) (fc_faces fc t) nodes.

(** Volume of MFEM's reference element. *)
Definition refVolume (t : etype) : R := match t with Triangle => / 2 | Tetrahedron => / 6 | _ => 1 end.
Definition geoDim (dim : Z) (q : geo) : Prop := match q with G1 _ => False | G2 _ _ => dim = 2%Z | G3 _ _ _ _ _ _ => dim = 3%Z end.
Definition noGeo : geo := G2 0 0.
Definition faceN (fc : fecol) (t : etype) (f : nat) : face := nth f (fc_faces fc t) (mkFace 0 None []).
Definition geoN (g : gelem) (f : nat) : geo := nth f (ge_geo g) noGeo.

(** An element with straight faces and constant Jacobian.  Its derivative matrices satisfy
    integration by parts, with the normals of its faces pointing outwards. *)
Record straight (fc : fecol) (dim : Z) (t : etype) (g : gelem) : Prop := {
  st_type : ge_type g = t;
  st_dofs : length (ge_dofs g) = fc_n fc t;
  st_det : 0 < ge_det g;
  st_vol : ge_vol g = ge_det g * refVolume t;
  st_faces : length (ge_geo g) = length (fc_faces fc t);
  st_geo : Forall (fun q => geoDim dim q /\ 0 < weightOf q) (ge_geo g);
  st_parts : forall d i j, (Z.of_nat d < dim)%Z -> (i < fc_n fc t)%nat -> (j < fc_n fc t)%nat ->
    ge_D g d i j + ge_D g d j i =
    suml (fun f => suml (fun q => q_w q * nth d (calculateNormal (geoN g f)) 0 * (sh1 q i * sh1 q j)) (f_pts (faceN fc t f)))
         (seq 0 (length (fc_faces fc t))) }.

(** The element types the operator can be built with. *)
Definition simplex (t : etype) (dim : Z) : Prop := (t = Triangle /\ dim = 2%Z) \/ (t = Tetrahedron /\ dim = 3%Z).
Definition supported (t : etype) (dim : Z) : Prop :=
  (t = Triangle /\ dim = 2%Z) \/ (t = Quadrilateral /\ dim = 2%Z) \/ (t = Tetrahedron /\ dim = 3%Z).
(** Factor by which the operator exceeds a Galerkin scheme. *)
Definition kappa (t : etype) : R := match t with Quadrilateral => 4 | _ => 1 end.
(** Nodes of a face of an element of order [p]. *)
Definition faceNodeCount (p : Z) (t : etype) : nat := Z.to_nat (match t with Tetrahedron => Z.quot ((p + 1) * (p + 2)) 2 | _ => p + 1 end)%Z.
(** The reference element: nodes of its faces, and an inverse of every multiple of its mass matrix. *)
Record refElement (inv : nat -> mat -> mat) (fc : fecol) (t : etype) (nf : nat) (ref : list (list nat)) : Prop := {
  re_nf : nf = faceNodeCount (fc_order fc) t;
  re_shape : refShape fc t nf ref;
  re_inv : forall c, 0 < c -> isInverse (fc_n fc t) (fun i j => c * fc_mass fc t i j) (inv (fc_n fc t) (fun i j => c * fc_mass fc t i j)) }.

(** The mass matrix of the element itself. *)
Definition ownMass (fc : fecol) (t : etype) (g : gelem) : nat -> nat -> R := fun i j => ge_det g * fc_mass fc t i j.
(** Unit normal of a face. *)
Definition unit3 (q : geo) : v3 :=
  let c d := nth d (calculateNormal q) 0 / weightOf q in (c 0%nat, c 1%nat, c 2%nat).
(** The quadrature points of the faces of the element: length or area, normal, shape functions
    of the nodes of that face. *)
Definition sidesOf (fc : fecol) (t : etype) (nf : nat) (nodes : list (list nat)) (g : gelem) (el : helem) : list side :=
  flat_map (fun f =>
    map (fun q => {| sd_el := el; sd_w := q_w q * weightOf (geoN g f); sd_n := unit3 (geoN g f);
                     sd_phi := fun i => if (i / nf =? f)%nat then sh1 q (nth (i mod nf) (nth f nodes []) 0%nat) else 0 |})
        (f_pts (faceN fc t f)))
    (seq 0 (length (fc_faces fc t))).

(** The connectivity lists the nodes of each face of the element in increasing order. *)
Definition listsFaces (s : nodal) (fc : fecol) (t : etype) (nf : nat) (nodes : list (list nat)) (el : helem) : Prop :=
  forall f b, (f < length (fc_faces fc t))%nat -> (b < nf)%nat ->
    fst (pairAt s (elPos el (f * nf + b))) = elDof el (nth b (nth f nodes []) 0%nat).

(** ** Straight and curved elements *)
(** A node moves away from its straight position by more than the tolerance along some axis. *)
Definition displaced (a b : vertex) : Prop :=
  exists d, (0 <= d < 3)%Z /\ / 100000 < Rabs (coord a d - coord b d).
Definition curvedBy (posLin posCur : list vertex) (g : gelem) : Prop :=
  exists d, In d (ge_dofs g) /\ displaced (nth (Z.to_nat d) posLin (0, 0, 0)) (nth (Z.to_nat d) posCur (0, 0, 0)).
Definition dofsIn (pos : list vertex) (g : gelem) : Prop := Forall (fun d => (0 <= d < Z.of_nat (length pos))%Z) (ge_dofs g).
(** A mesh with elements of one type, straight where its nodes are where a straight element has them. *)
Record localMesh (fc : fecol) (dim : Z) (t : etype) (posLin posCur : list vertex) (elems : list gelem) : Prop := {
  lm_some : elems <> [];
  lm_type : Forall (fun g => ge_type g = t) elems;
  lm_lin : Forall (dofsIn posLin) elems;
  lm_cur : Forall (dofsIn posCur) elems;
  lm_straight : forall g, In g elems -> ~ curvedBy posLin posCur g -> straight fc dim t g }.
(** A boundary element marked for the incident field next to a curved element. *)
Definition tfsfOnCurved (mk : list Z) (curved : list (Z * list Z)) (b : bdrElem) : Prop :=
  nth (Z.to_nat (be_attr b - 1)) mk 0%Z = 1%Z /\
  (In (be_e1 b) (map fst curved) \/ be_e2 b <> (-1)%Z /\ In (be_e2 b) (map fst curved)).

(** ** The mesh *)
(** The elements given to the operator are those of the mesh: same number, dofs numbered
    element after element, and face [lf] of every element has the nodes [ref lf]. *)
Record sameMesh (m : cmesh) (nodes : Z -> list (nat * nat)) (fc : fecol) (t : etype) (nf : nat) (ref : list (list nat)) (elems : list gelem) : Prop := {
  sm_n : length elems = cm_ne m;
  sm_dofs : forall e g, zget elems e = Ok g -> ge_dofs g = map (gdof (fc_n fc t) e) (seq 0 (fc_n fc t));
  sm_uni : uniform m nodes (length (fc_faces fc t)) nf;
  sm_ref : forall e lf, inR e (Z.of_nat (cm_ne m)) -> (lf < length (fc_faces fc t))%nat ->
    forall k, In k (nth lf ref []) <-> In k (map (ownLocal m e (nth lf (nth (Z.to_nat e) (cm_elface m) []) 0%Z)) (nodes (nth lf (nth (Z.to_nat e) (cm_elface m) []) 0%Z))) }.

(** Rows of the global operator refer to entries of the state. *)
Definition rowsIn (N : Z) (global : Z -> list (Z * R)) : Prop :=
  forall r, inR r (6 * N) -> Forall (fun cv => inR (fst cv) (6 * N)) (global r).

(** The geometry of an interior face is the same from both sides: size, opposite normals, and
    quadrature points that match one by one, with the same traces of the shared nodes. *)
Definition facesMatch (m : cmesh) (nodes : Z -> list (nat * nat)) (fc : fecol) (t : etype) (elems : list gelem) : Prop :=
  forall f lf1 lf2 g1 g2, inF m f -> interior m f ->
    let e1 := cf_e1 (faceAt m f) in let e2 := cf_e2 (faceAt m f) in
    nth_error (nth (Z.to_nat e1) (cm_elface m) []) lf1 = Some f -> nth_error (nth (Z.to_nat e2) (cm_elface m) []) lf2 = Some f ->
    zget elems e1 = Ok g1 -> zget elems e2 = Ok g2 ->
    weightOf (geoN g2 lf2) = weightOf (geoN g1 lf1) /\ unit3 (geoN g2 lf2) = scalep (-1) (unit3 (geoN g1 lf1)) /\
    exists qs, map fst qs = f_pts (faceN fc t lf1) /\ Permutation (map snd qs) (f_pts (faceN fc t lf2)) /\
      forall q, In q qs -> q_w (fst q) = q_w (snd q) /\ forall ij, In ij (nodes f) -> sh1 (fst q) (fst ij) = sh1 (snd q) (snd ij).
(** Every face carries one condition, the same at all its nodes; the faces of the boundary are
    not interior ones. *)
Definition oneKind (m : cmesh) (nf : nat) (maps : bdrMaps) (kinds : Z -> kind) : Prop :=
  (forall f, inF m f -> kinds f = KInterior -> interior m f) /\
  forall e lf b, inR e (Z.of_nat (cm_ne m)) -> (lf < length (nth (Z.to_nat e) (cm_elface m) []))%nat -> (b < nf)%nat ->
    kindAt maps ((e * Z.of_nat (length (nth (Z.to_nat e) (cm_elface m) [])) + Z.of_nat lf) * Z.of_nat nf + Z.of_nat b)%Z =
    kinds (nth lf (nth (Z.to_nat e) (cm_elface m) []) 0%Z).
(** The mass matrix of the element behind a stored element. *)
Definition elemOf (elems : list gelem) (el : helem) : gelem := nth (Z.to_nat (el_id el)) elems (mkGE Triangle [] 0 0 [] (fun _ => mzero)).
Definition massOf (fc : fecol) (t : etype) (elems : list gelem) (el : helem) : nat -> nat -> R := ownMass fc t (elemOf elems el).

(** ** Conditions of the faces *)
Definition carries (m : cmesh) (mks : list (cond * list Z)) (c : cond) (f : Z) : Prop :=
  exists b mk, inB m b /\ bdrFace m b = f /\ In mk mks /\ fst mk = c /\ isMarked (snd mk) (bdrAttr m b) = true.
(** Every face of the boundary carries a condition of the boundary, and no interior face
    carries a wall. *)
Definition closedBox (m : cmesh) (bdrMk intMk tfsfMk : list (cond * list Z)) : Prop :=
  (forall f, inF m f -> ~ interior m f -> carries m bdrMk PEC f \/ carries m bdrMk PMC f \/ carries m bdrMk SMA f) /\
  (forall f c, carries m intMk c f \/ carries m tfsfMk c f -> c = TotalFieldIn).

(** A mesh the connectivity can be built on, with its conditions. *)
Record operatorMesh (m : cmesh) (n : nat) (nodes : Z -> list (nat * nat)) (bdrMk intMk tfsfMk : list (cond * list Z)) : Prop := {
  om_conf : conforming m n nodes;
  om_order : faceOrder m n nodes;
  om_bdr : wfBdrs m bdrMk;
  om_int : wfBdrs m intMk;
  om_tf : wfBdrs m tfsfMk;
  om_intIn : intOk m intMk;
  om_tfIn : intOk m tfsfMk;
  om_ori : length (cm_ori m) = length (cm_bdr m);
  om_some : trueB m <> [] }.

(** The derivative matrix of the element in direction [d]; zero across a plane mesh. *)
Definition weakD (dim : Z) (g : gelem) (d : nat) : mat := if (Z.of_nat d <? dim)%Z then ge_D g d else mzero.
(** Value of the row [r] of the global operator on [x]. *)
Definition globalRow (global : Z -> list (Z * R)) (x : list R) (r : Z) : R :=
  suml (fun cv => snd cv * nth (Z.to_nat (fst cv)) x 0) (global r).

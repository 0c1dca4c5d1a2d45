(** The two operators a run can choose between, side by side: what each adds at the faces of
    the mesh, and when they are built on the same mesh. *)
From Coq Require Import ZArith List Bool Reals Permutation.
From Verif Require Import Common Geo_Spec Nodal_Model Nodal_Spec NodalEnergy_Spec Face_Model Face_Spec Step_Model Setup_Model Setup_Spec Form_Model Form_Spec Global_Spec Conn_Model Conn_Spec Hest_Model Hest_Spec.
Import ListNotations.
Local Open Scope R_scope.

(** ** Face terms *)
(** What the equations of E and of H receive, per unit area, on the side of a face with
    outward normal [n], own fields [E], [H] and fields [E'], [H'] across. *)
Definition zero3 : v3 := (0, 0, 0).
Definition upwind (alpha : R) (n E H E' H' : v3) : v3 * v3 :=
  (scalep (/ 2) (hatE alpha n (subp E' E) (subp H' H)), scalep (/ 2) (hatH alpha n (subp E' E) (subp H' H))).
(** A perfect conductor, a perfect magnetic conductor, an absorbing face. *)
Definition atPEC (alpha : R) (n E H : v3) : v3 * v3 := (scalep (- alpha) (tang n E), crossp n E).
Definition atPMC (alpha : R) (n E H : v3) : v3 * v3 := (scalep (-1) (crossp n H), scalep (- alpha) (tang n H)).
Definition atSMA (n E H : v3) : v3 * v3 :=
  (scalep (- / 2) (addp (crossp n H) (tang n E)), scalep (/ 2) (subp (crossp n E) (tang n H))).
(** The terms of the assembled operator: faces between two elements, and outer faces. *)
Definition innerTerm (alpha : R) (k : option cond) (n E H E' H' : v3) : v3 * v3 :=
  match k with
  | None => upwind alpha n E H E' H'
  | Some PEC => atPEC alpha n E H
  | Some PMC => atPMC alpha n E H
  | Some SMA => atSMA n E H
  | Some _ => (zero3, zero3)
  end.
Definition outerTerm (alpha : R) (k : option cond) (n E H : v3) : v3 * v3 :=
  match k with
  | Some PEC => atPEC alpha n E H
  | Some PMC => atPMC alpha n E H
  | Some SMA => atSMA n E H
  | Some SGBC => upwind alpha n E H zero3 zero3
  | _ => (zero3, zero3)
  end.
(** Row [d] of the equation of E ([g = 0]) or H ([g = 1]). *)
Definition rowOf (p : v3 * v3) (g d : Z) : R := pick (if (g =? 0)%Z then fst p else snd p) d.

(** Face terms of the assembled operator against the test function [v]: both sides of the face. *)
Definition faceTerm (N : nat) (alpha : R) (m : fmesh) (gb gi : list (Z * cond)) (x : list R) (v : nat -> R) (g d : Z) (fi : nat) (F : mface) (q : qpoint) : R :=
  let n := normalAt q in let k := faceKind m gb gi fi F in
  let E1 := fieldAt side1 N x 0 F q in let H1 := fieldAt side1 N x 1 F q in
  let E2 := fieldAt side2 N x 0 F q in let H2 := fieldAt side2 N x 1 F q in
  match f_el2 (mf_face F) with
  | Some _ => side1 (mf_face F) (local F v) q * rowOf (innerTerm alpha k n E1 H1 E2 H2) g d +
              side2 (mf_face F) (local F v) q * rowOf (innerTerm alpha k (scalep (-1) n) E2 H2 E1 H1) g d
  | None => side1 (mf_face F) (local F v) q * rowOf (outerTerm alpha k n E1 H1) g d
  end.
(** The curl of the other field against [v]: + curl H in the equation of E, - curl E in that of H. *)
Definition weakCurl (N : nat) (dim : Z) (D : Z -> mat) (x : list R) (v : nat -> R) (g d : Z) : R :=
  let part k w := if (k <? dim)%Z then mform N (D k) v w else 0 in
  let d1 := ((d + 1) mod 3)%Z in let d2 := ((d + 2) mod 3)%Z in
  (if (g =? 0)%Z then 1 else -1) * (part d1 (fld N x (1 - g) d2) - part d2 (fld N x (1 - g) d1)).

(** ** The same mesh for both operators *)
(** A matrix made of one block per element. *)
Definition inBlocks (n : nat) (elems : list gelem) (B : gelem -> mat) (A : mat) : Prop :=
  forall e e' i j g, zget elems e = Ok g -> inR e' (Z.of_nat (length elems)) -> (i < n)%nat -> (j < n)%nat ->
    A (Z.to_nat (gdof n e i)) (Z.to_nat (gdof n e' j)) = if (e =? e')%Z then B g i j else 0.
(** The faces of the assembled operator are the faces of the elements: same dofs, same
    quadrature, same shape functions seen from each side. *)
Definition sameFaces (m : cmesh) (nodes : Z -> list (nat * nat)) (fc : fecol) (t : etype) (elems : list gelem) (fm : fmesh) : Prop :=
  length (fm_faces fm) = length (cm_face m) /\
  forall f F, inF m f -> nth_error (fm_faces fm) (Z.to_nat f) = Some F ->
    let e1 := cf_e1 (faceAt m f) in let e2 := cf_e2 (faceAt m f) in
    exists lf1 g1, nth_error (nth (Z.to_nat e1) (cm_elface m) []) lf1 = Some f /\ zget elems e1 = Ok g1 /\
      f_el1 (mf_face F) = fc_n fc t /\ mf_dofs1 F = map Z.to_nat (ge_dofs g1) /\
      (~ interior m f -> f_el2 (mf_face F) = None /\
         Forall2 (fun q r => ds q = q_w r * weightOf (geoN g1 lf1) /\ normalAt q = unit3 (geoN g1 lf1) /\ q_s1 q = q_s1 r)
           (f_pts (mf_face F)) (f_pts (faceN fc t lf1))) /\
      (interior m f -> exists lf2 g2 rs, f_el2 (mf_face F) <> None /\
         nth_error (nth (Z.to_nat e2) (cm_elface m) []) lf2 = Some f /\ zget elems e2 = Ok g2 /\ mf_dofs2 F = map Z.to_nat (ge_dofs g2) /\
         map fst rs = f_pts (faceN fc t lf1) /\ Permutation (map snd rs) (f_pts (faceN fc t lf2)) /\
         (forall r, In r rs -> forall ij, In ij (nodes f) -> sh1 (fst r) (fst ij) = sh1 (snd r) (snd ij)) /\
         Forall2 (fun q r => (ds q = q_w (fst r) * weightOf (geoN g1 lf1) /\ normalAt q = unit3 (geoN g1 lf1) /\ q_s1 q = q_s1 (fst r)) /\
                             (ds q = q_w (snd r) * weightOf (geoN g2 lf2) /\ scalep (-1) (normalAt q) = unit3 (geoN g2 lf2) /\ q_s2 q = q_s1 (snd r)))
           (f_pts (mf_face F)) rs).
(** The conditions of the faces, as the assembled operator reads them and as the nodes carry them. *)
Definition condOf (k : kind) : option cond :=
  match k with KInterior => None | KPEC | KiPEC => Some PEC | KPMC | KiPMC => Some PMC | KSMA | KiSMA => Some SMA end.
Definition innerKind (k : kind) : Prop := match k with KInterior | KiPEC | KiPMC | KiSMA => True | _ => False end.
Definition sameKinds (m : cmesh) (fm : fmesh) (gb gi : list (Z * cond)) (kinds : Z -> kind) : Prop :=
  forall f F, inF m f -> nth_error (fm_faces fm) (Z.to_nat f) = Some F ->
    faceKind fm gb gi (Z.to_nat f) F = condOf (kinds f) /\ (innerKind (kinds f) <-> interior m f).
(** The kind of a face, from its condition in the tables of tags. *)
Definition kindFrom (fm : fmesh) (gb gi : list (Z * cond)) (fi : nat) (F : mface) : kind :=
  match f_el2 (mf_face F), faceKind fm gb gi fi F with
  | Some _, Some PEC => KiPEC | Some _, Some PMC => KiPMC | Some _, Some SMA => KiSMA | Some _, _ => KInterior
  | None, Some PMC => KPMC | None, Some SMA => KSMA | None, _ => KPEC
  end.
(** The tables of tags and the markers give every face the same condition; every face of the
    boundary has one. *)
Definition sameConds (m : cmesh) (fm : fmesh) (gb gi : list (Z * cond)) (bdrMk inMk : list (cond * list Z)) : Prop :=
  forall f F, inF m f -> nth_error (fm_faces fm) (Z.to_nat f) = Some F ->
    (forall c, c = PEC \/ c = PMC \/ c = SMA ->
       (faceKind fm gb gi (Z.to_nat f) F = Some c <-> carries m (if (0 <=? cf_e2 (faceAt m f))%Z then inMk else bdrMk) c f)) /\
    faceKind fm gb gi (Z.to_nat f) F <> Some SGBC /\ (~ interior m f -> faceKind fm gb gi (Z.to_nat f) F <> None).

(** Everything a run gives to one operator and to the other: the reference element, the elements
    and the connectivity of the nodal operator; the faces, tables and matrices of the assembled
    one, without losses.  [N] is the number of dofs per component. *)
Record sameProblem (inv : nat -> mat -> mat) (fc : fecol) (dim : Z) (t : etype) (nf : nat) (ref : list (list nat)) (elems : list gelem)
    (posLin posCur : list vertex) (m : cmesh) (nodes : Z -> list (nat * nat)) (bdrMk intMk tfsfMk : list (cond * list Z))
    (fm : fmesh) (gb gi : list (Z * cond)) (ob ib : list (cond * marker)) (Mass MInv D : Z -> mat) (MSigma : mat) (N : nat) : Prop := {
  sp_simplex : simplex t dim;
  sp_ref : refElement inv fc t nf ref;
  sp_local : localMesh fc dim t posLin posCur elems;
  sp_straight : Forall (fun g => ~ curvedBy posLin posCur g) elems;
  sp_mesh : operatorMesh m (fc_n fc t) nodes bdrMk intMk tfsfMk;
  sp_same : sameMesh m nodes fc t nf ref elems;
  sp_faces : sameFaces m nodes fc t elems fm;
  sp_conds : sameConds m fm gb gi bdrMk (intMk ++ tfsfMk);
  sp_N : N = (length elems * fc_n fc t)%nat;
  sp_mass : forall g, (g = 0 \/ g = 1)%Z -> inBlocks (fc_n fc t) elems (ownMass fc t) (Mass g);
  sp_D : forall d, (0 <= d < dim)%Z -> inBlocks (fc_n fc t) elems (fun g => ge_D g (Z.to_nat d)) (D d);
  sp_space : dgSpace N fm dim Mass MInv D;
  sp_tables : tables fm gb gi ob ib;
  sp_lossless : forall i j, MSigma i j = 0;
  sp_sym : forall i j, fc_mass fc t i j = fc_mass fc t j i }.

(** ** Where they differ *)
(** What the nodal operator adds at a face beyond the assembled one. *)
Definition excess (alpha : R) (k : kind) (n E H : v3) : v3 * v3 :=
  match k with
  | KSMA => (scalep ((1 - / alpha) / 2) (crossp n H), scalep (- ((1 - / alpha) / 2)) (crossp n E))
  | KiPEC => (scalep (- / 2) (fst (atPEC alpha n E H)), scalep (- / 2) (snd (atPEC alpha n E H)))
  | KiPMC => (scalep (- / 2) (fst (atPMC alpha n E H)), scalep (- / 2) (snd (atPMC alpha n E H)))
  | KiSMA => (addp (scalep (/ 4) (crossp n H)) (scalep (/ 2 - alpha / 4) (tang n E)),
              addp (scalep (- / 4) (crossp n E)) (scalep (/ 2 - alpha / 4) (tang n H)))
  | _ => (zero3, zero3)
  end.
Definition excessAt (N : nat) (alpha : R) (x : list R) (v : nat -> R) (g d : Z) (k : kind) (F : mface) (q : qpoint) : R :=
  side1 (mf_face F) (local F v) q * rowOf (excess alpha k (normalAt q) (fieldAt side1 N x 0 F q) (fieldAt side1 N x 1 F q)) g d +
  side2 (mf_face F) (local F v) q * rowOf (excess alpha k (scalep (-1) (normalAt q)) (fieldAt side2 N x 0 F q) (fieldAt side2 N x 1 F q)) g d.

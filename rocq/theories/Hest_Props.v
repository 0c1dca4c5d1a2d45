(** C95, C96, C97, C98: construction of the nodal operator. *)
From Coq Require Import ZArith List Bool Reals Sorted.
From Verif Require Import Common Geo_Spec Face_Model Face_Spec Nodal_Model Nodal_Spec NodalEnergy_Spec NodalEnergy_Proofs Step_Model Setup_Model Conn_Model Conn_Spec.
From Verif Require Import Hest_Model Hest_Spec Hest_Proofs HestBuild_Proofs HestMesh_Proofs HestEnergy_Proofs HestKind_Proofs HestRun_Proofs HestFail_Proofs HestEx_Proofs.
Import ListNotations.
Local Open Scope R_scope.

(** Triangles and tetrahedra: every straight element has the derivatives and the lifting of its
    own Galerkin scheme. *)
Theorem C95_element : forall inv fc dim t nf ref elems posLin posCur tfsf bdr global alpha conn maps attrs m nodes bdrMk intMk tfsfMk,
  simplex t dim -> refElement inv fc t nf ref -> localMesh fc dim t posLin posCur elems -> operatorMesh m (fc_n fc t) nodes bdrMk intMk tfsfMk ->
  sameMesh m nodes fc t nf ref elems -> connectivities m bdrMk intMk tfsfMk = Ok (conn, maps, attrs) ->
  forall src s, buildNodal inv fc dim (cm_N m) elems posLin posCur tfsf bdr global alpha conn maps src = Ok s ->
  forall el, In el (nd_lin s) -> exists g, zget elems (el_id el) = Ok g /\ ~ curvedBy posLin posCur g /\ el_dofs el = ge_dofs g /\
    discretises s (ownMass fc t g) el (sidesOf fc t nf ref g el) /\
    forall d, (d < 3)%nat -> forall v u : Z -> R,
      form el (ownMass fc t g) (onEl el v) (diff el d u) = form el (weakD dim g d) (onEl el v) (onEl el u).
Proof. exact simplex_element. Qed.
Print Assumptions C95_element.

(** The matrix of a triangle is taken out of that of two triangles as its diagonal block, for other elements
    it is the whole matrix, and a third triangle or another element is an exception. *)
Theorem C95_blocks : forall G n e, e_r G = (n + n)%nat -> e_c G = (n + n)%nat ->
  (e = 0 \/ e = 1)%Z -> exists B, getElemMass e G Triangle = Ok B /\ e_r B = n /\ e_c B = n /\
  forall i j, e_at B i j = e_at G (Z.to_nat e * n + i)%nat (Z.to_nat e * n + j)%nat.
Proof. exact block_right. Qed.
Print Assumptions C95_blocks.
Theorem C95_blocks_throw : forall G e t,
  (getElemMass e G t = Throw <-> (t = Triangle /\ e <> 0 /\ e <> 1)%Z \/ t = Segment \/ t = OtherType) /\
  (t = Quadrilateral \/ t = Tetrahedron \/ t = Hexahedron -> getElemMass e G t = Ok G) /\ getElemMass e G t <> UB.
Proof. exact block_throws. Qed.
Print Assumptions C95_blocks_throw.
Example C95_blocks_ex : e_r (mkE 6 6 mzero) = (3 + 3)%nat /\ e_c (mkE 6 6 mzero) = (3 + 3)%nat.
Proof. exact (conj eq_refl eq_refl). Qed.

(** On a mesh of straight elements with walls all around and no sources the energy never grows,
    with centred fluxes it stays the same, and it falls along every solution. *)
Theorem C95_energy : forall inv fc dim t nf ref elems posLin posCur tfsf bdr global alpha conn maps attrs m nodes bdrMk intMk tfsfMk,
  supported t dim -> refElement inv fc t nf ref -> localMesh fc dim t posLin posCur elems -> operatorMesh m (fc_n fc t) nodes bdrMk intMk tfsfMk ->
  sameMesh m nodes fc t nf ref elems -> connectivities m bdrMk intMk tfsfMk = Ok (conn, maps, attrs) -> rowsIn (cm_N m) global ->
  closedBox m bdrMk intMk tfsfMk -> Forall (fun g => ~ curvedBy posLin posCur g) elems -> facesMatch m nodes fc t elems ->
  (forall F q, In F (fc_faces fc t) -> In q (f_pts F) -> 0 <= q_w q) -> 0 <= alpha -> ((exists f, carries m bdrMk SMA f) -> / 2 <= alpha) ->
  forall s, buildNodal inv fc dim (cm_N m) elems posLin posCur tfsf bdr global alpha conn maps [] = Ok s ->
  (forall x, length x = Z.to_nat (6 * cm_N m) -> exists out, nodalMult s x = Ok out /\ length out = length x /\
    energyRate s (massOf fc t elems) (comp6 (cm_N m) x) (comp6 (cm_N m) out) <= 0 /\
    (alpha = 0 -> energyRate s (massOf fc t elems) (comp6 (cm_N m) x) (comp6 (cm_N m) out) = 0)) /\
  ((forall i j, fc_mass fc t i j = fc_mass fc t j i) -> forall x, solves s x -> forall t1 t2, t1 <= t2 ->
    energyOf s (massOf fc t elems) (comp6 (cm_N m) (x t2)) <= energyOf s (massOf fc t elems) (comp6 (cm_N m) (x t1))).
Proof. exact cavity_energy. Qed.
Print Assumptions C95_energy.
(** A square of two triangles with conducting and absorbing walls. *)
Example C95_ex : refElement p1Inv p1 Triangle 2 p1Ref /\ localMesh p1 2 Triangle sqPos sqPos sqE /\ operatorMesh sqM 3 sqN sqMk [] [] /\
  sameMesh sqM sqN p1 Triangle 2 p1Ref sqE /\ closedBox sqM sqMk [] [] /\ facesMatch sqM sqN p1 Triangle sqE.
Proof. exact (conj p1_ref (conj sq_local (conj sq_mesh (conj sq_same (conj sq_closed sq_match))))). Qed.
Example C95_ex_built : exists conn maps s, connectivities sqM sqMk [] [] = Ok (conn, maps, [1; 1]%Z) /\
  buildNodal p1Inv p1 2 6 sqE sqPos sqPos [] [] (fun _ => []) 1 conn maps [] = Ok s /\ length (nd_lin s) = 2%nat.
Proof. exact sq_built. Qed.
Example C95_ex_weights : forall F q, In F (fc_faces p1 Triangle) -> In q (f_pts F) -> 0 <= q_w q.
Proof. exact sq_weights. Qed.

(** Quadrilaterals: derivatives and face terms are four times too large. *)
Theorem C96_quadrilateral : forall inv fc nf ref elems posLin posCur tfsf bdr global alpha conn maps attrs m nodes bdrMk intMk tfsfMk,
  refElement inv fc Quadrilateral nf ref -> localMesh fc 2 Quadrilateral posLin posCur elems -> operatorMesh m (fc_n fc Quadrilateral) nodes bdrMk intMk tfsfMk ->
  sameMesh m nodes fc Quadrilateral nf ref elems -> connectivities m bdrMk intMk tfsfMk = Ok (conn, maps, attrs) ->
  forall src s, buildNodal inv fc 2 (cm_N m) elems posLin posCur tfsf bdr global alpha conn maps src = Ok s ->
  forall el, In el (nd_lin s) -> exists g, zget elems (el_id el) = Ok g /\
    (forall d, (d < 3)%nat -> forall v u : Z -> R,
      form el (ownMass fc Quadrilateral g) (onEl el v) (diff el d u) = 4 * form el (weakD 2 g d) (onEl el v) (onEl el u)) /\
    (forall (v : Z -> R) (h : nat -> R),
      form el (ownMass fc Quadrilateral g) (onEl el v) (lift1 s el h) =
      4 * suml (fun a => sd_w a * / 2 * trace s a v * interp a h) (sidesOf fc Quadrilateral nf ref g el)).
Proof. exact quad_element. Qed.
Print Assumptions C96_quadrilateral.
Example C96_ex : refElement q1Inv q1 Quadrilateral 2 q1Ref /\ localMesh q1 2 Quadrilateral quPos quPos quE /\ operatorMesh quM 4 quN quMk [] [] /\
  sameMesh quM quN q1 Quadrilateral 2 q1Ref quE.
Proof. exact (conj q1_ref (conj qu_local (conj qu_mesh qu_same))). Qed.
(** On the unit square the derivative of x has integral 4, instead of 1. *)
Theorem C96_refuted : exists conn maps s el, connectivities quM quMk [] [] = Ok (conn, maps, [1]%Z) /\
  buildNodal q1Inv q1 2 4 quE quPos quPos [] [] (fun _ => []) 1 conn maps [] = Ok s /\ In el (nd_lin s) /\
  form el (ownMass q1 Quadrilateral (nth 0 quE noEl)) (onEl el (fun _ => 1)) (diff el 0 (fun d => coord (nth (Z.to_nat d) quPos (0, 0, 0)) 0)) = 4 /\
  form el (weakD 2 (nth 0 quE noEl) 0) (onEl el (fun _ => 1)) (onEl el (fun d => coord (nth (Z.to_nat d) quPos (0, 0, 0)) 0)) = 1.
Proof. exact quad_wrong. Qed.
Print Assumptions C96_refuted.

(** Meshes on which the construction has no defined outcome, or throws. *)
Theorem C96_hexahedra_refuted : forall inv fc nf ref elems posLin posCur bdr global alpha conn maps src N,
  elems <> [] -> Forall (fun g => ge_type g = Hexahedron) elems -> Forall (dofsIn posLin) elems -> Forall (dofsIn posCur) elems ->
  (exists g, In g elems /\ ~ curvedBy posLin posCur g) ->
  nf = faceNodeCount (fc_order fc) Tetrahedron -> refShape fc Tetrahedron nf ref -> fc_n fc Tetrahedron <> fc_n fc Hexahedron ->
  buildNodal inv fc 3 N elems posLin posCur [] bdr global alpha conn maps src = UB.
Proof. exact hex_ub. Qed.
Print Assumptions C96_hexahedra_refuted.
Example C96_hexahedra_ex : Forall (dofsIn hxPos) hxE /\ ~ curvedBy hxPos hxPos (nth 0 hxE noEl) /\ refShape hx Tetrahedron 3 [] /\
  fc_n hx Tetrahedron <> fc_n hx Hexahedron /\ 3%nat = faceNodeCount (fc_order hx) Tetrahedron.
Proof. exact hx_ex. Qed.
Theorem C96_mixed_refuted : forall inv fc dim elems posLin posCur bdr global alpha conn maps src N,
  (exists g g', In g elems /\ In g' elems /\ ge_type g <> ge_type g') -> Forall (dofsIn posLin) elems -> Forall (dofsIn posCur) elems ->
  (exists g, In g elems /\ ~ curvedBy posLin posCur g) -> (forall g, In g elems -> (0 < fc_n fc (ge_type g))%nat) ->
  buildNodal inv fc dim N elems posLin posCur [] bdr global alpha conn maps src = UB.
Proof. exact mixed_ub. Qed.
Print Assumptions C96_mixed_refuted.
Example C96_mixed_ex : Forall (dofsIn hxPos) mxE /\ ~ curvedBy hxPos hxPos (nth 0 mxE noEl) /\ forall g, In g mxE -> (0 < fc_n hx (ge_type g))%nat.
Proof. exact mx_ex. Qed.
Theorem C96_segments : forall inv fc t elems posLin posCur bdr global alpha conn maps src N,
  elems <> [] -> Forall (fun g => ge_type g = t) elems -> Forall (dofsIn posLin) elems -> Forall (dofsIn posCur) elems ->
  buildNodal inv fc 1 N elems posLin posCur [] bdr global alpha conn maps src = Throw.
Proof. exact segment_throws. Qed.
Print Assumptions C96_segments.
(** Elements that are neither triangles nor quadrilaterals in the plane, prisms and pyramids in space. *)
Theorem C96_types : forall inv fc dim t elems posLin posCur bdr global alpha conn maps src N,
  elems <> [] -> Forall (fun g => ge_type g = t) elems -> Forall (dofsIn posLin) elems -> Forall (dofsIn posCur) elems ->
  (dim = 2%Z /\ t <> Triangle /\ t <> Quadrilateral) \/ (dim = 3%Z /\ (t = OtherType \/ t = Segment)) ->
  buildNodal inv fc dim N elems posLin posCur [] bdr global alpha conn maps src = Throw.
Proof. exact type_throws. Qed.
Print Assumptions C96_types.
Theorem C96_empty_refuted : forall inv fc dim posLin posCur bdr global alpha conn maps src N,
  buildNodal inv fc dim N [] posLin posCur [] bdr global alpha conn maps src = UB.
Proof. exact empty_ub. Qed.
Print Assumptions C96_empty_refuted.

(** Each element is straight or curved, once, by the displacement of its nodes. *)
Theorem C97_split : forall posLin posCur elems, Forall (dofsIn posLin) elems -> Forall (dofsIn posCur) elems ->
  exists lin cur, splitElements posLin posCur elems = Ok (lin, cur) /\ StronglySorted Z.lt lin /\ StronglySorted Z.lt (map fst cur) /\
    (forall e, In e lin <-> exists g, zget elems e = Ok g /\ ~ curvedBy posLin posCur g) /\
    (forall e ds, In (e, ds) cur <-> exists g, zget elems e = Ok g /\ curvedBy posLin posCur g /\ ds = ge_dofs g).
Proof. exact split_right. Qed.
Print Assumptions C97_split.
(** The construction succeeds with these lists, or throws when an incident field touches a
    curved element. *)
Theorem C97_outcome : forall inv fc dim t nf ref elems posLin posCur tfsf bdr global alpha conn maps src N,
  supported t dim -> refElement inv fc t nf ref -> localMesh fc dim t posLin posCur elems ->
  Forall (fun mk => Forall (fun b => (1 <= be_attr b <= Z.of_nat (length (snd mk)))%Z) bdr) tfsf ->
  exists lin cur, splitElements posLin posCur elems = Ok (lin, cur) /\
  (((exists s, buildNodal inv fc dim N elems posLin posCur tfsf bdr global alpha conn maps src = Ok s /\ map el_id (nd_lin s) = lin /\ map cu_dofs (nd_cur s) = map snd cur) /\
    forall mk b, In mk tfsf -> In b bdr -> ~ tfsfOnCurved (snd mk) cur b) \/
   (buildNodal inv fc dim N elems posLin posCur tfsf bdr global alpha conn maps src = Throw /\
    exists mk b, In mk tfsf /\ In b bdr /\ tfsfOnCurved (snd mk) cur b)).
Proof. exact build_outcome. Qed.
Print Assumptions C97_outcome.
Example C97_ex : localMesh p1 2 Triangle sqPos cuPos sqE /\ curvedBy sqPos cuPos sqE1 /\ ~ curvedBy sqPos cuPos sqE0.
Proof. exact (conj cu_local cu_curved). Qed.
Example C97_ex_throws : forall conn maps, buildNodal p1Inv p1 2 6 sqE sqPos cuPos [(TotalFieldIn, [1]%Z)] [mkBE 1 0 1] cuG 1 conn maps [] = Throw.
Proof. exact cu_throws. Qed.
(** The tolerance has a length: whatever the mesh, in small enough units nothing is curved. *)
Theorem C97_units_refuted : forall posLin posCur, exists c, 0 < c /\ forall g, ~ curvedBy (map (scaleV c) posLin) (map (scaleV c) posCur) g.
Proof. exact small_units. Qed.
Print Assumptions C97_units_refuted.

(** At the nodes of a curved element the operator gives the rows of the global operator. *)
Theorem C98_curved : forall inv fc dim t nf ref elems posLin posCur tfsf bdr global alpha conn maps attrs m nodes bdrMk intMk tfsfMk,
  supported t dim -> refElement inv fc t nf ref -> localMesh fc dim t posLin posCur elems -> operatorMesh m (fc_n fc t) nodes bdrMk intMk tfsfMk ->
  sameMesh m nodes fc t nf ref elems -> connectivities m bdrMk intMk tfsfMk = Ok (conn, maps, attrs) ->
  alpha <> 0 \/ (forall f, ~ carries m bdrMk SMA f) -> rowsIn (cm_N m) global ->
  forall src s, buildNodal inv fc dim (cm_N m) elems posLin posCur tfsf bdr global alpha conn maps src = Ok s ->
  forall x, length x = Z.to_nat (6 * cm_N m) -> exists out, nodalMult s x = Ok out /\ length out = length x /\
    forall e g d c, zget elems e = Ok g -> curvedBy posLin posCur g -> In d (ge_dofs g) -> inR c 6 ->
      comp6 (cm_N m) out c d = globalRow global x (c * cm_N m + d).
Proof. exact run_curved. Qed.
Print Assumptions C98_curved.
Example C98_ex : (exists conn maps s, connectivities sqM sqMk [] [] = Ok (conn, maps, [1; 1]%Z) /\
  buildNodal p1Inv p1 2 6 sqE sqPos cuPos [] [] cuG 1 conn maps [] = Ok s) /\ rowsIn 6 cuG.
Proof. exact (conj cu_built cu_rows). Qed.

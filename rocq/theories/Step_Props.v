(** C78: the automatic time step. *)
From Coq Require Import ZArith List Bool Reals.
From Verif Require Import Common Step_Model Step_Spec StepMain_Proofs StepLine_Proofs StepEx_Proofs.
Import ListNotations.
Local Open Scope R_scope.

(** The step in two and three dimensions: the factor of the options times half of the
    spacing of the nodes times the smallest of twice the volume over the boundary. *)
Theorem C78_value : forall dmax gl st m o n0 n1 ns dv,
  (m_dim m = 2 \/ m_dim m = 3)%Z -> (m_sdim m <= 3)%Z -> (so_op o = Hesthaven -> m_dim m = 2%Z) ->
  m_elements m <> [] -> Forall (usable m) (m_elements m) -> gl (so_order o) = n0 :: n1 :: ns -> extraDivisor m dv ->
  exists x, estimateTimeStep dmax gl st m o = Ok (so_cfl o * Rabs (n0 - n1) / 2 * x / dv / globalFactor m (so_op o)) /\
    0 < x /\
    (exists e s, In e (m_elements m) /\ boundary m e s /\ x = 2 * e_volume e / s) /\
    (forall e s, In e (m_elements m) -> boundary m e s -> x <= 2 * e_volume e / s).
Proof. exact step_value. Qed.
Print Assumptions C78_value.

Theorem C78_positive : forall dmax gl st m o n0 n1 ns,
  (m_dim m = 2 \/ m_dim m = 3)%Z -> (m_sdim m <= 3)%Z -> (so_op o = Hesthaven -> m_dim m = 2%Z) ->
  m_elements m <> [] -> Forall (usable m) (m_elements m) -> gl (so_order o) = n0 :: n1 :: ns -> n0 <> n1 ->
  0 < so_cfl o -> exists dt, estimateTimeStep dmax gl st m o = Ok dt /\ 0 < dt.
Proof. exact step_positive. Qed.
Print Assumptions C78_positive.
Example C78_value_ex : (forall k, 0 < k -> Forall (usable (tri_mesh k)) (m_elements (tri_mesh k))) /\
  estimateTimeStep 1000 gl_ex [] (tri_mesh 1) (mkStepOptions 1 (1 / 2) Global) = Ok (1 / 2).
Proof. exact (conj tri_usable tri_step). Qed.

(** Meshes of triangles: half of the node spacing times the smallest radius of an
    inscribed circle. *)
Theorem C78_triangles : forall dmax gl st m o n0 n1 ns,
  m_dim m = 2%Z -> m_sdim m = 2%Z -> m_elements m <> [] ->
  (forall e, In e (m_elements m) -> e_type e = Triangle /\ exists a b c, triangleElement e a b c) ->
  gl (so_order o) = n0 :: n1 :: ns ->
  exists r, estimateTimeStep dmax gl st m o = Ok (so_cfl o * Rabs (n0 - n1) / 2 * r) /\ 0 < r /\
    (exists e a b c, In e (m_elements m) /\ triangleElement e a b c /\ inradius a b c r) /\
    (forall e a b c r', In e (m_elements m) -> triangleElement e a b c -> inradius a b c r' -> r <= r').
Proof. exact step_triangles. Qed.
Print Assumptions C78_triangles.
Example C78_triangles_ex : forall e, In e (m_elements (tri_mesh 1)) -> e_type e = Triangle /\ exists a b c, triangleElement e a b c.
Proof. exact tri_mesh_ok. Qed.

(** Meshes of tetrahedra: a third of the node spacing times the smallest radius of an
    inscribed sphere. *)
Theorem C78_tetrahedra : forall dmax gl st m o n0 n1 ns,
  m_dim m = 3%Z -> (m_sdim m <= 3)%Z -> m_elements m <> [] -> so_op o <> Hesthaven ->
  (forall e, In e (m_elements m) -> e_type e = Tetrahedron /\ exists a b c d, tetraElement e a b c d) ->
  gl (so_order o) = n0 :: n1 :: ns ->
  exists r, estimateTimeStep dmax gl st m o = Ok (so_cfl o * Rabs (n0 - n1) / 3 * r / globalFactor m (so_op o)) /\ 0 < r /\
    (exists e a b c d, In e (m_elements m) /\ tetraElement e a b c d /\ inradius3 a b c d r) /\
    (forall e a b c d r', In e (m_elements m) -> tetraElement e a b c d -> inradius3 a b c d r' -> r <= r').
Proof. exact step_tetra. Qed.
Print Assumptions C78_tetrahedra.
Example C78_tetrahedra_ex : forall n e, In e (m_elements (tet_mesh n)) -> e_type e = Tetrahedron /\ exists a b c d, tetraElement e a b c d.
Proof. exact tet_mesh_ok. Qed.

(** A mesh that is moved has the same step, one that is enlarged k times has k times
    the step. *)
Theorem C78_similar : forall dmax dmax' gl st st' m m' o n0 n1 ns k,
  0 < k -> similarMesh k m m' ->
  (m_dim m = 2 \/ m_dim m = 3)%Z -> (m_sdim m <= 3)%Z -> (so_op o = Hesthaven -> m_dim m = 2%Z) ->
  m_elements m <> [] -> Forall (usable m) (m_elements m) -> gl (so_order o) = n0 :: n1 :: ns ->
  exists dt, estimateTimeStep dmax gl st m o = Ok dt /\ estimateTimeStep dmax' gl st' m' o = Ok (k * dt).
Proof. exact step_similar. Qed.
Print Assumptions C78_similar.
Example C78_similar_ex : similarMesh 2 (tri_mesh 1) (tri_mesh 2).
Proof. exact tri_similar_ex. Qed.

(** One dimension: the smallest distance between two nodes of an element (or the
    length of an element with one node) over order^(3/2). *)
Theorem C78_line : forall dmax gl st m o e0 d0,
  m_dim m = 1%Z -> (0 <= so_order o)%Z -> In e0 (m_elements m) -> nodeGap e0 d0 -> d0 <= dmax ->
  exists d, estimateTimeStep dmax gl st m o
      = Ok (so_cfl o * (d / (if (so_order o =? 0)%Z then 1 else IZR (so_order o) * sqrt (IZR (so_order o))))) /\
    (exists e, In e (m_elements m) /\ nodeGap e d) /\
    (forall e d', In e (m_elements m) -> nodeGap e d' -> d <= d').
Proof. exact step_line. Qed.
Print Assumptions C78_line.
Theorem C78_line_positive : forall dmax gl st m o e0 d0,
  m_dim m = 1%Z -> (0 <= so_order o)%Z -> In e0 (m_elements m) -> nodeGap e0 d0 -> d0 <= dmax -> 0 < so_cfl o ->
  (forall e d, In e (m_elements m) -> nodeGap e d -> 0 < d) ->
  exists dt, estimateTimeStep dmax gl st m o = Ok dt /\ 0 < dt.
Proof. exact step_line_positive. Qed.
Print Assumptions C78_line_positive.
Example C78_line_ex : nodeGap (mkElement Segment (1 / 4) (1 / 4) [] [1]) (1 / 4) /\
  (forall e d, In e (m_elements line_mesh) -> nodeGap e d -> 0 < d).
Proof. exact line_ex_ok. Qed.

(** The factor multiplies the step in every dimension. *)
Theorem C78_cfl : forall dmax gl st m p c op dt,
  estimateTimeStep dmax gl st m (mkStepOptions p 1 op) = Ok dt ->
  estimateTimeStep dmax gl st m (mkStepOptions p c op) = Ok (c * dt).
Proof. exact step_cfl. Qed.
Print Assumptions C78_cfl.

(** Whatever a rank stores, it computes the same step, unless the nodal operator runs
    in three dimensions. *)
Theorem C78_ranks : forall dmax gl st st' m o, (so_op o = Hesthaven -> m_dim m <> 3%Z) ->
  estimateTimeStep dmax gl st m o = estimateTimeStep dmax gl st' m o.
Proof. exact step_ranks. Qed.
Print Assumptions C78_ranks.

(** The nodal operator in three dimensions, all elements straight and on one rank:
    the factor over the largest face-to-volume ratio and the squared order. *)
Theorem C78_nodal : forall dmax gl st m o n0 n1 ns l0 x0,
  m_dim m = 3%Z -> (m_sdim m <= 3)%Z -> so_op o = Hesthaven -> (0 < so_order o)%Z ->
  m_elements m <> [] -> Forall (usable m) (m_elements m) -> gl (so_order o) = n0 :: n1 :: ns ->
  length st = length (m_elements m) -> Forall (fun l => l <> []) st ->
  In l0 st -> In x0 l0 -> 0 < x0 ->
  exists M, estimateTimeStep dmax gl st m o = Ok (so_cfl o / (M * (IZR (so_order o) * IZR (so_order o)))) /\ 0 < M /\
    (exists l, In l st /\ In M l) /\ (forall l x, In l st -> In x l -> x <= M).
Proof. exact step_hesthaven. Qed.
Print Assumptions C78_nodal.
Example C78_nodal_ex : (exists dt,
  estimateTimeStep 1000 gl_ex [[3; 4]; [5]] (tet_mesh 2) (mkStepOptions 1 1 Hesthaven) = Ok dt /\ dt = 1 / 5) /\
  forall n, Forall (usable (tet_mesh n)) (m_elements (tet_mesh n)).
Proof. exact (conj hes_one_rank tet_usable). Qed.

(** Otherwise a rank reads past the end of its storage: the same mesh on two ranks. *)
Theorem C78_nodal_refuted : forall dmax gl st m o n0 n1 ns,
  m_dim m = 3%Z -> (m_sdim m <= 3)%Z -> so_op o = Hesthaven ->
  m_elements m <> [] -> Forall (usable m) (m_elements m) -> gl (so_order o) = n0 :: n1 :: ns ->
  Forall (fun l => l <> []) st -> (length st < length (m_elements m))%nat ->
  estimateTimeStep dmax gl st m o = UB.
Proof. exact step_hesthaven_oob. Qed.
Print Assumptions C78_nodal_refuted.
Example C78_nodal_refuted_ex : forall l, l <> [] ->
  estimateTimeStep 1000 gl_ex [l] (tet_mesh 2) (mkStepOptions 1 1 Hesthaven) = UB.
Proof. exact hes_two_ranks. Qed.

(** The order 0, accepted by the options, has one node: the second is read anyway. *)
Theorem C78_order0_refuted : forall dmax gl st m o n0,
  (m_dim m = 2 \/ m_dim m = 3)%Z -> (m_sdim m <= 3)%Z -> so_order o = 0%Z ->
  Forall (usable m) (m_elements m) -> gl 0%Z = [n0] -> estimateTimeStep dmax gl st m o = UB.
Proof. exact step_order0. Qed.
Print Assumptions C78_order0_refuted.

(** A face that is a parallelogram counts half of its area; a unit cube has a
    boundary of 3. *)
Theorem C78_quads_refuted : forall a1 a2 a3 u1 u2 u3 v1 v2 v3,
  let a := (a1, a2, a3) in let b := (a1 + u1, a2 + u2, a3 + u3) in
  let d := (a1 + v1, a2 + v2, a3 + v3) in let c := (a1 + u1 + v1, a2 + u2 + v2, a3 + u3 + v3) in
  exists x, faceArea [a; b; c; d] = Ok x /\ triArea a b c + triArea a c d = 2 * x.
Proof. exact face_half. Qed.
Print Assumptions C78_quads_refuted.
Example C78_quads_ex : forall e, In e (m_elements cube_mesh) -> faceAreaSum cube_mesh e = Ok 3.
Proof. exact cube_sum. Qed.

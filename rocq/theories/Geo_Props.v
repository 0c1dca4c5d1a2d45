(** C49, C50, C51, C54: geometry. *)
From Coq Require Import ZArith List Bool Reals.
From Verif Require Import Common Evol_Model Evol_Spec EvolLayer_Spec Geo_Model Geo_Spec Geo_Proofs GeoWall_Proofs GeoEx_Proofs.
Import ListNotations.
Local Open Scope R_scope.

(** Points to spherical coordinates and back. *)
Theorem C49_round_trip : forall x y z, (x, y, z) <> (0, 0, 0) ->
  exists r th ph, fromCartesian [x; y; z] = Ok (mkSph r (Some th) ph) /\ toCartesian r th ph = [x; y; z] /\
    r = lenp (x, y, z) /\ 0 < r /\ 0 <= th <= PI /\ - PI < ph <= PI.
Proof. exact sph_round3. Qed.
Print Assumptions C49_round_trip.
Theorem C49_round_trip_plane : forall x y, (x, y) <> (0, 0) ->
  exists r ph, fromCartesian [x; y] = Ok (mkSph r (Some (PI / 2)) ph) /\ toCartesian r (PI / 2) ph = [x; y; 0] /\
    r = lenp (x, y, 0) /\ 0 < r /\ - PI < ph <= PI.
Proof. exact sph_round2. Qed.
Print Assumptions C49_round_trip_plane.
Theorem C49_coordinates_back : forall r th ph, 0 < r -> 0 < th < PI -> - PI < ph <= PI ->
  fromCartesian (toCartesian r th ph) = Ok (mkSph r (Some th) ph).
Proof. exact sph_back. Qed.
Print Assumptions C49_coordinates_back.
(** Vectors given by components along the local directions. *)
Theorem C49_vectors : forall x y z Ar At Ap, x <> 0 \/ y <> 0 ->
  exists r th ph, fromCartesian [x; y; z] = Ok (mkSph r (Some th) ph) /\
    fieldToCartesian th ph Ar At Ap =
      listp (addp (addp (scalep Ar (outward (x, y, z))) (scalep At (downward (x, y, z)))) (scalep Ap (around (x, y, z)))).
Proof. exact field_spec. Qed.
Print Assumptions C49_vectors.
Theorem C49_length : forall th ph Ar At Ap v, fieldToCartesian th ph Ar At Ap = listp v -> dotp v v = Ar ^ 2 + At ^ 2 + Ap ^ 2.
Proof. exact field_length. Qed.
Print Assumptions C49_length.
Theorem C49_frame : forall th ph,
  rightFrame (sin th * cos ph, sin th * sin ph, cos th) (cos th * cos ph, cos th * sin ph, - sin th) (- sin ph, cos ph, 0).
Proof. exact hats_frame. Qed.
Print Assumptions C49_frame.

(** The frame of a face in two and three dimensions. *)
Theorem C50_rotation_partial : forall normal dim, properNormal normal dim -> exists r, faceRotation normal dim = Ok r /\ List.length r = 9%nat /\
  rightFrame (row r 0) (row r 1) (row r 2) /\ det3 (row r 0) (row r 1) (row r 2) = 1 /\
  (dotp (row r 0) (unitp (normal3 normal)), dotp (row r 1) (unitp (normal3 normal)), dotp (row r 2) (unitp (normal3 normal))) = (1, 0, 0).
Proof. exact rot_proper. Qed.
Print Assumptions C50_rotation_partial.
Example C50_hypotheses_met : properNormal [1; 2; 2] 3 /\ properNormal [3; 4] 2.
Proof. exact ex_normal. Qed.
(** Fields taken into a frame the code builds and shown back are unchanged. *)
Theorem C50_exchange : forall normal dim r u c, properNormal normal dim \/ (dim <= 1)%Z -> faceRotation normal dim = Ok r -> (0 <= c < 6)%Z ->
  seen Transparent r u (intoFrame r u) c = u c.
Proof. exact rot_exchange. Qed.
Print Assumptions C50_exchange.
(** In one dimension a normal of -1 is not taken to the first axis. *)
Theorem C50_one_dimension_refuted : exists r, faceRotation [-1] 1 = Ok r /\ dotp (row r 0) (unitp (normal3 [-1])) <> 1.
Proof. exact rot1_refuted. Qed.
Print Assumptions C50_one_dimension_refuted.

(** The wall mesh: number and places of the vertices. *)
Theorem C51_vertex_count : forall (M : Type) (ls : list (layer M)) g, Forall positive (shape ls) ->
  List.length (wallVertices ls g) = (2 * g + sumSegs (shape ls) + 1)%nat.
Proof. exact (fun M => @vertices_length M). Qed.
Print Assumptions C51_vertex_count.
Theorem C51_ghosts_before : forall (M : Type) (ls : list (layer M)) g i, Forall positive (shape ls) -> (i <= g)%nat ->
  nth_error (wallVertices ls g) i = Some (INR i * (sumWidth (shape ls) / INR (sumSegs (shape ls)))).
Proof. exact (fun M => @vertex_left M). Qed.
Print Assumptions C51_ghosts_before.
Theorem C51_wall : forall (M : Type) (ls : list (layer M)) g k, Forall positive (shape ls) -> (k <= sumSegs (shape ls))%nat ->
  nth_error (wallVertices ls g) (g + k) = Some (INR g * (sumWidth (shape ls) / INR (sumSegs (shape ls))) + depth (shape ls) k).
Proof. exact (fun M => @vertex_wall M). Qed.
Print Assumptions C51_wall.
(** In particular the wall ends its total width after it starts. *)
Theorem C51_ghosts_after : forall (M : Type) (ls : list (layer M)) g i, Forall positive (shape ls) -> (i <= g)%nat ->
  nth_error (wallVertices ls g) (g + sumSegs (shape ls) + i) =
    Some (INR g * (sumWidth (shape ls) / INR (sumSegs (shape ls))) + sumWidth (shape ls) + INR i * (sumWidth (shape ls) / INR (sumSegs (shape ls)))).
Proof. exact (fun M => @vertex_right M). Qed.
Print Assumptions C51_ghosts_after.
Theorem C51_increasing : forall (M : Type) (ls : list (layer M)) g i a b, ls <> [] -> Forall positive (shape ls) ->
  nth_error (wallVertices ls g) i = Some a -> nth_error (wallVertices ls g) (S i) = Some b -> a < b.
Proof. exact (fun M => @increasing M). Qed.
Print Assumptions C51_increasing.
(** Every element has the tag, and through it the material, of its layer; the ghosts
    are vacuum. *)
Theorem C51_materials : forall (M : Type) (vac : M) (ls : list (layer M)) g, Forall positive (shape ls) -> exists attrs, wallAttributes ls g = Ok attrs /\
  S (List.length attrs) = List.length (wallVertices ls g) /\
  (forall i, (i < g)%nat -> exists a, nth_error attrs i = Some a /\ a = S (List.length ls) /\ mapFind a (wallMaterials vac ls) = Some vac) /\
  (forall k, (k < sumSegs (shape ls))%nat -> exists a l, nth_error attrs (g + k) = Some a /\ a = S (layerOf (shape ls) k) /\
     nth_error ls (layerOf (shape ls) k) = Some l /\ mapFind a (wallMaterials vac ls) = Some (l_mat l)) /\
  (forall i, (i < g)%nat -> exists a, nth_error attrs (g + sumSegs (shape ls) + i) = Some a /\ a = S (List.length ls) /\ mapFind a (wallMaterials vac ls) = Some vac).
Proof. exact (fun M => @wall_elements M). Qed.
Print Assumptions C51_materials.
(** The boundary points sit at the ends of the mesh and of the wall. *)
Theorem C51_boundary : forall (M : Type) (ls : list (layer M)) g, Forall positive (shape ls) ->
  wallBoundary ls g = [(0, 1); (2 * g + sumSegs (shape ls), 2); (g, 3); (g + sumSegs (shape ls), 4)]%nat.
Proof. exact (fun M => @boundary_spec M). Qed.
Print Assumptions C51_boundary.
(** The dofs the exchange reads are those of the first and last wall elements that
    touch the ghosts. *)
Theorem C51_interfaces : forall (M : Type) (ls : list (layer M)), Forall positive (shape ls) ->
  let p1 := (Z.of_nat (maxOrder ls) + 1)%Z in
  let size := (Z.of_nat (List.length (wallVertices ls (ghosts ls)) - 1) * p1)%Z in
  leftInterface ls = (Z.of_nat (ghosts ls) * p1)%Z /\
  rightInterface ls size = (Z.of_nat (ghosts ls + sumSegs (shape ls) - 1) * p1 + Z.of_nat (maxOrder ls))%Z.
Proof. exact (fun M => @interfaces M). Qed.
Print Assumptions C51_interfaces.
(** There are at least three ghost elements on each side, and more than the order. *)
Theorem C51_enough_ghosts : forall (M : Type) (ls : list (layer M)), (3 <= ghosts ls)%nat /\ (maxOrder ls < ghosts ls)%nat.
Proof. exact enough_ghosts. Qed.
Print Assumptions C51_enough_ghosts.
Example C51_hypotheses_met : Forall positive (shape exWall) /\ exWall <> [] /\ ghosts exWall = 3%nat /\
  map (depth (shape exWall)) [0; 1; 2; 3]%nat = [0; / 2; 1; 4] /\ map (layerOf (shape exWall)) [0; 1; 2]%nat = [0; 0; 1]%nat.
Proof. exact ex_wall. Qed.

(** Triangles with distinct vertices are compared up to rotation. *)
Theorem C54_triangles_partial : forall v1 v2, v1 <> [] -> NoDup v2 ->
  (sameOrientation Triangle v1 Triangle v2 = Ok true <-> cyclic v1 v2) /\ exists b, sameOrientation Triangle v1 Triangle v2 = Ok b.
Proof. exact triangle_spec. Qed.
Print Assumptions C54_triangles_partial.
Theorem C54_equivalence_partial : forall v1 v2 v3, v1 <> [] -> v2 <> [] -> v3 <> [] -> NoDup v1 -> NoDup v2 -> NoDup v3 ->
  sameOrientation Triangle v1 Triangle v1 = Ok true /\
  (sameOrientation Triangle v1 Triangle v2 = Ok true -> sameOrientation Triangle v2 Triangle v1 = Ok true) /\
  (sameOrientation Triangle v1 Triangle v2 = Ok true -> sameOrientation Triangle v2 Triangle v3 = Ok true -> sameOrientation Triangle v1 Triangle v3 = Ok true).
Proof. exact triangle_equiv. Qed.
Print Assumptions C54_equivalence_partial.
Theorem C54_segments : forall v1 v2, sameOrientation Segment v1 Segment v2 = Ok true <-> v1 = v2.
Proof. exact segment_spec. Qed.
Print Assumptions C54_segments.
Theorem C54_others_rejected : forall t1 v1 t2 v2, t1 <> t2 \/ (t1 <> Segment /\ t1 <> Triangle) -> sameOrientation t1 v1 t2 v2 = Throw.
Proof. exact other_rejected. Qed.
Print Assumptions C54_others_rejected.
Example C54_hypotheses_met : NoDup [4; 2; 7]%Z /\ cyclic [2; 7; 4]%Z [4; 2; 7]%Z /\ ~ cyclic [7; 2; 4]%Z [4; 2; 7]%Z.
Proof. exact ex_triangles. Qed.
(** With a repeated vertex only its first occurrence is tried. *)
Theorem C54_degenerate_refuted : exists v1 v2, List.length v1 = 3%nat /\ List.length v2 = 3%nat /\ cyclic v1 v2 /\ sameOrientation Triangle v1 Triangle v2 = Ok false.
Proof. exact degenerate_refuted. Qed.
Print Assumptions C54_degenerate_refuted.

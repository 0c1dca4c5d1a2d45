(** C105, continued: integration by parts on straight segments, triangles and tetrahedra of any order. *)
From Coq Require Import ZArith List Bool Reals.
From Verif Require Import Common Csr_Model Face_Model Face_Spec Setup_Model Setup_Spec Assembly_Model Form_Model Form_Spec Nodal_Spec NodalEnergy_Spec Global_Spec Step_Model Step_Spec Time_Model Ode_Model Ode_Spec Cfl_Spec CflEx_Proofs Elem_Spec Elem_Proofs ElemEx_Proofs Simplex_Spec SimplexEx_Proofs.
Import ListNotations.
Local Open Scope R_scope.

(** Polynomial basis functions of any order on simplices of any dimension, with face quadrature exact
    for products of two of them and the normals of straight faces: integration by parts on every
    element. *)
Theorem C105_simplex_parts : forall D p phi r n m el C, (1 <= D)%nat -> polynomialElement D p phi r -> meshOk (n * r_dofs r) (Z.of_nat D) m -> straightMesh D p phi n m el C ->
  elementParts r n m el (Z.of_nat D) C.
Proof. exact simplex_parts_mesh. Qed.
Print Assumptions C105_simplex_parts.
(** Such a mesh is a space of the method. *)
Theorem C105_simplex_space : forall D p phi r V w n m el C, (1 <= D)%nat -> referenceOk r -> polynomialElement D p phi r -> (forall k, (k < n)%nat -> 0 < V k) -> (forall g k, 1 <= w g k) ->
  touches (r_dofs r) n m el -> meshOk (n * r_dofs r) (Z.of_nat D) m -> straightMesh D p phi n m el C ->
  dgSpace (n * r_dofs r) m (Z.of_nat D) (affineMass r V w) (affineInv r V w) (affineD r D C).
Proof. exact simplex_space. Qed.
Print Assumptions C105_simplex_space.
(** The normals of the edges of a triangle and of the faces of a tetrahedron, from their vertices. *)
Theorem C105_triangle_normals : forall a b c g C, derivativesOf 2 [b; c] a g -> (forall d e, C d e = det2 a b c / 2 * g d e) ->
  forall i d, (i <= 2)%nat -> (0 <= d < 2)%Z -> normalOf (edgeOf a b c i) (Z.to_nat d) = - (INR (fact 2) * gradient 2 C d i).
Proof. exact triangle_normals. Qed.
Print Assumptions C105_triangle_normals.
Theorem C105_tetra_normals : forall a b c v g C, derivativesOf 3 [b; c; v] a g -> (forall d e, C d e = det3 a b c v / 6 * g d e) ->
  forall i d, (i <= 3)%nat -> (0 <= d < 3)%Z -> normalOf (sideOf a b c v i) (Z.to_nat d) = - (INR (fact 3) * gradient 3 C d i).
Proof. exact tetra_normals. Qed.
Print Assumptions C105_tetra_normals.
Example C105_normals_ex :
  (derivativesOf 2 [(4, 0, 0); (0, 3, 0)] (0, 0, 0) (fun d e => if (d =? 0)%Z then (if (e =? 0)%nat then / 4 else 0) else if (e =? 0)%nat then 0 else / 3) /\ det2 (0, 0, 0) (4, 0, 0) (0, 3, 0) = 12) /\
  derivativesOf 3 [(2, 0, 0); (0, 2, 0); (0, 0, 2)] (0, 0, 0) (fun d e => if (d =? Z.of_nat e)%Z then / 2 else 0) /\ det3 (0, 0, 0) (2, 0, 0) (0, 2, 0) (0, 0, 2) = 8.
Proof. exact (conj ex_triangle ex_tetra). Qed.
(** Linear functions on two triangles with Simpson's rule on their edges. *)
Example C105_simplex_ex : polynomialElement 2 1 linearPhi linear2 /\ straightMesh 2 1 linearPhi 2 pairMesh pairEl pairC /\ meshOk (2 * 3) 2 pairMesh /\ touches 3 2 pairMesh pairEl.
Proof. exact (conj linear_poly (conj pair_straight (conj pair_mesh pair_touch))). Qed.

(** Stability of runs on straight triangles and tetrahedra, without any hypothesis on the operator. *)
Theorem C105_straight_partial : forall D p phi n r V S w m C T alpha el dmax gl st ms o n0 n1 dv ns gb gi ob ib MSigma sm,
  (0 < n)%nat -> referenceOk r -> (forall g k, 1 <= w g k) -> sameElements n V S ms -> m_dim ms = Z.of_nat D -> simplices (Z.of_nat D) n ms C ->
  touches (r_dofs r) n m el -> faceMeasures m el n S -> shapeSize m T -> nonnegWeights m ->
  polynomialElement D p phi r -> meshOk (n * r_dofs r) (Z.of_nat D) m -> straightMesh D p phi n m el C -> tables m gb gi ob ib ->
  (so_op o = Hesthaven -> D = 2%nat) -> gl (so_order o) = n0 :: n1 :: ns -> n0 <> n1 -> 0 < so_cfl o -> extraDivisor ms dv ->
  forall Sg, 0 <= alpha -> passive m gb gi -> (forall v, 0 <= mform (n * r_dofs r) MSigma v v) -> lossBound (n * r_dofs r) (affineMass r V w) MSigma Sg ->
  exists A dt, buildGlobalOperator R Rplus Rmult 1 (-1) (factoryRows (n * r_dofs r) m (Z.of_nat D) alpha ob ib (affineInv r V w) (affineD r D C) MSigma sm) (Z.of_nat D) (Z.of_nat (n * r_dofs r)) 0
              (match ib with [] => false | _ => true end) = Ok A /\
  estimateTimeStep dmax gl st ms o = Ok dt /\ 0 < dt /\
  (so_cfl o * Rabs (n0 - n1) / dv / globalFactor ms (so_op o) * refSize r (Z.of_nat D) alpha T + dt * Sg <= 1 / 4 ->
   forall f imp, evaluates A (n * r_dofs r) f -> forall s tr s', s_dt s = dt -> length (s_fields s) = (6 * (n * r_dofs r))%nat -> runR (list R) (odeStep f imp 0) s tr s' ->
   Forall (fun st => fieldEnergy (n * r_dofs r) (affineMass r V w) (s_fields st) <= 10001 / 10000 * (10001 / 10000) * fieldEnergy (n * r_dofs r) (affineMass r V w) (s_fields s)) tr).
Proof. exact straight_bounded. Qed.
Print Assumptions C105_straight_partial.
Theorem C105_straight_lossless : forall D p phi n r V S w m C T alpha el dmax gl st ms o n0 n1 dv ns gb gi ob ib MSigma sm,
  (0 < n)%nat -> referenceOk r -> (forall g k, 1 <= w g k) -> sameElements n V S ms -> m_dim ms = Z.of_nat D -> simplices (Z.of_nat D) n ms C ->
  touches (r_dofs r) n m el -> faceMeasures m el n S -> shapeSize m T -> nonnegWeights m ->
  polynomialElement D p phi r -> meshOk (n * r_dofs r) (Z.of_nat D) m -> straightMesh D p phi n m el C -> tables m gb gi ob ib ->
  (so_op o = Hesthaven -> D = 2%nat) -> gl (so_order o) = n0 :: n1 :: ns -> n0 <> n1 -> 0 < so_cfl o -> extraDivisor ms dv ->
  alpha = 0 -> reflecting m gb gi -> (forall v u, mform (n * r_dofs r) MSigma v u = 0) ->
  exists A dt, buildGlobalOperator R Rplus Rmult 1 (-1) (factoryRows (n * r_dofs r) m (Z.of_nat D) alpha ob ib (affineInv r V w) (affineD r D C) MSigma sm) (Z.of_nat D) (Z.of_nat (n * r_dofs r)) 0
              (match ib with [] => false | _ => true end) = Ok A /\
  estimateTimeStep dmax gl st ms o = Ok dt /\ 0 < dt /\
  (so_cfl o * Rabs (n0 - n1) / dv / globalFactor ms (so_op o) * refSize r (Z.of_nat D) alpha T <= sqrt 8 ->
   forall f imp, evaluates A (n * r_dofs r) f -> forall s tr s', s_dt s = dt -> length (s_fields s) = (6 * (n * r_dofs r))%nat -> runR (list R) (odeStep f imp 0) s tr s' ->
   neverRises (energies (n * r_dofs r) (affineMass r V w) s tr)).
Proof. exact straight_lossless. Qed.
Print Assumptions C105_straight_lossless.
(** The hypotheses are met by the same two triangles, with the tables and bounds of C105_simplices_ex. *)
Example C105_straight_ex : polynomialElement 2 1 linearPhi linear2 /\ straightMesh 2 1 linearPhi 2 pairMesh pairEl pairC /\ simplices 2 2 pairSteps pairC /\ sameElements 2 pairV (fun _ => 12) pairSteps.
Proof. exact (conj linear_poly (conj pair_straight (conj (or_introl (conj eq_refl (conj eq_refl pair_triangles))) pair_same))). Qed.

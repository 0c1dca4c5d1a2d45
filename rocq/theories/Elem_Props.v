(** C105, continued: elements of any order, on a line, in the plane and in space. *)
From Coq Require Import ZArith List Bool Reals.
From Verif Require Import Common Csr_Model Face_Model Face_Spec Setup_Model Setup_Spec Assembly_Model Form_Model Form_Spec Nodal_Spec NodalEnergy_Spec Global_Spec Step_Model Step_Spec Time_Model Ode_Model Ode_Spec Cfl_Spec CflEx_Proofs Elem_Spec Elem_Proofs ElemLine_Proofs ElemGeo_Proofs ElemSpace_Proofs ElemEx_Proofs.
Import ListNotations.
Local Open Scope R_scope.

(** Inverse inequality: for elements that are images of one reference element of any order, a
    derivative costs at most a constant of the reference element over the smallest ratio of volume
    and boundary, which is what the automatic time step measures. *)
Theorem C105_inverse : forall n r V S w rho, referenceOk r -> 0 < rho -> (forall k, (k < n)%nat -> 0 < S k /\ rho * S k <= V k) -> (forall g k, 1 <= w g k) ->
  forall dim C, (forall k d e, (k < n)%nat -> (0 <= d < dim)%Z -> (e < Z.to_nat dim)%nat -> Rabs (C k d e) <= S k) ->
  derivBound (n * r_dofs r) dim (affineMass r V w) (affineD r (Z.to_nat dim) C) (diffSize r (Z.to_nat dim) / rho).
Proof. exact affine_deriv. Qed.
Print Assumptions C105_inverse.
(** Trace inequality, from the values of the basis functions on the faces and the sizes of the faces. *)
Theorem C105_trace : forall q n m el S T, touches q n m el -> faceMeasures m el n S -> shapeSize m T -> nonnegWeights m ->
  Forall (fun f => wfFace (mf_face f)) (fm_faces m) -> Forall (fun f => length (mf_dofs1 f) = f_el1 (mf_face f)) (fm_faces m) -> traceSize m q n S T.
Proof. exact face_trace. Qed.
Print Assumptions C105_trace.

(** Integration by parts on each element, in any dimension and for any order, makes a conforming mesh a
    space of the method: what the faces give to their two elements cancels but for the jumps. *)
Theorem C105_space : forall n r V w m el dim C, referenceOk r -> (forall k, (k < n)%nat -> 0 < V k) -> (forall g k, 1 <= w g k) ->
  touches (r_dofs r) n m el -> meshOk (n * r_dofs r) dim m -> elementParts r n m el dim C ->
  dgSpace (n * r_dofs r) m dim (affineMass r V w) (affineInv r V w) (affineD r (Z.to_nat dim) C).
Proof. exact elements_space. Qed.
Print Assumptions C105_space.
(** Two triangles. *)
Example C105_space_ex : meshOk (2 * 3) 2 pairMesh /\ elementParts linear2 2 pairMesh pairEl 2 pairC.
Proof. exact (conj pair_mesh pair_parts). Qed.

(** Lines of elements of any order and lengths are a space of the method. *)
Theorem C105_line_space : forall n r e bdr battrs h w, (0 < n)%nat -> segmentOk r e -> lineTags n bdr battrs -> (forall k, (k < n)%nat -> 0 < h k) -> (forall g k, 1 <= w g k) ->
  dgSpace (n * r_dofs r) (lineOf (r_dofs r) e n bdr battrs) 1 (affineMass r h w) (affineInv r h w) (affineD r 1 unitC).
Proof. exact ends_space. Qed.
Print Assumptions C105_line_space.
(** On a line, elements of any order: the automatic time step keeps the energy bounded for ever if
    the Courant factor is below a limit that depends on the reference element and the flux alone. *)
Theorem C105_line_order_partial : forall n r e bdr battrs h w dmax alpha gl st ms o xi gap gb gi ob ib MSigma sm,
  (0 < n)%nat -> segmentOk r e -> lineTags n bdr battrs -> (forall k, (k < n)%nat -> 0 < h k /\ h k * gap <= dmax) -> (forall g k, 1 <= w g k) ->
  sameLineOf n h xi ms -> smallestGap xi gap -> 0 < gap -> (1 <= so_order o)%Z -> 0 < so_cfl o -> tables (lineOf (r_dofs r) e n bdr battrs) gb gi ob ib ->
  forall Sg, 0 <= alpha -> passive (lineOf (r_dofs r) e n bdr battrs) gb gi -> (forall v, 0 <= mform (n * r_dofs r) MSigma v v) -> lossBound (n * r_dofs r) (affineMass r h w) MSigma Sg ->
  exists A dt, buildGlobalOperator R Rplus Rmult 1 (-1) (factoryRows (n * r_dofs r) (lineOf (r_dofs r) e n bdr battrs) 1 alpha ob ib (affineInv r h w) (affineD r 1 unitC) MSigma sm) 1 (Z.of_nat (n * r_dofs r)) 0
              (match ib with [] => false | _ => true end) = Ok A /\
  estimateTimeStep dmax gl st ms o = Ok dt /\ 0 < dt /\
  (so_cfl o * gap / (IZR (so_order o) * sqrt (IZR (so_order o))) * refSize r 1 alpha (endSize (r_dofs r) e) + dt * Sg <= 1 / 4 ->
   forall f imp, evaluates A (n * r_dofs r) f -> forall s tr s', s_dt s = dt -> length (s_fields s) = (6 * (n * r_dofs r))%nat -> runR (list R) (odeStep f imp 0) s tr s' ->
   Forall (fun st => fieldEnergy (n * r_dofs r) (affineMass r h w) (s_fields st) <= 10001 / 10000 * (10001 / 10000) * fieldEnergy (n * r_dofs r) (affineMass r h w) (s_fields s)) tr).
Proof. exact order_bounded. Qed.
Print Assumptions C105_line_order_partial.
(** Without losses and with the centred flux no step adds energy. *)
Theorem C105_line_order_lossless : forall n r e bdr battrs h w dmax alpha gl st ms o xi gap gb gi ob ib MSigma sm,
  (0 < n)%nat -> segmentOk r e -> lineTags n bdr battrs -> (forall k, (k < n)%nat -> 0 < h k /\ h k * gap <= dmax) -> (forall g k, 1 <= w g k) ->
  sameLineOf n h xi ms -> smallestGap xi gap -> 0 < gap -> (1 <= so_order o)%Z -> 0 < so_cfl o -> tables (lineOf (r_dofs r) e n bdr battrs) gb gi ob ib ->
  alpha = 0 -> reflecting (lineOf (r_dofs r) e n bdr battrs) gb gi -> (forall v u, mform (n * r_dofs r) MSigma v u = 0) ->
  exists A dt, buildGlobalOperator R Rplus Rmult 1 (-1) (factoryRows (n * r_dofs r) (lineOf (r_dofs r) e n bdr battrs) 1 alpha ob ib (affineInv r h w) (affineD r 1 unitC) MSigma sm) 1 (Z.of_nat (n * r_dofs r)) 0
              (match ib with [] => false | _ => true end) = Ok A /\
  estimateTimeStep dmax gl st ms o = Ok dt /\ 0 < dt /\
  (so_cfl o * gap / (IZR (so_order o) * sqrt (IZR (so_order o))) * refSize r 1 alpha (endSize (r_dofs r) e) <= sqrt 8 ->
   forall f imp, evaluates A (n * r_dofs r) f -> forall s tr s', s_dt s = dt -> length (s_fields s) = (6 * (n * r_dofs r))%nat -> runR (list R) (odeStep f imp 0) s tr s' ->
   neverRises (energies (n * r_dofs r) (affineMass r h w) s tr)).
Proof. exact order_lossless. Qed.
Print Assumptions C105_line_order_lossless.
(** Quadratic elements of three lengths, glass in the middle, conducting walls. *)
Example C105_line_order_ex : segmentOk quadratic quadraticEnds /\ lineTags 3 (endWalls 3) [1%Z] /\ (forall k, (k < 3)%nat -> 0 < exH k /\ exH k * / 2 <= 10) /\ (forall g k, 1 <= exW g k) /\
  sameLineOf 3 exH [0; / 2; 1] quadraticMesh /\ smallestGap [0; / 2; 1] (/ 2) /\
  tables (lineOf 3 quadraticEnds 3 (endWalls 3) [1%Z]) [(1%Z, PEC)] [] [(PEC, [1%Z])] [] /\ passive (lineOf 3 quadraticEnds 3 (endWalls 3) [1%Z]) [(1%Z, PEC)] [] /\ reflecting (lineOf 3 quadraticEnds 3 (endWalls 3) [1%Z]) [(1%Z, PEC)] [] /\
  (forall v u, mform (3 * 3) noLoss v u = 0) /\ lossBound (3 * 3) (affineMass quadratic exH exW) noLoss 0 /\
  exists c, 0 < c /\ c * (/ 2 / (2 * sqrt 2) * refSize quadratic 1 1 (endSize 3 quadraticEnds)) <= 1 / 4.
Proof. exact ex_quadratic. Qed.

(** In the plane and in space, straight triangles or tetrahedra of any order, sizes and materials:
    the same, with a limit that depends on the reference element, the dimension and the flux alone. *)
Theorem C105_simplices_partial : forall n r V S w m dim C T alpha el dmax gl st ms o n0 n1 dv ns gb gi ob ib MSigma sm,
  (0 < n)%nat -> referenceOk r -> (forall g k, 1 <= w g k) -> sameElements n V S ms -> m_dim ms = dim -> simplices dim n ms C ->
  touches (r_dofs r) n m el -> faceMeasures m el n S -> shapeSize m T -> nonnegWeights m ->
  dgSpace (n * r_dofs r) m dim (affineMass r V w) (affineInv r V w) (affineD r (Z.to_nat dim) C) -> tables m gb gi ob ib ->
  (so_op o = Hesthaven -> dim = 2%Z) -> gl (so_order o) = n0 :: n1 :: ns -> n0 <> n1 -> 0 < so_cfl o -> extraDivisor ms dv ->
  forall Sg, 0 <= alpha -> passive m gb gi -> (forall v, 0 <= mform (n * r_dofs r) MSigma v v) -> lossBound (n * r_dofs r) (affineMass r V w) MSigma Sg ->
  exists A dt, buildGlobalOperator R Rplus Rmult 1 (-1) (factoryRows (n * r_dofs r) m dim alpha ob ib (affineInv r V w) (affineD r (Z.to_nat dim) C) MSigma sm) dim (Z.of_nat (n * r_dofs r)) 0
              (match ib with [] => false | _ => true end) = Ok A /\
  estimateTimeStep dmax gl st ms o = Ok dt /\ 0 < dt /\
  (so_cfl o * Rabs (n0 - n1) / dv / globalFactor ms (so_op o) * refSize r dim alpha T + dt * Sg <= 1 / 4 ->
   forall f imp, evaluates A (n * r_dofs r) f -> forall s tr s', s_dt s = dt -> length (s_fields s) = (6 * (n * r_dofs r))%nat -> runR (list R) (odeStep f imp 0) s tr s' ->
   Forall (fun st => fieldEnergy (n * r_dofs r) (affineMass r V w) (s_fields st) <= 10001 / 10000 * (10001 / 10000) * fieldEnergy (n * r_dofs r) (affineMass r V w) (s_fields s)) tr).
Proof. exact simplex_bounded. Qed.
Print Assumptions C105_simplices_partial.
Theorem C105_simplices_lossless : forall n r V S w m dim C T alpha el dmax gl st ms o n0 n1 dv ns gb gi ob ib MSigma sm,
  (0 < n)%nat -> referenceOk r -> (forall g k, 1 <= w g k) -> sameElements n V S ms -> m_dim ms = dim -> simplices dim n ms C ->
  touches (r_dofs r) n m el -> faceMeasures m el n S -> shapeSize m T -> nonnegWeights m ->
  dgSpace (n * r_dofs r) m dim (affineMass r V w) (affineInv r V w) (affineD r (Z.to_nat dim) C) -> tables m gb gi ob ib ->
  (so_op o = Hesthaven -> dim = 2%Z) -> gl (so_order o) = n0 :: n1 :: ns -> n0 <> n1 -> 0 < so_cfl o -> extraDivisor ms dv ->
  alpha = 0 -> reflecting m gb gi -> (forall v u, mform (n * r_dofs r) MSigma v u = 0) ->
  exists A dt, buildGlobalOperator R Rplus Rmult 1 (-1) (factoryRows (n * r_dofs r) m dim alpha ob ib (affineInv r V w) (affineD r (Z.to_nat dim) C) MSigma sm) dim (Z.of_nat (n * r_dofs r)) 0
              (match ib with [] => false | _ => true end) = Ok A /\
  estimateTimeStep dmax gl st ms o = Ok dt /\ 0 < dt /\
  (so_cfl o * Rabs (n0 - n1) / dv / globalFactor ms (so_op o) * refSize r dim alpha T <= sqrt 8 ->
   forall f imp, evaluates A (n * r_dofs r) f -> forall s tr s', s_dt s = dt -> length (s_fields s) = (6 * (n * r_dofs r))%nat -> runR (list R) (odeStep f imp 0) s tr s' ->
   neverRises (energies (n * r_dofs r) (affineMass r V w) s tr)).
Proof. exact simplex_lossless. Qed.
Print Assumptions C105_simplices_lossless.
(** Two triangles with linear functions, glass in one of them, conducting walls around. *)
Example C105_simplices_ex : referenceOk linear2 /\ (forall g k, 1 <= exW g k) /\ m_dim pairSteps = 2%Z /\ m_sdim pairSteps = 2%Z /\ triangles 2 pairSteps pairC /\ sameElements 2 pairV (fun _ => 12) pairSteps /\
  touches 3 2 pairMesh pairEl /\ faceMeasures pairMesh pairEl 2 (fun _ => 12) /\ shapeSize pairMesh 1 /\ nonnegWeights pairMesh /\
  dgSpace (2 * 3) pairMesh 2 (affineMass linear2 pairV exW) (affineInv linear2 pairV exW) (affineD linear2 2 pairC) /\
  tables pairMesh [(1%Z, PEC)] [] [(PEC, [1%Z])] [] /\ passive pairMesh [(1%Z, PEC)] [] /\ reflecting pairMesh [(1%Z, PEC)] [] /\ extraDivisor pairSteps 1 /\
  (forall v u, mform (2 * 3) noLoss v u = 0) /\ lossBound (2 * 3) (affineMass linear2 pairV exW) noLoss 0 /\
  exists c, 0 < c /\ c * refSize linear2 2 1 1 <= 1 / 4.
Proof. exact ex_pair. Qed.

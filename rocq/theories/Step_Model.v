(** Model of the automatic time step, src/solver/Solver.cpp 175-354. `double` is R;
    the divisions are the real ones (a zero divisor, an infinity in the code, is
    excluded by the hypotheses of the theorems or shown by an example). *)
From Coq Require Import ZArith List Bool Reals.
From Verif Require Import Common.
Import ListNotations.
Local Open Scope R_scope.

(** mfem::Element::Type, the values the code tells apart.
    Used in [elemTypeInMesh], Solver.cpp 197-205. *)
Inductive etype := Segment | Triangle | Quadrilateral | Tetrahedron | Hexahedron | OtherType.
(** Used in [elemTypeInMesh], Solver.cpp 197-205. *)
Definition etypeEqb (a b : etype) : bool :=
  match a, b with
  | Segment, Segment | Triangle, Triangle | Quadrilateral, Quadrilateral
  | Tetrahedron, Tetrahedron | Hexahedron, Hexahedron | OtherType, OtherType => true
  | _, _ => false
  end.

(** A vertex: mesh.GetVertex(v), always three stored coordinates.
    Used in [edgeLength], Solver.cpp 224-232. *)
Definition vertex := (R * R * R)%type.
(** Used in [edgeLength], Solver.cpp 224-232. *)
Definition coord (p : vertex) (d : Z) : R :=
  if (d =? 0)%Z then fst (fst p) else if (d =? 1)%Z then snd (fst p) else snd p.

(** What the functions read of one element of the serial mesh: its type, its volume
    (mesh.GetElementVolume), its size (mesh.GetElementSize), the coordinates of the
    vertices of each of its edges (2D) or faces (3D), and the positions of its nodes
    in the discontinuous space (1D).  Volumes, sizes and nodes are mfem's: data.
    Used in [minimumInterNodeDistance], Solver.cpp 175-195. *)
Record element := mkElement {
  e_type : etype;
  e_volume : R;
  e_size : R;
  e_faces : list (list vertex);
  e_nodes : list R
}.
(** The serial mesh: dimension, space dimension, elements.
    Used in [faceAreaSum], Solver.cpp 207-252. *)
Record mesh := mkMesh { m_dim : Z; m_sdim : Z; m_elements : list element }.

(** std::min(a, b) is (b < a) ? b : a. Used in [pairsMin], Solver.cpp 186-190. *)
Definition stdmin (a b : R) : R := if Rlt_dec b a then b else a.

(** The inner double loop of getMinimumInterNodeDistance, Solver.cpp 186-190: every pair i < j. *)
Fixpoint pairsMin (res : R) (ns : list R) : R :=
  match ns with
  | [] => res
  | x :: rest => pairsMin (fold_left (fun r y => stdmin r (Rabs (x - y))) rest res) rest
  end.
(** getMinimumInterNodeDistance, Solver.cpp 175-195; [dmax] is numeric_limits<double>::max(). *)
Definition minimumInterNodeDistance (dmax : R) (es : list element) : R :=
  fold_left (fun res e =>
    match e_nodes e with
    | [_] => stdmin res (e_size e)
    | ns => pairsMin res ns
    end) es dmax.

(** checkIfElemTypeInMesh, Solver.cpp 197-205. *)
Definition elemTypeInMesh (es : list element) (t : etype) : bool :=
  existsb (fun e => etypeEqb (e_type e) t) es.

(** Edge length, Solver.cpp 224-232: the sum runs over the coordinates of the space. *)
Definition edgeLength (sdim : Z) (v : list vertex) : res R :=
  a <- zget v 0 ;; b <- zget v 1 ;;
  Ok (sqrt (fold_left (fun len d => let diff := coord b d - coord a d in len + diff * diff)
        (zseq (Z.to_nat sdim)) 0)).
(** Area of the triangle of the first three vertices of a face, Solver.cpp 234-245. *)
Definition faceArea (v : list vertex) : res R :=
  v0 <- zget v 0 ;; v1 <- zget v 1 ;; v2 <- zget v 2 ;;
  let e1 d := coord v1 d - coord v0 d in
  let e2 d := coord v2 d - coord v0 d in
  let cx := e1 1%Z * e2 2%Z - e1 2%Z * e2 1%Z in
  let cy := e1 2%Z * e2 0%Z - e1 0%Z * e2 2%Z in
  let cz := e1 0%Z * e2 1%Z - e1 1%Z * e2 0%Z in
  Ok (1 / 2 * sqrt (cx * cx + cy * cy + cz * cz)).

(** getTimeStepScale, Solver.cpp 207-252, one element. *)
Definition faceAreaSum (m : mesh) (e : element) : res R :=
  foldM (fun s f =>
    a <- (if (m_dim m =? 2)%Z then edgeLength (m_sdim m) f else faceArea f) ;;
    Ok (s + a)) (e_faces e) 0.
(** Used in [calcMeshTimeStep], Solver.cpp 289-300. *)
Definition timeStepScale1 (m : mesh) (e : element) : res R :=
  s <- faceAreaSum m e ;; Ok (e_volume e / (s / 2)).
(** Used in [calcMeshTimeStep], Solver.cpp 289-300. *)
Definition timeStepScale (m : mesh) : res (list R) := mapM (timeStepScale1 m) (m_elements m).

(** mfem::Vector::Min; on an empty vector an assertion: UB.
    Used in [calcMeshTimeStep], Solver.cpp 289-300. *)
Definition vectorMin (l : list R) : res R :=
  match l with
  | [] => UB
  | x :: rest => Ok (fold_left (fun m y => if Rlt_dec y m then y else m) rest x)
  end.

(** getJacobiGQ_RMin, Solver.cpp 254-264.  [glNodes p] are the p + 1 Gauss-Lobatto nodes of a
    segment of length 2 (mfem); the order 0 has one node, and nodes(1) is read out
    of bounds. *)
Definition jacobiRMin (glNodes : Z -> list R) (order : Z) : res R :=
  a <- zget (glNodes order) 0 ;; b <- zget (glNodes order) 1 ;; Ok (Rabs (a - b)).

(** physicalConstants::speedOfLight, math/PhysicalConstants.h.
    Used in [calcMeshTimeStep], Solver.cpp 289-300. *)
Definition speedOfLight : R := 1.

(** calcMeshTimeStep, Solver.cpp 289-300. *)
Definition calcMeshTimeStep (glNodes : Z -> list R) (m : mesh) (order : Z) (divisor : R) (special : etype) : res R :=
  l <- timeStepScale m ;;
  rmin <- jacobiRMin glNodes order ;;
  s <- vectorMin l ;;
  let dt := s * rmin * 2 / 3 / speedOfLight in
  let dt := dt * (3 / 4) in
  if elemTypeInMesh (m_elements m) special then Ok (dt / divisor) else Ok dt.

(** EvolutionOperatorType, evolution/EvolutionOptions.h.
    Used in [estimateTimeStep], Solver.cpp 302-354. *)
Inductive opType := Maxwell | Global | Hesthaven.
(** The options read here. Used in [estimateTimeStep], Solver.cpp 302-354. *)
Record stepOptions := mkStepOptions { so_order : Z; so_cfl : R; so_op : opType }.

(** VectorXd::maxCoeff (Eigen): asserts on an empty vector.
    Used in [estimateTimeStep], Solver.cpp 302-354. *)
Definition maxCoeff (l : list R) : res R :=
  match l with
  | [] => UB
  | x :: rest => Ok (fold_left (fun m y => if Rlt_dec m y then y else m) rest x)
  end.

(** estimateTimeStep, Solver.cpp 302-354.  [storage] is what this rank's nodal operator keeps:
    the fscale vector of each of its own straight-sided elements, in the order of
    hestElemLinearStorage_ (HesthavenEvolution.h 23, 44; HesthavenEvolution.cpp 347-400);
    getHesthavenElement(e) indexes it without a check. *)
Definition estimateTimeStep (dmax : R) (glNodes : Z -> list R) (storage : list (list R))
    (m : mesh) (o : stepOptions) : res R :=
  if (m_dim m =? 1)%Z then
    let d := minimumInterNodeDistance dmax (m_elements m) in
    let maxTimeStep := if (so_order o =? 0)%Z then d / speedOfLight
                       else d / Rpower (IZR (so_order o)) (3 / 2) / speedOfLight in
    Ok (so_cfl o * maxTimeStep)
  else
    base <- (if (m_dim m =? 2)%Z then
               t <- calcMeshTimeStep glNodes m (so_order o) 2 Quadrilateral ;; Ok (t * so_cfl o)
             else if (m_dim m =? 3)%Z then
               t <- calcMeshTimeStep glNodes m (so_order o) 6 Hexahedron ;; Ok (t * so_cfl o)
             else Throw) ;;
    match so_op o, (m_dim m =? 3)%Z with
    | Hesthaven, true =>
        mx <- foldM (fun mx e => fs <- zget storage e ;; f <- maxCoeff fs ;;
                 Ok (if Rlt_dec mx f then f else mx))
               (zseq (length (m_elements m))) 0 ;;
        Ok (1 * so_cfl o / (mx * IZR (so_order o) * IZR (so_order o)))
    | Global, true => Ok (base / (8 / 10))
    | _, _ => Ok base
    end.

(** Model of calculateCrossBaryVertexSign, src/components/SubMesher.cpp 219-237, with which the element-wise evolution
    chooses the total-field side of a face in two dimensions (HesthavenEvolutionMethods.cpp 603-610 and 562-575). The
    global evolution uses buildFaceOrientation (in Sub_Model.v). Coordinates are real numbers. *)
From Coq Require Import ZArith List Bool Reals.
From Verif Require Import Common Sub_Model.
Import ListNotations.
Local Open Scope R_scope.

(** m.GetVertex(m.GetBdrElement(be)->GetVertices()[i]), SubMesher.cpp 221-222. *)
Definition bdrVertex (m : mesh) (be i : Z) : res point :=
  b <- zget (m_bdr m) be ;; v <- zget (b_verts b) i ;; zget (m_coord m) v.
(** calculateCrossBaryVertexSign, SubMesher.cpp 219-237, in two dimensions, the only ones it is called in
    (HesthavenEvolutionMethods.cpp 605). *)
Definition crossBaryVertexSign (m : mesh) (be : Z) : res R :=
  c0 <- bdrVertex m be 0 ;; c1 <- bdrVertex m be 1 ;;
  b <- baryVector m be ;;
  Ok (pz (pcross (flat b) (flat (psub c1 c0)))).
(** The choice between the two functions, HesthavenEvolutionMethods.cpp 605. *)
Definition elementwiseOrientation (m : mesh) (be : Z) : res R :=
  if (m_dim m =? 2)%Z then crossBaryVertexSign m be else faceOrientation m be.
(** Whether the first element of the face is on the total-field side, HesthavenEvolutionMethods.cpp 562-575. *)
Definition elementwiseElem1IsTF (m : mesh) (be : Z) : res bool :=
  o <- elementwiseOrientation m be ;; Ok (if Rle_dec 0 o then false else true).

(** The sides of a directed segment in the plane. *)
From Coq Require Import ZArith List Reals.
From Verif Require Import Common Sub_Model.
Import ListNotations.
Local Open Scope R_scope.

Definition px (p : point) : R := fst (fst p).
Definition py (p : point) : R := snd (fst p).
(** [p] is to the left (to the right) of the line from [u] to [v]. *)
Definition turn (u v p : point) : R := (px v - px u) * (py p - py u) - (py v - py u) * (px p - px u).
Definition leftOf (u v p : point) : Prop := 0 < turn u v p.
Definition rightOf (u v p : point) : Prop := turn u v p < 0.
(** The mean of the corners of an element. *)
Definition centre (m : mesh) (e : Z) (c : point) : Prop :=
  exists vs ps, zget (m_everts m) e = Ok vs /\ Forall2 (fun v p => zget (m_coord m) v = Ok p) vs ps /\
    px c = fold_right Rplus 0 (map px ps) / INR (length ps) /\ py c = fold_right Rplus 0 (map py ps) / INR (length ps).
(** Boundary element [be] lies between the elements [e1] and [e2] and runs from [u] to [v]. *)
Definition segment (m : mesh) (be e1 e2 : Z) (u v : point) : Prop :=
  exists b iu iv rest, zget (m_bdr m) be = Ok b /\ zget (m_fels m) (b_face b) = Ok (e1, e2) /\ (0 <= e2)%Z /\
    b_verts b = iu :: iv :: rest /\ zget (m_coord m) iu = Ok u /\ zget (m_coord m) iv = Ok v.
(** The face of the boundary element runs the same way, or the opposite way. *)
Definition faceRuns (m : mesh) (be : Z) (same : bool) : Prop :=
  exists b iu iv, zget (m_bdr m) be = Ok b /\ b_verts b = [iu; iv] /\
    zget (m_fverts m) (b_face b) = Ok (if same then [iu; iv] else [iv; iu]).
(** In space: the mean of the corners with its third coordinate. *)
Definition centre3 (m : mesh) (e : Z) (c : point) : Prop :=
  exists vs ps, zget (m_everts m) e = Ok vs /\ Forall2 (fun v p => zget (m_coord m) v = Ok p) vs ps /\
    px c = fold_right Rplus 0 (map px ps) / INR (length ps) /\ py c = fold_right Rplus 0 (map py ps) / INR (length ps) /\
    snd c = fold_right Rplus 0 (map snd ps) / INR (length ps).
(** Six times the volume of the tetrahedron [u v w p]: positive if [u v w] runs counterclockwise seen from [p]. *)
Definition height (u v w p : point) : R :=
  ((py v - py u) * (snd w - snd u) - (snd v - snd u) * (py w - py u)) * (px p - px u) +
  ((snd v - snd u) * (px w - px u) - (px v - px u) * (snd w - snd u)) * (py p - py u) +
  ((px v - px u) * (py w - py u) - (py v - py u) * (px w - px u)) * (snd p - snd u).
(** The face of boundary element [be] lies between [e1] and [e2]; [u] is its first corner, [v] the next one and [w]
    the last one. *)
Definition facet (m : mesh) (be e1 e2 : Z) (u v w : point) : Prop :=
  exists b iu iv mid iw, zget (m_bdr m) be = Ok b /\ zget (m_fels m) (b_face b) = Ok (e1, e2) /\ (0 <= e2)%Z /\
    zget (m_fverts m) (b_face b) = Ok (iu :: iv :: mid ++ [iw]) /\ (length mid <= 1)%nat /\
    zget (m_coord m) iu = Ok u /\ zget (m_coord m) iv = Ok v /\ zget (m_coord m) iw = Ok w.

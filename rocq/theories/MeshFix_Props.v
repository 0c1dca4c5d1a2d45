(** Properties of the mesh clean-up (C33, C34). *)
From Coq Require Import ZArith List Bool String Ascii.
From Verif Require Import Common MeshFix_Model MeshFix_Spec MeshFix_Proofs MeshFixEx_Proofs.
Import ListNotations.
Local Open Scope string_scope.

(** C33.  Cleaning a file with one element section whose lines are blank or
    records of points, lines, triangles and tetrahedra: the lines outside the
    section stay, the elements of the mesh's dimension and the one below stay in
    order, they are numbered from 1 and counted, and the geometric tag takes the
    place of the physical one. *)
Theorem C33_clean_partial : forall base text H mark cnt E es rest,
  isFile (H ++ mark :: cnt :: E ++ rest) text -> laidOut H mark cnt E rest -> section E es -> E <> [] ->
  (Z.of_nat (List.length es) < 2147483647)%Z -> Forall simplex es ->
  let kept := filter (needed (meshDim es)) es in
  fixGmshMesh (base ++ ".msh") (Some text) =
    Ok (Some (textOf (H ++ mark :: decimal (List.length kept) :: renumber 1 kept ++ rest))).
Proof. exact clean_simplex. Qed.
Print Assumptions C33_clean_partial.

(** C33.  Running it again changes nothing; element types are arbitrary here. *)
Theorem C33_idempotent_partial : forall path text text' H mark cnt E es rest,
  isFile (H ++ mark :: cnt :: E ++ rest) text -> laidOut H mark cnt E rest -> section E es ->
  (Z.of_nat (List.length es) < 2147483647)%Z ->
  fixGmshMesh path (Some text) = Ok (Some text') -> fixGmshMesh path (Some text') = Ok (Some text').
Proof. exact clean_idempotent. Qed.
Print Assumptions C33_idempotent_partial.

(** A tetrahedral mesh with a point, a line, a blank line and a triangle. *)
Example C33_hypotheses_met : isFile exLines (textOf exLines) /\ laidOut exHead "$Elements" "4" exElems exFoot /\
  section exElems exEls /\ Forall simplex exEls /\
  fixGmshMesh "case.msh" (Some (textOf exLines)) = Ok (Some (textOf exClean)).
Proof. exact ex_met. Qed.

(** C33 fails for a mesh of quadrangles: its points stay. *)
Theorem C33_quadrangles_refuted : exists text H mark cnt E es rest,
  isFile (H ++ mark :: cnt :: E ++ rest) text /\ laidOut H mark cnt E rest /\ section E es /\
  let kept := filter (needed (meshDim es)) es in
  fixGmshMesh "case.msh" (Some text) <> Ok (Some (textOf (H ++ mark :: decimal (List.length kept) :: renumber 1 kept ++ rest))).
Proof. exact quad_refuted. Qed.
Print Assumptions C33_quadrangles_refuted.

(** C33.  For arbitrary text the second run can change the file again: an element
    number too large for int hides the element's type the first time. *)
Theorem C33_idempotent_refuted : exists text text1 text2,
  fixGmshMesh "case.msh" (Some text) = Ok (Some text1) /\
  fixGmshMesh "case.msh" (Some text1) = Ok (Some text2) /\ text1 <> text2.
Proof. exact odd_refuted. Qed.
Print Assumptions C33_idempotent_refuted.

(** An element with one tag: its first node is taken for the geometric tag. *)
Example C33_one_tag : fixText (textOf ["$Elements"; "1"; "1 2 1 7 4 5 6"; "$EndElements"]) =
  Ok (Some (textOf ["$Elements"; "1"; "1 2 1 4 4 5 6"; "$EndElements"])).
Proof. exact one_tag. Qed.

(** C34.  After an interruption the file is the original or a beginning of the
    cleaned one. *)
Theorem C34_crash_leaves_beginning_partial : forall content d, crashStates content d ->
  d = content \/ exists c' r, fixText content = Ok (Some c') /\ c' = (d ++ r)%string.
Proof. exact crash_prefix. Qed.
Print Assumptions C34_crash_leaves_beginning_partial.

(** C34.  A call that has nothing to do, or that fails on a malformed element,
    never touches the file. *)
Theorem C34_untouched_partial : forall content, fixText content = Ok None \/ fixText content = Throw ->
  forall d, crashStates content d -> d = content.
Proof. exact crash_none. Qed.
Print Assumptions C34_untouched_partial.
Example C34_untouched_met : fixText (textOf ["$Elements"; "1"; "1 tri 2 0 1 1 2 3"; "$EndElements"]) = Throw.
Proof. exact crash_none_ex. Qed.

(** C34 fails: the mesh can be lost. *)
Theorem C34_crash_refuted : exists content d, crashStates content d /\ d <> content /\ fixText content <> Ok (Some d).
Proof. exact crash_refuted. Qed.
Print Assumptions C34_crash_refuted.

(** The numbers of a record: blanks, a sign and a numeral give the value with
    its sign when it fits in an int, and the number is refused otherwise. *)
Theorem C33_numbers : forall a (neg : bool) s z b, every blank a -> numeral s z -> ends b ->
  let v := if neg then (- z)%Z else z in
  number (a ++ (if neg then "-" else "+") ++ s ++ b) = if (-2147483648 <=? v)%Z && (v <=? 2147483647)%Z then Num v b else TooBig.
Proof. exact number_signed. Qed.
Print Assumptions C33_numbers.
Example C33_numbers_ex : number "  -42 7" = Num (-42)%Z " 7" /\ number "+3000000000" = TooBig /\ numeral "42" 42%Z.
Proof. exact numbers_ex. Qed.

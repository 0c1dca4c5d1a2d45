(** What cleaning a mesh file means, without the code's readers and loops. *)
From Coq Require Import ZArith List Bool String Ascii Decimal DecimalString.
Import ListNotations.
Local Open Scope string_scope.

(** A text occurs in another. *)
Definition occurs (m s : string) : Prop := exists a b, s = a ++ m ++ b.

Fixpoint every (P : ascii -> Prop) (s : string) : Prop :=
  match s with EmptyString => True | String c r => P c /\ every P r end.
Definition eol : ascii := ascii_of_nat 10.
(** Blank, tab, newline, vertical tab, form feed, carriage return. *)
Definition blank (c : ascii) : Prop := c = " "%char \/ In (nat_of_ascii c) [9; 10; 11; 12; 13]%nat.

(** A file consists of lines, the last of which may lack its end mark. *)
Fixpoint textOf (ls : list string) : string :=
  match ls with [] => "" | l :: r => l ++ String eol (textOf r) end.
Definition isFile (ls : list string) (text : string) : Prop :=
  Forall (every (fun c => c <> eol)) ls /\
  (text = textOf ls \/ exists i l, ls = (i ++ [l])%list /\ l <> "" /\ text = textOf i ++ l).

(** A line consists of words between blanks. *)
Inductive words : string -> list string -> Prop :=
| words_nil : forall s, every blank s -> words s []
| words_cons : forall a w b ts, every blank a -> w <> "" -> every (fun c => ~ blank c) w ->
    (b = "" \/ exists c r, b = String c r /\ blank c) -> words b ts -> words (a ++ w ++ b) (w :: ts).

(** Decimal numerals. *)
Definition isDigit (c : ascii) (d : Z) : Prop := Z.of_nat (nat_of_ascii c) = (48 + d)%Z /\ (0 <= d <= 9)%Z.
Inductive numeral : string -> Z -> Prop :=
| num_one : forall c d, isDigit c d -> numeral (String c "") d
| num_more : forall s z c d, numeral s z -> isDigit c d -> numeral (s ++ String c "") (10 * z + d).
Definition small (z : Z) : Prop := (z <= 2147483647)%Z.
(** What may follow a word: nothing, or a blank. *)
Definition ends (b : string) : Prop := b = "" \/ exists c r, b = String c r /\ blank c.
(** The usual numeral of a number. *)
Definition decimal (n : nat) : string := NilZero.string_of_uint (Nat.to_uint n).

(** An element record: number, type, number of tags, physical tag, geometric
    tag, the rest. *)
Record element := mkEl { e_id : string; e_type : string; e_ty : Z; e_nt : string; e_phys : string; e_geom : string; e_tail : list string }.
Definition record (line : string) (e : element) : Prop :=
  words line (e_id e :: e_type e :: e_nt e :: e_phys e :: e_geom e :: e_tail e) /\
  (exists z, numeral (e_id e) z /\ small z) /\ numeral (e_type e) (e_ty e) /\ small (e_ty e).
(** The lines of an element section: records and blank lines. *)
Inductive section : list string -> list element -> Prop :=
| sec_nil : section [] []
| sec_blank : forall l r es, words l [] -> section r es -> section (l :: r) es
| sec_rec : forall l e r es, record l e -> section r es -> section (l :: r) (e :: es).

(** The lines of a file with one element section. *)
Definition laidOut (H : list string) (mark cnt : string) (E : list string) (rest : list string) : Prop :=
  (forall l, In l H -> ~ occurs "$Elements" l /\ ~ occurs "$EndElements" l) /\
  occurs "$Elements" mark /\ every (fun c => c <> eol) cnt /\
  (forall l, In l E -> ~ occurs "$EndElements" l) /\
  (rest = [] \/ exists stop F, rest = stop :: F /\ occurs "$EndElements" stop).

(** Dimension of a Gmsh element type: points, lines, triangles and quadrangles;
    the rest are solids.  (Gmsh manual, MSH 2.2.) *)
Definition gmshDim (t : Z) : nat :=
  if existsb (Z.eqb t) [15]%Z then 0
  else if existsb (Z.eqb t) [1; 8; 26; 27; 28]%Z then 1
  else if existsb (Z.eqb t) [2; 3; 9; 10; 16; 20; 21; 22; 23; 24; 25]%Z then 2
  else 3.
Definition meshDim (es : list element) : nat := fold_right (fun e d => Nat.max (gmshDim (e_ty e)) d) 0%nat es.
(** Elements of the mesh's dimension and the one below (boundaries) stay. *)
Definition needed (dim : nat) (e : element) : bool := Nat.leb dim (gmshDim (e_ty e) + 1).
(** Points, lines, triangles and tetrahedra of the orders the clean-up knows. *)
Definition simplex (e : element) : Prop := In (e_ty e) [15; 1; 8; 26; 27; 28; 2; 9; 20; 21; 4; 11; 29]%Z.

(** The new line of an element: numbered, geometric tag in both places. *)
Definition newLine (k : nat) (e : element) : string :=
  String.concat " " (decimal k :: e_type e :: e_nt e :: e_geom e :: e_geom e :: e_tail e).
Fixpoint renumber (k : nat) (es : list element) : list string :=
  match es with [] => [] | e :: r => newLine k e :: renumber (S k) r end.

(** Reading an operator file, and matrices as rows of entries. *)
From Coq Require Import String ZArith List Bool Reals.
From Verif Require Import Common Print_Spec Export_Model.
Import ListNotations.
Local Open Scope R_scope.

(** The entries of row [i] in compressed row storage. *)
Definition rowOf (m : spmat) (i : nat) : list (nat * R) :=
  map (fun k => (nth k (sp_J m) O, nth k (sp_A m) 0)) (seq (nth i (sp_I m) O) (nth (S i) (sp_I m) O - nth i (sp_I m) O)).
(** Arrays of matching sizes. *)
Definition matching (m : spmat) : Prop :=
  length (sp_I m) = S (sp_h m) /\ length (sp_J m) = nth (sp_h m) (sp_I m) O /\ length (sp_A m) = nth (sp_h m) (sp_I m) O.

(** The next [n] whole numbers of a file. *)
Fixpoint takeInts (n : nat) (l : list line) : option (list nat * list line) :=
  match n, l with
  | O, _ => Some ([], l)
  | S k, LInt x :: t => match takeInts k t with Some (xs, r) => Some (x :: xs, r) | None => None end
  | _, _ => None
  end.
(** The next [n] decimal numbers of a file. *)
Fixpoint takeReals (n : nat) (l : list line) : option (list R * list line) :=
  match n, l with
  | O, _ => Some ([], l)
  | S k, LReal x :: t => match takeReals k t with Some (xs, r) => Some (x :: xs, r) | None => None end
  | _, _ => None
  end.
(** A reader of the format: rows, columns, offsets, then as many columns and values as the last offset says,
    and nothing else. *)
Definition readCsr (l : list line) : option spmat :=
  match takeInts 2 l with
  | Some ([h; w], r1) =>
      match takeInts (S h) r1 with
      | Some (off, r2) =>
          match takeInts (last off O) r2 with
          | Some (J, r3) =>
              match takeReals (last off O) r3 with
              | Some (A, []) => Some (mkSp h w off J A)
              | _ => None
              end
          | None => None
          end
      | None => None
      end
  | _ => None
  end.

(** A row of the operator applied to a field. *)
Definition applyRow (row : list (nat * R)) (x : nat -> R) : R := fold_right (fun e s => snd e * x (fst e) + s) 0 row.
(** Sum of |a_j x_j| and of |x_j| over a row. *)
Definition weight (row : list (nat * R)) (x : nat -> R) : R := fold_right (fun e s => Rabs (snd e * x (fst e)) + s) 0 row.
Definition load (row : list (nat * R)) (x : nat -> R) : R := fold_right (fun e s => Rabs (x (fst e)) + s) 0 row.
(** Entries of more than 1e-20. *)
Definition large (v : R) : Prop := 1 / 10 ^ 20 < Rabs v.
(** [l'] is [l] without the entries that are not large. *)
Inductive thinned : list (nat * R) -> list (nat * R) -> Prop :=
| thin_nil : thinned [] []
| thin_keep e l l' : large (snd e) -> thinned l l' -> thinned (e :: l) (e :: l')
| thin_drop e l l' : ~ large (snd e) -> thinned l l' -> thinned (e :: l) l'.

(** The same columns, each value the closest one of six digits. *)
Definition closeRow (row row' : list (nat * R)) : Prop := Forall2 (fun e e' => fst e' = fst e /\ closest 6 (snd e) (snd e')) row row'.

(** The names of the files a run is to write. *)
Definition wantsGlobal (s : setup) : Prop :=
  s_export s = true /\ s_world s = 1%nat /\ (s_evolution s = EvGlobal \/ (s_evolution s = EvHesthaven /\ s_curved s = true)).
Definition wantsSource (s : setup) : Prop :=
  s_export s = true /\ s_world s = 1%nat /\ s_evolution s = EvGlobal /\ s_tfsf s = true.
Definition globalName (s : setup) : string := ("Exports/Operators/" ++ s_mesh s ++ "/" ++ s_mesh s ++ "_global.csr")%string.
Definition sourceName (s : setup) : string := ("Exports/Operators/" ++ s_mesh s ++ "/" ++ s_mesh s ++ "_tfsf.csr")%string.
(** The same run without asking for the export. *)
Definition quietly (s : setup) : setup :=
  mkSetup (s_evolution s) false (s_world s) (s_curved s) (s_tfsf s) (s_mesh s) (s_opens s) (s_merged s) (s_source s).

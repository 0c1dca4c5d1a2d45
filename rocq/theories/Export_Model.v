(** Model of the export of the evolution operators: the end of components/DGOperatorFactory.h
    buildGlobalOperator, its callers in evolution/GlobalEvolution.cpp and evolution/HesthavenEvolution.cpp. *)
From Coq Require Import String Ascii ZArith List Bool Reals Arith.
From Verif Require Import Common Print_Model.
Import ListNotations.
Local Open Scope R_scope.

(** A finalised mfem::SparseMatrix, DGOperatorFactory.h 235: sizes, row offsets, columns and values.
    Simplified: no entry is missing (see Csr_Model for the merge that fills them). *)
Record spmat := mkSp { sp_h : nat; sp_w : nat; sp_I : list nat; sp_J : list nat; sp_A : list R }.

(** mfem::SparseMatrix::Threshold (external), called in DGOperatorFactory.h 1569-1570: one entry ... *)
Definition keepEntry (tol : R) (m : spmat) (acc : list nat * list R) (k : nat) : list nat * list R :=
  if Rlt_dec tol (Rabs (nth k (sp_A m) 0)) then (fst acc ++ [nth k (sp_J m) O], snd acc ++ [nth k (sp_A m) 0]) else acc.
(** ... one row ... (DGOperatorFactory.h 1570) *)
Definition keepRow (tol : R) (m : spmat) (st : list nat * (list nat * list R)) (i : nat) : list nat * (list nat * list R) :=
  let ja := fold_left (keepEntry tol m) (seq (nth i (sp_I m) O) (nth (S i) (sp_I m) O - nth i (sp_I m) O)) (snd st) in
  (fst st ++ [length (fst ja)], ja).
(** ... and all rows.  DGOperatorFactory.h 1570. *)
Definition threshold (tol : R) (m : spmat) : spmat :=
  let st := fold_left (keepRow tol m) (seq 0 (sp_h m)) ([O], ([], [])) in
  mkSp (sp_h m) (sp_w m) (fst st) (fst (snd st)) (snd (snd st)).

(** A line of a text file: a whole number or a decimal one.  DGOperatorFactory.h 1595. *)
Inductive line := LInt (n : nat) | LReal (x : R).
(** mfem::SparseMatrix::PrintCSR2 (external) on a new stream, whose precision is six:
    DGOperatorFactory.h 1589-1595, GlobalEvolution.cpp 340-344. *)
Definition printCSR2 (m : spmat) : list line :=
  [LInt (sp_h m); LInt (sp_w m)] ++
  map (fun i => LInt (nth i (sp_I m) O)) (seq 0 (S (sp_h m))) ++
  map (fun k => LInt (nth k (sp_J m) O)) (seq 0 (nth (sp_h m) (sp_I m) O)) ++
  map (fun k => LReal (significant 6 (nth k (sp_A m) 0))) (seq 0 (nth (sp_h m) (sp_I m) O)).

(** EvolutionOperatorType, driver.cpp 679-690. *)
Inductive evolution := EvMaxwell | EvGlobal | EvHesthaven.
(** What decides about the export: the options (SolverOptions.h 64-67), the number of processes, curved
    elements (HesthavenEvolution.cpp 411), a total-field boundary (GlobalEvolution.cpp 330), the name of the
    mesh and the file system: whether the directory can be made and the file be opened
    (DGOperatorFactory.h 1582-1593). *)
Record setup := mkSetup {
  s_evolution : evolution; s_export : bool; s_world : nat; s_curved : bool; s_tfsf : bool; s_mesh : string;
  s_opens : string -> bool;
  s_merged : spmat; s_source : spmat }.

(** DGOperatorFactory.h 1580-1587 and GlobalEvolution.cpp 335-339. *)
Definition exportPath (s : setup) (suffix : string) : string :=
  ("Exports/Operators/" ++ s_mesh s ++ "/" ++ s_mesh s ++ suffix)%string.
(** One file, DGOperatorFactory.h 1582-1596. *)
Definition writeOperator (s : setup) (suffix : string) (m : spmat) : res (list (string * list line)) :=
  if s_opens s (exportPath s suffix) then Ok [(exportPath s suffix, printCSR2 m)] else Throw.

(** The tail of buildGlobalOperator, DGOperatorFactory.h 1564-1602: the operator of the run and the files. *)
Definition finishGlobal (s : setup) : res (spmat * list (string * list line)) :=
  let op := threshold (1 / 10 ^ 20) (s_merged s) in
  if s_export s then
    if (1 <? s_world s)%nat then Ok (op, [])
    else f <- writeOperator s "_global.csr" op ;; Ok (op, f)
  else Ok (op, []).

(** The operators a run builds and the files it writes: GlobalEvolution.cpp 325-348,
    HesthavenEvolution.cpp 411-415; MaxwellEvolution.cpp 39-196 builds none of them. *)
Definition exports (s : setup) : res (option spmat * list (string * list line)) :=
  match s_evolution s with
  | EvMaxwell => Ok (None, [])
  | EvGlobal =>
      g <- finishGlobal s ;;
      t <- (if s_tfsf s then
              if s_export s then if Nat.eqb (s_world s) 1 then writeOperator s "_tfsf.csr" (s_source s) else Ok [] else Ok []
            else Ok []) ;;
      Ok (Some (fst g), snd g ++ t)
  | EvHesthaven => if s_curved s then g <- finishGlobal s ;; Ok (Some (fst g), snd g) else Ok (None, [])
  end.

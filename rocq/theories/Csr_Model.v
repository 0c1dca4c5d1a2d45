(** Model of the CSR block merge, src/components/DGOperatorFactory.h lines 151-236. *)
From Coq Require Import ZArith List Bool.
From Coq Require Import Reals.
From Verif Require Import Common.
Import ListNotations.
Local Open Scope Z_scope.

Section Csr.
(** Matrix entries with an arbitrary addition and multiplication: nothing is
    assumed about them, so the model covers rounded arithmetic as well. *)
Variable V : Type.
Variable vadd vmul : V -> V -> V.

(** CSRBlockPlacement, DGOperatorFactory.h 153-158.  The finalised sparse block
    is given by the list of (column, value) entries of each row
    (RowSize / GetRowColumns / GetRowEntries); columns may repeat and need not
    be sorted. *)
Record block := mkBlock {
  b_rows : list (list (Z * V));
  b_rowOffset : Z;
  b_colOffset : Z;
  b_sign : V
}.

(** Body of the innermost loop of pass 1, DGOperatorFactory.h 195-199. *)
Definition pass1_entry (row : Z) (st : list Z * Z) (globalCol : Z) : res (list Z * Z) :=
  let '(marker, nnz) := st in
  m <- zget marker globalCol ;;
  if m =? row then Ok (marker, nnz)
  else marker' <- zset marker globalCol row ;; Ok (marker', nnz + 1).

(** The rows of a block that a loop body visits for global row [row]:
    the [localRow] test of DGOperatorFactory.h 190-191 (pass 1) and 214-215 (pass 2). *)
Definition local_row (row : Z) (b : block) : option (list (Z * V)) :=
  let localRow := row - b_rowOffset b in
  if (localRow <? 0) || (Z.of_nat (length (b_rows b)) <=? localRow) then None
  else nth_error (b_rows b) (Z.to_nat localRow).

(** Loop over the blocks in pass 1, DGOperatorFactory.h 189-201. *)
Definition pass1_block (row : Z) (st : list Z * Z) (b : block) : res (list Z * Z) :=
  match local_row row b with
  | None => Ok st
  | Some entries =>
      foldM (fun st cv => pass1_entry row st (fst cv + b_colOffset b)) entries st
  end.

(** Loop over the rows in pass 1, DGOperatorFactory.h 187-203.  [C_i] is an
    uninitialised array of [globalRows + 1] cells whose first is set to 0. *)
Definition pass1_row (blocks : list block) (st : list Z * list (option Z)) (row : Z)
  : res (list Z * list (option Z)) :=
  let '(marker, C_i) := st in
  '(marker', nnz) <- foldM (pass1_block row) blocks (marker, 0) ;;
  c <- zget_init C_i row ;;
  C_i' <- zset C_i (row + 1) (Some (c + nnz)) ;;
  Ok (marker', C_i').

(** Used in [mergeBlocksToCSR], DGOperatorFactory.h 178-236. *)
Definition pass1 (blocks : list block) (globalRows globalCols : nat)
  : res (list (option Z)) :=
  let marker := repeat (-1) globalCols in
  C_i <- zset (repeat None (globalRows + 1)) 0 (Some 0) ;;
  '(_, C_i') <- foldM (pass1_row blocks) (zseq globalRows) (marker, C_i) ;;
  Ok C_i'.

(** Used in [pass2_entry], DGOperatorFactory.h 220-230. *)
Record st2 := mkSt2 {
  s_marker : list Z;
  s_pos : Z;
  s_Cj : list (option Z);
  s_Cdata : list (option V)
}.

(** Body of the innermost loop of pass 2, DGOperatorFactory.h 220-230. *)
Definition pass2_entry (C_i : list (option Z)) (row : Z) (st : st2) (e : Z * V) : res st2 :=
  let '(globalCol, v) := e in
  m <- zget (s_marker st) globalCol ;;
  c <- zget_init C_i row ;;
  if m <? c then
    Cj' <- zset (s_Cj st) (s_pos st) (Some globalCol) ;;
    Cd' <- zset (s_Cdata st) (s_pos st) (Some v) ;;
    marker' <- zset (s_marker st) globalCol (s_pos st) ;;
    Ok (mkSt2 marker' (s_pos st + 1) Cj' Cd')
  else
    old <- zget_init (s_Cdata st) m ;;
    Cd' <- zset (s_Cdata st) m (Some (vadd old v)) ;;
    Ok (mkSt2 (s_marker st) (s_pos st) (s_Cj st) Cd').

(** Loop over the blocks in pass 2, DGOperatorFactory.h 213-232. *)
Definition pass2_block (C_i : list (option Z)) (row : Z) (st : st2) (b : block) : res st2 :=
  match local_row row b with
  | None => Ok st
  | Some entries =>
      foldM (fun st cv => pass2_entry C_i row st (fst cv + b_colOffset b, vmul (snd cv) (b_sign b)))
            entries st
  end.

(** Used in [mergeBlocksToCSR], DGOperatorFactory.h 178-236. *)
Definition pass2_row (C_i : list (option Z)) (blocks : list block) (st : st2) (row : Z) : res st2 :=
  foldM (pass2_block C_i row) blocks st.

(** The finalised matrix handed to mfem::SparseMatrix, DGOperatorFactory.h 235. *)
Record csr := mkCsr {
  c_I : list (option Z);
  c_J : list (option Z);
  c_A : list (option V)
}.

(** mergeBlocksToCSR, DGOperatorFactory.h 178-236. A negative [totalNNZ] would
    be undefined behaviour in the allocation. *)
Definition mergeBlocksToCSR (blocks : list block) (globalRows globalCols : nat) : res csr :=
  C_i <- pass1 blocks globalRows globalCols ;;
  totalNNZ <- zget_init C_i (Z.of_nat globalRows) ;;
  if totalNNZ <? 0 then UB else
  let n := Z.to_nat totalNNZ in
  st <- foldM (pass2_row C_i blocks) (zseq globalRows)
          (mkSt2 (repeat (-1) globalCols) 0 (repeat None n) (repeat None n)) ;;
  Ok (mkCsr C_i (s_Cj st) (s_Cdata st)).

(** Entry-wise path: loadBlockInGlobalAtIndices, DGOperatorFactory.h 99-115, with
    the destination as a function from positions to values.  [dst.Add] on an
    unfinalised mfem::SparseMatrix adds to the (implicitly zero) entry.
    Simplified: mfem's row lists are represented by the function they denote;
    a position never added to is [None]. *)
Definition lil := Z -> Z -> option V.
(** DGOperatorFactory.h 99-115. *)
Definition lil_add (d : lil) (r c : Z) (v : V) : lil :=
  fun r' c' => if (r' =? r) && (c' =? c)
               then Some (match d r c with None => v | Some w => vadd w v end)
               else d r' c'.

(** DGOperatorFactory.h 99-115. *)
Definition load_row (b : block) (d : lil) (r : Z) : lil :=
  match zget (b_rows b) r with
  | Ok entries =>
      fold_left (fun d cv => lil_add d (b_rowOffset b + r) (b_colOffset b + fst cv)
                                     (vmul (snd cv) (b_sign b))) entries d
  | _ => d
  end.
(** DGOperatorFactory.h 99-115. *)
Definition loadBlock (d : lil) (b : block) : lil :=
  fold_left (load_row b) (zseq (length (b_rows b))) d.
(** DGOperatorFactory.h 99-115. *)
Definition loadBlocks (blocks : list block) : lil :=
  fold_left loadBlock blocks (fun _ _ => None).

End Csr.

Arguments mkBlock {V}.
Arguments b_rows {V}.
Arguments b_rowOffset {V}.
Arguments b_colOffset {V}.
Arguments b_sign {V}.
Arguments local_row {V}.
Arguments c_I {V}.
Arguments c_J {V}.
Arguments c_A {V}.

(** Product of the finalised matrix with a vector, one output row, over exact
    reals.  This is mfem::SparseMatrix::Mult (external); GlobalEvolution applies
    the merged operator through it (src/evolution/GlobalEvolution.cpp 628-1001). *)
Definition csr_mult_row (m : csr R) (x : list R) (r : Z) : res R :=
  lo <- zget_init (c_I m) r ;;
  hi <- zget_init (c_I m) (r + 1) ;;
  foldM (fun acc k =>
           a <- zget_init (c_A m) (lo + k) ;;
           j <- zget_init (c_J m) (lo + k) ;;
           xj <- zget x j ;;
           Ok (acc + a * xj)%R)
        (zseq (Z.to_nat (hi - lo))) 0%R.

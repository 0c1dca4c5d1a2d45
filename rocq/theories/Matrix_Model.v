(** Model of the matrix evolution operator, src/evolution/MaxwellEvolution.cpp: one matrix per
    term, applied component by component.  The matrices are those of
    src/components/DGOperatorFactory.h 713-847, named as in [Assembly_Model].  The loop over
    the total-field sources (275-328) is in [Source_Model]. *)
From Coq Require Import ZArith List Bool Reals.
From Verif Require Import Common Assembly_Model.
Import ListNotations.
Local Open Scope Z_scope.

Section Matrix.
(** Rows of the matrices built by DGOperatorFactory.h 713-847. *)
Variable op : opname -> list (list (Z * R)).
(** fes_.GetNDofs(). *)
Variable n : Z.
(** FaceNbrData() of each component after ExchangeFaceNbrData, by field and direction. *)
Variable nbr : Z -> Z -> list R.

(** buildMaxwellDirectionalOperator, DGOperatorFactory.h 725-739. *)
Definition MS (f d : Z) : opname := OpDerivative f d.
(** buildMaxwellZeroNormalOperator, DGOperatorFactory.h 741-752. *)
Definition MP (f : Z) : opname := OpZeroNormal f.
(** buildMaxwellOneNormalOperator, DGOperatorFactory.h 754-771: [res[f][f2][d]]. *)
Definition MFN (f f2 d : Z) : opname := OpOneNormal f f2 d.
(** buildMaxwellTwoNormalOperator, DGOperatorFactory.h 773-793.  Simplified: only the
    entries with equal fields, [res[f][f][d][d2]], which are the ones applied. *)
Definition MFNN (f d d2 : Z) : opname := OpTwoNormal f d d2.
(** buildMaxwellIntBdrZeroNormalOperator, DGOperatorFactory.h 795-806. *)
Definition MPB (f : Z) : opname := OpZeroNormalIBFI f.
(** buildMaxwellIntBdrOneNormalOperator, DGOperatorFactory.h 808-825. *)
Definition MFNB (f f2 d : Z) : opname := OpOneNormalIBFI f f2 d.
(** buildMaxwellIntBdrTwoNormalOperator, DGOperatorFactory.h 827-847, equal fields only. *)
Definition MFNNB (f d d2 : Z) : opname := OpTwoNormalIBFI f d d2.

(** SparseMatrix::AddMult(x, y, a) on the rows of a matrix: [y[i] += a * sum A[j] x[J[j]]];
    [y] is the part of [out] that starts at [off].
    Used in [terms], MaxwellEvolution.cpp 224-273. *)
Definition rowTimes (row : list (Z * R)) (x : list R) : res R :=
  foldM (fun s e => v <- zget x (fst e) ;; Ok (s + snd e * v)%R) row 0%R.
(** Used in [terms], MaxwellEvolution.cpp 224-273. *)
Definition addMult (rows : list (list (Z * R))) (x : list R) (off : Z) (a : R) (out : list R) : res (list R) :=
  foldM (fun out i =>
    row <- zget rows i ;; s <- rowTimes row x ;;
    o <- zget out (off + i) ;; zset out (off + i) (o + a * s)%R) (zseq (length rows)) out.

(** The component (f,d) of the state, MaxwellEvolution.cpp 207-208: a view of [n] values. *)
Definition view (inp : list R) (f d : Z) : res (list R) :=
  mapM (fun i => zget inp ((3 * f + d) * n + i)) (zseq (Z.to_nat n)).
(** loadFluxVector, MaxwellEvolution.cpp 28-37. *)
Definition loadFluxVector (local nb : list R) : list R := local ++ nb.

(** [eNew[d] = 0.0; hNew[d] = 0.0], MaxwellEvolution.cpp 220-221: part [k] of the output. *)
Definition clear (k : Z) (out : list R) : res (list R) :=
  foldM (fun out i => zset out (k * n + i) 0%R) (zseq (Z.to_nat n)) out.

(** One call of AddMult: matrix, vector, part of the output and factor.
    Used in [terms], MaxwellEvolution.cpp 224-273. *)
Record term := mkTerm { t_op : opname; t_vec : list R; t_part : Z; t_fac : R }.
(** MaxwellEvolution.cpp 224-273, for one value of [x]; the parts of the output are 0-2 for
    eNew and 3-5 for hNew. *)
Definition terms (intBdr : bool) (old flux : Z -> Z -> list R) (x : Z) : list term :=
  let y := (x + 1) mod 3 in
  let z := (x + 2) mod 3 in
  let eOld := old E in let hOld := old H in
  let eFlux := flux E in let hFlux := flux H in
  let eNew := x in let hNew := x + 3 in
  [ mkTerm (MS H y) (eOld z) hNew (-1); mkTerm (MS H z) (eOld y) hNew 1;
    mkTerm (MS E y) (hOld z) eNew 1; mkTerm (MS E z) (hOld y) eNew (-1);
    mkTerm (MFN H E y) (eFlux z) hNew 1; mkTerm (MFN H E z) (eFlux y) hNew (-1);
    mkTerm (MFN E H y) (hFlux z) eNew (-1); mkTerm (MFN E H z) (hFlux y) eNew 1;
    mkTerm (MFNN H 0 x) (hFlux 0) hNew 1; mkTerm (MFNN H 1 x) (hFlux 1) hNew 1; mkTerm (MFNN H 2 x) (hFlux 2) hNew 1;
    mkTerm (MP H) (hFlux x) hNew (-1);
    mkTerm (MFNN E 1 x) (eFlux 1) eNew 1; mkTerm (MFNN E 0 x) (eFlux 0) eNew 1; mkTerm (MFNN E 2 x) (eFlux 2) eNew 1;
    mkTerm (MP E) (eFlux x) eNew (-1) ] ++
  (if intBdr then
     [ mkTerm (MFNB H E y) (eFlux z) hNew 1; mkTerm (MFNB H E z) (eFlux y) hNew (-1);
       mkTerm (MFNB E H y) (hFlux z) eNew (-1); mkTerm (MFNB E H z) (hFlux y) eNew 1;
       mkTerm (MFNNB H 0 x) (hFlux 0) hNew 1; mkTerm (MFNNB H 1 x) (hFlux 1) hNew 1; mkTerm (MFNNB H 2 x) (hFlux 2) hNew 1;
       mkTerm (MPB H) (hFlux x) hNew (-1);
       mkTerm (MFNNB E 0 x) (eFlux 0) eNew 1; mkTerm (MFNNB E 1 x) (eFlux 1) eNew 1; mkTerm (MFNNB E 2 x) (eFlux 2) eNew 1;
       mkTerm (MPB E) (eFlux x) eNew (-1) ]
   else []).

(** MaxwellEvolution::Mult, MaxwellEvolution.cpp 200-273.  Simplified: the views of all the
    components are taken before the output is cleared; input and output do not overlap. *)
Definition matrixMult (intBdr : bool) (inp out : list R) : res (list R) :=
  parts <- mapM (fun c => view inp (c / 3) (c mod 3)) [0; 1; 2; 3; 4; 5] ;;
  let old := fun f d => nth (Z.to_nat (3 * f + d)) parts [] in
  let flux := fun f d => loadFluxVector (old f d) (nbr f d) in
  out <- foldM (fun out d => o <- clear d out ;; clear (d + 3) o) [0; 1; 2] out ;;
  foldM (fun out t => addMult (op (t_op t)) (t_vec t) (t_part t * n) (t_fac t) out)
    (flat_map (terms intBdr old flux) [0; 1; 2]) out.

End Matrix.

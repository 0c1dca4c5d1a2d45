(** Layout of the six field components in one state vector, as each part of the code
    computes it. *)
From Coq Require Import ZArith List Bool.
From Verif Require Import Common.
Import ListNotations.
Local Open Scope Z_scope.

(** FieldType, components/Types.h 37; directions X, Y, Z are 0, 1, 2 (66-69). *)
Inductive fld := FE | FH.
(** Used in [fieldOffsets], DGOperatorFactory.h 61-82. *)
Definition fnum (f : fld) : Z := match f with FE => 0 | FH => 1 end.

(** mfem MakeRef(base, offset, size): a window on another vector.
    Used in [readW], GlobalEvolution.cpp 628-640. *)
Record win := mkWin { w_base : Z; w_len : Z }.
(** GlobalEvolution.cpp 628-640. *)
Definition readW {A} (w : win) (x : list A) (i : Z) : res A :=
  if (0 <=? i) && (i <? w_len w) then zget x (w_base w + i) else UB.
(** GlobalEvolution.cpp 628-640. *)
Definition writeW {A} (w : win) (x : list A) (i : Z) (a : A) : res (list A) :=
  if (0 <=? i) && (i <? w_len w) then zset x (w_base w + i) a else UB.

(** Fields constructor and get(f, d), evolution/Fields.h 50-58 and 69-93. *)
Definition fieldWin (n : Z) (f : fld) (d : Z) : win :=
  match f with FE => mkWin (d * n) n | FH => mkWin ((d + 3) * n) n end.
(** e_global_, h_global_ and get(f), Fields.h 60-66 and 95-105. *)
Definition globalWin (n : Z) (f : fld) : win :=
  let half := 6 * n / 2 in
  match f with FE => mkWin 0 half | FH => mkWin half half end.

(** FieldOffsets, components/DGOperatorFactory.h 61-82. *)
Record offsets := mkOff { rowStart : Z; rowEnd : Z; colStart : Z; colEnd : Z }.
(** DGOperatorFactory.h 61-82. *)
Definition fieldOffsets (lb nb : Z) (f : fld) (d : Z) (isLocal : bool) : offsets :=
  let k := 3 * fnum f + d in
  mkOff (k * lb) (k * lb + lb) (k * (lb + nb))
        (if isLocal then k * (lb + nb) + lb else k * (lb + nb) + (lb + nb)).

(** FieldsInputMaps and FieldsOutputMaps, evolution/HesthavenEvolutionMethods.cpp 15-33. *)
Definition hesthavenWin (n : Z) (f : fld) (d : Z) : win :=
  mkWin ((match f with FE => d | FH => 3 + d end) * n) n.
(** eOld and hOld, evolution/MaxwellEvolution.cpp 205-208. *)
Definition maxwellWin (n : Z) (f : fld) (d : Z) : win :=
  match f with FE => mkWin (d * n) n | FH => mkWin ((d + 3) * n) n end.

(** memcpy of [n] doubles from the start of [src] to position [k] of [dst].
    Used in [buildSingleVectorTFSFFunc], GlobalEvolution.cpp 366-379. *)
Definition memcpy {A} (dst : list (option A)) (k : Z) (src : list A) (n : Z) : res (list (option A)) :=
  foldM (fun o i => a <- zget src i ;; zset o (k + i) (Some a)) (zseq (Z.to_nat n)) dst.

(** buildSingleVectorTFSFFunc, evolution/GlobalEvolution.cpp 366-379; the fresh vector is
    uninitialised, shown as [None]. *)
Definition buildSingleVectorTFSFFunc {A} (func : fld -> Z -> list A) : res (list (option A)) :=
  let size := Z.of_nat (length (func FE 0)) in
  foldM (fun o f => foldM (fun o d => memcpy o ((fnum f * 3 + d) * size) (func f d) size) [0; 1; 2] o)
        [FE; FH] (repeat None (Z.to_nat (6 * size))).

(** Copy of the state into eOld_, hOld_, evolution/GlobalEvolution.cpp 765-768: component
    (f, d) of the result. *)
Definition loadOld {A} (n : Z) (x : list A) (f : fld) (d : Z) : res (list (option A)) :=
  memcpy (repeat None (Z.to_nat n)) 0 (skipn (Z.to_nat ((match f with FE => d | FH => 3 + d end) * n)) x) n.

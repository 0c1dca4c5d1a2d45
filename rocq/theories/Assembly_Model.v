(** Model of the global operator assembly,
    src/components/DGOperatorFactory.h: which sub-operator goes to which block
    of the 6x6 block matrix and with which sign.

    The sub-operators themselves (products of inverse mass matrices with
    derivative, face and conductivity forms) are an arbitrary function [op]. *)
From Coq Require Import ZArith List Bool Reals.
From Verif Require Import Common Csr_Model.
Import ListNotations.
Local Open Scope Z_scope.

(** enum FieldType { E, H }, src/components/Types.h 37 (E = 0, H = 1);
    Direction X, Y, Z = 0, 1, 2, Types.h 66-69. *)
Definition E : Z := 0.
(** Used in [altField], DGOperatorFactory.h 47-58. *)
Definition H : Z := 1.

(** altField, DGOperatorFactory.h 47-58. *)
Definition altField (f : Z) : Z := if f =? E then H else E.

(** Names of the products [MInv[f] * sub-operator] built in the loops below.
    The first argument is the field whose inverse mass matrix is used.
    Used in [collect_zero], DGOperatorFactory.h 1098-1113. *)
Inductive opname :=
| OpDerivative (f x : Z)
| OpZeroNormal (f : Z)
| OpOneNormal (f falt x : Z)
| OpTwoNormal (f d d2 : Z)
| OpZeroNormalIBFI (f : Z)
| OpOneNormalIBFI (f falt x : Z)
| OpTwoNormalIBFI (f d d2 : Z)
| OpSourceZeroNormal (f : Z)
| OpSourceOneNormal (f falt x : Z)
| OpSourceTwoNormal (f d d2 : Z)
| OpConductive.

Section Assembly.
Variable V : Type.
Variable vadd vmul : V -> V -> V.
Variable vone vmone : V.             (* 1.0 and -1.0 *)
Variable op : opname -> list (list (Z * V)).
Variable dim : Z.                    (* meshDimension() *)
Variable localSize nbrSize : Z.      (* fes_.GetNDofs(), getAdditionalDofs() *)

(** FieldOffsets, DGOperatorFactory.h 61-81: rowStartOffset and colStartOffset. *)
Definition rowStart (f d : Z) : Z := (3 * f + d) * localSize.
(** Used in [collect_zero], DGOperatorFactory.h 1098-1113. *)
Definition colStart (f d : Z) : Z := (3 * f + d) * (localSize + nbrSize).

(** A placement request: the pair of offsets used by loadBlockInGlobalAtIndices
    (99-115) and collectBlockPlacement (162-174): row offset of the first,
    column offset of the second. Used in [collect_zero], DGOperatorFactory.h 1098-1113. *)
Definition place (o : opname) (f d f' d' : Z) (s : V) : block V :=
  mkBlock (op o) (rowStart f d) (colStart f' d') s.

(** [1.0 - double(f) * 2.0] and [-1.0 + double(f) * 2.0] for f in {0,1}.
    Used in [collect_one], DGOperatorFactory.h 1125-1150. *)
Definition signA (f : Z) : V := if f =? E then vone else vmone.
(** Used in [collect_one], DGOperatorFactory.h 1125-1150. *)
Definition signB (f : Z) : V := if f =? E then vmone else vone.

(** Used in [collect_zero], DGOperatorFactory.h 1098-1113. *)
Definition fields : list Z := [E; H].
(** Used in [collect_zero], DGOperatorFactory.h 1098-1113. *)
Definition dirs : list Z := [0; 1; 2].

(** Loop shapes shared by the functions below, parameterised by the operator.
    Zero-normal: lines DGOperatorFactory.h 1098-1113; one-normal: 1125-1150; two-normal: 1162-1182. *)
Definition collect_zero (o : Z -> opname) : list (block V) :=
  flat_map (fun f => flat_map (fun d => [place (o f) f d f d vmone]) dirs) fields.

(** DGOperatorFactory.h 1125-1150. *)
Definition collect_one (o : Z -> Z -> Z -> opname) : list (block V) :=
  flat_map (fun f => flat_map (fun x =>
    if dim <=? x then [] else
    let y := (x + 1) mod 3 in
    let z := (x + 2) mod 3 in
    [ place (o f (altField f) x) f y (altField f) z (signA f);
      place (o f (altField f) x) f z (altField f) y (signB f) ]) dirs) fields.

(** DGOperatorFactory.h 1162-1182. *)
Definition collect_two (o : Z -> Z -> Z -> opname) : list (block V) :=
  flat_map (fun f => flat_map (fun d =>
    if dim <=? d then [] else
    flat_map (fun d2 => if dim <=? d2 then [] else [place (o f d d2) f d f d2 vone]) dirs) dirs) fields.

(** collectGlobalZeroNormalIBFIOperators DGOperatorFactory.h 1212-1225, ...OneNormalIBFI 1227-1247,
    ...TwoNormalIBFI 1249-1266, ...ZeroNormal 1291-1304, ...OneNormal 1306-1327,
    ...TwoNormal 1329-1347. *)
Definition collectZeroNormalIBFI := collect_zero OpZeroNormalIBFI.
(** DGOperatorFactory.h 1227-1247. *)
Definition collectOneNormalIBFI := collect_one OpOneNormalIBFI.
(** DGOperatorFactory.h 1249-1266. *)
Definition collectTwoNormalIBFI := collect_two OpTwoNormalIBFI.
(** DGOperatorFactory.h 1291-1304. *)
Definition collectZeroNormal := collect_zero OpZeroNormal.
(** DGOperatorFactory.h 1306-1327. *)
Definition collectOneNormal := collect_one OpOneNormal.
(** DGOperatorFactory.h 1329-1347. *)
Definition collectTwoNormal := collect_two OpTwoNormal.

(** collectGlobalDirectionalOperators, DGOperatorFactory.h 1268-1289. *)
Definition collectDirectional : list (block V) :=
  flat_map (fun f => flat_map (fun x =>
    if dim <=? x then [] else
    let y := (x + 1) mod 3 in
    let z := (x + 2) mod 3 in
    [ place (OpDerivative f x) f z (altField f) y (signA f);
      place (OpDerivative f x) f y (altField f) z (signB f) ]) dirs) fields.

(** collectGlobalConductiveOperator, DGOperatorFactory.h 1349-1361. *)
Definition collectConductive : list (block V) :=
  flat_map (fun d => [place OpConductive E d E d vmone]) dirs.

(** buildGlobalOperator, DGOperatorFactory.h 1427-1564: order of collection, then the merge.
    Simplified: timers are not modelled; the final Threshold(1e-20) (1569-1570) and
    the optional export are in Export_Model. *)
Definition collectGlobal (hasInteriorBdr : bool) : list (block V) :=
  (if hasInteriorBdr
   then collectOneNormalIBFI ++ collectZeroNormalIBFI ++ collectTwoNormalIBFI
   else []) ++
  collectDirectional ++ collectOneNormal ++ collectZeroNormal ++ collectTwoNormal ++ collectConductive.

(** DGOperatorFactory.h 1427-1571. *)
Definition globalRows : nat := Z.to_nat (6 * localSize).
(** DGOperatorFactory.h 1427-1571. *)
Definition globalCols : nat := Z.to_nat (6 * (localSize + nbrSize)).

(** DGOperatorFactory.h 1427-1571. *)
Definition buildGlobalOperator (hasInteriorBdr : bool) : res (csr V) :=
  mergeBlocksToCSR V vadd vmul (collectGlobal hasInteriorBdr) globalRows globalCols.

(** Entry-wise counterparts: each call of loadBlockInGlobalAtIndices scatters
    into the destination immediately.  addGlobal{Zero,One,Two}NormalIBFI DGOperatorFactory.h 871-955,
    addGlobalSourceFaceIBFI* 965-1049, addGlobalDirectional 1059-1086,
    addGlobal{Zero,One,Two}Normal 1096-1182, addGlobalConductive 1192-1208. *)
Definition lilV := lil V.
(** Used in [add_zero], DGOperatorFactory.h 871-888, 967-982 and 1098-1113. *)
Definition put (g : lilV) (o : opname) (f d f' d' : Z) (s : V) : lilV :=
  loadBlock V vadd vmul g (place o f d f' d' s).

(** DGOperatorFactory.h 871-888, 967-982 and 1098-1113. *)
Definition add_zero (o : Z -> opname) (g : lilV) : lilV :=
  fold_left (fun g f => fold_left (fun g d => put g (o f) f d f d vmone) dirs g) fields g.

(** DGOperatorFactory.h 900-924, 994-1018 and 1125-1150. *)
Definition add_one (o : Z -> Z -> Z -> opname) (g : lilV) : lilV :=
  fold_left (fun g f => fold_left (fun g x =>
    if dim <=? x then g else
    let y := (x + 1) mod 3 in
    let z := (x + 2) mod 3 in
    let g1 := put g (o f (altField f) x) f y (altField f) z (signA f) in
    put g1 (o f (altField f) x) f z (altField f) y (signB f)) dirs g) fields g.

(** DGOperatorFactory.h 936-955, 1030-1049 and 1162-1182. *)
Definition add_two (o : Z -> Z -> Z -> opname) (g : lilV) : lilV :=
  fold_left (fun g f => fold_left (fun g d =>
    if dim <=? d then g else
    fold_left (fun g d2 => if dim <=? d2 then g else put g (o f d d2) f d f d2 vone) dirs g) dirs g) fields g.

(** DGOperatorFactory.h 1059-1086. *)
Definition add_directional (g : lilV) : lilV :=
  fold_left (fun g f => fold_left (fun g x =>
    if dim <=? x then g else
    let y := (x + 1) mod 3 in
    let z := (x + 2) mod 3 in
    let g1 := put g (OpDerivative f x) f z (altField f) y (signA f) in
    put g1 (OpDerivative f x) f y (altField f) z (signB f)) dirs g) fields g.

(** DGOperatorFactory.h 1192-1208. *)
Definition add_conductive (g : lilV) : lilV :=
  fold_left (fun g d => put g OpConductive E d E d vmone) dirs g.

(** The whole operator through the entry-wise path, same order as DGOperatorFactory.h 1445-1554. *)
Definition addGlobal (hasInteriorBdr : bool) : lilV :=
  let g0 : lilV := fun _ _ => None in
  let g1 := if hasInteriorBdr
            then add_two OpTwoNormalIBFI (add_zero OpZeroNormalIBFI (add_one OpOneNormalIBFI g0))
            else g0 in
  add_conductive (add_two OpTwoNormal (add_zero OpZeroNormal (add_one OpOneNormal (add_directional g1)))).

(** buildSourceFaceOperator, DGOperatorFactory.h 1404-1425: entry-wise path for source faces. *)
Definition buildSourceFaceOperator : lilV :=
  add_two OpSourceTwoNormal (add_zero OpSourceZeroNormal (add_one OpSourceOneNormal (fun _ _ => None))).

(** The same operator through the collect/merge path (not in the code; used to
    state that both paths agree). DGOperatorFactory.h 1404-1425. *)
Definition collectSourceFace : list (block V) :=
  collect_one OpSourceOneNormal ++ collect_zero OpSourceZeroNormal ++ collect_two OpSourceTwoNormal.

End Assembly.

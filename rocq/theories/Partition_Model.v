(** Model of the rank assignment of coupled elements,
    src/driver/driver.cpp lines 63-290. *)
From Coq Require Import ZArith List Bool.
From Verif Require Import Common.
Import ListNotations.
Local Open Scope Z_scope.

(** Boundary elements of the serial mesh as seen by driver.cpp 67-73: the
    attribute and, when GetInternalBdrFaceTransformations returns non-null, the
    two element numbers of the face (mfem is external). *)
Record bdr := mkBdr { bdr_attr : Z; bdr_elems : option (Z * Z) }.

(** buildTwoElementPairsByTagToSort, driver.cpp 63-77. *)
Definition buildTwoElementPairsByTagToSort (mesh : list bdr) (tags : list Z) : list (Z * Z) :=
  flat_map (fun t => flat_map (fun b =>
    if bdr_attr b =? t then
      match bdr_elems b with Some pr => [pr] | None => [] end
    else []) mesh) tags.

(** gatherConstraintPairs, driver.cpp 79-96 (an empty tag list adds nothing). *)
Definition gatherConstraintPairs (mesh : list bdr) (tfsf_tags sgbc_tags : list Z) : list (Z * Z) :=
  (if 0 <? Z.of_nat (length tfsf_tags) then buildTwoElementPairsByTagToSort mesh tfsf_tags else []) ++
  (if 0 <? Z.of_nat (length sgbc_tags) then buildTwoElementPairsByTagToSort mesh sgbc_tags else []).

(** driver.cpp 100-101. *)
Definition BOUNDARY_ELEM_WEIGHT : Z := 5.
(** Used in [buildElementWeights], driver.cpp 105-115. *)
Definition BULK_ELEM_WEIGHT : Z := 1.

(** The bounds test [0 <= e && e < n] used throughout.
    Used in [buildElementWeights], driver.cpp 105-115. *)
Definition inb (e n : Z) : bool := (0 <=? e) && (e <? n).

(** buildElementWeights, driver.cpp 105-115. *)
Definition buildElementWeights (NE : Z) (pairs : list (Z * Z)) : res (list Z) :=
  foldM (fun w pr =>
           w1 <- (if inb (fst pr) NE then zset w (fst pr) BOUNDARY_ELEM_WEIGHT else Ok w) ;;
           (if inb (snd pr) NE then zset w1 (snd pr) BOUNDARY_ELEM_WEIGHT else Ok w1))
        pairs (repeat BULK_ELEM_WEIGHT (Z.to_nat NE)).

(** [load[r] += w]. Used in [computeWeightedLoad], driver.cpp 118-129. *)
Definition load_add (load : list Z) (r w : Z) : res (list Z) :=
  old <- zget load r ;; zset load r (old + w).

(** computeWeightedLoad, driver.cpp 118-129.  [long long] is unbounded here. *)
Definition computeWeightedLoad (P NE : Z) (part weight : list Z) : res (list Z) :=
  foldM (fun load e =>
           r <- zget part e ;;
           if inb r P then w <- zget weight e ;; load_add load r w else Ok load)
        (zseq (Z.to_nat NE)) (repeat 0 (Z.to_nat P)).

(** countBoundaryPairsPerRank, driver.cpp 133-144; [partitioning[pr.first]] is
    not guarded. *)
Definition countBoundaryPairsPerRank (P : Z) (part : list Z) (pairs : list (Z * Z)) : res (list Z) :=
  foldM (fun cnt pr =>
           r <- zget part (fst pr) ;;
           if inb r P then load_add cnt r 1 else Ok cnt)
        pairs (repeat 0 (Z.to_nat P)).

(** leastLoadedRank, driver.cpp 147-154. *)
Definition leastLoadedRank (load : list Z) : res Z :=
  foldM (fun best r =>
           lr <- zget load r ;; lb <- zget load best ;;
           Ok (if lr <? lb then r else best))
        (map (fun k => k + 1) (zseq (length load - 1))) 0.

(** assignComponent, driver.cpp 157-170. *)
Definition assignElem (weight : list Z) (rank : Z) (st : list Z * list Z) (e : Z)
  : res (list Z * list Z) :=
  let '(part, load) := st in
  old_r <- zget part e ;;
  w <- zget weight e ;;
  load1 <- (if inb old_r (Z.of_nat (length load)) then load_add load old_r (- w) else Ok load) ;;
  part1 <- zset part e rank ;;
  load2 <- load_add load1 rank w ;;
  Ok (part1, load2).

(** Used in [assignStep], driver.cpp 264-267. *)
Definition assignComponent (weight : list Z) (elems : list Z) (rank : Z) (st : list Z * list Z)
  : res (list Z * list Z) :=
  foldM (assignElem weight rank) elems st.

(** [find], driver.cpp 197-203: loop with path halving.  The loop is run with
    fuel; running out of fuel stands for a loop that does not end (undefined
    behaviour in C++ for a loop without side effects on volatile/atomic data). *)
Fixpoint find_loop (fuel : nat) (parent : list Z) (x : Z) : res (list Z * Z) :=
  px <- zget parent x ;;
  if px =? x then Ok (parent, x)
  else match fuel with
       | O => UB
       | S fuel' =>
           ppx <- zget parent px ;;
           parent' <- zset parent x ppx ;;
           x' <- zget parent' x ;;
           find_loop fuel' parent' x'
       end.
(** Used in [unite], driver.cpp 204-210. *)
Definition find (parent : list Z) (x : Z) : res (list Z * Z) := find_loop (length parent) parent x.

(** [unite], driver.cpp 204-210. State: parent and rank_dsu arrays. *)
Definition unite (st : list Z * list Z) (a b : Z) : res (list Z * list Z) :=
  let '(parent, rk) := st in
  '(parent1, ra) <- find parent a ;;
  '(parent2, rb) <- find parent1 b ;;
  if ra =? rb then Ok (parent2, rk)
  else
    ka <- zget rk ra ;; kb <- zget rk rb ;;
    let '(a', b') := if ka <? kb then (rb, ra) else (ra, rb) in
    parent3 <- zset parent2 b' a' ;;
    ka' <- zget rk a' ;; kb' <- zget rk b' ;;
    rk' <- (if ka' =? kb' then zset rk a' (ka' + 1) else Ok rk) ;;
    Ok (parent3, rk').

(** Loop over the pairs, driver.cpp 212-216. *)
Definition uniteAll (NE : Z) (pairs : list (Z * Z)) (st : list Z * list Z) : res (list Z * list Z) :=
  foldM (fun st pr =>
           if (fst pr <? 0) || (NE <=? fst pr) || (snd pr <? 0) || (NE <=? snd pr) then Ok st
           else unite st (fst pr) (snd pr))
        pairs st.

(** The hash map [components], driver.cpp 219, as an association list in
    insertion order; the iteration order is arbitrary (see [hash_order]). *)
Definition amap := list (Z * list Z).

(** [components[k]] for its side effect of creating the key, driver.cpp 223. *)
Fixpoint amap_touch (m : amap) (k : Z) : amap :=
  match m with
  | [] => [(k, [])]
  | (k', v) :: t => if k' =? k then m else (k', v) :: amap_touch t k
  end.

(** [v.empty() || v.back() != e] then push, driver.cpp 233-236. *)
Definition push_unless_last (v : list Z) (e : Z) : list Z :=
  match rev v with
  | [] => v ++ [e]
  | b :: _ => if b =? e then v else v ++ [e]
  end.

(** Used in [groupComponents], driver.cpp 193-261. *)
Fixpoint amap_push (m : amap) (k e : Z) : amap :=
  match m with
  | [] => [(k, push_unless_last [] e)]
  | (k', v) :: t => if k' =? k then (k', push_unless_last v e) :: t else (k', v) :: amap_push t k e
  end.

(** The endpoints visited by the two loops driver.cpp 220-226 and 230-239. *)
Definition endpoints (pairs : list (Z * Z)) : list Z :=
  flat_map (fun pr => [fst pr; snd pr]) pairs.

(** Used in [groupComponents], driver.cpp 193-261. *)
Definition touchAll (NE : Z) (es : list Z) (st : list Z * amap) : res (list Z * amap) :=
  foldM (fun st e =>
           let '(parent, m) := st in
           if inb e NE then
             '(parent', r) <- find parent e ;; Ok (parent', amap_touch m r)
           else Ok st) es st.

(** Used in [groupComponents], driver.cpp 193-261. *)
Definition pushAll (NE : Z) (es : list Z) (st : list Z * amap) : res (list Z * amap) :=
  foldM (fun st e =>
           let '(parent, m) := st in
           if inb e NE then
             '(parent', r) <- find parent e ;; Ok (parent', amap_push m r e)
           else Ok st) es st.

(** Lines driver.cpp 227-229. *)
Definition clearAll (m : amap) : amap := map (fun kv => (fst kv, [])) m.

(** std::sort and std::unique on a vector of ints, driver.cpp 241-244. *)
Fixpoint insertZ (x : Z) (l : list Z) : list Z :=
  match l with
  | [] => [x]
  | y :: t => if x <=? y then x :: l else y :: insertZ x t
  end.
(** Used in [groupComponents], driver.cpp 193-261. *)
Definition sortZ (l : list Z) : list Z := fold_right insertZ [] l.
(** Used in [groupComponents], driver.cpp 193-261. *)
Fixpoint uniqueZ (l : list Z) : list Z :=
  match l with
  | [] => []
  | x :: t => match t with
              | [] => [x]
              | y :: _ => if x =? y then uniqueZ t else x :: uniqueZ t
              end
  end.

Section Oracles.
(** Iteration order of the std::unordered_map and outcome of the unstable
    std::sort by descending cost: external, arbitrary functions. *)
Variable hash_order : amap -> amap.
Variable sort_desc : list (list Z * Z) -> list (list Z * Z).

(** Lines driver.cpp 251-257: cost of each component. *)
Definition componentCost (weight : list Z) (elems : list Z) : res Z :=
  foldM (fun c e => w <- zget weight e ;; Ok (c + w)) elems 0.

(** Used in [groupComponents], driver.cpp 193-261. *)
Definition buildComps (weight : list Z) (m : amap) : res (list (list Z * Z)) :=
  foldM (fun acc kv => c <- componentCost weight (snd kv) ;; Ok (acc ++ [(snd kv, c)])) m [].

(** Lines driver.cpp 264-267. *)
Definition assignStep (weight : list Z) (st : list Z * list Z) (comp : list Z * Z)
  : res (list Z * list Z) :=
  r <- leastLoadedRank (snd st) ;; assignComponent weight (fst comp) r st.

(** Used in [applyPairs], driver.cpp 172-290. *)
Definition assignAll (weight : list Z) (comps : list (list Z * Z)) (st : list Z * list Z) :=
  foldM (assignStep weight) comps st.

(** Phase 1, lines driver.cpp 193-261: the components in the order they are assigned. *)
Definition groupComponents (NE : Z) (pairs : list (Z * Z)) (weight : list Z)
  : res (list (list Z * Z)) :=
  '(parent, rk) <- uniteAll NE pairs (zseq (Z.to_nat NE), repeat 0 (Z.to_nat NE)) ;;
  '(parent1, m1) <- touchAll NE (endpoints pairs) (parent, []) ;;
  '(parent2, m2) <- pushAll NE (endpoints pairs) (parent1, clearAll m1) ;;
  let m3 := map (fun kv => (fst kv, uniqueZ (sortZ (snd kv)))) m2 in
  comps <- buildComps weight (hash_order m3) ;;
  Ok (sort_desc comps).

(** applyPairwiseConstraintsPartitioning, driver.cpp 172-290, after the pairs
    have been gathered.  [rank0]: whether the diagnostics block 270-289 runs.
    Simplified: of the diagnostics only the array accesses are modelled. *)
Definition applyPairs (NE P : Z) (rank0 : bool) (part : list Z) (pairs : list (Z * Z)) : res (list Z) :=
  if (NE =? 0) || (P <=? 1) then Ok part else
  match pairs with
  | [] => Ok part
  | _ =>
    weight <- buildElementWeights NE pairs ;;
    load <- computeWeightedLoad P NE part weight ;;
    comps <- groupComponents NE pairs weight ;;
    '(part', load') <- assignAll weight comps (part, load) ;;
    _ <- (if rank0 then countBoundaryPairsPerRank P part' pairs else Ok []) ;;
    Ok part'
  end.

(** driver.cpp 172-290. *)
Definition applyPairwiseConstraintsPartitioning
  (NE P : Z) (rank0 : bool) (mesh : list bdr) (part : list Z) (tfsf_tags sgbc_tags : list Z) : res (list Z) :=
  applyPairs NE P rank0 part (gatherConstraintPairs mesh tfsf_tags sgbc_tags).

End Oracles.

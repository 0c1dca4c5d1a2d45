(** Property theorems C11, C12, C13. *)
From Coq Require Import ZArith List Permutation.
From Verif Require Import Common Partition_Model Partition_Spec Partition_Proofs.
Import ListNotations.
Local Open Scope Z_scope.

(** C11 + C12.  For every mesh whose interior boundary faces name existing
    elements, every partition, tag lists, number of ranks, iteration order of the
    hash map and outcome of the unstable sort: the adjustment finishes without
    an out-of-bounds access; elements connected by a chain of tagged faces share
    a rank; the two elements of a tagged face share a valid rank; elements of no
    tagged face keep their rank.  (With one rank nothing is changed, so the given
    partition must already be valid.) *)
Theorem C11_coupled_elements_share_rank :
  forall (hash_order : amap -> amap) (sort_desc : list (list Z * Z) -> list (list Z * Z)),
  (forall m, Permutation (hash_order m) m) -> (forall l, Permutation (sort_desc l) l) ->
  forall NE P rank0 mesh part tf sg,
  0 <= NE -> length part = Z.to_nat NE ->
  (forall t a b, In (mkBdr t (Some (a, b))) mesh -> 0 <= a < NE /\ 0 <= b < NE) ->
  (P <= 1 -> forall e r, rank_of part e = Some r -> 0 <= r < P) ->
  exists part', applyPairwiseConstraintsPartitioning hash_order sort_desc NE P rank0 mesh part tf sg = Ok part' /\
    length part' = length part /\
    (forall a b, linked NE (gatherConstraintPairs mesh tf sg) a b -> 0 <= a < NE -> rank_of part' a = rank_of part' b) /\
    (forall t a b, In t (tf ++ sg) -> In (mkBdr t (Some (a, b))) mesh ->
       exists r, 0 <= r < P /\ rank_of part' a = Some r /\ rank_of part' b = Some r) /\
    (forall e, (forall t a b, In t (tf ++ sg) -> In (mkBdr t (Some (a, b))) mesh -> e <> a /\ e <> b) ->
       rank_of part' e = rank_of part e).
Proof. exact partition_main. Qed.
Print Assumptions C11_coupled_elements_share_rank.

Example C11_ex_hyp : forall t a b, In (mkBdr t (Some (a, b))) ex_mesh -> 0 <= a < 6 /\ 0 <= b < 6.
Proof. exact ex_partition_hyp. Qed.
Example C11_ex :
  applyPairwiseConstraintsPartitioning (fun m => m) (fun l => l) 6 2 true ex_mesh [0; 1; 0; 1; 0; 1] [3] [4]
  = Ok [1; 1; 1; 1; 0; 0].
Proof. exact ex_partition. Qed.

(** C11.  The groups moved as one are exactly the connected components of the
    coupling graph: no element is grouped with one it is not linked to. *)
Theorem C11_groups_are_connected_components :
  forall (hash_order : amap -> amap) (sort_desc : list (list Z * Z) -> list (list Z * Z)),
  (forall m, Permutation (hash_order m) m) -> (forall l, Permutation (sort_desc l) l) ->
  forall NE pairs weight,
  0 <= NE -> length weight = Z.to_nat NE ->
  exists comps, groupComponents hash_order sort_desc NE pairs weight = Ok comps /\
    NoDup (concat (map fst comps)) /\
    (forall e, In e (concat (map fst comps)) <-> occurs pairs e /\ 0 <= e < NE) /\
    (forall c a b, In c (map fst comps) -> In a c ->
        (In b c <-> linked NE pairs a b /\ occurs pairs b /\ 0 <= b < NE)).
Proof. exact groupComponents_spec. Qed.
Print Assumptions C11_groups_are_connected_components.

(** C12 for arbitrary pair lists, also with ids outside the mesh: safe, in range,
    and only coupled elements move.  On the rank that prints the diagnostics the
    first id of each pair must be valid. *)
Theorem C12_arbitrary_pairs_stay_in_range_partial :
  forall (hash_order : amap -> amap) (sort_desc : list (list Z * Z) -> list (list Z * Z)),
  (forall m, Permutation (hash_order m) m) -> (forall l, Permutation (sort_desc l) l) ->
  forall NE P rank0 part pairs,
  0 <= NE -> 1 < P -> length part = Z.to_nat NE ->
  (rank0 = true -> forall p, In p pairs -> 0 <= fst p < NE) ->
  exists part', applyPairs hash_order sort_desc NE P rank0 part pairs = Ok part' /\
    length part' = length part /\
    (forall a b, linked NE pairs a b -> rank_of part' a = rank_of part' b) /\
    (forall e, occurs pairs e -> 0 <= e < NE -> exists r, 0 <= r < P /\ rank_of part' e = Some r) /\
    (forall e, ~ occurs pairs e -> rank_of part' e = rank_of part e).
Proof. exact applyPairs_spec. Qed.
Print Assumptions C12_arbitrary_pairs_stay_in_range_partial.

(** C12, finding: the diagnostics on rank 0 index the partition with the first
    id of a pair without the range check made everywhere else. *)
Theorem C12_diagnostics_unchecked_refuted :
  forall (hash_order : amap -> amap) (sort_desc : list (list Z * Z) -> list (list Z * Z)),
  (forall m, Permutation (hash_order m) m) -> (forall l, Permutation (sort_desc l) l) ->
  exists NE P part pairs, 0 < NE /\ 1 < P /\ length part = Z.to_nat NE /\
    applyPairs hash_order sort_desc NE P true part pairs = UB.
Proof. exact partition_oob. Qed.
Print Assumptions C12_diagnostics_unchecked_refuted.

(** C13.  After any number [k] of component assignments the kept loads are the
    true weighted loads of the current partition (weight 5 for coupled elements,
    1 for the others), and the rank chosen next is one of minimum true load. *)
Theorem C13_loads_are_true_and_choice_is_minimal :
  forall (hash_order : amap -> amap) (sort_desc : list (list Z * Z) -> list (list Z * Z)),
  (forall m, Permutation (hash_order m) m) -> (forall l, Permutation (sort_desc l) l) ->
  forall NE P part pairs k,
  0 <= NE -> 1 < P -> length part = Z.to_nat NE ->
  exists weight load comps part' load' r,
    buildElementWeights NE pairs = Ok weight /\
    (forall e, 0 <= e < NE -> (occurs pairs e -> nth_error weight (Z.to_nat e) = Some 5) /\
                              (~ occurs pairs e -> nth_error weight (Z.to_nat e) = Some 1)) /\
    computeWeightedLoad P NE part weight = Ok load /\
    groupComponents hash_order sort_desc NE pairs weight = Ok comps /\
    assignAll weight (firstn k comps) (part, load) = Ok (part', load') /\
    loads_right P part' weight load' /\
    leastLoadedRank load' = Ok r /\ 0 <= r < P /\
    forall q, 0 <= q < P -> true_load part' weight r <= true_load part' weight q.
Proof. exact partition_loads. Qed.
Print Assumptions C13_loads_are_true_and_choice_is_minimal.

Example C13_ex : buildElementWeights 6 ex_pairs = Ok [5; 5; 5; 1; 5; 5] /\
  computeWeightedLoad 2 6 [0; 1; 0; 1; 0; 1] [5; 5; 5; 1; 5; 5] = Ok [15; 11] /\
  groupComponents (fun m => m) (fun l => l) 6 ex_pairs [5; 5; 5; 1; 5; 5] = Ok [([0; 1; 2], 15); ([4; 5], 10)] /\
  assignAll [5; 5; 5; 1; 5; 5] [([0; 1; 2], 15)] ([0; 1; 0; 1; 0; 1], [15; 11]) = Ok ([1; 1; 1; 1; 0; 1], [5; 21]) /\
  leastLoadedRank [5; 21] = Ok 0.
Proof. exact ex_partition_loads. Qed.

(** Property theorems C14, C15 and the merge half of C16. *)
From Coq Require Import ZArith List Reals.
From Verif Require Import Common Csr_Model Csr_Spec Csr_Proofs.
Import ListNotations.
Local Open Scope Z_scope.

(** C14.  For arbitrary value operations (so also for rounded arithmetic): the
    stored value at (r,c) is the left-to-right accumulation of exactly the
    contributions of the blocks, it is stored in a unique cell, and nothing is
    stored at positions without contributions. *)
Theorem C14_merge_is_sum_of_blocks :
  forall (V : Type) (vadd vmul : V -> V -> V) (blocks : list (block V)) (rows cols : nat),
  fits blocks rows cols ->
  exists m, mergeBlocksToCSR V vadd vmul blocks rows cols = Ok m /\
    forall r c, (r < rows)%nat ->
      match accum vadd (contribs vmul blocks (Z.of_nat r) c) with
      | None => forall p v, ~ stored m r p c v
      | Some s => exists p, stored m r p c s /\
                   forall q v, stored m r q c v -> q = p /\ v = s
      end.
Proof. exact merge_entry_value. Qed.
Print Assumptions C14_merge_is_sum_of_blocks.

Example C14_ex_hyp : fits ex_blocks 3 3.
Proof. exact ex_blocks_fit. Qed.

(** C14, matrix-vector form over the reals: applying the merged matrix is the sum
    of applying each block at its place. *)
Theorem C14_merged_product_is_sum_of_block_products :
  forall (blocks : list (block R)) (rows cols : nat) (x : list R) (r : nat),
  fits blocks rows cols -> length x = cols -> (r < rows)%nat ->
  exists m, mergeBlocksToCSR R Rplus Rmult blocks rows cols = Ok m /\
    csr_mult_row m x (Z.of_nat r) =
      Ok (rsum (map (fun b => block_mult_row b x (Z.of_nat r)) blocks)).
Proof. exact merge_mult. Qed.
Print Assumptions C14_merged_product_is_sum_of_block_products.

Example C14_ex_hyp_R : fits exR_blocks 2 2.
Proof. exact exR_blocks_fit. Qed.

(** C15.  Blocks that fit give a well-formed CSR matrix, with no access out of
    bounds and no read of an uninitialised cell on the way. *)
Theorem C15_merge_is_well_formed :
  forall (V : Type) (vadd vmul : V -> V -> V) (blocks : list (block V)) (rows cols : nat),
  fits blocks rows cols ->
  exists m, mergeBlocksToCSR V vadd vmul blocks rows cols = Ok m /\ wf_csr m rows cols.
Proof. exact merge_wf. Qed.
Print Assumptions C15_merge_is_well_formed.

Example C15_ex : mergeBlocksToCSR Z Z.add Z.mul ex_blocks 3 3 =
  Ok (mkCsr Z [Some 0; Some 2; Some 3; Some 4]
              [Some 0; Some 1; Some 1; Some 2] [Some 3; Some 2; Some 3; Some (-4)]).
Proof. exact ex_blocks_merge. Qed.

(** C15, converse: the merge does not check its input; a block entry whose column
    falls outside the matrix always leads to an out-of-bounds access. *)
Theorem C15_misfit_is_undefined :
  forall (V : Type) (vadd vmul : V -> V -> V) (blocks : list (block V)) (rows cols : nat),
  ~ fits blocks rows cols -> mergeBlocksToCSR V vadd vmul blocks rows cols = UB.
Proof. exact merge_ub. Qed.
Print Assumptions C15_misfit_is_undefined.

Example C15_ex_misfit : ~ fits ex_blocks 3 2.
Proof. exact ex_blocks_misfit. Qed.

(** C16, kernel: scattering blocks entry by entry accumulates the same
    contributions in the same order as the merge. *)
Theorem C16_scatter_accumulates_contributions :
  forall (V : Type) (vadd vmul : V -> V -> V) (blocks : list (block V)) (r c : Z),
  loadBlocks V vadd vmul blocks r c = accum vadd (contribs vmul blocks r c).
Proof. exact load_blocks_value. Qed.
Print Assumptions C16_scatter_accumulates_contributions.

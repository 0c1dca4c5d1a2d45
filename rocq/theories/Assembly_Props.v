(** Property theorems C16 and C17. *)
From Coq Require Import ZArith List Reals.
From Verif Require Import Common Csr_Model Csr_Spec Assembly_Model Assembly_Spec Assembly_Proofs.
Import ListNotations.
Local Open Scope Z_scope.

(** C16.  The operator built by collecting and merging stores, at every position,
    the value the entry-wise path accumulates there, and nothing elsewhere; for
    arbitrary value operations. *)
Theorem C16_direct_assembly_equals_entrywise :
  forall (V : Type) (vadd vmul : V -> V -> V) (vone vmone : V)
         (op : opname -> list (list (Z * V))) (dim n nb : Z),
  0 <= n -> 0 <= nb ->
  (forall o, (length (op o) <= Z.to_nat n)%nat /\
     forall row e, In row (op o) -> In e row -> 0 <= fst e < n + nb) ->
  forall ib,
  exists m, buildGlobalOperator V vadd vmul vone vmone op dim n nb ib = Ok m /\
   forall r c, (r < globalRows n)%nat ->
     match addGlobal V vadd vmul vone vmone op dim n nb ib (Z.of_nat r) c with
     | None => forall p v, ~ stored m r p c v
     | Some s => exists p, stored m r p c s /\ forall q v, stored m r q c v -> q = p /\ v = s
     end.
Proof. exact global_paths_agree. Qed.
Print Assumptions C16_direct_assembly_equals_entrywise.

(** C16 for the source-face operator, which the code builds entry by entry. *)
Theorem C16_source_operator_equals_merge :
  forall (V : Type) (vadd vmul : V -> V -> V) (vone vmone : V)
         (op : opname -> list (list (Z * V))) (dim n nb : Z),
  0 <= n -> 0 <= nb ->
  (forall o, (length (op o) <= Z.to_nat n)%nat /\
     forall row e, In row (op o) -> In e row -> 0 <= fst e < n + nb) ->
  exists m, mergeBlocksToCSR V vadd vmul (collectSourceFace V vone vmone op dim n nb) (globalRows n) (globalCols n nb) = Ok m /\
   forall r c, (r < globalRows n)%nat ->
     match buildSourceFaceOperator V vadd vmul vone vmone op dim n nb (Z.of_nat r) c with
     | None => forall p v, ~ stored m r p c v
     | Some s => exists p, stored m r p c s /\ forall q v, stored m r q c v -> q = p /\ v = s
     end.
Proof. exact source_paths_agree. Qed.
Print Assumptions C16_source_operator_equals_merge.

(** C17.  Applying the assembled global operator to any state gives, in every
    component and dof, the semi-discrete Maxwell right-hand side: plus/minus
    curl, minus the jump terms, penalty and conductivity terms, each with the
    signs of the specification. *)
Theorem C17_global_operator_is_maxwell_curl :
  forall (op : opname -> list (list (Z * R))) (n nb : Z),
  0 <= n -> 0 <= nb -> ops_ok op n nb ->
  forall (dim : Z) (ib : bool) (x : list R) (f d : Z) (i : nat),
  1 <= dim <= 3 -> 0 <= f <= 1 -> 0 <= d <= 2 -> (i < Z.to_nat n)%nat ->
  length x = Z.to_nat (6 * (n + nb)) ->
  exists m, buildGlobalOperator R Rplus Rmult 1%R (-1)%R op dim n nb ib = Ok m /\
    csr_mult_row m x ((3 * f + d) * n + Z.of_nat i) = Ok (rhs op dim n nb ib x f d i).
Proof. exact global_action. Qed.
Print Assumptions C17_global_operator_is_maxwell_curl.

Example C17_ex_hyp : ops_ok ex_op 2 1.
Proof. exact ex_ops_ok. Qed.

(** Specification of a sparse matrix built from shifted, scaled blocks.
    Independent of the merge algorithm. *)
From Coq Require Import ZArith List.
From Coq Require Import Reals.
From Verif Require Import Common Csr_Model.
Import ListNotations.
Local Open Scope Z_scope.

Section Spec.
Variable V : Type.
Variable vadd vmul : V -> V -> V.

(** Values that block [b] contributes to position (r,c), in storage order. *)
Definition contrib (r c : Z) (b : block V) : list V :=
  if r <? b_rowOffset b then []
  else map (fun e => vmul (snd e) (b_sign b))
           (filter (fun e => c =? fst e + b_colOffset b)
                   (nth (Z.to_nat (r - b_rowOffset b)) (b_rows b) [])).

Definition contribs (blocks : list (block V)) (r c : Z) : list V :=
  flat_map (contrib r c) blocks.

(** Left-to-right accumulation of a non-empty list of contributions. *)
Definition accum (l : list V) : option V :=
  match l with [] => None | v :: t => Some (fold_left vadd t v) end.

(** Every stored entry of every block row that falls inside the matrix has its
    column inside the matrix. *)
Definition fits (blocks : list (block V)) (rows cols : nat) : Prop :=
  forall b i row e, In b blocks -> nth_error (b_rows b) i = Some row ->
    0 <= b_rowOffset b + Z.of_nat i < Z.of_nat rows -> In e row ->
    0 <= fst e + b_colOffset b < Z.of_nat cols.

(** Cell [p] of the CSR arrays stores value [v] for position (r,c). *)
Definition stored (m : csr V) (r : nat) (p : nat) (c : Z) (v : V) : Prop :=
  exists lo hi,
    nth_error (c_I m) r = Some (Some lo) /\ nth_error (c_I m) (S r) = Some (Some hi) /\
    lo <= Z.of_nat p < hi /\
    nth_error (c_J m) p = Some (Some c) /\ nth_error (c_A m) p = Some (Some v).

(** Well-formed CSR of the given size: everything initialised, row pointers
    start at 0, never decrease and end at the number of cells; columns in range;
    no column twice in a row. *)
Definition wf_csr (m : csr V) (rows cols : nat) : Prop :=
  exists I J A,
    c_I m = map Some I /\ c_J m = map Some J /\ c_A m = map Some A /\
    length I = S rows /\ length A = length J /\
    nth_error I 0 = Some 0 /\ nth_error I rows = Some (Z.of_nat (length J)) /\
    (forall r lo hi, nth_error I r = Some lo -> nth_error I (S r) = Some hi -> lo <= hi) /\
    (forall p c, nth_error J p = Some c -> 0 <= c < Z.of_nat cols) /\
    (forall r lo hi p q c, nth_error I r = Some lo -> nth_error I (S r) = Some hi ->
        lo <= Z.of_nat p < hi -> lo <= Z.of_nat q < hi ->
        nth_error J p = Some c -> nth_error J q = Some c -> p = q).

End Spec.
Arguments contrib {V}.
Arguments contribs {V}.
Arguments accum {V}.
Arguments fits {V}.
Arguments stored {V}.
Arguments wf_csr {V}.

(** Sum of a list of reals. *)
Definition rsum (l : list R) : R := fold_right Rplus 0%R l.

(** What a block contributes to output row [r] of a matrix-vector product:
    sign times the block row applied to the shifted part of [x]. *)
Definition block_mult_row (b : block R) (x : list R) (r : Z) : R :=
  if r <? b_rowOffset b then 0%R
  else (b_sign b *
        rsum (map (fun e => snd e * nth (Z.to_nat (fst e + b_colOffset b)) x 0)
                  (nth (Z.to_nat (r - b_rowOffset b)) (b_rows b) [])))%R.

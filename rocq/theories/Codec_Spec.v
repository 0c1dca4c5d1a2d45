(** Files that the exporter can write, and files cut short. *)
From Coq Require Import ZArith List.
From Verif Require Import Codec_Model.
Import ListNotations.
Local Open Scope Z_scope.

Definition isInt32 (z : Z) : Prop := -2147483648 <= z <= 2147483647.
(** 64-bit patterns. *)
Definition isDouble (z : Z) : Prop := 0 <= z < 18446744073709551616.
(** A geometry whose arrays match its header. *)
Definition goodGeometry (g : geometry) : Prop :=
  isInt32 (g_dim g) /\ isInt32 (g_dofs g) /\ isInt32 (g_bdr g) /\ isInt32 (g_qp g) /\ isInt32 (g_basis g) /\
  0 <= g_dim g /\ 0 <= g_dofs g /\ 0 <= g_qp g /\ isInt32 (g_qp g * g_dim g) /\ isInt32 (g_qp g * 3) /\
  Z.of_nat (length (g_pos g)) = g_qp g * g_dim g /\ Z.of_nat (length (g_nor g)) = g_qp g * 3 /\
  Z.of_nat (length (g_wei g)) = g_qp g /\
  Forall isDouble (g_pos g) /\ Forall isDouble (g_nor g) /\ Forall isDouble (g_wei g).
(** A snapshot: six components with the given number of dofs. *)
Definition goodSnapshot (dofs : Z) (s : snapshot) : Prop :=
  isDouble (s_time s) /\ length (s_comps s) = 6%nat /\
  Forall (fun c => Z.of_nat (length c) = dofs /\ Forall isDouble c) (s_comps s).

(** Bytes of one snapshot, and of everything before the first. *)
Definition snapSize (g : geometry) : Z := 8 + 48 * g_dofs g.
Definition bodyStart (g : geometry) : Z := 20 + 8 * (g_qp g * g_dim g + g_qp g * 3 + g_qp g).
(** The first [r] bytes of [whole] followed by zeros. *)
Definition blanked (r : nat) (whole part : list Z) : Prop :=
  part = firstn r whole ++ repeat 0 (length whole - r).

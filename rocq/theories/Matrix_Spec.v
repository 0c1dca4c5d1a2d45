(** When the matrix operator and the global operator are the same operator. *)
From Coq Require Import ZArith List Bool Reals.
From Verif Require Import Common Csr_Spec Assembly_Model Assembly_Spec.
Import ListNotations.
Local Open Scope Z_scope.

Section Spec.
Variable op : opname -> list (list (Z * R)).
Variable dim n nb : Z.

(** A row applied to any function of the columns. *)
Definition act (o : opname) (i : nat) (u : Z -> R) : R :=
  rsum (map (fun e => snd e * u (fst e))%R (nth i (op o) [])).

(** Derivatives use the local dofs only. *)
Definition localDerivatives : Prop :=
  forall f d row e, In row (op (OpDerivative f d)) -> In e row -> 0 <= fst e < n.
(** Nothing varies and no normal points along the directions the mesh does not have. *)
Definition flatBeyond : Prop :=
  forall f d i u, 0 <= f <= 1 -> dim <= d < 3 ->
    act (OpDerivative f d) i u = 0%R /\
    act (OpOneNormal f (1 - f) d) i u = 0%R /\ act (OpOneNormalIBFI f (1 - f) d) i u = 0%R /\
    forall d2, 0 <= d2 < 3 -> act (OpTwoNormal f d2 d) i u = 0%R /\ act (OpTwoNormalIBFI f d2 d) i u = 0%R.
(** The product of two components of the normal does not depend on their order. *)
Definition swapsNormals : Prop :=
  forall f d d2 i u, 0 <= f <= 1 -> 0 <= d < 3 -> 0 <= d2 < 3 ->
    act (OpTwoNormal f d d2) i u = act (OpTwoNormal f d2 d) i u /\
    act (OpTwoNormalIBFI f d d2) i u = act (OpTwoNormalIBFI f d2 d) i u.

(** The state with neighbour values is the local state and the values received. *)
Definition together (x inp : list R) (nbr : Z -> Z -> list R) : Prop :=
  length inp = Z.to_nat (6 * n) /\
  forall f d, 0 <= f <= 1 -> 0 <= d <= 2 -> length (nbr f d) = Z.to_nat nb /\
    (forall k, 0 <= k < n -> nth (Z.to_nat ((3 * f + d) * n + k)) inp 0%R = comp n nb x f d k) /\
    (forall k, 0 <= k < nb -> nth (Z.to_nat k) (nbr f d) 0%R = comp n nb x f d (n + k)).
End Spec.

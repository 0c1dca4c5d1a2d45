(** What the assembled operator should do to a state vector, written with the
    curl, flux and conductivity terms of the semi-discrete Maxwell equations. *)
From Coq Require Import ZArith List Bool Reals.
From Verif Require Import Common Csr_Model Csr_Spec Assembly_Model.
Import ListNotations.
Local Open Scope Z_scope.

Section Spec.
Variable op : opname -> list (list (Z * R)).
Variable dim localSize nbrSize : Z.

(** Every sub-operator has one row per local dof and columns among the local and
    neighbour dofs. *)
Definition ops_ok : Prop :=
  forall o, length (op o) = Z.to_nat localSize /\
    forall row e, In row (op o) -> In e row -> 0 <= fst e < localSize + nbrSize.

(** Dof [k] of component (f,d) in the input vector [Ex|Ey|Ez|Hx|Hy|Hz]. *)
Definition comp (x : list R) (f d k : Z) : R :=
  nth (Z.to_nat ((3 * f + d) * (localSize + nbrSize) + k)) x 0%R.

(** Sub-operator [o] applied to component (f,d), output dof [i]. *)
Definition app (o : opname) (x : list R) (f d : Z) (i : nat) : R :=
  rsum (map (fun e => snd e * comp x f d (fst e))%R (nth i (op o) [])).

(** Terms that vanish identically beyond the mesh dimension. *)
Definition ifdim (k : Z) (v : R) : R := if k <? dim then v else 0%R.

Definition sgn (f : Z) : R := if f =? 0 then 1%R else (-1)%R.

(** Row (f,d): with d1, d2 the other two directions in cyclic order,
    sgn * (d_{d1} u_{d2} - d_{d2} u_{d1}) is +curl for E, -curl for H. *)
Definition curl_term (x : list R) (f d : Z) (i : nat) : R :=
  let d1 := (d + 1) mod 3 in let d2 := (d + 2) mod 3 in let a := 1 - f in
  (sgn f * (ifdim d1 (app (OpDerivative f d1) x a d2 i) - ifdim d2 (app (OpDerivative f d2) x a d1 i)))%R.

Definition jump_term (o : Z -> Z -> Z -> opname) (x : list R) (f d : Z) (i : nat) : R :=
  let d1 := (d + 1) mod 3 in let d2 := (d + 2) mod 3 in let a := 1 - f in
  (- sgn f * (ifdim d1 (app (o f a d1) x a d2 i) - ifdim d2 (app (o f a d2) x a d1 i)))%R.

Definition penalty_term (o0 : Z -> opname) (o2 : Z -> Z -> Z -> opname) (x : list R) (f d : Z) (i : nat) : R :=
  (- app (o0 f) x f d i +
   ifdim d (ifdim 0%Z (app (o2 f d 0%Z) x f 0%Z i) + ifdim 1%Z (app (o2 f d 1%Z) x f 1%Z i) +
            ifdim 2%Z (app (o2 f d 2%Z) x f 2%Z i)))%R.

Definition conductive_term (x : list R) (f d : Z) (i : nat) : R :=
  if f =? 0 then (- app OpConductive x 0%Z d i)%R else 0%R.

Definition rhs (ib : bool) (x : list R) (f d : Z) (i : nat) : R :=
  (curl_term x f d i + jump_term OpOneNormal x f d i + penalty_term OpZeroNormal OpTwoNormal x f d i +
   conductive_term x f d i +
   if ib then jump_term OpOneNormalIBFI x f d i + penalty_term OpZeroNormalIBFI OpTwoNormalIBFI x f d i
   else 0)%R.

End Spec.

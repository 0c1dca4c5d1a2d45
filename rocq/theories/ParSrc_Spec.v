(** Sources on several processes: how the surface dofs and the incident field are shared among the
    processes, and which part of the field the processes use. *)
From Coq Require Import ZArith List Bool Reals.
From Verif Require Import Common Csr_Model Geo_Spec Face_Model Setup_Model Form_Model Form_Spec Nodal_Spec Global_Spec Evol_Model Ode_Model Par_Model Par_Spec ParSrc_Model.
Import ListNotations.
Local Open Scope R_scope.

(** [inc t c d]: component [c] of the incident field at dof [d] at time [t].  The vectors of its
    values at the dofs [l]. *)
Definition sampled (inc : R -> nat -> nat -> R) (l : list nat) (t : R) : list (list R) := map (fun c => map (fun d => inc t c d) l) (seq 0 6).
(** The process has the surface dofs that lie in it, in its own numbering. *)
Definition sourceOf (own sub : list nat) (inc : R -> nat -> nat -> R) (s : psource) : Prop :=
  exists ls, ps_sub s = map Z.of_nat ls /\ NoDup ls /\
    (forall k, In k ls <-> (k < length own)%nat /\ In (nth k own 0%nat) sub) /\
    (ls <> [] -> ps_on s = true) /\
    forall t, ps_src s t = sampled inc (map (fun k => nth k own 0%nat) ls) t.
Definition sourcesShared (N : nat) (owns : list (list nat)) (sub : list nat) (inc : R -> nat -> nat -> R) (ss : list psource) : Prop :=
  NoDup sub /\ (forall d, In d sub -> (d < N)%nat) /\ Forall2 (fun own s => sourceOf own sub inc s) owns ss.

(** The size (sum of squares) of the incident field at the dofs [l]. *)
Definition sizeAt (inc : R -> nat -> nat -> R) (t : R) (l : list nat) : R := suml (fun c => suml (fun d => inc t c d * inc t c d) l) (seq 0 6).
(** Below this size a field counts as none. *)
Definition quiet (x : R) : Prop := x < / 100000000 * / 100000000.
Definition inside (own sub : list nat) : list nat := filter (fun d => existsb (Nat.eqb d) own) sub.

(** [g] is the incident field at the surface dofs [sub], zero at other dofs. *)
Definition fieldOn (N : nat) (sub : list nat) (inc : R -> nat -> nat -> R) (t : R) (g : list R) : Prop :=
  length g = (6 * N)%nat /\ forall c d, (c < 6)%nat -> (d < N)%nat -> (In d sub -> nth (c * N + d) g 0 = inc t c d) /\ (~ In d sub -> nth (c * N + d) g 0 = 0).
(** [g] is the incident field at the surface dofs of the processes whose part of it is not quiet,
    zero at all other dofs. *)
Definition heard (N : nat) (owns : list (list nat)) (sub : list nat) (inc : R -> nat -> nat -> R) (t : R) (g : list R) : Prop :=
  length g = (6 * N)%nat /\ forall own c d, In own owns -> In d own -> (c < 6)%nat ->
    (In d sub -> ~ quiet (sizeAt inc t (inside own sub)) -> nth (c * N + d) g 0 = inc t c d) /\
    (~ In d sub \/ quiet (sizeAt inc t (inside own sub)) -> nth (c * N + d) g 0 = 0).
(** The whole field is quiet, or the part of each process is zero or not quiet. *)
Definition sameVerdict (owns : list (list nat)) (sub : list nat) (inc : R -> nat -> nat -> R) (t : R) : Prop :=
  quiet (sizeAt inc t sub) \/ forall own, In own owns -> sizeAt inc t (inside own sub) = 0 \/ ~ quiet (sizeAt inc t (inside own sub)).

(** A run on one process whose right-hand side depends on time, and the times it is evaluated at. *)
Fixpoint rkRunT (F : R -> list R -> list R) (x : list R) (t : R) (dts : list R) : list R :=
  match dts with [] => x | dt :: l => rkRunT F (rk4Step F x t dt) (t + dt) l end.
Fixpoint stages (t : R) (dts : list R) : list R :=
  match dts with [] => [] | dt :: l => t :: t + dt / 2 :: t + dt :: stages (t + dt) l end.

(** Specification vocabulary for the probes. *)
From Coq Require Import ZArith List Reals Znumtheory Sorted.
From Verif Require Import Common Probe_Model.
Import ListNotations.

(** Calls with their index 0, 1, 2, ... *)
Definition indexed {A} (l : list A) : list (nat * A) := combine (seq 0 (length l)) l.

(** A call is wanted by a probe with interval [n] when it is within 1e-8 of the
    final time or its index is a multiple of [n]. *)
Definition wanted {X} (F : R) (n : Z) (c : nat * (R * X)) : bool :=
  if Rlt_dec (Rabs (fst (snd c) - F)) (/ 100000000) then true
  else if Zdivide_dec n (Z.of_nat (fst c)) then true else false.

(** What a call leaves in the output of a probe of kind [k]. *)
Definition stamp {X} (k : kind) (c : nat * (R * X)) : record X :=
  mkRecord (Z.of_nat (fst c)) (label k (fst (snd c))) (snd (snd c)).

(** The probe's point is on another rank. *)
Definition remote (p : probe) : bool :=
  match p_kind p with Field e | Point e => (e =? -2)%Z | _ => false end.
Definition has_movie (p : probe) : bool :=
  match p_kind p with Field _ | Point _ => true | _ => false end.

(** A usable probe: non-zero interval, point inside the mesh. *)
Definition usable (p : probe) : Prop :=
  p_steps p <> 0%Z /\
  match p_kind p with Field e | Point e => (0 <= e \/ e = -2)%Z | _ => True end.

(** First value recorded at time [t]. *)
Fixpoint first_at {V} (t : R) (l : list (R * V)) : option V :=
  match l with
  | [] => None
  | (t', v) :: r => if Req_EM_T t t' then Some v else first_at t r
  end.

(** Nominal time of the k-th MOR snapshot. *)
Definition spacing (p : morprobe) : R := ((m_final p - m_start p) / IZR (m_saves p - 1))%R.
Definition nominal (p : morprobe) (k : Z) : R := (m_start p + IZR k * spacing p)%R.

(** [subseq l1 l2]: [l1] is obtained from [l2] by deleting elements. *)
Inductive subseq {A} : list A -> list A -> Prop :=
| subseq_nil : subseq [] []
| subseq_skip : forall a l1 l2, subseq l1 l2 -> subseq l1 (a :: l2)
| subseq_take : forall a l1 l2, subseq l1 l2 -> subseq (a :: l1) (a :: l2).

(** Consecutive calls are at most [h] apart and never go back in time. *)
Definition paced {X} (h : R) (calls : list (R * X)) : Prop :=
  forall l1 c1 c2 l2, calls = l1 ++ c1 :: c2 :: l2 -> (fst c1 <= fst c2 <= fst c1 + h)%R.

(** The slack the code allows before a nominal time. *)
Definition slack (p : morprobe) : R :=
  if Rlt_dec 0 (if (1 <? m_saves p)%Z then spacing p else 0%R)
  then ((if (1 <? m_saves p)%Z then spacing p else 0) * / 1000000)%R else (/ 1000000000000)%R.

(** Nominal time, with a single save at the start of the window. *)
Definition nominal_time (p : morprobe) (k : Z) : R :=
  if (1 <? m_saves p)%Z then nominal p k else m_start p.

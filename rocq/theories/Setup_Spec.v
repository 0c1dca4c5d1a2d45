(** What the material and boundary tables should contain, in terms of the input only. *)
From Coq Require Import String ZArith List Bool Reals.
From Verif Require Import Common Setup_Model.
Import ListNotations.
Local Open Scope Z_scope.

(** The first entry that lists a tag. *)
Fixpoint firstFor {A} (t : Z) (l : list (list Z * A)) : option A :=
  match l with
  | [] => None
  | (ts, a) :: r => if existsb (Z.eqb t) ts then Some a else firstFor t r
  end.
(** The tag is listed somewhere. *)
Definition listed {A} (t : Z) (l : list (list Z * A)) : Prop := exists ts a, In (ts, a) l /\ In t ts.

(** Material parameters with their defaults; conductivity times the impedance of vacuum. *)
Definition materialOf (Z0 : R) (i : matIn) : material :=
  mkMat (match i_eps i with Some v => v | None => 1%R end)
        (match i_mu i with Some v => v | None => 1%R end)
        (match i_sigma i with Some v => (v * Z0)%R | None => 0%R end).
Definition physical (m : material) : Prop := (1 <= m_eps m /\ 1 <= m_mu m /\ 0 <= m_sigma m)%R.
Definition matsIn (ms : list matEntry) : list (list Z * matIn) := map (fun e => (me_tags e, me_mat e)) ms.
Definition bdrMatsIn (bs : list bdrEntry) : list (list Z * matIn) :=
  flat_map (fun e => match be_tags e, be_mat e with Some ts, Some i => [(ts, i)] | _, _ => [] end) bs.

(** Conditions by their names. *)
Definition condNamed (s : string) (c : cond) : Prop :=
  (s = "PEC" /\ c = PEC \/ s = "PMC" /\ c = PMC \/ s = "SMA" /\ c = SMA \/ s = "SGBC" /\ c = SGBC)%string.
Definition condsIn (bs : list bdrEntry) : list (list Z * string) :=
  flat_map (fun e => match be_tags e, be_type e with Some ts, Some s => [(ts, s)] | _, _ => [] end) bs.
(** An entry of the boundaries: a non-empty list of tags and a known type. *)
Definition entryOk (e : bdrEntry) : Prop :=
  exists t ts s c, be_tags e = Some (t :: ts) /\ be_type e = Some s /\ condNamed s c.

Definition wfSM (sm : smesh) : Prop :=
  length (sm_f2b sm) = length (sm_inter sm) /\
  Forall (fun b => b = -1 \/ 0 <= b < Z.of_nat (length (sm_bdrAttr sm))) (sm_f2b sm).
(** Some interior face carries the tag. *)
Definition onInterior (sm : smesh) (tag : Z) : Prop :=
  exists f b, nth_error (sm_f2b sm) f = Some b /\ b <> -1 /\ nth_error (sm_inter sm) f = Some true /\
    zget (sm_bdrAttr sm) b = Ok tag.

(** Strictly increasing keys. *)
Inductive ascending {A} : list (Z * A) -> Prop :=
| asc_nil : ascending []
| asc_cons : forall k a m, (forall k' a', In (k', a') m -> k < k') -> ascending m -> ascending ((k, a) :: m).

(** The marker of a condition over boundary attributes 1..n. *)
Definition marks (n : Z) (gt : list (Z * cond)) (c : cond) (m : marker) : Prop :=
  Z.of_nat (length m) = n /\
  forall k, 0 <= k < n -> zget m k = Ok 1 /\ In (k + 1, c) gt \/ zget m k = Ok 0 /\ ~ In (k + 1, c) gt.
(** Conditions that have markers. *)
Definition hasMarker (c : cond) : Prop := c <> SurfaceCond /\ c <> NearToFarField.
(** Conditions kept in the maps given to the operators. *)
Definition mapped (c : cond) : Prop := c = PEC \/ c = PMC \/ c = SMA \/ c = SGBC.
Definition tagsFit (n : Z) (gt : list (Z * cond)) : Prop := Forall (fun p => 1 <= fst p <= n /\ hasMarker (snd p)) gt.

(** What the solver of a thin layer should be, in plain terms. *)
From Coq Require Import List ZArith Reals.
From Verif Require Import Setup_Model Geo_Model Input_Model.
Import ListNotations.
Open Scope R_scope.

(** A layer that can be meshed and is a possible medium. *)
Record layerOk (L : slayer) : Prop := mkLO {
  lo_width : 0 < l_width (sl_layer L);
  lo_segs : (0 < l_segs (sl_layer L))%nat;
  lo_eps : 1 <= m_eps (l_mat (sl_layer L));
  lo_mu : 1 <= m_mu (l_mat (sl_layer L));
  lo_sigma : 0 <= m_sigma (l_mat (sl_layer L)) }.
(** The time light takes to cross one cell of a layer, in the unit in which it crosses a metre
    of vacuum in 1. *)
Definition crossingTime (L : slayer) (t : R) : Prop :=
  exists v, 0 < v /\ v * v * (m_eps (l_mat (sl_layer L)) * m_mu (l_mat (sl_layer L))) = 1 /\
    t * v * INR (l_segs (sl_layer L)) = l_width (sl_layer L).
(** How much longer a step may be in a layer of [n] skin depths. *)
Inductive slack (n : R) : R -> Prop :=
| sl_clear : n <= 3 -> slack n 1
| sl_opaque : 3 < n -> n * n <= 50 -> slack n (n * n)
| sl_bound : 3 < n -> 50 < n * n -> slack n 50.
(** The longest step a layer allows. *)
Definition allowed (L : slayer) (t : R) : Prop := exists c k, crossingTime L c /\ slack (sl_nskin L) k /\ t = c / 2 * k.
(** The step allowed by all the layers. *)
Definition isStep (Ls : list slayer) (s : R) : Prop :=
  (forall L t, In L Ls -> allowed L t -> s <= t) /\ exists L, In L Ls /\ allowed L s.

(** A frequency whose skin depth in a layer is more than one cell. *)
Definition sees (l : layer material) (f : R) : Prop :=
  exists d, 0 < d /\ d * d * (PI * f * (m_mu (l_mat l) * vacuumPermeabilitySI) * (m_sigma (l_mat l) / freeSpaceImpedanceSI)) = 1 /\
    l_width l < d * INR (l_segs l).

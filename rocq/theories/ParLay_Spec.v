(** Thin layers on several processes: how the layers of the mesh are shared among the processes, and
    when all the processes take the same decision about quiet layers as one process does. *)
From Coq Require Import ZArith List Bool Reals.
From Verif Require Import Common Evol_Model Evol_Spec EvolLayer_Spec ParLay_Model.
Import ListNotations.
Local Open Scope Z_scope.

(** The layers with their wrappers. *)
Definition layersIn (gs : list group) : list (wrapper * sstate) := flat_map (fun g => map (pair (g_w g)) (g_states g)) gs.
(** [k] is the number that the process holding the dofs [own] gives to the dof [d] of the mesh. *)
Definition sameDof (own : list nat) (d k : Z) : Prop := exists i, (i < length own)%nat /\ k = Z.of_nat i /\ d = Z.of_nat (nth i own 0%nat).
(** The same layer: same wrapper, frame and fields, sides at the same places of the mesh. *)
Definition layerOf (own : list nat) (ws ws' : wrapper * sstate) : Prop :=
  fst ws' = fst ws /\ s_rot (snd ws') = s_rot (snd ws) /\ s_fs (snd ws') = s_fs (snd ws) /\
  sameDof own (s_gl (snd ws)) (s_gl (snd ws')) /\
  (s_gr (snd ws) = -1 /\ s_gr (snd ws') = -1 \/ sameDof own (s_gr (snd ws)) (s_gr (snd ws'))).
(** A side of the layer is in the process. *)
Definition touches (own : list nat) (s : sstate) : Prop :=
  (exists d, In d own /\ s_gl s = Z.of_nat d) \/ (exists d, In d own /\ s_gr s = Z.of_nat d).
(** The process has the layers that lie in it, once each, and both sides of every layer it touches. *)
Definition layersShared (own : list nat) (l l' : list (wrapper * sstate)) : Prop :=
  NoDup (flat_map dofsOf l') /\
  (forall ws', In ws' l' -> exists ws, In ws l /\ layerOf own ws ws') /\
  (forall ws, In ws l -> touches own (snd ws) -> exists ws', In ws' l' /\ layerOf own ws ws').
(** The process has the dofs of the elements at the layers that lie in it. *)
Definition elementsShared (own : list nat) (el el' : list Z) : Prop :=
  NoDup el' /\ forall k, In k el' <-> exists d, In d el /\ sameDof own d k.

(** The inner integrator keeps the number of unknowns. *)
Definition steady (inv : list (list R) -> list R -> list R) (w : wrapper) : Prop :=
  forall t h x, length (exec inv (w_A w) (w_ode w t h x)) = length x.
(** Layers of a mesh with [N] dofs that fit it and share no dof. *)
Definition goodLayers (inv : list (list R) -> list R -> list R) (N : nat) (gs : list group) : Prop :=
  (forall g, In g gs -> roomy (g_w g) /\ steady inv (g_w g)) /\
  Forall (Evol_Spec.fits N) (layersIn gs) /\ NoDup (flat_map dofsOf (layersIn gs)).

(** The process decides as one process would: all layers of the mesh are quiet, or one of its own is
    not, or it has none. *)
Definition sameDecision (N : nat) (own : list nat) (x : list R) (gs : list group) : Prop :=
  allQuiet N x gs \/
  (exists g s, In g gs /\ In s (g_states g) /\ touches own s /\ ~ quiet N x s) \/
  (forall g s, In g gs -> In s (g_states g) -> ~ touches own s).
(** The layers of the last commit, which [e] holds, with the fields [x] at their sides. *)
Definition sameDecisions (N : nat) (owns : list (list nat)) (e : evol) (x : list R) : Prop :=
  forall gs own, restore (e_groups e) (e_cp e) = Ok gs -> In own owns -> sameDecision N own x gs.

(** Every call a run makes: [P] holds for the evaluations, [Q] for the finalisations. *)
Section Calls.
Variables V S : Type.
Variable mul : nat -> nat -> S -> R -> V -> res (V * S).
Variable add : R -> V -> V -> V.
Variable com : S -> R -> R -> V -> res S.
Variable fin : S -> V -> res S.
Variable P : S -> R -> V -> Prop.
Variable Q : S -> V -> Prop.
Definition rk4Calls (l : nat) (s : S) (x : V) (t dt : R) : Prop :=
  P s t x /\ forall k1 s1, mul l 0%nat s t x = Ok (k1, s1) ->
  P s1 (t + dt / 2)%R (add (dt / 2)%R k1 x) /\ forall k2 s2, mul l 1%nat s1 (t + dt / 2)%R (add (dt / 2)%R k1 x) = Ok (k2, s2) ->
  P s2 (t + dt / 2)%R (add (dt / 2)%R k2 x) /\ forall k3 s3, mul l 2%nat s2 (t + dt / 2)%R (add (dt / 2)%R k2 x) = Ok (k3, s3) ->
  P s3 (t + dt)%R (add dt k3 x).
Fixpoint runCalls (s : S) (x : V) (t : R) (dts : list R) : Prop :=
  match dts with
  | [] => True
  | dt :: l => (forall s0, com s t dt x = Ok s0 -> rk4Calls (length l) s0 x t dt /\
      forall z s1, rk4Layers V S mul add (length l) s0 x t dt = Ok (z, s1) -> Q s1 z) /\
    forall z s2, layerStep V S mul add com fin (length l) s x t dt = Ok (z, s2) -> runCalls s2 z (t + dt)%R l
  end.
End Calls.

(** All the layers lie on the part of one process. *)
Definition onOneProcess (owns : list (list nat)) (gs : list group) : Prop :=
  exists own0, forall g s own, In g gs -> In s (g_states g) -> In own owns -> (touches own s <-> own = own0).

(** The start of a run: operators as their constructors leave them, with the layers of the single
    process shared out. *)
Definition startLayers (inv : list (list R) -> list R -> list R) (N : nat) (owns : list (list nat)) (e : evol) (Es : list evol) : Prop :=
  fresh e /\ goodLayers inv N (e_groups e) /\
  Forall2 (fun own e' => fresh e' /\ (forall g, In g (e_groups e') -> roomy (g_w g)) /\
    layersShared own (layersIn (e_groups e)) (layersIn (e_groups e'))) owns Es.

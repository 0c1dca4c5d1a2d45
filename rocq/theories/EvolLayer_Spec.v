(** Specification of the evolution of a thin layer: what the fields inside a layer
    are after a time, as a plain function of the fields on its two sides. *)
From Coq Require Import ZArith List Bool Reals.
From Flocq Require Import Core.Raux.
From Verif Require Import Common Evol_Model Evol_Spec.
Import ListNotations.
Local Open Scope Z_scope.

(** The six components of a mesh vector at a dof. *)
Definition at_dof (ndofs : nat) (v : list R) (dof c : Z) : R := nthZ v (c * Z.of_nat ndofs + dof).

(** Components of [u] in the frame whose axes are the rows of [rot]. *)
Definition intoFrame (rot : list R) (u : Z -> R) (c : Z) : R :=
  let o := if c <? 3 then 0 else 3 in
  let k := c - o in
  (nthZ rot (3 * k) * u o + nthZ rot (3 * k + 1) * u (o + 1)%Z + nthZ rot (3 * k + 2) * u (o + 2)%Z)%R.

(** A layer vector with [n] dofs per component whose first [gh] dofs of each
    component show [l] and, for a two-sided layer, whose last [gh] dofs show [r]. *)
Definition ghosted (n gh : Z) (two : bool) (l r : Z -> R) (fs : list R) : list R :=
  map (fun i => let c := i / n in let j := i mod n in
        if (c <? 6) && (j <? gh) then l c
        else if two && ((c <? 6) && (n - gh <=? j)) then r c
        else nthZ fs i) (zseq (length fs)).

(** The integrator's step with exact stage solves: no cache, no failure. *)
Fixpoint exec (inv : list (list R) -> list R -> list R) (A : matrix) (p : prog) : list R :=
  match p with
  | Ret x => x
  | Call dt x k => exec inv A (k (inv (jac A dt) (map (fun row => dot row x) A)))
  end.

(** The least number of equal parts of [dt] not longer than [sub]; one if there is
    no recommended step. *)
Definition parts (sub dt : R) : Z := if Rlt_dec 0 sub then Z.max 1 (Zceil (dt / sub)) else 1.

(** The layer from time [base] for [dt]: in each part, feed the fields of the two
    sides at the end of the part (as a fraction of [dt]), then integrate. *)
Definition evolve (inv : list (list R) -> list R -> list R) (w : wrapper) (base dt : R) (two : bool)
    (l r : R -> Z -> R) (fs : list R) : list R :=
  let m := parts (w_rec w) dt in
  let h := (dt / IZR m)%R in
  fold_left (fun fs k =>
    let a := ((IZR k + 1) / IZR m)%R in
    let g := ghosted (w_n w) (w_gh w) two (l a) (r a) fs in
    if Rlt_dec h (/ 1000000000) then g else exec inv (w_A w) (w_ode w (base + IZR k * h)%R h g))
  (zseq (Z.to_nat m)) fs.

(** A state and the mesh fields at its sides are below the thresholds 1e-8. *)
Definition power (u : Z -> R) : R := (u 0%Z * u 0%Z + u 1%Z * u 1%Z + u 2%Z * u 2%Z + u 3%Z * u 3%Z + u 4%Z * u 4%Z + u 5%Z * u 5%Z)%R.
Definition quiet (ndofs : nat) (v : list R) (s : sstate) : Prop :=
  (sqrt (sumsq (s_fs s)) < / 100000000)%R /\
  (power (at_dof ndofs v (s_gl s)) + (if (s_gr s =? -1)%Z then 0 else power (at_dof ndofs v (s_gr s))) < / 10000000000000000)%R.
Definition allQuiet (ndofs : nat) (v : list R) (gs : list group) : Prop :=
  forall g s, In g gs -> In s (g_states g) -> quiet ndofs v s.

(** The ghost dofs of the two sides do not meet. *)
Definition roomy (w : wrapper) : Prop := 0 <= w_gh w /\ 2 * w_gh w < w_n w.

(** Held side fields (Mult) and side fields interpolated over the step. *)
Definition held (ndofs : nat) (v : list R) (rot : list R) (dof : Z) (a : R) (c : Z) : R :=
  intoFrame rot (at_dof ndofs v dof) c.
Definition between (ndofs : nat) (v0 v1 : list R) (rot : list R) (dof : Z) (a : R) (c : Z) : R :=
  ((1 - a) * intoFrame rot (at_dof ndofs v0 dof) c + a * intoFrame rot (at_dof ndofs v1 dof) c)%R.

Definition two (s : sstate) : bool := negb (s_gr s =? -1).

(** The layer [s'] that an evaluation at time [t] uses, [s] being the layer at the
    last commit, made at time [base]. *)
Definition seenLayer inv (ndofs : nat) (base t : R) (input : list R) (w : wrapper) (s s' : sstate) : Prop :=
  (quiet ndofs input s \/ (t - base <= / 1000000000000)%R -> s' = s) /\
  (~ quiet ndofs input s /\ (/ 1000000000000 < t - base)%R ->
     s' = with_fs s (evolve inv w base (t - base) (two s)
            (held ndofs input (s_rot s) (s_gl s)) (held ndofs input (s_rot s) (s_gr s)) (s_fs s))).
(** The layer [s'] after a whole step from [base] to [base + dt] in which the mesh
    fields go from [v0] to [v1]; nothing changes if every layer is [still]. *)
Definition nextLayer inv (ndofs : nat) (base dt : R) (v0 v1 : list R) (still : Prop) (w : wrapper) (s s' : sstate) : Prop :=
  (still -> s' = s) /\
  (~ still -> s' = with_fs s (evolve inv w base dt (two s)
            (between ndofs v0 v1 (s_rot s) (s_gl s)) (between ndofs v0 v1 (s_rot s) (s_gr s)) (s_fs s))).
(** A relation between layers, tag by tag and state by state. *)
Definition layerwise (P : wrapper -> sstate -> sstate -> Prop) (gs gs' : list group) : Prop :=
  Forall2 (fun g g' => g_w g' = g_w g /\ Forall2 (P (g_w g)) (g_states g) (g_states g')) gs gs'.

(** The rows of the frame (and so its columns) are orthonormal. *)
Definition orthonormal (r : list R) : Prop := length r = 9%nat /\
  forall i j, 0 <= i < 3 -> 0 <= j < 3 ->
    (nthZ r i * nthZ r j + nthZ r (3 + i) * nthZ r (3 + j) + nthZ r (6 + i) * nthZ r (6 + j))%R = if i =? j then 1%R else 0%R.

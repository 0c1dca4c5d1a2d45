(** Specification vocabulary for the evolution operator. *)
From Coq Require Import ZArith List Bool Reals.
From Verif Require Import Common Evol_Model.
Import ListNotations.
Local Open Scope Z_scope.

(** A program only asks for factorisations of steps other than -1. *)
Fixpoint avoids (p : prog) : Prop :=
  match p with
  | Ret _ => True
  | Call dt _ k => dt <> (-1)%R /\ forall r, avoids (k r)
  end.
(** The integrator of a wrapper does so for every positive step. *)
Definition sane (w : wrapper) : Prop := forall t dt x, (0 < dt)%R -> avoids (w_ode w t dt x).

(** A cache that can arise: the factorisation, if any, is the one of the recorded step. *)
Definition cache_ok (A : matrix) (c : cache) : Prop :=
  (c_inv c = None /\ c_cdt c = (-1)%R) \/
  (c_formed c = true /\ c_inv c = Some (jac A (c_cdt c))).

(** Matrix-vector product as plain sums. *)
Definition dot (row : list (Z * R)) (x : list R) : R :=
  fold_right (fun cv s => (snd cv * nth (Z.to_nat (fst cv)) x 0 + s)%R) 0%R row.
Definition ddot (row x : list R) : R :=
  fold_right (fun p s => (fst p * snd p + s)%R) 0%R (combine row x).

(** Same tag layout: same wrappers, same states up to the fields they hold. *)
Definition same_state (s1 s2 : sstate) : Prop :=
  s_gl s1 = s_gl s2 /\ s_gr s1 = s_gr s2 /\ s_rot s1 = s_rot s2.
Definition same_group (g1 g2 : group) : Prop :=
  g_w g1 = g_w g2 /\ Forall2 same_state (g_states g1) (g_states g2).

(** Everything the wrappers carry over is harmless. *)
Definition groups_ok (gs : list group) : Prop :=
  Forall (fun g => sane (g_w g) /\ cache_ok (w_A (g_w g)) (d_cache (g_d g))) gs.

(** Two runs end the same way, with related results. *)
Definition agree {A B} (P : A -> B -> Prop) (m1 : res A) (m2 : res B) : Prop :=
  match m1, m2 with
  | Ok a, Ok b => P a b
  | Throw, Throw => True
  | UB, UB => True
  | _, _ => False
  end.

(** ** Histories of the operator *)
Inductive op :=
| OMult (t : R) (nd : list (list R)) (input : list R)
| OImplicit (t dt : R) (nd : list (list R)) (x k0 : list R)
| OCommit (base dt : R) (fields : list R)
| OFinalize (fields : list R).

(** One time step as Solver::step drives it (Solver.cpp 535-551): commit, any
    evaluations, finalize. *)
Record tstep := mkStep { st_base : R; st_dt : R; st_fields : list R; st_calls : list op; st_end : list R }.
(** Two steps that differ at most in the evaluations made. *)
Definition same_outline (a b : tstep) : Prop :=
  st_base a = st_base b /\ st_dt a = st_dt b /\ st_fields a = st_fields b /\ st_end a = st_end b.

(** The operator as its constructor leaves it. *)
Definition fresh (e : evol) : Prop :=
  e_work e = [] /\ e_cp e = None /\ e_cache e = newCache /\
  Forall (fun g => sane (g_w g) /\ d_cache (g_d g) = newCache) (e_groups e).

(** The fields inside the layers. *)
Definition layers (e : evol) : list (list (list R)) := map (fun g => map s_fs (g_states g)) (e_groups e).

(** Sizes the callers use: six components of the local dofs, and one vector of
    neighbour dofs per component when there are neighbours. *)
Definition sized (ndofs nbr : nat) (nd : list (list R)) (input : list R) : Prop :=
  length input = (6 * ndofs)%nat /\ (nbr <> 0%nat -> length nd = 6%nat /\ Forall (fun v => length v = nbr) nd).
(** An evaluation: Mult, or ImplicitSolve with a step other than -1. *)
Definition evaluation (ndofs nbr : nat) (o : op) : Prop :=
  match o with
  | OMult _ nd input => sized ndofs nbr nd input
  | OImplicit _ dt nd x _ => dt <> (-1)%R /\ sized ndofs nbr nd x
  | _ => False
  end.
Definition good_step (ndofs nbr : nat) (s : tstep) : Prop :=
  (0 < st_dt s)%R /\ Forall (evaluation ndofs nbr) (st_calls s).

(** ** Matrices *)
(** All column indices of a row are below n. *)
Definition colsIn (n : nat) (row : list (Z * R)) : Prop := Forall (fun cv => 0 <= fst cv < Z.of_nat n) row.
(** The inverse is one: it solves every system with a matrix J. *)
Definition solves (inv : list (list R) -> list R -> list R) (J : list (list R)) : Prop :=
  forall rhs, length rhs = length J -> length (inv J rhs) = length J /\
    forall i, (i < length J)%nat -> ddot (nth i J []) (inv J rhs) = nth i rhs 0%R.

(** ** The right-hand side as formulas *)
Definition nthZ (v : list R) (i : Z) : R := nth (Z.to_nat i) v 0%R.

(** Component c of what a side of the layer shows to the element: [u] are the
    fields of that element, [l] those of the layer at its interface. *)
Definition seen (b : side) (rot : list R) (u l : Z -> R) (c : Z) : R :=
  match b with
  | PEC => if c <? 3 then (- u c)%R else u c
  | PMC => if c <? 3 then u c else (- u c)%R
  | SMA => u c
  | Transparent =>
      let o := if c <? 3 then 0 else 3 in
      let k := c - o in
      (nthZ rot k * l o + nthZ rot (3 + k) * l (o + 1)%Z + nthZ rot (6 + k) * l (o + 2)%Z)%R
  end.

(** The vector the first elements see: their own fields in their slots, what the
    layer shows in the slots of the other side, zero elsewhere. *)
Definition seenBy1 (ndofs nbr : nat) (input : list R) (l : list (wrapper * sstate)) (W : list R) : Prop :=
  let n := Z.of_nat ndofs in let b := Z.of_nat (ndofs + nbr) in
  length W = (6 * (ndofs + nbr))%nat /\
  (forall w s c, In (w, s) l -> 0 <= c < 6 ->
     nthZ W (c * b + s_gl s) = nthZ input (c * n + s_gl s) /\
     (s_gr s <> -1 -> nthZ W (c * b + s_gr s) =
        seen (w_left w) (s_rot s) (fun c => nthZ input (c * n + s_gl s)) (fun c => nthZ (s_fs s) (c * w_n w + w_gh w)) c)) /\
  (forall c d, 0 <= c < 6 -> 0 <= d < b -> (forall w s, In (w, s) l -> d <> s_gl s /\ d <> s_gr s) -> nthZ W (c * b + d) = 0%R).
(** The same for the second elements, of two-sided layers only. *)
Definition seenBy2 (ndofs nbr : nat) (input : list R) (l : list (wrapper * sstate)) (W : list R) : Prop :=
  let n := Z.of_nat ndofs in let b := Z.of_nat (ndofs + nbr) in
  length W = (6 * (ndofs + nbr))%nat /\
  (forall w s c, In (w, s) l -> 0 <= c < 6 -> s_gr s <> -1 ->
     nthZ W (c * b + s_gr s) = nthZ input (c * n + s_gr s) /\
     nthZ W (c * b + s_gl s) =
        seen (w_right w) (s_rot s) (fun c => nthZ input (c * n + s_gr s)) (fun c => nthZ (s_fs s) (c * w_n w + (w_n w - 1 - w_gh w))) c) /\
  (forall c d, 0 <= c < 6 -> 0 <= d < b -> (forall w s, In (w, s) l -> s_gr s <> -1 -> d <> s_gl s /\ d <> s_gr s) -> nthZ W (c * b + d) = 0%R).

(** The incident field on the slots of its dofs, zero elsewhere. *)
Definition incident (ndofs nbr : nat) (sub2par : list Z) (f : list (list R)) (W : list R) : Prop :=
  let b := Z.of_nat (ndofs + nbr) in
  length W = (6 * (ndofs + nbr))%nat /\
  (forall c v p, 0 <= c < 6 -> nth_error sub2par v = Some p -> nthZ W (c * b + p) = nth v (nth (Z.to_nat c) f []) 0%R) /\
  (forall c d, 0 <= c < 6 -> 0 <= d < b -> ~ In d sub2par -> nthZ W (c * b + d) = 0%R).

(** Input and neighbour data in the layout the operator reads. *)
Definition packedAs (ndofs nbr : nat) (nd : list (list R)) (input W : list R) : Prop :=
  let n := Z.of_nat ndofs in let b := Z.of_nat (ndofs + nbr) in
  length W = (6 * (ndofs + nbr))%nat /\
  (forall c d, 0 <= c < 6 -> 0 <= d < n -> nthZ W (c * b + d) = nthZ input (c * n + d)) /\
  (forall c d, 0 <= c < 6 -> 0 <= d < Z.of_nat nbr -> nthZ W (c * b + n + d) = nthZ (nth (Z.to_nat c) nd []) d).

(** A state of a layer that fits the mesh and its wrapper. *)
Definition fits (ndofs : nat) (ws : wrapper * sstate) : Prop :=
  let '(w, s) := ws in
  0 <= s_gl s < Z.of_nat ndofs /\ (s_gr s = -1 \/ 0 <= s_gr s < Z.of_nat ndofs) /\
  0 <= w_gh w /\ 2 * w_gh w < w_n w /\ length (s_fs s) = (6 * Z.to_nat (w_n w))%nat.
(** The mesh dofs a state uses. *)
Definition dofsOf (ws : wrapper * sstate) : list Z :=
  s_gl (snd ws) :: (if s_gr (snd ws) =? -1 then [] else [s_gr (snd ws)]).

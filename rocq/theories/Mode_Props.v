(** C106: the reference field of a resonant box is an exact solution. *)
From Coq Require Import ZArith List Bool Reals.
From Verif Require Import Common Mode_Model Mode_Spec Source_Model Mode_Proofs ModeEx_Proofs.
Import ListNotations.
Local Open Scope R_scope.

(** In any number of directions, for every mode numbers and lengths, the wave equation holds. *)
Theorem C106_wave : forall modes box c E pos t, length box = length modes ->
  newCavity modes box = Ok c -> (forall q s, length q = length modes -> cavityEval c q s = Ok (E q s)) ->
  length pos = length modes -> waveAt (length modes) E pos t.
Proof. exact eval_wave. Qed.
Print Assumptions C106_wave.

(** The field vanishes on every wall at every time. *)
Theorem C106_walls : forall modes box c pos t, length box = length modes -> (forall b, In b box -> b <> 0) ->
  newCavity modes box = Ok c -> length pos = length modes -> onWall box pos -> cavityEval c pos t = Ok 0.
Proof. exact eval_wall. Qed.
Print Assumptions C106_walls.

(** At time zero in the unit box it is the initial field a user gets with the same mode numbers, at
    every position, those with too few coordinates included. *)
Theorem C106_start : forall modes pos c, newCavity modes (repeat 1 (length modes)) = Ok c ->
  cavityEval c pos 0 = funcEval (FSin modes) pos.
Proof. exact start_same. Qed.
Print Assumptions C106_start.

(** It never exceeds one. *)
Theorem C106_bounded : forall modes box c pos t, (length modes <= length box)%nat -> newCavity modes box = Ok c ->
  (length modes <= length pos)%nat -> exists v, cavityEval c pos t = Ok v /\ Rabs v <= 1.
Proof. exact eval_le. Qed.
Print Assumptions C106_bounded.

(** With magnetic fields that start at zero it solves Maxwell's equations in two dimensions. *)
Theorem C106_maxwell : forall m0 m1 b0 b1 c Ez, b0 <> 0 -> b1 <> 0 -> (0 < m0 \/ 0 < m1)%nat ->
  newCavity [m0; m1] [b0; b1] = Ok c ->
  (forall p t, length p = 2%nat -> cavityEval c p t = Ok (Ez p t)) ->
  exists Hx Hy, (forall p, Hx p 0 = 0 /\ Hy p 0 = 0) /\ forall x y t, maxwellAt Ez Hx Hy [x; y] t.
Proof. exact solution. Qed.
Print Assumptions C106_maxwell.

(** The two companions are the slopes of the field divided by its frequency. *)
Theorem C106_slopes : forall m0 m1 b0 b1 c, b0 <> 0 -> b1 <> 0 -> (0 < m0 \/ 0 < m1)%nat ->
  newCavity [m0; m1] [b0; b1] = Ok c ->
  exists w, w <> 0 /\ w ^ 2 = (INR m0 * PI / b0) ^ 2 + (INR m1 * PI / b1) ^ 2 /\ forall Ez Dx Dy,
  (forall p t, length p = 2%nat -> cavityEval c p t = Ok (Ez p t)) ->
  (forall p t, length p = 2%nat -> cavityDx c p t = Ok (Dx p t)) ->
  (forall p t, length p = 2%nat -> cavityDy c p t = Ok (Dy p t)) ->
  forall x y t, derivable_pt_lim (fun s => Ez [s; y] t) x (w * Dx [x; y] t) /\
                derivable_pt_lim (fun s => Ez [x; s] t) y (w * Dy [x; y] t).
Proof. exact slopes. Qed.
Print Assumptions C106_slopes.

(** They are not the magnetic fields of the mode, with whatever signs and scales: they are largest when
    the magnetic field of the mode is zero. *)
Theorem C106_companions_refuted : forall m0 m1 b0 b1 c a b Ez Dx Dy, b0 <> 0 -> b1 <> 0 -> (0 < m0)%nat -> (0 < m1)%nat ->
  newCavity [m0; m1] [b0; b1] = Ok c ->
  (forall p t, length p = 2%nat -> cavityEval c p t = Ok (Ez p t)) ->
  (forall p t, length p = 2%nat -> cavityDx c p t = Ok (Dx p t)) ->
  (forall p t, length p = 2%nat -> cavityDy c p t = Ok (Dy p t)) ->
  exists x y, ~ maxwellAt Ez (fun p t => a * Dy p t) (fun p t => b * Dx p t) [x; y] 0.
Proof. exact not_solution. Qed.
Print Assumptions C106_companions_refuted.

(** More lengths than modes are dropped without a word; fewer are read past the end, and so are
    positions with too few coordinates. *)
Theorem C106_sizes : forall modes box,
  ((length modes <= length box)%nat -> newCavity modes box = newCavity modes (firstn (length modes) box) /\
     exists c, newCavity modes box = Ok c /\ forall pos t, (cavityEval c pos t = UB <-> (length pos < length modes)%nat)) /\
  ((length box < length modes)%nat -> newCavity modes box = UB).
Proof. exact sizes. Qed.
Print Assumptions C106_sizes.

(** With one direction the companions read past the end. *)
Theorem C106_line : forall m b rest pos t c, newCavity [m] (b :: rest) = Ok c ->
  cavityDx c pos t = UB /\ cavityDy c pos t = UB.
Proof. exact line_companions. Qed.
Print Assumptions C106_line.

(** A box of two by three with one and two half waves. *)
Example C106_field_case : exists c E, newCavity [1; 2]%nat [2; 3] = Ok c /\
  (forall q s, length q = 2%nat -> cavityEval c q s = Ok (E q s)) /\ E [1; 3 / 4] 0 = 1 /\ onWall [2; 3] [1; 3].
Proof. exact ex_field. Qed.
Example C106_companions_case : exists c E X Y, newCavity [1; 2]%nat [2; 3] = Ok c /\
  (forall q s, length q = 2%nat -> cavityEval c q s = Ok (E q s)) /\
  (forall q s, length q = 2%nat -> cavityDx c q s = Ok (X q s)) /\
  (forall q s, length q = 2%nat -> cavityDy c q s = Ok (Y q s)).
Proof. exact ex_companions. Qed.

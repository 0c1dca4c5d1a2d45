(** Model of the resonant reference functions of math/Function.h 417-559: the field of a
    rectangular cavity and its two transverse companions.  `double` is the reals. *)
From Coq Require Import ZArith List Bool Reals.
From Verif Require Import Common.
Import ListNotations.
Local Open Scope R_scope.

(** The members modes_ and box_size_ of TM2DSinusoidalMode, Function.h 468-471, and of the two
    other classes, 511-514 and 554-557. *)
Record cavity := mkCav { cv_modes : list nat; cv_box : list R }.

(** The constructors, Function.h 433-445, 476-488 and 519-531, which are the same text.  The test of
    the sizes compares the members, which are still empty, so it never holds and the number of
    directions is always that of the modes. *)
Definition newCavity (modes : list nat) (box : list R) : res cavity :=
  let dim := length modes in
  let members_modes := @nil nat in
  let members_box := @nil R in
  let dim := if negb (length members_modes =? length members_box)%nat
             then (if (length members_box <? length members_modes)%nat then length members_modes
                   else length members_box)
             else dim in
  ms <- mapM (zget modes) (zseq dim) ;;
  bs <- mapM (zget box) (zseq dim) ;;
  Ok (mkCav ms bs).

(** modes_[d] / box_size_[d] and the other reads of the members, Function.h 456-465. *)
Definition modeOf (c : cavity) (d : Z) : res R := m <- zget (cv_modes c) d ;; Ok (INR m).
(** The angular frequency w, Function.h 453-458, 496-501, 539-544. *)
Definition cavityFreq (c : cavity) : res R :=
  root_factor <- foldM (fun a d => m <- modeOf c d ;; b <- zget (cv_box c) d ;; Ok (a + (m / b) ^ 2))
                       (zseq (length (cv_modes c))) 0 ;;
  Ok (PI * sqrt root_factor).
(** The argument modes_[d] * M_PI * pos[d] / box_size_[d], Function.h 462, 505-506, 548-549. *)
Definition phaseOf (c : cavity) (pos : list R) (d : Z) : res R :=
  m <- modeOf c d ;; p <- zget pos d ;; b <- zget (cv_box c) d ;; Ok (m * PI * p / b).
(** TM2DSinusoidalMode::eval, Function.h 451-467. *)
Definition cavityEval (c : cavity) (pos : list R) (t : R) : res R :=
  w <- cavityFreq c ;;
  foldM (fun r d => a <- phaseOf c pos d ;; Ok (r * sin a)) (zseq (length (cv_modes c))) (cos (w * t)).
(** TM2D_Dx_SinusoidalMode::eval, Function.h 494-509. *)
Definition cavityDx (c : cavity) (pos : list R) (t : R) : res R :=
  w <- cavityFreq c ;;
  m <- modeOf c 0 ;; b <- zget (cv_box c) 0 ;;
  let constant_factor := m * PI / (w * b) in
  a0 <- phaseOf c pos 0 ;; a1 <- phaseOf c pos 1 ;;
  Ok (constant_factor * cos (w * t) * cos a0 * sin a1).
(** TM2D_Dy_SinusoidalMode::eval, Function.h 537-552. *)
Definition cavityDy (c : cavity) (pos : list R) (t : R) : res R :=
  w <- cavityFreq c ;;
  m <- modeOf c 1 ;; b <- zget (cv_box c) 1 ;;
  let constant_factor := m * PI / (w * b) in
  a0 <- phaseOf c pos 0 ;; a1 <- phaseOf c pos 1 ;;
  Ok (constant_factor * cos (w * t) * sin a0 * cos a1).

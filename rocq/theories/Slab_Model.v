(** Model of the impedance of a conducting layer that the pole-residue fit aims at,
    src/components/SIBCPoleResidueFitting.cpp 30-56.  Complex numbers are those of exact arithmetic; a value that is
    infinite or not a number is None (as in Fit_Model). *)
From Coq Require Import ZArith List Bool Reals.
From Coquelicot Require Import Complex.
From Verif Require Import Common Fit_Model.
Import ListNotations.
Local Open Scope R_scope.

(** Material and width of a layer, Model.h 77-86: relative permittivity, relative permeability, conductivity. *)
Record slayer := mkSL { sl_eps : R; sl_mu : R; sl_sigma : R; sl_width : R }.
(** totalWidth, Model.h 96-100. *)
Definition totalWidth (ls : list slayer) : R := fold_left (fun w l => w + sl_width l) ls 0.

(** vacuumPermittivity_SI, PhysicalConstants.h 11. *)
Definition eps0 : R := 88541878188 / 10 ^ 22.
(** vacuumPermeability_SI, PhysicalConstants.h 13. *)
Definition mu0 : R := 4 * PI * (1 / 10 ^ 7).

(** std::sqrt of a complex number (principal branch).  Simplified: the sign of a zero imaginary part is
    positive.  SIBCPoleResidueFitting.cpp 49-50. *)
Definition csqrt (z : C) : C :=
  (sqrt ((Cmod z + fst z) / 2), (if Rlt_dec (snd z) 0 then - 1 else 1) * sqrt ((Cmod z - fst z) / 2)).
(** std::tanh of a complex number, SIBCPoleResidueFitting.cpp 52: its numerator ... *)
Definition csinh (z : C) : C := (sinh (fst z) * cos (snd z), cosh (fst z) * sin (snd z)).
(** ... its denominator (SIBCPoleResidueFitting.cpp 52) ... *)
Definition ccosh (z : C) : C := (cosh (fst z) * cos (snd z), sinh (fst z) * sin (snd z)).
(** ... and the quotient.  SIBCPoleResidueFitting.cpp 52. *)
Definition ctanh (z : C) : cx := cdiv (Some (csinh z)) (Some (ccosh z)).

(** One frequency, SIBCPoleResidueFitting.cpp 43-52. *)
Definition impedance (eps mu sigma thickness f : R) : cx :=
  let w := 2 * PI * f in
  if Req_EM_T w 0 then None else
  let eps_c : C := (eps, - (sigma / w)) in
  let mu_c : C := (mu, 0) in
  match cdiv (Some mu_c) (Some eps_c) with
  | None => None
  | Some q =>
    let eta := csqrt q in
    let gamma := Cmult (Cmult Ci (RtoC w)) (csqrt (Cmult mu_c eps_c)) in
    cdiv (Some eta) (ctanh (Cmult gamma (RtoC thickness)))
  end.
(** generatePhysicsTarget, SIBCPoleResidueFitting.cpp 30-56: the material of the first layer, the width of all. *)
Definition generateTarget (layers : list slayer) (freqs : list R) : res (list cx) :=
  match layers with
  | [] => UB
  | l :: _ => Ok (map (impedance (eps0 * sl_eps l) (mu0 * sl_mu l) (sl_sigma l) (totalWidth layers)) freqs)
  end.

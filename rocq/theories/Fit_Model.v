(** Model of the pole-residue fit of a surface impedance,
    src/components/SIBCPoleResidueFitting.cpp.
    Complex numbers are those of exact arithmetic; a value that is not a number is None.
    Simplified: infinities are None too. *)
From Coq Require Import ZArith List Bool Reals Lra.
From Coquelicot Require Import Complex.
From Verif Require Import Common.
Import ListNotations.
Local Open Scope C_scope.

(** ** Quality of a fit. Used in [fitRes], SIBCPoleResidueFitting.h 11-17. *)
Definition cx := option C.
(** Used in [fitAt], SIBCPoleResidueFitting.cpp 193-196. *)
Definition cadd (a b : cx) : cx := match a, b with Some x, Some y => Some (x + y) | _, _ => None end.
(** Used in [fitAt], SIBCPoleResidueFitting.cpp 193-196. *)
Definition csub (a b : cx) : cx := match a, b with Some x, Some y => Some (x - y) | _, _ => None end.
(** Used in [fitAt], SIBCPoleResidueFitting.cpp 193-196. *)
Definition isZero (x : C) : bool := if Req_EM_T (fst x) 0 then (if Req_EM_T (snd x) 0 then true else false) else false.
(** Used in [fitAt], SIBCPoleResidueFitting.cpp 193-196. *)
Definition cdiv (a b : cx) : cx := match a, b with Some x, Some y => if isZero y then None else Some (x / y) | _, _ => None end.
(** Used in [errAt], SIBCPoleResidueFitting.cpp 198. *)
Definition cabs (a : cx) : option R := option_map Cmod a.

(** FitResult, SIBCPoleResidueFitting.h 11-17. *)
Record fitRes := mkFit { f_poles : list cx; f_res : list cx; f_N : Z; f_err : R; f_stable : bool }.

(** SIBCPoleResidueFitting.cpp 193-196: the fitted value at [s]. *)
Definition fitAt (s : cx) (poles residues : list cx) (order : nat) : cx :=
  fold_left (fun acc j => cadd acc (cdiv (nth j residues None) (csub s (nth j poles None)))) (seq 0 order) (Some (RtoC 0)).
(** SIBCPoleResidueFitting.cpp 198. *)
Definition errAt (s z : cx) (poles residues : list cx) (order : nat) : option R :=
  match cabs (csub (fitAt s poles residues order) z), cabs z with
  | Some a, Some b => Some (a / (b + / 10 ^ 20))%R
  | _, _ => None
  end.
(** [>] on double: false when a side is not a number.
    Used in [checkQuality], SIBCPoleResidueFitting.cpp 179-205. *)
Definition gtb (a : option R) (b : R) : bool := match a with Some x => if Rlt_dec b x then true else false | None => false end.
(** checkQuality, SIBCPoleResidueFitting.cpp 179-205. *)
Definition checkQuality (s z poles residues : list cx) (order : nat) : fitRes :=
  let stable := fold_left (fun st p => if gtb (option_map fst p) (/ 10 ^ 6) then false else st) poles true in
  let err := fold_left (fun m k => let e := errAt (nth k s None) (nth k z None) poles residues order in
                                   if gtb e m then match e with Some x => x | None => m end else m) (seq 0 (length s)) 0%R in
  mkFit poles residues (Z.of_nat order) err stable.

(** findOptimalPoles, SIBCPoleResidueFitting.cpp 239-258: the loop over the orders; [calc] is calcPolesAndResidues. *)
Definition noFit : fitRes := mkFit [] [] 0 (10 ^ 9) false.
(** Used in [findOptimalPoles], SIBCPoleResidueFitting.cpp 221-259. *)
Fixpoint search (calc : nat -> fitRes) (tol : R) (orders : list nat) (best : fitRes) : fitRes :=
  match orders with
  | [] => best
  | n :: t =>
    let r := calc n in
    if negb (f_stable r) then search calc tol t best else
    let best' := if Rlt_dec (f_err r) (f_err best) then r else best in
    if Rlt_dec (f_err r) tol then r else search calc tol t best'
  end.
(** Used in [findOptimalPoles], SIBCPoleResidueFitting.cpp 221-259. *)
Definition findOptimal (calc : nat -> fitRes) (max_poles : nat) (tol : R) : fitRes := search calc tol (seq 1 max_poles) noFit.

(** ** The fit *)
(** findOptimalPoles, SIBCPoleResidueFitting.cpp 229-232: frequencies in geometric progression; [freqs[0]] of an empty
    vector is undefined. *)
Definition frequencies (start_freq end_freq : R) (num_points : nat) : res (list R) :=
  match num_points with
  | O => UB
  | S n =>
    let step := Rpower (end_freq / start_freq) (1 / INR n) in
    Ok (fold_left (fun l _ => l ++ [last l 0 * step]%R) (seq 0 n) [start_freq])
  end.
(** scaleFrequencies, SIBCPoleResidueFitting.cpp 56-68: s, s_norm, scale. *)
Definition sOf (f : R) : C := Ci * RtoC (2 * PI * f).
(** Used in [calcPolesAndResidues], SIBCPoleResidueFitting.cpp 207-219. *)
Definition scaleOf (freqs : list R) : R := fold_left (fun m f => if Rlt_dec m (Cmod (sOf f)) then Cmod (sOf f) else m) freqs 0%R.
(** calculate_weights, SIBCPoleResidueFitting.cpp 70-84. *)
Definition weights (Z : list C) : list R :=
  let rel := if Rlt_dec (Cmod (nth 0 Z (RtoC 0))) (Cmod (last Z (RtoC 0))) then true else false in
  map (fun z => if rel then (1 / (Cmod z + / 10 ^ 15))%R else 1%R) Z.
(** The running powers p, p s, p s^2 ... of SIBCPoleResidueFitting.cpp 105-115. *)
Fixpoint powers (p s : C) (n : nat) : list C := match n with O => [] | S n => p :: powers (p * s) s n end.
(** build_system, SIBCPoleResidueFitting.cpp 86-120: a row and its right hand side. *)
Definition sysRow (w : R) (z s : C) (order : nat) : list C :=
  map (fun p => RtoC w * p) (powers (RtoC 1) s (S order)) ++ map (fun p => - RtoC w * z * p) (powers s s order).
(** Used in [calcPolesAndResidues], SIBCPoleResidueFitting.cpp 207-219. *)
Definition buildSystem (sn Z : list C) (ws : list R) (order : nat) : list (list C) * list C :=
  (map (fun k => sysRow (nth k ws 0%R) (nth k Z (RtoC 0)) (nth k sn (RtoC 0)) order) (seq 0 (length sn)),
   map (fun k => RtoC (nth k ws 0%R) * nth k Z (RtoC 0)) (seq 0 (length sn))).
(** extractRoots, SIBCPoleResidueFitting.cpp 122-134: the companion matrix. *)
Definition companion (coeffs : list C) : list (list C) :=
  let n := length coeffs in
  map (fun i => map (fun j => if (j =? n - 1)%nat then - nth (n - 1 - i) coeffs (RtoC 0)
                              else if (i =? j + 1)%nat then RtoC 1 else RtoC 0) (seq 0 n)) (seq 0 n).
Section Oracles.
  (** [bdcSvd(...).solve(b)] and [ComplexEigenSolver::eigenvalues]. *)
  Variable solve : list (list C) -> list C -> list C.
  Variable eig : list (list C) -> list C.
  (** Used in [calcPolesAndResidues], SIBCPoleResidueFitting.cpp 207-219. *)
Definition extractRoots (coeffs : list C) : list C := match coeffs with [] => [] | _ => eig (companion coeffs) end.
  (** solveForPoles, SIBCPoleResidueFitting.cpp 136-161. *)
  Definition aFull (x : list C) (scale : R) (order : nat) : list C :=
    map (fun i => nth i (RtoC 1 :: map (fun i => nth (order + 1 + i) x (RtoC 0)) (seq 0 order)) (RtoC 0) / RtoC (scale ^ i)) (seq 0 (S order)).
  (** Used in [calcPolesAndResidues], SIBCPoleResidueFitting.cpp 207-219. *)
Definition solveForPoles (sys : list (list C) * list C) (scale : R) (order : nat) : list C :=
    let a := aFull (solve (fst sys) (snd sys)) scale order in
    let aN := nth order a (RtoC 0) in
    let a' := map (fun c => c / aN) a in
    extractRoots (map (fun i => nth (order - 1 - i) a' (RtoC 0)) (seq 0 order)).
  (** calcResidues, SIBCPoleResidueFitting.cpp 163-177. *)
  Definition calcResidues (s Z poles : list C) : list C :=
    solve (map (fun sk => map (fun p => RtoC 1 / (sk - p)) poles) s) Z.
  (** calcPolesAndResidues, SIBCPoleResidueFitting.cpp 207-219. *)
  Definition calcPolesAndResidues (freqs : list R) (Z : list C) (order : nat) : fitRes :=
    let s := map sOf freqs in
    let scale := scaleOf freqs in
    let sn := map (fun x => x / RtoC scale) s in
    let poles := solveForPoles (buildSystem sn Z (weights Z) order) scale order in
    let residues := calcResidues s Z poles in
    checkQuality (map Some s) (map Some Z) (map Some poles) (map Some residues) order.
  (** findOptimalPoles, SIBCPoleResidueFitting.cpp 221-259, for given samples of the impedance. *)
  Definition findOptimalPoles (freqs : list R) (Z : list C) (max_poles : nat) (tol : R) : fitRes :=
    findOptimal (calcPolesAndResidues freqs Z) max_poles tol.
End Oracles.

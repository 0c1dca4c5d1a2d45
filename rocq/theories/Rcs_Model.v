(** Model of the far-field post-processing of surface data
    (components/RCSSurfacePostProcessor.cpp, components/FarField.cpp,
    driver/rcs_driver.cpp). [double] is [R]; a value that would be infinite or NaN
    is [None]. *)
From Coq Require Import ZArith List Bool Reals.
From Verif Require Import Common.
Import ListNotations.
Local Open Scope R_scope.

(** std::complex<double>. Used in [rank], RCSSurfacePostProcessor.cpp 327-343. *)
Definition C : Type := (R * R)%type.
(** Used in [dftLoops], RCSSurfacePostProcessor.cpp 284-305. *)
Definition c0 : C := (0, 0).
(** Used in [dirLoop], RCSSurfacePostProcessor.cpp 338-376. *)
Definition cadd (a b : C) : C := (fst a + fst b, snd a + snd b).
(** Used in [dirLoop], RCSSurfacePostProcessor.cpp 338-376. *)
Definition csub (a b : C) : C := (fst a - fst b, snd a - snd b).
(** Used in [dftLoops], RCSSurfacePostProcessor.cpp 284-305. *)
Definition cscale (x : R) (a : C) : C := (x * fst a, x * snd a).
(** std::norm: the squared modulus. Used in [potRad], RCSSurfacePostProcessor.cpp 400-429. *)
Definition cnorm (a : C) : R := fst a * fst a + snd a * snd a.

(** SphericalAngles (FarField.h 28-35): compared by theta, then phi. *)
Definition angle : Type := (R * R)%type.
(** Key of coherentSum, farFieldData_ and rcsData_ (RCSSurfacePostProcessor.cpp
    202-214); two keys are the same entry when angle and frequency are equal. *)
Definition key : Type := (angle * R)%type.
(** Used in [rankStep], RCSSurfacePostProcessor.cpp 222-396. *)
Definition angle_dec (a b : angle) : {a = b} + {a <> b}.
Proof. decide equality; apply Req_EM_T. Defined.
(** Used in [rankStep], RCSSurfacePostProcessor.cpp 222-396. *)
Definition key_dec (a b : key) : {a = b} + {a <> b}.
Proof. decide equality; [apply Req_EM_T | apply angle_dec]. Defined.
(** Used in [rankStep], RCSSurfacePostProcessor.cpp 222-396. *)
Definition kset {V} (m : key -> V) (k : key) (v : V) : key -> V := fun x => if key_dec x k then v else m x.

(** PhysicalConstants.h 9-16. *)
Definition speedOfLight : R := 1.
(** Used in [computeResults], RCSSurfacePostProcessor.cpp 179-445. *)
Definition speedOfLight_SI : R := 299792458.
(** Used in [potRad], RCSSurfacePostProcessor.cpp 400-429. *)
Definition freeSpaceImpedance : R := 1 * speedOfLight.

(** linspace, rcs_driver.cpp 20-29. *)
Definition linspace (a b : R) (N : nat) : list R :=
  match N with
  | O => []
  | S O => [a]
  | _ => map (fun i => a + INR i * ((b - a) / INR (N - 1))) (seq 0 N)
  end.
(** The list of angles, rcs_driver.cpp 64-67. *)
Definition angleList (thetas phis : list R) : list angle := flat_map (fun t => map (fun p => (t, p)) phis) thetas.

(** thetaHat and phiHat, RCSSurfacePostProcessor.cpp 46-56; dot3, 65-69. *)
Definition thetaHat (a : angle) (i : nat) : R :=
  match i with
  | O => cos (fst a) * cos (snd a)
  | S O => cos (fst a) * sin (snd a)
  | _ => - sin (fst a)
  end.
(** Used in [rankStep], RCSSurfacePostProcessor.cpp 222-396. *)
Definition phiHat (a : angle) (i : nat) : R :=
  match i with O => - sin (snd a) | S O => cos (snd a) | _ => 0 end.
(** Used in [rankStep], RCSSurfacePostProcessor.cpp 222-396. *)
Definition dot3 (u : nat -> R) (v : nat -> C) : C :=
  cadd (cadd (cscale (u 0%nat) (v 0%nat)) (cscale (u 1%nat) (v 1%nat))) (cscale (u 2%nat) (v 2%nat)).

(** SurfaceSnapshot: time and components 0..5 = Ex Ey Ez Hx Hy Hz at each dof. The
    reader gives every component numDofs entries (Codec_Model), so access is total.
    Used in [rank], RCSSurfacePostProcessor.cpp 327-343. *)
Record snap := mkSnap { sn_t : R; sn_v : nat -> nat -> R }.
(** What a rank directory contributes: the header's dimension and numDofs, the
    snapshots, and for each frequency, angle and direction the linear form
    (assembleLinearForm of the real and imaginary phase, RCSSurfacePostProcessor.cpp 327-343) as one complex
    number per dof. The mesh and MFEM's integration are not modelled: the forms
    are an arbitrary function of these arguments. *)
Record rank := mkRank {
  r_dim : Z;
  r_ndofs : nat;
  r_snaps : list snap;
  r_lf : R -> angle -> nat -> nat -> C }.

(** PlaneWaveData, FarField.h 37-48. *)
Record pwave := mkPw { pw_spread : R; pw_mean : R; pw_freq : R }.

(** evaluateGaussianVector, FarField.cpp 281-288 (pow(x, 2.0) as a product; a zero
    spread is out of scope). *)
Definition gaussianVector (times : list R) (spread mean : R) : list R :=
  map (fun t => exp (- ((t - Rabs mean) * (t - Rabs mean)) / (2 * (spread * spread)))) times.

(** The DFT weight, RCSSurfacePostProcessor.cpp 151-152 and 292-293. *)
Definition weight (f t : R) : C := (cos (2 * PI * f * t), - sin (2 * PI * f * t)).

(** computeIncidentPowerSpectrum, RCSSurfacePostProcessor.cpp 131-158. Without times the division by zero makes
    every entry NaN. *)
Definition envelope (pw : pwave) (times : list R) : list R :=
  let e := gaussianVector times (pw_spread pw) (pw_mean pw) in
  if Req_EM_T (pw_freq pw) 0 then e
  else map (fun p => snd p * cos (2 * PI * pw_freq pw * (fst p - Rabs (pw_mean pw)))) (combine times e).
(** Used in [rankStep], RCSSurfacePostProcessor.cpp 222-396. *)
Definition incidentPower (pw : pwave) (times freqs : list R) : list (option R) :=
  map (fun f =>
    let val := fold_left (fun acc p => cadd acc (cscale (snd p) (weight f (fst p)))) (combine times (envelope pw times)) c0 in
    match times with
    | [] => None
    | _ => Some (cnorm (cscale (/ INR (List.length times)) val) / (2 * freeSpaceImpedance))
    end) freqs.

(** ff[c][fi][v], RCSSurfacePostProcessor.cpp 278-279, and its update. *)
Definition arr3 : Type := nat -> nat -> nat -> C.
(** Used in [dftLoops], RCSSurfacePostProcessor.cpp 284-305. *)
Definition add3 (a : arr3) (c fi v : nat) (z : C) : arr3 :=
  fun c' fi' v' => if (Nat.eqb c' c && Nat.eqb fi' fi && Nat.eqb v' v)%bool then cadd (a c' fi' v') z else a c' fi' v'.
(** The DFT loops, RCSSurfacePostProcessor.cpp 284-305, on one thread (Dft_Model has the parallel region).
    The scaling by invN is [/ nSnap]. *)
Definition dftLoops (snaps : list snap) (normFreqs : list R) (ndofs : nat) : arr3 :=
  fold_left (fun a s =>
    fold_left (fun a fi =>
      fold_left (fun a c =>
        fold_left (fun a v => add3 a c fi v (cscale (sn_v s c v) (weight (nth fi normFreqs 0) (sn_t s / speedOfLight))))
          (seq 0 ndofs) a)
        (seq 0 6) a)
      (seq 0 (List.length normFreqs)) a)
    snaps (fun _ _ _ => c0).
(** Used in [rankStep], RCSSurfacePostProcessor.cpp 222-396. *)
Definition dft (snaps : list snap) (normFreqs : list R) (ndofs : nat) : arr3 :=
  fun c fi v => cscale (/ INR (List.length snaps)) (dftLoops snaps normFreqs ndofs c fi v).

(** Hint[c] and Eint[c], RCSSurfacePostProcessor.cpp 352-365: sum over dofs of the complex product, written with
    real and imaginary parts as in the code. *)
Definition intStep (l f : C) (acc : C) : C :=
  (fst acc + (fst l * fst f - snd l * snd f), snd acc + (fst l * snd f + snd l * fst f)).
(** Used in [dirLoop], RCSSurfacePostProcessor.cpp 338-376. *)
Definition integral (ndofs : nat) (lf : nat -> C) (field : nat -> C) : C :=
  fold_left (fun acc v => intStep (lf v) (field v) acc) (seq 0 ndofs) c0.

(** Used in [dirLoop], RCSSurfacePostProcessor.cpp 338-376. *)
Definition vset (u : nat -> C) (i : nat) (z : C) : nat -> C := fun j => if Nat.eqb j i then z else u j.

(** The loop over dir, RCSSurfacePostProcessor.cpp 338-376. *)
Definition dirLoop (r : rank) (ff : arr3) (fi : nat) (freq : R) (ang : angle) : (nat -> C) * (nat -> C) :=
  fold_left (fun NL j =>
    let lf := r_lf r freq ang j in
    let Hint := fun c => integral (r_ndofs r) lf (ff (3 + c)%nat fi) in
    let Eint := fun c => integral (r_ndofs r) lf (ff c fi) in
    let i1 := ((j + 1) mod 3)%nat in let k1 := ((j + 2) mod 3)%nat in
    let i2 := ((j + 2) mod 3)%nat in let k2 := ((j + 1) mod 3)%nat in
    let N := vset (fst NL) i1 (cadd (fst NL i1) (Hint k1)) in
    let N := vset N i2 (csub (N i2) (Hint k2)) in
    let L := vset (snd NL) i1 (csub (snd NL i1) (Eint k1)) in
    let L := vset L i2 (cadd (L i2) (Eint k2)) in
    (N, L)) (seq 0 3) (fun _ => c0, fun _ => c0).

(** The four amplitudes, RCSSurfacePostProcessor.cpp 379-385: N_theta, N_phi, L_theta, L_phi. Without snapshots
    invN is infinite and every dof value is NaN. *)
Record amp := mkAmp { a_Nth : C; a_Nph : C; a_Lth : C; a_Lph : C }.
(** Used in [computeResults], RCSSurfacePostProcessor.cpp 179-445. *)
Definition amp0 : amp := mkAmp c0 c0 c0 c0.
(** Used in [rankStep], RCSSurfacePostProcessor.cpp 222-396. *)
Definition ampAdd (a b : amp) : amp :=
  mkAmp (cadd (a_Nth a) (a_Nth b)) (cadd (a_Nph a) (a_Nph b)) (cadd (a_Lth a) (a_Lth b)) (cadd (a_Lph a) (a_Lph b)).
(** Used in [rankStep], RCSSurfacePostProcessor.cpp 222-396. *)
Definition amplitudes (r : rank) (snaps : list snap) (ff : arr3) (fi : nat) (freq : R) (ang : angle) : option amp :=
  match snaps, r_ndofs r with
  | [], S _ => None
  | _, _ =>
    let NL := dirLoop r ff fi freq ang in
    Some (mkAmp (dot3 (thetaHat ang) (fst NL)) (dot3 (phiHat ang) (fst NL))
                (dot3 (thetaHat ang) (snd NL)) (dot3 (phiHat ang) (snd NL)))
  end.
(** Used in [rankStep], RCSSurfacePostProcessor.cpp 222-396. *)
Definition oadd (a b : option amp) : option amp :=
  match a, b with Some x, Some y => Some (ampAdd x y) | _, _ => None end.

(** State of the loop over ranks, RCSSurfacePostProcessor.cpp 209-220. *)
Record pstate := mkP {
  p_sum : key -> option amp;
  p_power : list (option R);
  p_dim : Z;
  p_first : bool }.

(** The maxTime filter, RCSSurfacePostProcessor.cpp 233-246. *)
Definition filterSnaps (maxTime : option R) (snaps : list snap) : res (list snap) :=
  match maxTime with
  | None => Ok snaps
  | Some m =>
    match filter (fun s => if Rgt_dec (sn_t s) m then false else true) snaps with
    | [] => Throw
    | kept => Ok kept
    end
  end.

(** The 2D check, RCSSurfacePostProcessor.cpp 249-252. *)
Definition anglesOk (dim : Z) (angles : list angle) : bool :=
  if (dim =? 2)%Z then forallb (fun a => if Rgt_dec (Rabs (fst a - PI / 2)) (1 / 10 ^ 8) then false else true) angles else true.

(** One rank, RCSSurfacePostProcessor.cpp 222-396. [pw] is extractPlaneWaveData's outcome (124-129). *)
Definition rankStep (maxTime : option R) (pw : res pwave) (normFreqs : list R) (angles : list angle) (st : pstate) (r : rank) : res pstate :=
  snaps <- filterSnaps maxTime (r_snaps r) ;;
  if negb (anglesOk (r_dim r) angles) then Throw else
  power <- (if p_first st then w <- pw ;; Ok (incidentPower w (map (fun s => sn_t s / speedOfLight) snaps) normFreqs)
            else Ok (p_power st)) ;;
  let ff := dft snaps normFreqs (r_ndofs r) in
  Ok (mkP
    (fold_left (fun m fi =>
       fold_left (fun m ang =>
         let freq := nth fi normFreqs 0 in
         kset m (ang, freq) (oadd (m (ang, freq)) (amplitudes r snaps ff fi freq ang)))
       angles m)
     (seq 0 (List.length normFreqs)) (p_sum st))
    power (r_dim r) false).

(** Far-field power, RCSSurfacePostProcessor.cpp 400-429. *)
Definition potRad (dim : Z) (freq : R) (a : amp) : R :=
  let k := 2 * PI * freq in
  let Z0 := freeSpaceImpedance in
  (if (dim =? 2)%Z then k * k / (32 * Z0) else k * k / (32 * PI * PI * Z0)) *
  (cnorm (cadd (a_Lph a) (cscale Z0 (a_Nth a))) + cnorm (csub (a_Lth a) (cscale Z0 (a_Nph a)))).
(** Division of doubles: not finite when the divisor is zero.
    Used in [factor], RCSSurfacePostProcessor.cpp 438-442. *)
Definition rdiv (x y : R) : option R := if Req_EM_T y 0 then None else Some (x / y).
(** The factor ct, RCSSurfacePostProcessor.cpp 438-442. *)
Definition factor (dim : Z) (freq : R) (power : option R) : option R :=
  match power with
  | None => None
  | Some P => if (dim =? 2)%Z then rdiv 4 (2 * PI * freq * P) else rdiv (4 * PI) P
  end.
(** Used in [fileRows], RCSSurfacePostProcessor.cpp 459-479. *)
Definition omul (a b : option R) : option R :=
  match a, b with Some x, Some y => Some (x * y) | _, _ => None end.

(** The two maps of results, RCSSurfacePostProcessor.cpp 400-445. *)
Definition farField (normFreqs : list R) (angles : list angle) (st : pstate) (m0 : key -> option R) : key -> option R :=
  fold_left (fun m fi =>
    fold_left (fun m ang =>
      let freq := nth fi normFreqs 0 in
      kset m (ang, freq) (option_map (potRad (p_dim st) freq) (p_sum st (ang, freq))))
    angles m) (seq 0 (List.length normFreqs)) m0.
(** Used in [computeResults], RCSSurfacePostProcessor.cpp 179-445. *)
Definition rcsData (normFreqs : list R) (angles : list angle) (st : pstate) (far m0 : key -> option R) : key -> option R :=
  fold_left (fun m fi =>
    fold_left (fun m ang =>
      let freq := nth fi normFreqs 0 in
      kset m (ang, freq) (omul (factor (p_dim st) freq (nth fi (p_power st) None)) (far (ang, freq))))
    angles m) (seq 0 (List.length normFreqs)) m0.

(** computeAndWriteResults, RCSSurfacePostProcessor.cpp 179-445, up to the output files: the contents of
    farFieldData_ and rcsData_. Requested keys start at zero (203-214). *)
Definition computeResults (maxTime : option R) (pw : res pwave) (ranks : list rank) (frequencies : list R) (angles : list angle)
  : res ((key -> option R) * (key -> option R)) :=
  match ranks with
  | [] => Throw
  | _ =>
    let normFreqs := map (fun f => f / speedOfLight_SI) frequencies in
    st <- foldM (rankStep maxTime pw normFreqs angles) ranks (mkP (fun _ => Some amp0) [] 0%Z true) ;;
    let far := farField normFreqs angles st (fun _ => Some 0) in
    Ok (far, rcsData normFreqs angles st far (fun _ => Some 0))
  end.

(** std::to_string of an angle in the file name (457-458): six decimals. Ties of the
    rounding are taken upwards. Used in [writeFiles], RCSSurfacePostProcessor.cpp 456-480. *)
Definition label (x : R) : Z := Int_part (x * 10 ^ 6 + / 2).
(** Used in [writeFiles], RCSSurfacePostProcessor.cpp 456-480. *)
Definition fileName (a : angle) : Z * Z := (label (fst a), label (snd a)).
(** A row of an output file: theta, phi, frequency in Hz, value, normalisation.
    Used in [fileRows], RCSSurfacePostProcessor.cpp 459-479. *)
Record row := mkRow { w_th : R; w_ph : R; w_f : R; w_v : option R; w_n : option R }.
(** The file written for one angle, RCSSurfacePostProcessor.cpp 459-479; the same shape in farfield/ and rcs/. *)
Definition fileRows (dim : Z) (normFreqs : list R) (data : key -> option R) (a : angle) : list row :=
  map (fun f =>
    let lam := rdiv speedOfLight f in
    mkRow (fst a) (snd a) (f * speedOfLight_SI) (data (a, f)) (if (dim =? 2)%Z then lam else omul lam lam)) normFreqs.
(** The directory after the loop over angles, RCSSurfacePostProcessor.cpp 456-480: opening a file truncates it. *)
Definition writeFiles (dim : Z) (normFreqs : list R) (data : key -> option R) (angles : list angle) : Z * Z -> option (list row) :=
  fold_left (fun m a => fun n => if (Z.eqb (fst n) (fst (fileName a)) && Z.eqb (snd n) (snd (fileName a)))%bool
                                 then Some (fileRows dim normFreqs data a) else m n)
    angles (fun _ => None).

(** Model of the far-field tool that works on saved field snapshots
    (components/FarField.cpp, components/RCSManager.cpp). [double] is [R]; a value
    that would be infinite or NaN is [None]. The rounding of the phase angle is in
    FarRound_Model. The tool is taken to run as one process. *)
From Coq Require Import ZArith List Bool Reals.
From Verif Require Import Common Rcs_Model Merge_Model.
Import ListNotations.
Local Open Scope R_scope.

(** One quadrature point of a far-field boundary face: the physical point, the
    weight, the vector given by CalcOrtho and the value there of every basis function
    of the adjacent element (LinearIntegrators.cpp 334-359). Basis functions of other
    elements are zero at the point. In two dimensions the third coordinates of the
    point and of the vector do not exist; see [coords] and [formDir]. *)
Record spoint := mkPoint { sp_x : R * R * R; sp_w : R; sp_n : R * R * R; sp_shape : nat -> R }.
(** A rank directory as the tool reads it, RCSManager.cpp 191-203: the dimension and
    the largest boundary attribute of its mesh, the number of degrees of freedom, the
    snapshots in the order of their directories, and the quadrature points of all
    faces with the far-field attribute. *)
Record frank := mkFrank { k_dim : Z; k_maxAttr : Z; k_ndofs : nat; k_snaps : list snap; k_pts : list spoint }.

(** NearToFarField, Types.h 52. *)
Definition NearToFarField : Z := 201.
(** obs_radius, FarField.h 26. *)
Definition obs_radius : R := 10 ^ 6.

(** buildObsPointVec, FarField.cpp 11-21. *)
Definition buildObsPointVec (a : angle) : R * R * R :=
  let phi := snd a in
  let theta := fst a in
  (obs_radius * sin theta * cos phi, obs_radius * sin theta * sin phi, obs_radius * cos theta).
(** The point as the functions see it: two coordinates in two dimensions, which
    calcPsiAngle2D completes with 0, FarField.cpp 26-29. *)
Definition coords (dim : Z) (p : R * R * R) : R * R * R :=
  if (dim =? 2)%Z then let '(x, y, _) := p in (x, y, 0) else p.
(** std::acos: NaN outside [-1, 1]. FarField.cpp 30 and 36. *)
Definition acosd (x : option R) : option R :=
  match x with
  | None => None
  | Some y => if Rle_dec (-1) y then if Rle_dec y 1 then Some (acos y) else None else None
  end.
(** calcPsiAngle2D and calcPsiAngle3D, FarField.cpp 23-37; 0/0 is NaN. *)
Definition calcPsiAngle (dim : Z) (p : R * R * R) (a : angle) : option R :=
  let vec := buildObsPointVec a in
  let surfVec := coords dim p in
  acosd (rdiv (dotR3 vec surfVec) (normR3 vec * normR3 surfVec)).
(** landa and wavenumber, FarField.cpp 43-44: an infinite wavelength gives 0. *)
Definition wavenumber (f : R) : R := if Req_EM_T f 0 then 0 else 2 * PI / (speedOfLight / f).
(** func_exp_part, FarField.cpp 41-48, real and imaginary part together. *)
Definition expPart (dim : Z) (f : R) (a : angle) (p : R * R * R) : option C :=
  option_map (fun psi => let rad := wavenumber f * normR3 (coords dim p) * cos psi in (cos rad, sin rad)) (calcPsiAngle dim p a).

(** The component [dir] of a vector. LinearIntegrators.cpp 345-348. *)
Definition comp (v : R * R * R) (dir : nat) : R :=
  let '(x, y, z) := v in match dir with O => x | S O => y | _ => z end.
(** n_dir, LinearIntegrators.cpp 345-348, with the two-dimensional rule of
    assembleLinearForm: direction Z is multiplied by 0, FarField.cpp 127-133. *)
Definition formDir (dim : Z) (n : R * R * R) (dir : nat) : R :=
  if ((dim =? 2)%Z && (2 <=? dir)%nat)%bool then 0 else - comp n dir.
(** The phases at all points. One NaN makes the whole form NaN on the element of that
    point, and every sum over degrees of freedom with it: the result is [None].
    FarField.cpp 354-366. *)
Fixpoint phases (dim : Z) (f : R) (a : angle) (pts : list spoint) : option (list (spoint * C)) :=
  match pts with
  | [] => Some []
  | q :: m =>
    match expPart dim f a (sp_x q), phases dim f a m with
    | Some e, Some l => Some ((q, e) :: l)
    | _, _ => None
    end
  end.
(** assembleComplexLinearForm, FarField.cpp 354-366, for one degree of freedom:
    val = weight * coefficient * n_dir, times the basis function, added over all
    points (LinearIntegrators.cpp 334-359). *)
Definition form (dim : Z) (ph : list (spoint * C)) (dir v : nat) : C :=
  fold_left (fun acc qe => cadd acc (cscale (sp_shape (fst qe) v) (cscale (formDir dim (sp_n (fst qe)) dir) (cscale (sp_w (fst qe)) (snd qe))))) ph c0.

(** calculateFreqFields and normaliseFields, FarField.cpp 317-352 and 431-443: one
    field component at one degree of freedom. Components 0..5 are Ex Ey Ez Hx Hy Hz. *)
Definition freqField (snaps : list snap) (f : R) (c v : nat) : C :=
  cscale (/ INR (List.length snaps))
    (fold_left (fun acc s => cadd acc (cscale (sn_v s c v) (weight f (sn_t s / speedOfLight)))) snaps c0).
(** Product of complex numbers in complexInnerProduct, FarField.cpp 107. *)
Definition cmulM (a b : C) : C := (fst a * fst b - snd a * snd b, fst a * snd b + snd a * fst b).
(** complexInnerProduct, FarField.cpp 100-110. Both vectors have one entry per degree
    of freedom, so the size check passes. *)
Definition complexInnerProduct (n : nat) (first second : nat -> C) : C :=
  fold_left (fun acc i => cadd acc (cmulM (first i) (second i))) (seq 0 n) c0.

(** calcNLpair, FarField.cpp 368-404, from the assembled forms: theta and phi value. *)
Definition calcNLpair (n : nat) (lf : nat -> nat -> C) (F : nat -> nat -> C) (a : angle) (isElectric : bool) : C * C :=
  let ip d c := complexInnerProduct n (lf d) (F c) in
  let DCx := csub (ip 1%nat 2%nat) (ip 2%nat 1%nat) in
  let DCy := csub (ip 2%nat 0%nat) (ip 0%nat 2%nat) in
  let DCz := csub (ip 0%nat 1%nat) (ip 1%nat 0%nat) in
  let s := if isElectric then -1 else 1 in
  let DCx := cscale s DCx in
  let DCy := cscale s DCy in
  let DCz := cscale s DCz in
  let phi_value := cadd (cscale (- sin (snd a)) DCx) (cscale (cos (snd a)) DCy) in
  let theta_value := csub (cadd (cscale (cos (fst a) * cos (snd a)) DCx) (cscale (cos (fst a) * sin (snd a)) DCy)) (cscale (sin (fst a)) DCz) in
  (theta_value, phi_value).

(** pot_rad_ at one angle and frequency, FarField.cpp 445-475 (repeated angles or
    frequencies store the same value again). No snapshot: buildFESFromGF throws,
    163-174. No boundary attribute as large as the far-field one: the marker is
    written out of bounds, 112-118. Dimensions other than 2 and 3: 120-148 throw. The
    mesh and the basis are not modelled; their reading is taken to succeed. *)
Definition getPotRad (r : frank) (f : R) (a : angle) : res (option R) :=
  match k_snaps r with
  | [] => Throw
  | snaps =>
    if (k_maxAttr r <? NearToFarField)%Z then UB else
    if negb ((k_dim r =? 2)%Z || (k_dim r =? 3)%Z)%bool then Throw else
    match phases (k_dim r) f a (k_pts r) with
    | None => Ok None
    | Some ph =>
      let lf := form (k_dim r) ph in
      let N := calcNLpair (k_ndofs r) lf (fun c => freqField snaps f (3 + c)) a false in
      let L := calcNLpair (k_ndofs r) lf (fun c => freqField snaps f c) a true in
      let const_term := wavenumber f ^ 2 / (32 * PI ^ 2 * freeSpaceImpedance) in
      Ok (Some (const_term * (cnorm (cadd (snd L) (cscale freeSpaceImpedance (fst N)))
                            + cnorm (csub (fst L) (cscale freeSpaceImpedance (snd N))))))
    end
  end.

(** buildIncomingPowerTerm, RCSManager.cpp 18-47, at one frequency. The first entry of
    "sources" is used whatever it is; without sources the conversion of null throws.
    Without "mean" assemble3DVector leaves the vector uninitialised. *)
Definition buildIncomingPowerTerm (sources : list srcJson) (times : list R) (f : R) : res R :=
  match sources with
  | [] => Throw
  | s :: _ =>
    match j_mean s with
    | None => UB
    | Some mean =>
      let projMean := dotR3 mean (j_prop s) / normR3 (j_prop s) in
      let gauss_val := gaussianVector times (j_spread s) projMean in
      let freq_val := fold_left (fun acc p => cadd acc (cscale (snd p) (weight f (fst p)))) (combine times gauss_val) c0 in
      Ok (cnorm freq_val / (2 * freeSpaceImpedance) / INR (List.length times))
    end
  end.

(** checkAnglesFor2DProblems, RCSManager.cpp 49-58. *)
Definition checkAngles (dim : Z) (angles : list angle) : bool :=
  if (dim =? 2)%Z then forallb (fun a => if Req_EM_T (fst a) (PI / 2) then true else false) angles else true.

(** What one rank contributes for one angle and frequency: the far-field power, the
    cross section and the normalisation, RCSManager.cpp 202-233. *)
Definition entry (sources : list srcJson) (r : frank) (f : R) (a : angle) : res (option R * option R * option R) :=
  pot <- getPotRad r f a ;;
  pot_inc <- buildIncomingPowerTerm sources (map (fun s => sn_t s / speedOfLight) (k_snaps r)) f ;;
  let landa := rdiv speedOfLight f in
  Ok (pot, omul (rdiv (4 * PI) pot_inc) pot, if (k_dim r =? 2)%Z then landa else omul landa landa).
(** A line of a result file, RCSManager.cpp 216 and 244. The numbers are taken to be
    printed exactly (the stream prints six significant digits); infinity and NaN are
    printed as words, which are not read back as numbers. *)
Definition printed (a : angle) (f : R) (v n : option R) : line := [Some (fst a); Some (snd a); Some (f * speedOfLight_SI); v; n].
(** The two files of one angle: header and one line per frequency, RCSManager.cpp
    206-223 and 235-252. *)
Definition angleFiles (sources : list srcJson) (r : frank) (freqs : list R) (a : angle) : res (file * file) :=
  es <- mapM (fun f => e <- entry sources r f a ;; Ok (f, e)) freqs ;;
  Ok ([] :: map (fun fe => printed a (fst fe) (fst (fst (snd fe))) (snd (snd fe))) es,
      [] :: map (fun fe => printed a (fst fe) (snd (fst (snd fe))) (snd (snd fe))) es).
(** The directories of one rank after the loops over the angles, RCSManager.cpp
    191-252: a file name carries the angles with six decimals and opening a file
    truncates it, so the last angle with a name leaves its lines. *)
Definition rankFiles (sources : list srcJson) (freqs : list R) (angles : list angle) (r : frank)
  : res ((Z * Z -> option file) * (Z * Z -> option file)) :=
  if negb (checkAngles (k_dim r) angles) then Throw else
  foldM (fun m a =>
    ff <- angleFiles sources r freqs a ;;
    Ok ((fun n => if (Z.eqb (fst n) (fst (fileName a)) && Z.eqb (snd n) (snd (fileName a)))%bool then Some (fst ff) else fst m n),
        (fun n => if (Z.eqb (fst n) (fst (fileName a)) && Z.eqb (snd n) (snd (fileName a)))%bool then Some (snd ff) else snd m n)))
    angles (fun _ => None, fun _ => None).
(** The merged rows of one file, RCSManager.cpp 172-178; without directories the caller has stopped. *)
Definition mergeNamed (n : Z * Z) (dirs : list (Z * Z -> option file)) : res (list rowData) :=
  match dirs with
  | [] => Throw
  | first :: others =>
    base <- readDataFile (first n) ;;
    foldM (fun acc d => rows <- readDataFile (d n) ;; addRows acc rows) others base
  end.
(** The RCSManager constructor, RCSManager.cpp 185-261: the rows of the merged
    far-field and cross-section files of every angle; an exception without rank
    directories (RCSManager.cpp 157-159). Removal and creation of
    directories are not modelled. *)
Definition rcsManager (sources : list srcJson) (ranks : list frank) (frequencies : list R) (angles : list angle)
  : res (list (angle * (list rowData * list rowData))) :=
  let rescaled := map (fun f => f / speedOfLight_SI) frequencies in
  dirs <- mapM (rankFiles sources rescaled angles) ranks ;;
  match dirs with
  | [] => Throw
  | _ :: _ =>
    mapM (fun a =>
      far <- mergeNamed (fileName a) (map fst dirs) ;;
      rcs <- mergeNamed (fileName a) (map snd dirs) ;;
      Ok (a, (far, rcs))) angles
  end.

(** Model of the excitations: math/Function.h, components/Sources.h/.cpp,
    solver/SourcesManager.cpp, the source loop of evolution/MaxwellEvolution.cpp and the
    source section of driver/driver.cpp.  `double` is the reals. *)
From Coq Require Import String ZArith List Bool Reals.
From Verif Require Import Common Geo_Model.
Import ListNotations.
Local Open Scope R_scope.

(** math/PhysicalConstants.h 8-9. *)
Definition speedOfLight : R := 1.
(** Used in [freqStep], driver.cpp 29-50. *)
Definition speedOfLight_SI : R := 299792458.
(** math/PhysicalConstants.h 15-16 (vacuumPermittivity is 1). *)
Definition invFourPi : R := 1 / (4 * PI).
(** Used in [dipoleEval], Function.h 252-319. *)
Definition invFourPiEps0 : R := invFourPi / 1.

(** ** Functions of position *)

(** Function, math/Function.h 20-31: Gaussian 45-100, ModulatedGaussian 108-143,
    SinusoidalMode 145-168.  BesselJ6 and SphericalBesselJ6 (170-228) call libm and GSL;
    they are [FOther] with any total function. *)
Inductive func :=
| FGauss (spread : R) (mean : list R) (dim : Z)
| FModGauss (spread : R) (mean : list R) (freq : R)
| FSin (modes : list nat)
| FOther (g : list R -> R).

(** Sum of pow(pos[i] - mean[i], 2) over the first components, as written out in Function.h 70-86. *)
Definition gaussArg (mean pos : list R) (dim : nat) : res R :=
  foldM (fun a i => p <- zget pos i ;; m <- zget mean i ;; Ok (a + (p - m) ^ 2)) (zseq dim) 0.
(** eval of each function: Gaussian Function.h 67-93, ModulatedGaussian 129-135, SinusoidalMode
    158-165.  A dimension other than 1, 2, 3 throws. *)
Definition funcEval (f : func) (pos : list R) : res R :=
  match f with
  | FGauss spread mean dim =>
      if ((1 <=? dim) && (dim <=? 3))%Z then a <- gaussArg mean pos (Z.to_nat dim) ;; Ok (exp (- a / (2 * spread ^ 2)))
      else Throw
  | FModGauss spread mean freq =>
      p <- zget pos 0 ;; m <- zget mean 0 ;;
      let arg := p - m in
      Ok (exp (- arg * arg / (2 * spread * spread)) * cos (2 * PI * freq * arg))
  | FSin modes =>
      foldM (fun r d => p <- zget pos d ;; Ok (r * sin (INR (nth (Z.to_nat d) modes 0%nat) * PI * p))) (zseq (length modes)) 1
  | FOther g => Ok (g pos)
  end.

(** ** Fields of position and time *)

(** Norml2 of an mfem::Vector. Used in [newPlanewave], Function.h 331-341. *)
Definition norml2 (v : list R) : R := sqrt (fold_right (fun a s => a * a + s) 0 v).
(** operator* of two mfem::Vectors. Used in [planeEval], Function.h 363-409. *)
Definition dotv (a b : list R) : R := fold_right (fun p s => fst p * snd p + s) 0 (combine a b).
(** crossProduct, math/Calculus.h 7-16; other sizes fail the assertions. *)
Definition crossProduct (a b : list R) : res (list R) :=
  match a, b with
  | [a0; a1; a2], [b0; b1; b2] => Ok [a1 * b2 - a2 * b1; a2 * b0 - a0 * b2; a0 * b1 - a1 * b0]
  | _, _ => UB
  end.

(** Planewave, math/Function.h 329-416.  Fields 0 and 1 are E and H. *)
Record planewave := mkPW { pw_fn : func; pw_pol : list R; pw_prop : list R; pw_ft : Z }.
(** The constructor Function.h 331-341 with the copy 343-357 that TotalField makes of it.  A null
    vector gives NaN components, which fail the test of the copy; in exact arithmetic no
    other vector fails it.  Both arguments come from assemble3DVector and have three
    components. *)
Definition newPlanewave (f : func) (p dir : list R) (ft : Z) : res planewave :=
  if Req_EM_T (norml2 p) 0 then Throw else
  if Req_EM_T (norml2 dir) 0 then Throw else
  Ok (mkPW f (map (fun c => c / norml2 p) p) (map (fun c => c / norml2 dir) dir) ft).
(** eval, Function.h 363-409.  Positions of one or two components are padded with zeros. *)
Definition planeEval (w : planewave) (p : list R) (t : R) (ft d : Z) : res R :=
  polDir <- (if (ft =? pw_ft w)%Z then zget (pw_pol w) d
             else if (pw_ft w =? 0)%Z then c <- crossProduct (pw_prop w) (pw_pol w) ;; zget c d
             else c <- crossProduct (pw_pol w) (pw_prop w) ;; zget c d) ;;
  pos <- (match p with
          | [a] => Ok [a; 0; 0]
          | [a; b] => Ok [a; b; 0]
          | [a; b; c] => Ok p
          | _ => UB
          end) ;;
  let phaseDelay := dotv pos (pw_prop w) / speedOfLight in
  v <- funcEval (pw_fn w) [phaseDelay - t] ;; Ok (v * polDir).

(** DerivGaussDipole, Function.h 230-327. *)
Record dipole := mkDip { dp_len : R; dp_spread : R; dp_mean : R }.
(** eval, Function.h 252-319.  At the origin every component is NaN or infinite. *)
Definition dipoleEval (w : dipole) (p : list R) (t : R) (ft d : Z) : res R :=
  s <- fromCartesian p ;;
  match sp_theta s with
  | None => UB
  | Some th =>
    if Req_EM_T (sp_radius s) 0 then UB else
    let cs := speedOfLight in
    let cs2 := cs * cs in
    let radius := sp_radius s / cs in
    let radius2 := radius * radius in
    let radius3 := radius2 * radius in
    let sint := sin th in
    let cost := cos th in
    let spreadsqrt2 := dp_spread w * sqrt 2 in
    let expArg := (t - dp_mean w - sp_radius s / cs) / spreadsqrt2 in
    let expArg2 := expArg * expArg in
    let scalingFactor := spreadsqrt2 * exp 1 / 2 * 1 in
    let iret := scalingFactor * exp (- expArg2) in
    let diret := - iret * 2 * expArg / spreadsqrt2 in
    let doublediret := diret * (-2) * expArg / spreadsqrt2 + iret * (-2) / spreadsqrt2 / spreadsqrt2 in
    let er := dp_len w / cs * invFourPiEps0 * 2 * cost * (iret / radius3 + diret / (cs * radius2)) in
    let et := dp_len w / cs * invFourPiEps0 * sint * (iret / radius3 + diret / (cs * radius2) + doublediret / (cs2 * radius)) in
    let hp := dp_len w / cs * invFourPi * sint * (doublediret / (radius * cs) + diret / radius2) in
    if (ft =? 0)%Z then zget (fieldToCartesian th (sp_phi s) er et 0) d
    else zget (fieldToCartesian th (sp_phi s) 0 0 hp) d
  end.

(** ** Sources *)

(** InitialField, components/Sources.h 26-54. *)
Record initialField := mkIF { if_fn : func; if_ft : Z; if_pol : list R; if_center : list R }.
(** InitialField::eval, Sources.cpp 38-59. *)
Definition initialEval (s : initialField) (p : list R) (ft d : Z) : res R :=
  if negb (ft =? if_ft s)%Z then Ok 0 else
  pos <- mapM (fun i => a <- zget p i ;; c <- zget (if_center s) i ;; Ok (a - c)) (zseq (length p)) ;;
  v <- funcEval (if_fn s) pos ;; w <- zget (if_pol s) d ;; Ok (v * w).
(** Source and EHFieldFunction with their implementations, Sources.h 10-73. *)
Inductive source := SInit (s : initialField) | SPlane (w : planewave) | SDipole (w : dipole).
(** dynamic_cast<TotalField*>. Used in [evalTimeVarField], SourcesManager.cpp 39-73. *)
Definition isTotal (s : source) : bool := match s with SInit _ => false | _ => true end.
(** eval, Sources.cpp 38-59 and 76-81. *)
Definition sourceEval (s : source) (p : list R) (t : R) (ft d : Z) : res R :=
  match s with SInit i => initialEval i p ft d | SPlane w => planeEval w p t ft d | SDipole w => dipoleEval w p t ft d end.

(** ** SourcesManager *)

(** Six grid functions, by field, direction and dof.
    Used in [setInitialFields], SourcesManager.cpp 16-37. *)
Definition gfs := Z -> Z -> Z -> R.
(** Used in [setInitialFields], SourcesManager.cpp 16-37. *)
Definition zeroG : gfs := fun _ _ _ => 0.
(** Used in [setInitialFields], SourcesManager.cpp 16-37. *)
Definition setG (g : gfs) (f d i : Z) (v : R) : gfs :=
  fun f' d' i' => if ((f' =? f) && (d' =? d) && (i' =? i))%Z then v else g f' d' i'.
(** The loops over {E, H} and {X, Y, Z}. Used in [setInitialFields], SourcesManager.cpp 16-37. *)
Definition fds : list (Z * Z) := [(0, 0); (0, 1); (0, 2); (1, 0); (1, 1); (1, 2)]%Z.

(** ProjectCoefficient on a nodal space: the coefficient at the node of each dof.
    Used in [setInitialFields], SourcesManager.cpp 16-37. *)
Definition project (nodes : list (list R)) (ev : list R -> res R) (g : gfs) (f d : Z) : res gfs :=
  foldM (fun g i => p <- zget nodes i ;; v <- ev p ;; Ok (setG g f d i v)) (zseq (length nodes)) g.
(** setInitialFields, SourcesManager.cpp 16-37.  The sum into the fields is dof by dof. *)
Definition setInitialFields (srcs : list source) (nodes : list (list R)) (fields : gfs) : res gfs :=
  foldM (fun fields s =>
    match s with
    | SInit i =>
        foldM (fun fields fd =>
          gf <- project nodes (fun p => initialEval i p (fst fd) (snd fd)) zeroG (fst fd) (snd fd) ;;
          foldM (fun fields k => Ok (setG fields (fst fd) (snd fd) k (fields (fst fd) (snd fd) k + gf (fst fd) (snd fd) k)))
            (zseq (length nodes)) fields) fds fields
    | _ => Ok fields
    end) srcs fields.
(** evalTimeVarField, SourcesManager.cpp 39-73: each source overwrites the cached fields. *)
Definition evalTimeVarField (srcs : list source) (nodes : list (list R)) (time : R) : res gfs :=
  foldM (fun g s => if isTotal s
                    then foldM (fun g fd => project nodes (fun p => sourceEval s p time (fst fd) (snd fd)) g (fst fd) (snd fd)) fds g
                    else Ok g) srcs zeroG.

(** The sub-mesh around the surface: parent ids of its elements, dofs of its elements, and
    the parent ids of the total and scattered field parts when they exist.
    Used in [markDofs], SourcesManager.cpp 75-104. *)
Record submesh := mkSub { sb_map : list Z; sb_dofs : Z -> list Z; sb_tf : option (list Z); sb_sf : option (list Z) }.
(** Array<int>::Find. Used in [markDofs], SourcesManager.cpp 75-104. *)
Fixpoint findZ (l : list Z) (x : Z) : option Z :=
  match l with [] => None | a :: l => if (a =? x)%Z then Some 0%Z else option_map Z.succ (findZ l x) end.
(** markDoFSforTForSF, SourcesManager.cpp 75-104.  An element missing from the sub-mesh gives index -1. *)
Definition markDofs (sb : submesh) (isTF : bool) (g : gfs) : res gfs :=
  let secondary := match (if isTF then sb_sf sb else sb_tf sb) with Some l => l | None => [] end in
  foldM (fun g e =>
    match findZ (sb_map sb) e with
    | None => UB
    | Some k => foldM (fun g i => foldM (fun g fd => Ok (setG g (fst fd) (snd fd) i 0)) fds g) (sb_dofs sb k) g
    end) secondary g.
(** The sign mask of initDirectPlanewaveEval, SourcesManager.cpp 158-189. *)
Definition tfsfSign (sb : submesh) (i : Z) : R :=
  match sb_sf sb with
  | None => 1
  | Some l =>
      if existsb (fun e => match findZ (sb_map sb) e with None => false | Some k => existsb (Z.eqb i) (sb_dofs sb k) end) l
      then - 0.5 else 0.5
  end.
(** The coordinates of initDirectPlanewaveEval, SourcesManager.cpp 136-156, padded to three components. *)
Definition pad3 (p : list R) : list R := firstn 3 (p ++ [0; 0; 0]).
(** evalTimeVarFieldDirect, SourcesManager.cpp 205-231. *)
Definition evalDirect (srcs : list source) (sb : submesh) (nodes : list (list R)) (time : R) : res gfs :=
  foldM (fun g s =>
    if isTotal s then
      foldM (fun g i =>
        p <- zget nodes i ;;
        foldM (fun g fd => v <- sourceEval s (pad3 p) time (fst fd) (snd fd) ;;
                           Ok (setG g (fst fd) (snd fd) i (g (fst fd) (snd fd) i + v * tfsfSign sb i))) fds g)
        (zseq (length nodes)) g
    else Ok g) srcs zeroG.
(** evalTimeVarFunction, evolution/MaxwellEvolutionMethods.cpp 8-33, without the direct
    path.  The loops 24-29 act dof by dof. *)
Definition evalFallback (srcs : list source) (sb : submesh) (nodes : list (list R)) (time : R) : res gfs :=
  r <- evalTimeVarField srcs nodes time ;;
  r1 <- markDofs sb true r ;;
  match sb_sf sb with
  | None => Ok r1
  | Some _ => q <- markDofs sb false r ;; Ok (fun f d i => (r1 f d i - q f d i) * 0.5)
  end.
(** The source loop of MaxwellEvolution::Mult, evolution/MaxwellEvolution.cpp 275-328, with
    a global sub-mesh: for each total field source the whole injected field is evaluated
    and its image under the source operators ([inj]) subtracted. *)
Definition maxwellSources (srcs : list source) (sb : submesh) (nodes : list (list R)) (time : R)
    (inj : gfs -> Z -> R) (out : Z -> R) : res (Z -> R) :=
  foldM (fun out s => if isTotal s then g <- evalFallback srcs sb nodes time ;; Ok (fun r => out r - inj g r) else Ok out) srcs out.

(** ** Sources of the input file *)

(** The part of a source object that the code reads; a missing key is None.
    Used in [freqStep], driver.cpp 29-50. *)
Record magnitude := mkMag { mg_type : option string; mg_spread : option R; mg_freq : option R; mg_mean : option (list R);
                            mg_mean1 : option R; mg_modes : option (list nat); mg_length : option R }.
(** Used in [freqStep], driver.cpp 29-50. *)
Record jsource := mkJS { js_type : string; js_field : option string; js_mag : option magnitude; js_center : option (list R);
                         js_pol : option (list R); js_prop : option (list R); js_dim : option Z; js_tags : option (list Z) }.
Local Open Scope string_scope.

(** The loop body of calculateMaximumSourceFrequency, driver.cpp 29-50, on the variables
    maxFrequency, foundModulated, minSpread and foundGaussian.  Spreads are taken other than
    zero (the edge is infinite for zero).  No minimum yet is None. *)
Definition freqStep (st : R * bool * option R * bool) (s : jsource) : R * bool * option R * bool :=
  let '(maxf, fm, minS, fg) := st in
  match js_mag s with
  | None => st
  | Some mag =>
    match mg_freq mag, mg_spread mag with
    | Some f, Some sp =>
        let edge := (f + speedOfLight_SI / (2 * sp))%R in
        if Rlt_dec maxf edge then (edge, true, minS, fg) else st
    | None, Some sp =>
        match mg_type mag with
        | Some ty => if String.eqb ty "gaussian"
                     then (if Rlt_dec 0 sp then (match minS with
                                                 | None => (maxf, fm, Some sp, true)
                                                 | Some m => if Rlt_dec sp m then (maxf, fm, Some sp, true) else st
                                                 end) else st)
                     else st
        | None => st
        end
    | _, None => st
    end
  end.
(** calculateMaximumSourceFrequency, driver.cpp 20-61. *)
Definition maxSourceFrequency (srcs : list jsource) : R :=
  let '(maxf, fm, minS, fg) := fold_left freqStep srcs (0%R, false, None, false) in
  if fm then maxf else if fg then match minS with Some m => (speedOfLight_SI / (2 * m))%R | None => 0%R end else 1000000000%R.

(** A JSON value that must be there; at() of a missing key on a const object asserts.
    Used in [planeMean], driver.cpp 569-589. *)
Definition need {A} (o : option A) : res A := match o with Some a => Ok a | None => UB end.
(** assemble3DVector, driver.cpp 346-353: fewer than three components leave uninitialised cells, more
    are written out of bounds. *)
Definition assemble3DVector (l : list R) : res (list R) := match l with [a; b; c] => Ok l | _ => UB end.
(** assignFieldType, driver.cpp 299-310. *)
Definition assignFieldType (s : string) : res Z :=
  if String.eqb s "electric" then Ok 0%Z else if String.eqb s "magnetic" then Ok 1%Z else Throw.

(** A boundary element: its attribute and its vertices. Used in [centroid], driver.cpp 411-424. *)
Record belem := mkBE { be_attr : Z; be_verts : list (list R) }.
(** bdrElemCentroid, driver.cpp 411-424 (MFEM hands out as many coordinates as the mesh dimension). *)
Definition centroid (b : belem) (dim : nat) : list R :=
  map (fun d => (fold_right (fun v s => nth d v 0 + s) 0 (be_verts b) / INR (length (be_verts b)))%R) (seq 0 dim).
(** bdrElemHasTag, driver.cpp 427-434. *)
Definition hasTag (b : belem) (tags : list Z) : bool := existsb (Z.eqb (be_attr b)) tags.
(** Used in [minRadius], driver.cpp 439-449. *)
Definition minOpt (m : option R) (v : R) : option R := match m with None => Some v | Some a => Some (Rmin a v) end.
(** minRadiusOnTFSFSurface, driver.cpp 439-449, over all ranks; None stands for the largest double. *)
Definition minRadius (bes : list belem) (dim : nat) (tags : list Z) : R :=
  match fold_left (fun m b => if hasTag b tags then minOpt m (norml2 (centroid b dim)) else m) bes None with
  | Some r => r | None => 0%R
  end.
(** minPhaseOnTFSFSurface, driver.cpp 455-472. *)
Definition minPhase (bes : list belem) (dim : nat) (tags : list Z) (dhat : list R) : R :=
  match fold_left (fun m b => if hasTag b tags then minOpt m (dotv (centroid b dim) dhat / speedOfLight)%R else m) bes None with
  | Some r => r | None => 0%R
  end.

(** buildGaussianInitialField driver.cpp 368-380 and its siblings 382-400 and 474-481: a centre of zeros. *)
Definition zerosR (n : Z) : list R := repeat 0%R (Z.to_nat n).
(** buildGaussianPlanewave driver.cpp 483-499 and buildModulatedGaussianPlanewave 501-519. *)
Definition buildPlane (spread : R) (mean : list R) (freq : option R) (pol dir : list R) (ft : Z) : res source :=
  let proj := [(dotv mean dir / norml2 dir)%R] in
  w <- newPlanewave (match freq with None => FGauss spread proj 1 | Some f => FModGauss spread proj (f / speedOfLight_SI)%R end) pol dir ft ;;
  Ok (SPlane w).
Section Build.
Variable besselJ6 sphericalBesselJ6 : list R -> R.
(** The mesh, when the driver hands one over. *)
Variable mesh : option (list belem * nat).
(** Used in [planeMean], driver.cpp 569-589. *)
Definition AUTO_DELAY_N_SIGMA : R := 5.
(** The automatic mean of a plane wave, driver.cpp 569-589. *)
Definition planeMean (mag : magnitude) (s : jsource) (spread : R) : res (list R) :=
  match mg_mean mag with
  | Some m => assemble3DVector m
  | None =>
    match mesh, js_tags s with
    | Some (bes, dim), Some tags =>
        pr <- need (js_prop s) ;; d <- assemble3DVector pr ;;
        let dhat := map (fun c => (c / norml2 d)%R) d in
        let mean1 := (minPhase bes dim tags dhat - AUTO_DELAY_N_SIGMA * spread * sqrt 2)%R in
        Ok (map (fun c => (mean1 * c)%R) dhat)
    | _, _ => Ok [0; 0; 0]%R
    end
  end.
(** The automatic mean of a dipole, driver.cpp 618-632. *)
Definition dipoleMean (mag : magnitude) (s : jsource) (spread : R) : R :=
  match mg_mean1 mag with
  | Some m => m
  | None =>
    match mesh, js_tags s with
    | Some (bes, dim), Some tags =>
        Rmax (spread * sqrt 2) (AUTO_DELAY_N_SIGMA * spread * sqrt 2 - minRadius bes dim tags / speedOfLight)
    | _, _ => (AUTO_DELAY_N_SIGMA * spread * sqrt 2)%R
    end
  end.
(** One turn of the loop of buildSources, 534-638: the sources it adds.  The assertion of
    InitialField (Sources.cpp 23) is not modelled. *)
Definition buildSource (s : jsource) : res (list source) :=
  if String.eqb (js_type s) "initial" then
    mag <- need (js_mag s) ;; ty <- need (mg_type mag) ;;
    if String.eqb ty "gaussian" then
      ft <- (f <- need (js_field s) ;; assignFieldType f) ;; sp <- need (mg_spread mag) ;; c <- need (js_center s) ;;
      pol <- (p <- need (js_pol s) ;; assemble3DVector p) ;; dim <- need (js_dim s) ;;
      Ok [SInit (mkIF (FGauss sp (zerosR dim) dim) ft pol c)]
    else if String.eqb ty "resonant" then
      ft <- (f <- need (js_field s) ;; assignFieldType f) ;; pol <- (p <- need (js_pol s) ;; assemble3DVector p) ;;
      m <- need (mg_modes mag) ;; Ok [SInit (mkIF (FSin m) ft pol (repeat 0%R (length m)))]
    else if String.eqb ty "besselj6_2D" then
      ft <- (f <- need (js_field s) ;; assignFieldType f) ;; pol <- (p <- need (js_pol s) ;; assemble3DVector p) ;;
      Ok [SInit (mkIF (FOther besselJ6) ft pol [0; 0; 0]%R)]
    else if String.eqb ty "besselj6_3D" then
      ft <- (f <- need (js_field s) ;; assignFieldType f) ;; pol <- (p <- need (js_pol s) ;; assemble3DVector p) ;;
      Ok [SInit (mkIF (FOther sphericalBesselJ6) ft pol [0; 0; 0]%R)]
    else Ok []
  else if String.eqb (js_type s) "planewave" then
    mag <- need (js_mag s) ;; sp <- need (mg_spread mag) ;; mean <- planeMean mag s sp ;;
    pol <- (p <- need (js_pol s) ;; assemble3DVector p) ;; dir <- (p <- need (js_prop s) ;; assemble3DVector p) ;;
    w <- buildPlane sp mean (mg_freq mag) pol dir 0 ;; Ok [w]
  else if String.eqb (js_type s) "dipole" then
    mag <- need (js_mag s) ;; len <- need (mg_length mag) ;; sp <- need (mg_spread mag) ;;
    Ok [SDipole (mkDip len sp (dipoleMean mag s sp))]
  else Throw.
(** buildSources, driver.cpp 531-641. *)
Definition buildSources (l : list jsource) : res (list source) := foldM (fun r s => a <- buildSource s ;; Ok (r ++ a)%list) l [].
End Build.

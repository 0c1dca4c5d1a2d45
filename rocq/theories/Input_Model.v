(** The JSON case description: the solver options, the thin layers of the SGBC boundaries and
    the markers built after the model (driver.cpp). *)
From Coq Require Import String List ZArith Reals Bool.
From Flocq Require Import Core.
From Verif Require Import Common Probe_Model Setup_Model Geo_Model Time_Model.
Import ListNotations.
Open Scope Z_scope.

(** ** JSON values (nlohmann::json, an external library)
    Integers are the 64-bit ones; a floating number is a finite one, as a JSON text cannot
    hold another.  Keys of an object are unique; the first is read here.
    Used in [jop], driver.cpp 680-693. *)
Inductive json :=
| JNull
| JBool (b : bool)
| JInt (z : Z)
| JReal (r : R)
| JStr (s : string)
| JArr (l : list json)
| JObj (l : list (string * json)).

(** Used in [buildSolverOptions], driver.cpp 644-705. *)
Fixpoint jlookup (k : string) (l : list (string * json)) : option json :=
  match l with
  | [] => None
  | (k', v) :: t => if String.eqb k k' then Some v else jlookup k t
  end.
(** contains(key): false on anything that is not an object.
    Used in [buildSolverOptions], driver.cpp 644-705. *)
Definition contains (j : json) (k : string) : bool :=
  match j with JObj l => match jlookup k l with Some _ => true | None => false end | _ => false end.
(** operator[](key) on a const value: an assertion on a missing key, a type error on a value
    that is not an object. Used in [buildSolverOptions], driver.cpp 644-705. *)
Definition jat (j : json) (k : string) : res json :=
  match j with JObj l => match jlookup k l with Some v => Ok v | None => UB end | _ => Throw end.
(** size(). Used in [readTags], driver.cpp 1422-1424. *)
Definition jsize (j : json) : Z :=
  match j with JNull => 0 | JArr l => Z.of_nat (List.length l) | JObj l => Z.of_nat (List.length l) | _ => 1 end.
(** operator[](index) on a const value. Used in [readTags], driver.cpp 1422-1424. *)
Definition jidx (j : json) (i : Z) : res json := match j with JArr l => zget l i | _ => Throw end.
(** Range-based for: the elements visited. Used in [parseSGBC], driver.cpp 1412-1462. *)
Definition jelems (j : json) : list json :=
  match j with JNull => [] | JArr l => l | JObj l => map snd l | _ => [j] end.
(** Comparison with a string literal. Used in [jop], driver.cpp 680-693. *)
Definition jeqs (j : json) (s : string) : bool := match j with JStr t => String.eqb t s | _ => false end.
(** Conversion to double, to bool and to std::string: a type error on another type.
    Used in [buildSolverOptions], driver.cpp 644-705. *)
Definition jdouble (j : json) : res R := match j with JInt z => Ok (IZR z) | JReal r => Ok r | _ => Throw end.
(** Used in [buildSolverOptions], driver.cpp 644-705. *)
Definition jbool (j : json) : res bool := match j with JBool b => Ok b | _ => Throw end.
(** Used in [parseEnd], driver.cpp 1437-1444. *)
Definition jstring (j : json) : res string := match j with JStr s => Ok s | _ => Throw end.
(** Conversion to int and to size_t: booleans are accepted, integers wrap, floating numbers
    are truncated and their conversion is undefined out of range.
    Used in [buildSolverOptions], driver.cpp 644-705. *)
Definition wrap32 (z : Z) : Z := (z + 2147483648) mod 4294967296 - 2147483648.
(** Used in [buildSolverOptions], driver.cpp 644-705. *)
Definition jint (j : json) : res Z :=
  match j with
  | JBool b => Ok (if b then 1 else 0)
  | JInt z => Ok (wrap32 z)
  | JReal r => let z := Ztrunc r in if (-2147483648 <=? z) && (z <=? 2147483647) then Ok z else UB
  | _ => Throw
  end.
(** Used in [buildSolverOptions], driver.cpp 644-705. *)
Definition jsizet (j : json) : res Z :=
  match j with
  | JBool b => Ok (if b then 1 else 0)
  | JInt z => Ok (z mod 18446744073709551616)
  | JReal r => let z := Ztrunc r in if (0 <=? z) && (z <=? 18446744073709551615) then Ok z else UB
  | _ => Throw
  end.

(** ** Options *)
(** EvolutionOptions.h 7-11 *)
Inductive evop := OpMaxwell | OpGlobal | OpHesthaven.
(** SolverOptions.h 21-29 and EvolutionOptions.h 13-20 (is_sgbc_solver is never read from the
    case and left out). *)
Record sopts := mkSO { so_dt : R; so_tf : R; so_cfl : R; so_basis : Z; so_ode : Z;
                       so_op : evop; so_order : Z; so_alpha : R; so_spectral : bool; so_export : bool }.
(** mfem::BasisType::GaussLobatto is 1. Used in [buildSolverOptions], driver.cpp 644-705. *)
Definition defaultOptions : sopts := mkSO 0%R 2%R 1%R 1 0 OpGlobal 2 1%R false false.

(** The setters, SolverOptions.h 31-90. *)
Definition setUpwindAlpha (v : R) (o : sopts) := mkSO (so_dt o) (so_tf o) (so_cfl o) (so_basis o) (so_ode o) (so_op o) (so_order o) v (so_spectral o) (so_export o).
(** Used in [buildSolverOptions], driver.cpp 644-705. *)
Definition setOptTimeStep (v : R) (o : sopts) := mkSO v (so_tf o) (so_cfl o) (so_basis o) (so_ode o) (so_op o) (so_order o) (so_alpha o) (so_spectral o) (so_export o).
(** Used in [buildSolverOptions], driver.cpp 644-705. *)
Definition setOptFinalTime (v : R) (o : sopts) := mkSO (so_dt o) v (so_cfl o) (so_basis o) (so_ode o) (so_op o) (so_order o) (so_alpha o) (so_spectral o) (so_export o).
(** Used in [buildSolverOptions], driver.cpp 644-705. *)
Definition setCFL (v : R) (o : sopts) := mkSO (so_dt o) (so_tf o) v (so_basis o) (so_ode o) (so_op o) (so_order o) (so_alpha o) (so_spectral o) (so_export o).
(** Used in [buildSolverOptions], driver.cpp 644-705. *)
Definition setOrder (v : Z) (o : sopts) := mkSO (so_dt o) (so_tf o) (so_cfl o) (so_basis o) (so_ode o) (so_op o) v (so_alpha o) (so_spectral o) (so_export o).
(** Used in [buildSolverOptions], driver.cpp 644-705. *)
Definition setSpectralEO (v : bool) (o : sopts) := mkSO (so_dt o) (so_tf o) (so_cfl o) (so_basis o) (so_ode o) (so_op o) (so_order o) (so_alpha o) v (so_export o).
(** Used in [buildSolverOptions], driver.cpp 644-705. *)
Definition setExportEO (v : bool) (o : sopts) := mkSO (so_dt o) (so_tf o) (so_cfl o) (so_basis o) (so_ode o) (so_op o) (so_order o) (so_alpha o) (so_spectral o) v.
(** Used in [buildSolverOptions], driver.cpp 644-705. *)
Definition setEvolutionOperator (v : evop) (o : sopts) := mkSO (so_dt o) (so_tf o) (so_cfl o) (so_basis o) (so_ode o) v (so_order o) (so_alpha o) (so_spectral o) (so_export o).
(** Used in [buildSolverOptions], driver.cpp 644-705. *)
Definition setBasisType (v : Z) (o : sopts) := mkSO (so_dt o) (so_tf o) (so_cfl o) v (so_ode o) (so_op o) (so_order o) (so_alpha o) (so_spectral o) (so_export o).
(** Used in [buildSolverOptions], driver.cpp 644-705. *)
Definition setODEType (v : Z) (o : sopts) := mkSO (so_dt o) (so_tf o) (so_cfl o) (so_basis o) v (so_op o) (so_order o) (so_alpha o) (so_spectral o) (so_export o).

(** One block "if contains(key) then set(value)" of buildSolverOptions.
    Used in [buildSolverOptions], driver.cpp 644-705. *)
Definition readOption {A} (conv : json -> res A) (set : A -> sopts -> sopts) (so : json) (k : string) (o : sopts) : res sopts :=
  if contains so k then j <- jat so k ;; v <- conv j ;; Ok (set v o) else Ok o.
(** The choice of the operator, driver.cpp 680-693. *)
Definition jop (j : json) : res evop :=
  if jeqs j "maxwell" then Ok OpMaxwell
  else if jeqs j "global" then Ok OpGlobal
  else if jeqs j "hesthaven" then Ok OpHesthaven
  else Throw.
(** buildSolverOptions, driver.cpp 644-705. *)
Definition buildSolverOptions (c : json) : res sopts :=
  if contains c "solver_options" then
    so <- jat c "solver_options" ;;
    o <- readOption jdouble setUpwindAlpha so "upwind_alpha" defaultOptions ;;
    o <- readOption jdouble setOptTimeStep so "time_step" o ;;
    o <- readOption jdouble setOptFinalTime so "final_time" o ;;
    o <- readOption jdouble setCFL so "cfl" o ;;
    o <- readOption jint setOrder so "order" o ;;
    o <- readOption jbool setSpectralEO so "spectral" o ;;
    o <- readOption jbool setExportEO so "export_operator" o ;;
    o <- readOption jop setEvolutionOperator so "evolution_operator" o ;;
    o <- readOption jint setBasisType so "basis_type" o ;;
    readOption jsizet setODEType so "ode_type" o
  else Ok defaultOptions.

(** The options as the solver's constructor checks them, Solver.cpp 98-100 and 151-163. *)
Definition timeOptions (o : sopts) : options := mkOptions (so_order o) (so_dt o) (so_tf o) (so_cfl o).
(** Solver::assignODESolver, Solver.cpp 41-77: seven integrators, otherwise an error.  The
    result is the position in the enumeration ode_type (SolverOptions.h 8-18). *)
Definition assignODESolver (o : sopts) : res Z :=
  if (0 <=? so_ode o) && (so_ode o <=? 6) then Ok (so_ode o) else Throw.
(** What stands between the case file and a run: the options are read (driver.cpp 1650), and
    rank 0 checks them and picks the integrator in the constructor (Solver.cpp 98-100, 124). *)
Definition acceptOptions (c : json) : res sopts :=
  o <- buildSolverOptions c ;; _ <- checkOptionsAreValid (timeOptions o) ;; _ <- assignODESolver o ;; Ok o.

(** ** Thin layers *)
(** PhysicalConstants.h 8-17 *)
Definition speedOfLightSI : R := 299792458.
(** Used in [parseSGBCLayer], driver.cpp 1298-1410. *)
Definition vacuumPermittivitySI : R := (88541878188 / 10000000000 / 1000000000000)%R.
(** Used in [parseSGBCLayer], driver.cpp 1298-1410. *)
Definition vacuumPermeabilitySI : R := (4 * PI * / 10000000)%R.
(** Used in [parseSGBCLayer], driver.cpp 1298-1410. *)
Definition freeSpaceImpedanceSI : R := (vacuumPermeabilitySI * speedOfLightSI)%R.

(** SGBCLayer, Model.h 77-85: the layer of Geo_Model and its depth in skin depths. *)
Record slayer := mkSL { sl_layer : layer material; sl_nskin : R }.

(** A key with a default, driver.cpp 1299-1311. *)
Definition doubleOr (j : json) (k : string) (d : R) : res R :=
  if contains j k then v <- jat j k ;; jdouble v else Ok d.

(** Order by loss tangent, driver.cpp 1331-1343.  With a zero frequency the quotient of a positive
    conductivity is the infinite double, above every bound. *)
Definition autoOrder (f sigma eps_si : R) : Z :=
  let big := if Rlt_dec 0 sigma then if Req_EM_T f 0 then true else if Rlt_dec 100 (sigma / (f * eps_si)) then true else false else false in
  let small := if Rlt_dec 0 sigma then if Req_EM_T f 0 then false else if Rlt_dec (sigma / (f * eps_si)) (/ 10) then true else false else true in
  if big then 2
  else if small && (if Rlt_dec sigma (/ 1000) then true else false) then 4
  else 3.
(** driver.cpp 1348 *)
Definition wavelength (f mu_si eps_si : R) : R := (1 / (f * sqrt (mu_si * eps_si)))%R.
(** driver.cpp 1353-1357 *)
Definition skinDepth (f mu_si sigma : R) : R := (1 / sqrt (PI * f * mu_si * sigma))%R.
(** driver.cpp 1349-1359.  std::min keeps its first argument when the second is not a number, which is
    the case of the skin depth at a negative frequency. *)
Definition targetDx (f mu_si eps_si sigma : R) (order : Z) : R :=
  let wave := (wavelength f mu_si eps_si / IZR (Zceil (20 / IZR order)))%R in
  if Rlt_dec 0 sigma then if Rlt_dec 0 f then Rmin wave (skinDepth f mu_si sigma / 2) else wave else wave.
(** driver.cpp 1360-1362.  At a zero frequency the target is the infinite double and the quotient is 0. *)
Definition autoSegments (f mu_si eps_si sigma width : R) (order : Z) : res Z :=
  n <- (if Req_EM_T f 0 then Ok 0 else ceil_int (width / targetDx f mu_si eps_si sigma order)) ;;
  Ok (Z.min 1000 (Z.max 4 n)).
(** driver.cpp 1365-1370 *)
Definition sizeOr (j : json) (k : string) (d : Z) : res Z :=
  if contains j k then v <- jat j k ;; jsizet v else Ok d.
(** driver.cpp 1373-1375: skin_depth is the infinite double at a zero frequency and not a number at a
    negative one. *)
Definition nSkinDepths (f mu_si sigma width : R) : R :=
  if Rlt_dec 0 sigma then if Rlt_dec 0 f then (width / skinDepth f mu_si sigma)%R else 0%R else 0%R.

(** parseSGBCLayer, driver.cpp 1298-1410 (without the messages). *)
Definition parseSGBCLayer (max_freq : R) (j : json) : res slayer :=
  rel_eps <- doubleOr j "relative_permittivity" 1 ;;
  rel_mu <- doubleOr j "relative_permeability" 1 ;;
  if negb (contains j "bulk_conductivity") then Throw else
  js <- jat j "bulk_conductivity" ;;
  sigma <- jdouble js ;;
  mat <- newMaterial rel_eps rel_mu (sigma * freeSpaceImpedanceSI) ;;
  if negb (contains j "material_width") then Throw else
  jw <- jat j "material_width" ;;
  width <- jdouble jw ;;
  let mu_si := (rel_mu * vacuumPermeabilitySI)%R in
  let eps_si := (rel_eps * vacuumPermittivitySI)%R in
  let order := autoOrder max_freq sigma eps_si in
  segs <- autoSegments max_freq mu_si eps_si sigma width order ;;
  segs <- sizeOr j "num_of_segments" segs ;;
  order <- sizeOr j "order" order ;;
  Ok (mkSL (mkLayer mat width (Z.to_nat segs) (Z.to_nat order)) (nSkinDepths max_freq mu_si sigma width)).

(** SGBCBoundaryInfo, Types.h: the condition closing one end of the wall, if any.
    Used in [parseSGBC], driver.cpp 1412-1462. *)
Record sprops := mkSP { sp_tags : list Z; sp_layers : list slayer; sp_left : option cond; sp_right : option cond }.

(** assignBoundaryType, driver.cpp 1225-1240 *)
Definition assignBoundaryType (s : string) : res cond :=
  if String.eqb s "PEC" then Ok PEC
  else if String.eqb s "PMC" then Ok PMC
  else if String.eqb s "SMA" then Ok SMA
  else Throw.
(** One end, driver.cpp 1437-1444 *)
Definition parseEnd (src : json) (k : string) (cur : option cond) : res (option cond) :=
  if contains src k then j <- jat src k ;; s <- jstring j ;; c <- assignBoundaryType s ;; Ok (Some c) else Ok cur.
(** parseBoundaries, driver.cpp 1435-1446 *)
Definition parseBoundaries (src : json) (lr : option cond * option cond) : res (option cond * option cond) :=
  if contains src "sgbc_boundaries" then
    b <- jat src "sgbc_boundaries" ;;
    l <- parseEnd b "left" (fst lr) ;;
    r <- parseEnd b "right" (snd lr) ;;
    Ok (l, r)
  else Ok lr.
(** The tags of an entry: the loops driver.cpp 1422-1424 (size_t) and 1216-1218, 1558-1560 (int).
    Without "tags" the const operator[] asserts. *)
Definition readTags (conv : json -> res Z) (j : json) : res (list Z) :=
  ts <- jat j "tags" ;;
  foldM (fun acc t => v <- jidx ts t ;; z <- conv v ;; Ok (acc ++ [z])) (zseq (Z.to_nat (jsize ts))) [].
(** Used in [parseSGBC], driver.cpp 1412-1462. *)
Definition isOn (c : option cond) : bool := match c with Some _ => true | None => false end.
(** The body of the loop on boundaries, driver.cpp 1412-1462. *)
Definition parseSGBC (max_freq : R) (b : json) : res sprops :=
  tags <- readTags jsizet b ;;
  layers <- (if contains b "layers" then ls <- jat b "layers" ;; mapM (parseSGBCLayer max_freq) (jelems ls)
             else if contains b "material" then m <- jat b "material" ;; l <- parseSGBCLayer max_freq m ;; Ok [l]
             else Throw) ;;
  lr <- parseBoundaries b (None, None) ;;
  lr <- (if negb (isOn (fst lr)) && negb (isOn (snd lr)) && contains b "material"
         then m <- jat b "material" ;; parseBoundaries m lr else Ok lr) ;;
  Ok (mkSP tags layers (fst lr) (snd lr)).
(** "type" of a boundary compared with SGBC behind contains(): 1214, driver.cpp 1413. *)
Definition isSGBC (b : json) : res bool :=
  if contains b "type" then t <- jat b "type" ;; Ok (jeqs t "SGBC") else Ok false.
(** The loop driver.cpp 1412-1463. *)
Definition parseSGBCs (max_freq : R) (c : json) : res (list sprops) :=
  m <- jat c "model" ;;
  bs <- jat m "boundaries" ;;
  foldM (fun acc i => b <- jidx bs i ;; s <- isSGBC b ;;
           if s then p <- parseSGBC max_freq b ;; Ok (acc ++ [p]) else Ok acc)
        (zseq (Z.to_nat (jsize bs))) [].

(** ** Markers of the partition *)
(** What is used of the partition's mesh: the attribute of each of its boundary elements and
    bdr_attributes.Max(), taken by MFEM over all the ranks.
    Used in [presentMarker], driver.cpp 1562-1570. *)
Record pmesh := mkPM { pm_attrs : list Z; pm_max : Z }.
(** What is used of the model: whether it has an SMA boundary, and the two maps, each with at
    most one key in use. Used in [postProcessInformation], driver.cpp 1553-1601. *)
Record pmodel := mkPMd { pd_sma : bool; pd_tfsf : option (list Z); pd_sgbc : option (list Z) }.

(** The three nested loops, driver.cpp 1562-1570 and 1581-1589. *)
Definition presentMarker (pm : pmesh) (tags : list Z) : res (list Z) :=
  foldM (fun mk t => foldM (fun mk a => if a =? t then zset mk (a - 1) 1 else Ok mk) (pm_attrs pm) mk)
        tags (repeat 0 (Z.to_nat (pm_max pm))).
(** std::map::insert: nothing is done when the key is there.
    Used in [tfsfStep], driver.cpp 1555-1575. *)
Definition minsert (old : option (list Z)) (v : list Z) : option (list Z) := match old with Some o => Some o | None => Some v end.
(** Used in [tfsfStep], driver.cpp 1555-1575. *)
Definition zsum (l : list Z) : Z := fold_right Z.add 0 l.

(** Body of the first loop, driver.cpp 1555-1575. *)
Definition tfsfStep (pm : pmesh) (m : option (list Z)) (src : json) : res (option (list Z)) :=
  t1 <- jat src "type" ;;
  if jeqs t1 "planewave" || jeqs t1 "dipole" then
    tags <- readTags jint src ;;
    mk <- presentMarker pm tags ;;
    Ok (if zsum mk =? 0 then m else minsert m mk)
  else Ok m.
(** getSGBCTags, driver.cpp 1207-1223 *)
Definition getSGBCTags (c : json) : res (list Z) :=
  if negb (contains c "model") then Ok [] else
  m <- jat c "model" ;;
  if negb (contains m "boundaries") then Ok [] else
  bs <- jat m "boundaries" ;;
  foldM (fun acc i => b <- jidx bs i ;; s <- isSGBC b ;;
           if s then ts <- readTags jint b ;; Ok (acc ++ ts) else Ok acc)
        (zseq (Z.to_nat (jsize bs))) [].
(** Body of the second loop, driver.cpp 1577-1594. *)
Definition sgbcStep (c : json) (pm : pmesh) (m : option (list Z)) (b : json) : res (option (list Z)) :=
  tags <- getSGBCTags c ;;
  ty <- jat b "type" ;;
  if jeqs ty "SGBC" then
    mk <- presentMarker pm tags ;;
    Ok (if zsum mk =? 0 then m else minsert m mk)
  else Ok m.
(** postProcessInformation, driver.cpp 1553-1601 (SetAttributes at the end recomputes the attribute
    arrays of the mesh, MFEM). *)
Definition postProcessInformation (c : json) (pm : pmesh) (md : pmodel) (o : sopts) : res pmodel :=
  srcs <- jat c "sources" ;;
  tf <- foldM (fun m i => s <- jidx srcs i ;; tfsfStep pm m s) (zseq (Z.to_nat (jsize srcs))) (pd_tfsf md) ;;
  mo <- jat c "model" ;;
  bs <- jat mo "boundaries" ;;
  sg <- foldM (fun m i => b <- jidx bs i ;; sgbcStep c pm m b) (zseq (Z.to_nat (jsize bs))) (pd_sgbc md) ;;
  if pd_sma md && (if Req_EM_T (so_alpha o) 0 then true else false) && (match so_op o with OpHesthaven => true | _ => false end)
  then Throw
  else Ok (mkPMd (pd_sma md) tf sg).

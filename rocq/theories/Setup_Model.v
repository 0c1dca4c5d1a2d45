(** Model of how materials and boundary conditions of a case become the tables the solver
    uses: src/driver/driver.cpp 870-1053, src/components/Material.cpp and
    src/components/Model.cpp 53-241.

    The input file is taken after JSON parsing: each field is present or absent and has the
    right type.  [double] is R. *)
From Coq Require Import String ZArith List Bool Reals.
From Verif Require Import Common.
Import ListNotations.
Local Open Scope Z_scope.

(** ** std::map, as the list of its pairs in increasing order of key.
    Used in [splitConds], driver.cpp 1041-1050. *)
Fixpoint mfind {A} (k : Z) (m : list (Z * A)) : option A :=
  match m with
  | [] => None
  | (k', a) :: t => if k =? k' then Some a else mfind k t
  end.
(** emplace / insert: no effect when the key is present.
    Used in [loadMaterials], driver.cpp 953-969. *)
Fixpoint memplace {A} (k : Z) (a : A) (m : list (Z * A)) : list (Z * A) :=
  match m with
  | [] => [(k, a)]
  | (k', a') :: t => if k =? k' then m else if k <? k' then (k, a) :: m else (k', a') :: memplace k a t
  end.
(** m[k] = a. Used in [loadConds], driver.cpp 1010-1053. *)
Fixpoint massign {A} (k : Z) (a : A) (m : list (Z * A)) : list (Z * A) :=
  match m with
  | [] => [(k, a)]
  | (k', a') :: t => if k =? k' then (k, a) :: t else if k <? k' then (k, a) :: m else (k', a') :: massign k a t
  end.

(** ** Material.cpp. Used in [newMaterial], Material.cpp 5-16. *)
Record material := mkMat { m_eps : R; m_mu : R; m_sigma : R }.
(** verifyParameters Material.cpp 5-16 and the constructor 18-24. *)
Definition newMaterial (eps mu sigma : R) : res material :=
  if Rlt_dec eps 1 then Throw
  else if Rlt_dec mu 1 then Throw
  else if Rlt_dec sigma 0 then Throw
  else Ok (mkMat eps mu sigma).
(** buildVacuumMaterial, Material.cpp 26-29 *)
Definition buildVacuumMaterial : res material := newMaterial 1 1 0.
(** Material.cpp 31-39, 41-49, 51-59 *)
Definition getImpedance (m : material) : res R := if Req_EM_T (m_sigma m) 0 then Ok (sqrt (m_mu m / m_eps m)) else Throw.
(** Material.cpp 41-49. *)
Definition getAdmittance (m : material) : res R := if Req_EM_T (m_sigma m) 0 then Ok (sqrt (m_eps m / m_mu m)) else Throw.
(** Material.cpp 51-59. *)
Definition getSpeedOfWave (m : material) : res R := if Req_EM_T (m_sigma m) 0 then Ok (1 / sqrt (m_mu m * m_eps m))%R else Throw.

(** ** Input *)
(** relative_permittivity, relative_permeability, bulk_conductivity of an entry.
    Used in [readMaterial], driver.cpp 957-966. *)
Record matIn := mkMatIn { i_eps : option R; i_mu : option R; i_sigma : option R }.
(** Used in [loadMaterials], driver.cpp 953-969. *)
Record matEntry := mkME { me_tags : list Z; me_mat : matIn }.
(** Used in [loadBdrMaterials], driver.cpp 971-985. *)
Record bdrEntry := mkBE { be_tags : option (list Z); be_type : option string; be_mat : option matIn }.

(** What is used of the mesh: [attributes], [bdr_attributes], the attribute of each boundary
    element, the boundary element of each face (-1 if none) and whether the face is interior.
    Used in [checkIfAttributesArePresent], driver.cpp 926-944. *)
Record smesh := mkSM { sm_attrs : list Z; sm_battrs : list Z; sm_bdrAttr : list Z; sm_f2b : list Z; sm_inter : list bool }.

(** Used in [assignBdrCond], driver.cpp 870-887. *)
Inductive cond := PEC | PMC | SMA | SurfaceCond | NearToFarField | TotalFieldIn | SGBC.
(** Used in [buildInteriorIgnoreMarker], DGOperatorFactory.h 373-389. *)
Definition cond_eqb (a b : cond) : bool :=
  match a, b with
  | PEC, PEC | PMC, PMC | SMA, SMA | SurfaceCond, SurfaceCond | NearToFarField, NearToFarField | TotalFieldIn, TotalFieldIn | SGBC, SGBC => true
  | _, _ => false
  end.

Section Driver.
Variable Z0 : R.     (* freeSpaceImpedance_SI *)

(** The defaults of driver.cpp 957-966 and 976-985. *)
Definition readMaterial (i : matIn) : res material :=
  let eps := match i_eps i with Some v => v | None => 1%R end in
  let mu := match i_mu i with Some v => v | None => 1%R end in
  let sigma := match i_sigma i with Some v => (v * Z0)%R | None => 0%R end in
  newMaterial eps mu sigma.

(** First loop of assembleAttributeToMaterial, driver.cpp 953-969. *)
Definition loadMaterials (ms : list matEntry) : res (list (Z * material)) :=
  foldM (fun m e => foldM (fun m t => mat <- readMaterial (me_mat e) ;; Ok (memplace t mat m)) (me_tags e) m) ms [].

(** Second loop, driver.cpp 971-985: a missing "tags" has size 0. *)
Definition loadBdrMaterials (bs : list bdrEntry) : res (list (Z * material)) :=
  foldM (fun m e =>
    foldM (fun m t => match be_mat e with
                      | Some i => mat <- readMaterial i ;; Ok (memplace t mat m)
                      | None => Ok m
                      end) (match be_tags e with Some l => l | None => [] end) m) bs [].

(** checkIfAttributesArePresent, driver.cpp 926-944. *)
Definition checkIfAttributesArePresent (sm : smesh) (gt2m gt2bm : list (Z * material)) : res unit :=
  if forallb (fun p => existsb (Z.eqb (fst p)) (sm_attrs sm)) gt2m
  then if forallb (fun p => existsb (Z.eqb (fst p)) (sm_battrs sm)) gt2bm then Ok tt else Throw
  else Throw.

(** assembleAttributeToMaterial, driver.cpp 946-990; the presence of "model" and "materials" is assumed. *)
Definition assembleAttributeToMaterial (ms : list matEntry) (bs : list bdrEntry) (sm : smesh) : res (list (Z * material) * list (Z * material)) :=
  a <- loadMaterials ms ;; b <- loadBdrMaterials bs ;;
  _ <- checkIfAttributesArePresent sm a b ;; Ok (a, b).

End Driver.

(** assignBdrCond, driver.cpp 870-887. *)
Definition assignBdrCond (s : string) : res cond :=
  if String.eqb s "PEC" then Ok PEC
  else if String.eqb s "PMC" then Ok PMC
  else if String.eqb s "SMA" then Ok SMA
  else if String.eqb s "SGBC" then Ok SGBC
  else Throw.

(** checkBoundaryInputProperties, driver.cpp 992-1008. *)
Definition checkBoundaryInputProperties (bs : list bdrEntry) : res unit :=
  foldM (fun _ e => match be_tags e with
                    | None => Throw
                    | Some [] => Throw
                    | Some _ => match be_type e with None => Throw | Some _ => Ok tt end
                    end) bs tt.

(** The loop over faces, driver.cpp 1028-1036, which stops at the first interior face with the tag. *)
Fixpoint tagOnInterior (sm : smesh) (tag : Z) (fs : list (Z * bool)) : res bool :=
  match fs with
  | [] => Ok false
  | (b, inter) :: t =>
      if b =? -1 then tagOnInterior sm tag t
      else att <- zget (sm_bdrAttr sm) b ;;
           if (att =? tag) && inter then Ok true else tagOnInterior sm tag t
  end.

(** assembleAttributeToBoundary, driver.cpp 1010-1053.  Simplified: the two local maps are built in the
    same loop, as one pair. *)
Definition loadConds (sm : smesh) (bs : list bdrEntry) : res (list (Z * cond) * list (Z * bool)) :=
  foldM (fun st e => match be_tags e, be_type e with
    | Some tags, Some ty =>
      foldM (fun st tag =>
        c <- assignBdrCond ty ;;
        i <- tagOnInterior sm tag (combine (sm_f2b sm) (sm_inter sm)) ;;
        let ints := memplace tag false (snd st) in
        Ok (memplace tag c (fst st), if (i : bool) then massign tag true ints else ints)) tags st
    | _, _ => Throw
    end) bs ([], []).

(** The final loop, driver.cpp 1041-1050; [operator[]] of a missing key gives the first condition, PEC. *)
Definition splitConds (cs : list (Z * cond)) (is : list (Z * bool)) : list (Z * cond) * list (Z * cond) :=
  fold_left (fun r p =>
    let c := match mfind (fst p) cs with Some c => c | None => PEC end in
    if (snd p : bool) then (fst r, memplace (fst p) c (snd r)) else (memplace (fst p) c (fst r), snd r)) is ([], []).

(** driver.cpp 1010-1053. *)
Definition assembleAttributeToBoundary (bs : list bdrEntry) (sm : smesh) : res (list (Z * cond) * list (Z * cond)) :=
  _ <- checkBoundaryInputProperties bs ;;
  st <- loadConds sm bs ;;
  Ok (splitConds (fst st) (snd st)).

(** ** Model.cpp *)
(** mfem::Array<int>. Used in [getMarker], Model.cpp 200-241. *)
Definition marker := list Z.
(** The markers kept by the model: pecMarker_, pmcMarker_, smaMarker_, sgbc_Marker_, the
    interior ones, and tfsfMarker_, which serves both. Used in [getMarker], Model.cpp 200-241. *)
Record markers := mkMk { k_pec : marker; k_pmc : marker; k_sma : marker; k_sgbc : marker;
                         k_ipec : marker; k_ipmc : marker; k_isma : marker; k_isgbc : marker; k_tfsf : marker }.
(** Used in [spectralCoefficient], Solver.cpp 730. *)
Definition noMarkers : markers := mkMk [] [] [] [] [] [] [] [] [].

(** getMarker, Model.cpp 200-241. *)
Definition getMarker (mk : markers) (c : cond) (isInterior : bool) : res marker :=
  match c with
  | PEC => Ok (if isInterior then k_ipec mk else k_pec mk)
  | PMC => Ok (if isInterior then k_ipmc mk else k_pmc mk)
  | SMA => Ok (if isInterior then k_isma mk else k_sma mk)
  | TotalFieldIn => Ok (k_tfsf mk)
  | SGBC => Ok (if isInterior then k_isgbc mk else k_sgbc mk)
  | _ => Throw
  end.
(** Assignment through the reference getMarker returns.
    Used in [assembleGeomTagToTypeMap], Model.cpp 180-198. *)
Definition setMarker (mk : markers) (c : cond) (isInterior : bool) (v : marker) : markers :=
  let '(mkMk a b d e a' b' d' e' t) := mk in
  match c, isInterior with
  | PEC, false => mkMk v b d e a' b' d' e' t
  | PMC, false => mkMk a v d e a' b' d' e' t
  | SMA, false => mkMk a b v e a' b' d' e' t
  | SGBC, false => mkMk a b d v a' b' d' e' t
  | PEC, true => mkMk a b d e v b' d' e' t
  | PMC, true => mkMk a b d e a' v d' e' t
  | SMA, true => mkMk a b d e a' b' v e' t
  | SGBC, true => mkMk a b d e a' b' d' v t
  | TotalFieldIn, _ => mkMk a b d e a' b' d' e' v
  | _, _ => mk
  end.

(** Array<int>::Max, undefined on an empty array.
    Used in [assembleGeomTagToTypeMap], Model.cpp 180-198. *)
Definition arrayMax (l : list Z) : res Z :=
  match l with [] => UB | a :: t => Ok (fold_left Z.max t a) end.
(** initMarker, Model.cpp 174-178; SetSize of a negative number is undefined. *)
Definition initMarker (size : Z) : res marker := if size <? 0 then UB else Ok (repeat 0 (Z.to_nat size)).

(** assembleGeomTagToTypeMap, Model.cpp 180-198. *)
Definition assembleGeomTagToTypeMap (battrs : list Z) (gt : list (Z * cond)) (isInterior : bool) (mk : markers) : res markers :=
  foldM (fun mk p =>
    let (tag, c) := (p : Z * cond) in
    if tag <=? 0 then Throw else
    m0 <- getMarker mk c isInterior ;;
    m1 <- (if (length m0 =? 0)%nat then s <- arrayMax battrs ;; initMarker s else Ok m0) ;;
    m2 <- zset m1 (tag - 1) 1 ;;
    Ok (setMarker mk c isInterior m2)) gt mk.

(** assembleBdrToMarkerMaps, Model.cpp 102-119: maps from condition to marker, in the order of the
    enumeration. *)
Definition keepNonEmpty (l : list (cond * marker)) : list (cond * marker) :=
  filter (fun p => negb (length (snd p) =? 0)%nat) l.
(** Model.cpp 102-119. *)
Definition bdrToMarkerMap (mk : markers) : list (cond * marker) :=
  keepNonEmpty [(PEC, k_pec mk); (PMC, k_pmc mk); (SMA, k_sma mk); (SGBC, k_sgbc mk)].
(** Model.cpp 102-119. *)
Definition intBdrToMarkerMap (mk : markers) : list (cond * marker) :=
  keepNonEmpty [(PEC, k_ipec mk); (PMC, k_ipmc mk); (SMA, k_isma mk); (SGBC, k_isgbc mk)].

(** The constructor, Model.cpp 53-100, as far as materials and markers go.  [battrs] are the boundary
    attributes of the partitioned mesh. *)
Record mdl := mkMdl { md_mat : list (Z * material); md_bdr : list (Z * cond); md_int : list (Z * cond); md_mk : markers }.
(** Used in [spectralCoefficient], Solver.cpp 730. *)
Definition newModel (gt2m : list (Z * material)) (gt2b gt2ib : list (Z * cond)) (battrs : list Z) : res mdl :=
  mats <- (match gt2m with [] => v <- buildVacuumMaterial ;; Ok [(1, v)] | _ => Ok gt2m end) ;;
  mk1 <- assembleGeomTagToTypeMap battrs gt2b false noMarkers ;;
  mk2 <- assembleGeomTagToTypeMap battrs gt2ib true mk1 ;;
  Ok (mkMdl mats gt2b gt2ib mk2).

(** initialiseGeomTagVector, Model.cpp 131-143.  Simplified: the assertion on the size is not part of a
    release build. *)
Definition geomTagSize (mats : list (Z * material)) : Z :=
  fold_left (fun size p => if size <=? fst p then fst p else size) mats 0.
(** Used in [fillVector], Model.h 145-161. *)
Definition initialiseGeomTagVector (mats : list (Z * material)) : list R := repeat 0%R (Z.to_nat (geomTagSize mats)).

(** buildEpsMuPiecewiseVector, Model.h 145-161, and buildSigmaPiecewiseVector, 163-172. *)
Definition fillVector (get : material -> R) (mats : list (Z * material)) : res (list R) :=
  foldM (fun v p => zset v (fst p - 1) (get (snd p))) mats (initialiseGeomTagVector mats).
(** Used in [spectralCoefficient], Solver.cpp 730. *)
Definition buildEpsMuPiecewiseVector (isE : bool) (mats : list (Z * material)) : res (list R) :=
  fillVector (if isE then m_eps else m_mu) mats.
(** Model.h 163-172. *)
Definition buildSigmaPiecewiseVector (mats : list (Z * material)) : res (list R) := fillVector m_sigma mats.

(** PWConstCoefficient::Eval of MFEM: constants(attribute - 1).
    Used in [spectralCoefficient], Solver.cpp 730. *)
Definition pwEval (v : list R) (attr : Z) : res R := zget v (attr - 1).

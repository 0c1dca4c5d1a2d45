(** The solver made for a thin layer: SolverExtension.cpp 29-47, 121-167, 444-558 (the mesh is
    in Geo_Model, the use of the solver in Evol_Model). *)
From Coq Require Import String List ZArith Reals Bool.
From Verif Require Import Common Setup_Model Geo_Model Time_Model Input_Model.
Import ListNotations.
Open Scope Z_scope.

(** SGBCBoundaries, Model.h 69-75: the condition at each end of the wall that is on. *)
Definition ends : Type := option cond * option cond.
(** buildIntBdrInfo, SolverExtension.cpp 29-39 *)
Definition buildIntBdrInfo (e : ends) : list (Z * cond) :=
  match fst e with Some c => [(3, c)] | None => [] end ++ match snd e with Some c => [(4, c)] | None => [] end.
(** buildBdrInfo, SolverExtension.cpp 41-47 *)
Definition buildBdrInfo : list (Z * cond) := [(1, SMA); (2, SMA)].
(** buildSGBCModel, SolverExtension.cpp 121-137; the attributes of the boundary points are 1 to 4 (Geo_Model,
    wallBoundary). *)
Definition buildSGBCModel (ls : list (layer material)) (e : ends) : res mdl :=
  vacuum <- buildVacuumMaterial ;;
  newModel (map (fun p => (Z.of_nat (fst p), snd p)) (wallMaterials vacuum ls)) buildBdrInfo (buildIntBdrInfo e)
           (map (fun p => Z.of_nat (snd p)) (wallBoundary ls (ghosts ls))).
(** buildSGBCSolverOptions, SolverExtension.cpp 160-167; SDIRK33 is 4 in ode_type. *)
Definition buildSGBCSolverOptions (ls : list (layer material)) : sopts :=
  setODEType 4 (setUpwindAlpha 1%R (setOrder (Z.of_nat (maxOrder ls)) defaultOptions)).

(** The width of a cell of a layer, SolverExtension.cpp 452, 520.  A layer without cells gives an infinite or
    undefined double: None. *)
Definition cellWidth (l : layer material) : option R :=
  match l_segs l with O => None | S _ => Some (l_width l / INR (l_segs l))%R end.
(** The step of one layer, in seconds, SolverExtension.cpp 517-533. *)
Definition layerStep (L : slayer) : option R :=
  option_map (fun dx =>
    let m := l_mat (sl_layer L) in
    let crossing := (dx * sqrt (m_eps m * m_mu m) / speedOfLightSI)%R in
    let dt := (crossing * (1 / 2))%R in
    if Rlt_dec 3 (sl_nskin L) then (dt * Rmin (sl_nskin L * sl_nskin L) 50)%R else dt) (cellWidth (sl_layer L)).
(** std::numeric_limits<double>::max(). Used in [recommendedStep], SolverExtension.cpp 514-539. *)
Definition maxDouble : R := ((2 - / 2^52) * 2^1023)%R.
(** The step over all layers, SolverExtension.cpp 514-539, in the solver's unit of time.  Simplified: a layer
    without cells leaves it as it is, also with a negative width, where the quotient is the
    negative infinite double; without layers the product overflows. *)
Definition recommendedStep (Ls : list slayer) : R :=
  (fold_left (fun r L => match layerStep L with Some dt => Rmin r dt | None => r end) Ls maxDouble * speedOfLightSI)%R.

(** The message about a layer, SolverExtension.cpp 467-481 *)
Inductive verdict := Excellent | WellResolved | Coarse | SeverelyCoarse.
(** checkSkinDepthResolution, SolverExtension.cpp 444-485: the index and the verdict of each conducting layer.
    A cell of width zero resolves every frequency and one of infinite width none. *)
Definition layerVerdict (l : layer material) : verdict :=
  match cellWidth l with
  | None => SeverelyCoarse
  | Some dx =>
    if Req_EM_T dx 0 then Excellent
    else
      let mu_si := (m_mu (l_mat l) * vacuumPermeabilitySI)%R in
      let sigma_si := (m_sigma (l_mat l) / freeSpaceImpedanceSI)%R in
      let f_max := (1 / (PI * mu_si * sigma_si * dx * dx))%R in
      if Rlt_dec (10 ^ 10) f_max then Excellent
      else if Rlt_dec (10 ^ 9) f_max then WellResolved
      else if Rlt_dec (10 ^ 6) f_max then Coarse
      else SeverelyCoarse
  end.
(** Used in [newWall], SolverExtension.cpp 487-558. *)
Fixpoint checkResolution (i : nat) (ls : list (layer material)) : list (nat * verdict) :=
  match ls with
  | [] => []
  | l :: r => (if Rle_dec (m_sigma (l_mat l)) 0 then [] else [(S i, layerVerdict l)]) ++ checkResolution (S i) r
  end.

(** SGBCWrapper, SolverExtension.h: what the constructor leaves.
    Used in [newWall], SolverExtension.cpp 487-558. *)
Record wall := mkWall { wl_props : sprops; wl_vertices : list R; wl_attrs : list nat; wl_model : mdl; wl_opts : sopts; wl_rec : R }.
(** The constructor, SolverExtension.cpp 487-558.  [checked] is the function's static variable; the result has the
    messages printed and its new value.  The messages read layers[0]. *)
Definition newWall (checked : bool) (p : sprops) (e : ends) : res (wall * list (nat * verdict) * bool) :=
  let ls := map sl_layer (sp_layers p) in
  let g := ghosts ls in
  attrs <- wallAttributes ls g ;;
  m <- buildSGBCModel ls e ;;
  let o := buildSGBCSolverOptions ls in
  _ <- checkOptionsAreValid (timeOptions o) ;;
  _ <- assignODESolver o ;;
  let w := mkWall p (wallVertices ls g) attrs m o (recommendedStep (sp_layers p)) in
  if checked then Ok (w, [], true)
  else match ls with [] => UB | _ => Ok (w, checkResolution 0 ls, true) end.
(** buildSGBCWrapper, SolverExtension.cpp 139-143 *)
Definition buildWall (checked : bool) (p : sprops) := newWall checked p (sp_left p, sp_right p).
(** buildSGBCWrapperWithPEC, SolverExtension.cpp 145-153 *)
Definition buildWallWithPEC (checked : bool) (p : sprops) := newWall checked p (Some PEC, Some PEC).
(** clone, SolverExtension.cpp 155-158 *)
Definition cloneWall (checked : bool) (w : wall) := buildWall checked (wl_props w).
(** The walls of a process, one after the other (GlobalEvolution.cpp 202-240). *)
Definition buildWalls (checked : bool) (ps : list sprops) : res (list wall * list (list (nat * verdict)) * bool) :=
  foldM (fun st p => ' (w, msg, c) <- buildWall (snd st) p ;; Ok (fst (fst st) ++ [w], snd (fst st) ++ [msg], c)) ps ([], [], checked).

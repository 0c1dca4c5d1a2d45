(** Model of the files a run writes: src/solver/ProbesManager.cpp 11-41, 95-127, 184-309, 344-529,
    557-576, 609-658, src/components/RCSSurfaceExporter.cpp 10-69, 140-164 and
    src/components/Probes.h 35-73.

    The file system is a map from paths to directories and files; a file is a list of lines.
    Each rank turns its calls into a list of file system operations and barriers; the operations
    of different ranks interleave in any order between barriers.

    Not modelled: how numbers are printed; buffering (a row is in the file when it is written, in
    the code when the stream is flushed, at the latest when it is destroyed); names with
    slashes or dots as components; the files of the ParaView exporter, which lie in
    Exports/ParaView.  The stream of a point or field probe stays open between rows; here each row
    opens the file in append mode. *)
From Coq Require Import String ZArith List Bool Reals Decimal DecimalString.
From Verif Require Import Common Probe_Model.
Import ListNotations.
Local Open Scope string_scope.
Local Open Scope list_scope.
Local Open Scope Z_scope.

(** A path relative to the working directory, as components. Used in [exec], ProbesManager.cpp 184-260. *)
Definition path := list string.

(** The six field components, in the order of the loops over E, H and X, Y, Z.
    Used in [polString], ProbesManager.cpp 43-63. *)
Inductive comp := Ex | Ey | Ez | Hx | Hy | Hz.
(** ProbesManager.cpp 389-394, RCSSurfaceExporter.cpp 145-151. *)
Definition comps : list comp := [Ex; Ey; Ez; Hx; Hy; Hz].
(** getFieldPolString, ProbesManager.cpp 43-63. *)
Definition polString (c : comp) : string :=
  match c with Ex => "Ex" | Ey => "Ey" | Ez => "Ez" | Hx => "Hx" | Hy => "Hy" | Hz => "Hz" end.

(** What is written to files; numbers stay numbers.
    ProbesManager.cpp 211-215, 249-253, 369, 405-407, 453, 495, 644-648; Solver.cpp 138-143, 420-440
    (a label and a number, or no number for NaN). *)
Inductive line :=
| LProbe (kind : string) (id : nat)
| LTitle
| LPos (x y z : R)
| LColumns (names : list string)
| LRow (t : R) (values : list R)
| LTime (t : R)
| LCount (n : nat)
| LValues (v : list R)
| LMesh (tags : list Z) (rank : nat)
| LGeometry (tags : list Z) (rank : nat)
| LStat (label : string) (value : option R).

(** Directory entries. Used in [exec], ProbesManager.cpp 184-260. *)
Inductive node := Dir | File (l : list line).
(** Used in [exec], ProbesManager.cpp 184-260. *)
Definition fs := path -> option node.

(** Used in [exec], ProbesManager.cpp 184-260. *)
Definition path_eq : forall p q : path, {p = q} + {p <> q} := list_eq_dec string_dec.
(** [p] is [q] or a directory above it. Used in [exec], ProbesManager.cpp 191-194. *)
Fixpoint prefixb (p q : path) : bool :=
  match p, q with
  | [], _ => true
  | _, [] => false
  | a :: p', b :: q' => if string_dec a b then prefixb p' q' else false
  end.
(** Used in [exec], ProbesManager.cpp 209, 365. *)
Definition isDir (s : fs) (p : path) : bool :=
  match p with [] => true | _ => match s p with Some Dir => true | _ => false end end.
(** Used in [mkdirs], ProbesManager.cpp 194. *)
Fixpoint prefixes (p : path) : list path :=
  match p with [] => [[]] | a :: r => [] :: map (cons a) (prefixes r) end.

(** The operations: create_directories, remove_all behind exists, opening with truncation
    followed by writing and closing, appending, MPI_Barrier.
    ProbesManager.cpp 191-197, 209-217, 365-369. *)
Inductive op :=
| OMkdirs (p : path)
| ORemove (p : path)
| OTrunc (p : path) (l : list line)
| OAppend (p : path) (l : list line)
| OBarrier.

(** Used in [exec], ProbesManager.cpp 209-217. *)
Definition setNode (s : fs) (p : path) (n : node) : fs := fun q => if path_eq q p then Some n else s q.
(** std::filesystem::create_directories throws when a component is a file.
    ProbesManager.cpp 194, 231, 293, 476. *)
Definition mkdirs (s : fs) (p : path) : res fs :=
  if existsb (fun q => match s q with Some (File _) => true | _ => false end) (prefixes p) then Throw
  else Ok (fun q => if prefixb q p then Some Dir else s q).
(** One operation.  A file is opened only in an existing directory and under a name that is not
    a directory; otherwise the code skips the writing ([is_open]).
    ProbesManager.cpp 191-195, 209-217, 363-370, 641-650. *)
Definition exec (o : op) (s : fs) : res fs :=
  match o with
  | OMkdirs p => mkdirs s p
  | ORemove p => Ok (fun q => if prefixb p q then None else s q)
  | OTrunc p l =>
      if isDir s (removelast p) then
        match s p with Some Dir => Ok s | _ => Ok (setNode s p (File l)) end
      else Ok s
  | OAppend p l =>
      if isDir s (removelast p) then
        match s p with
        | Some Dir => Ok s
        | Some (File old) => Ok (setNode s p (File (old ++ l)))
        | None => Ok (setNode s p (File l))
        end
      else Ok s
  | OBarrier => Ok s
  end.

(** The ranks: the file system and what each rank still has to do.
    Used in [step], ProbesManager.cpp 197, 234, 479, 628. *)
Record world := mkWorld { w_fs : fs; w_todo : list (list op) }.
(** Any rank may do its next operation; a barrier is passed by all ranks together.
    MPI_Barrier in ProbesManager.cpp 197, 234, 295, 479, 628. *)
Inductive step : world -> world -> Prop :=
| step_op : forall s s' todo r o rest,
    nth_error todo r = Some (o :: rest) -> o <> OBarrier -> exec o s = Ok s' ->
    step (mkWorld s todo) (mkWorld s' (upd todo r rest))
| step_barrier : forall s todo rest,
    todo <> [] -> todo = map (cons OBarrier) rest ->
    step (mkWorld s todo) (mkWorld s rest).
(** Used in [ends], Solver.cpp 127-129. *)
Inductive steps : world -> world -> Prop :=
| steps_refl : forall w, steps w w
| steps_next : forall w w' w'', step w w' -> steps w' w'' -> steps w w''.
(** Every rank has done all its operations, Solver.cpp 127-129, 550. *)
Definition ends (s : fs) (todo : list (list op)) (s' : fs) : Prop :=
  exists done, steps (mkWorld s todo) (mkWorld s' done) /\ Forall (fun p => p = []) done.

(** std::to_string of a number, ProbesManager.cpp 29, 204, 241, 297. *)
Definition to_string (n : nat) : string := NilZero.string_of_uint (Nat.to_uint n).
(** Used in [to_padded_string], ProbesManager.cpp 450, 489. *)
Fixpoint zeros (n : nat) : string := match n with O => "" | S k => ("0" ++ zeros k)%string end.
(** mfem::to_padded_string, general/text.hpp, as called in ProbesManager.cpp 450, 489. *)
Definition to_padded_string (n digits : nat) : string :=
  (zeros (digits - String.length (to_string n)) ++ to_string n)%string.

(** Point probes, Probes.h 132-159: the identifier is indeterminate until setProbeID is called;
    [pp_element r] is the element FindPoints returns on rank [r] (ProbesManager.cpp 162-171). *)
Record pointProbe := mkPoint { pp_id : option nat; pp_point : list R; pp_steps : Z; pp_write : bool; pp_element : nat -> Z }.
(** Field probes, Probes.h 75-130, with the element of ProbesManager.cpp 262-271. *)
Record fieldProbe := mkField { fp_id : option nat; fp_comp : comp; fp_point : list R; fp_steps : Z; fp_write : bool; fp_element : nat -> Z }.
(** NearFieldProbe, Probes.h 14-20. *)
Record nearProbe := mkNear { np_name : string; np_steps : Z; np_tags : list Z }.
(** DomainSnapshotProbe, Probes.h 29-33; its name is not used in any path. *)
Record snapProbe := mkSnap { dp_steps : Z }.
(** RCSSurfaceProbe, Probes.h 22-27. *)
Record surfProbe := mkSurf { sp_name : string; sp_steps : Z; sp_tags : list Z }.
(** MORStateProbe, Probes.h 161-166, with its window in Probe_Model. *)
Record morProbe := mkMorProbe { mp_name : string; mp_window : morprobe }.

(** Probes, Probes.h 168-176, without the ParaView exporters. *)
Record probes := mkProbes {
  pr_point : list pointProbe; pr_field : list fieldProbe; pr_near : list nearProbe;
  pr_snap : list snapProbe; pr_surf : list surfProbe; pr_mor : list morProbe }.

(** The run: backend, number of ranks, which ranks are the first of their node, components of the
    mesh name (driver.cpp 1285-1288, Solver.cpp 127), final time.
    Used in [rankProgram], ProbesManager.cpp 11-41, 95-127. *)
Record env := mkEnv { e_cuda : bool; e_ranks : nat; e_root : nat -> bool; e_case : path; e_final : R }.

(** getRunModeTag, ProbesManager.cpp 23-41 and driver.cpp 1604-1622. *)
Definition runModeTag (e : env) : string :=
  if e_cuda e then ("cuda-" ++ to_string (e_ranks e))%string
  else if Nat.eqb (e_ranks e) 1 then "single-core" else ("mpi-" ++ to_string (e_ranks e))%string.
(** "Exports/" + getRunModeTag() + "/" + caseName_ + "/" + kind,
    ProbesManager.cpp 187, 224, 291, 364, 400, 436, 469, 623, RCSSurfaceExporter.cpp 32. *)
Definition exportDir (e : env) (case : path) (kind : string) : path :=
  ["Exports"; runModeTag e] ++ case ++ [kind].
(** ProbesManager.cpp 204, 400. *)
Definition pointFile (e : env) (id : nat) : path :=
  exportDir e (e_case e) "PointProbes" ++ [("PointProbe" ++ to_string id ++ ".dat")%string].
(** ProbesManager.cpp 241, 364. *)
Definition fieldFile (e : env) (id : nat) : path :=
  exportDir e (e_case e) "FieldProbes" ++ [("FieldProbe" ++ to_string id ++ ".dat")%string].
(** ProbesManager.cpp 291-297, 436. *)
Definition nearDir (e : env) (case : path) (name : string) (r : nat) : path :=
  exportDir e case "NearToFarFieldProbes" ++ [name; ("rank" ++ to_string r)%string].
(** The directory of one snapshot, mfem DataCollection::Save and ProbesManager.cpp 450. *)
Definition nearSnapshot (e : env) (name : string) (r cycle : nat) : path :=
  nearDir e (e_case e) name r ++ [(name ++ "_" ++ to_padded_string cycle 6)%string].
(** ProbesManager.cpp 469. *)
Definition snapDir (e : env) : path := exportDir e (e_case e) "DomainSnapshotProbes".
(** ProbesManager.cpp 484-489. *)
Definition snapFolder (e : env) (r cycle : nat) : path :=
  snapDir e ++ [("rank_" ++ to_string r)%string; ("cycle_" ++ to_padded_string cycle 6)%string].
(** RCSSurfaceExporter.cpp 32-34. *)
Definition surfDir (e : env) (name : string) (r : nat) : path :=
  exportDir e (e_case e) "RCSSurface" ++ [name; ("rank" ++ to_string r)%string].
(** ProbesManager.cpp 623. *)
Definition morDir (e : env) (name : string) : path := exportDir e (e_case e) "MORStateProbes" ++ [name].
(** ProbesManager.cpp 639. *)
Definition morFile (e : env) (name : string) (k : nat) : path := morDir e name ++ [("x_" ++ to_string k)%string].

(** physicalConstants::speedOfLight_SI, math/PhysicalConstants.h, used in ProbesManager.cpp 369, 405. *)
Definition speedOfLight_SI : R := 299792458%R.

(** [cycle_ == 0 && isNodeRoot()] guards removing and creating; then all wait.
    ProbesManager.cpp 189-197, 226-234, 471-479. *)
Definition renew (e : env) (r : nat) (base : path) (more : list path) : list op :=
  (if e_root e r then ORemove base :: map OMkdirs (base :: more) else []) ++ [OBarrier].

(** [position], ProbesManager.cpp 205-208, 242-246: writing past its three entries is undefined. *)
Definition position (p : list R) : res line :=
  match p with
  | [] => Ok (LPos 0 0 0)
  | [x] => Ok (LPos x 0 0)
  | [x; y] => Ok (LPos x y 0)
  | [x; y; z] => Ok (LPos x y z)
  | _ => UB
  end.
(** Reading an identifier that was never set is undefined. ProbesManager.cpp 204, 241, 362, 398. *)
Definition readId (i : option nat) : res nat := match i with Some n => Ok n | None => UB end.

(** ProbesManager.cpp 199-220: the heading of one point probe on rank [r]. *)
Definition pointHead (e : env) (r : nat) (p : pointProbe) : res (list op) :=
  if pp_write p then
    if pp_element p r =? -2 then Ok []
    else
      id <- readId (pp_id p) ;;
      pos <- position (pp_point p) ;;
      Ok [OTrunc (pointFile e id) [LProbe "PointProbe" id; LTitle; pos; LColumns ["Ex"; "Ey"; "Ez"; "Hx"; "Hy"; "Hz"]]]
  else Ok [].
(** ProbesManager.cpp 236-258: the heading of one field probe on rank [r]. *)
Definition fieldHead (e : env) (r : nat) (p : fieldProbe) : res (list op) :=
  if fp_write p then
    if fp_element p r =? -2 then Ok []
    else
      id <- readId (fp_id p) ;;
      pos <- position (fp_point p) ;;
      Ok [OTrunc (fieldFile e id) [LProbe "FieldProbe" id; LTitle; pos; LColumns [polString (fp_comp p)]]]
  else Ok [].
(** initPointFieldProbeExport, ProbesManager.cpp 184-260; [cycle_] is 0 when it is called (Solver.cpp 128). *)
Definition initPointField (e : env) (r : nat) (p : probes) : res (list op) :=
  a <- (match pr_point p with
        | [] => Ok []
        | ps => h <- mapM (pointHead e r) ps ;; Ok (renew e r (exportDir e (e_case e) "PointProbes") [] ++ concat h)
        end) ;;
  b <- (match pr_field p with
        | [] => Ok []
        | ps => h <- mapM (fieldHead e r) ps ;; Ok (renew e r (exportDir e (e_case e) "FieldProbes") [] ++ concat h)
        end) ;;
  Ok (a ++ b).

(** buildNearFieldDataCollectionInfo, ProbesManager.cpp 284-309, called by the constructor (95-127)
    before the case name is set. *)
Definition nearInit (e : env) (r : nat) (p : nearProbe) : list op :=
  (if e_root e r then [OMkdirs (exportDir e [] "NearToFarFieldProbes" ++ [np_name p])] else []) ++
  [OBarrier; OMkdirs (nearDir e [] (np_name p) r)].
(** RCSSurfaceExporter constructor, RCSSurfaceExporter.cpp 28-68, called from setCaseName
    (ProbesManager.h 76-79, ProbesManager.cpp 565-576). *)
Definition surfInit (e : env) (r : nat) (p : surfProbe) : list op :=
  [OMkdirs (exportDir e (e_case e) "RCSSurface" ++ [sp_name p]); OMkdirs (surfDir e (sp_name p) r);
   OTrunc (surfDir e (sp_name p) r ++ ["mesh"]) [LMesh (sp_tags p) r];
   OTrunc (surfDir e (sp_name p) r ++ ["surface_data.bin"]) [LGeometry (sp_tags p) r]].

Section Fields.
(** The fields of one rank; GridFunction::GetValue in an element at the reference point of a
    physical point; the values of one component; the same on a surface sub-mesh.
    Oracles for MFEM, ProbesManager.cpp 357, 389-394, 438, 638. *)
Variable F : Type.
Variable getValue : F -> comp -> Z -> list R -> R.
Variable dofs : F -> comp -> list R.
Variable surf : F -> list Z -> comp -> list R.

(** updateProbe(PointProbe&), ProbesManager.cpp 375-411. *)
Definition pointUpdate (e : env) (r cycle : nat) (t : R) (x : F) (p : pointProbe) : res (list op) :=
  d <- due (e_final e) (Z.of_nat cycle) (pp_steps p) t ;;
  if (d : bool) then
    if pp_element p r =? -2 then Ok []
    else if pp_element p r <? 0 then UB
    else if pp_write p then
      id <- readId (pp_id p) ;;
      Ok [OAppend (pointFile e id) [LRow (t / speedOfLight_SI) (map (fun c => getValue x c (pp_element p r) (pp_point p)) comps)]]
    else Ok []
  else Ok [].
(** updateProbe(FieldProbe&), ProbesManager.cpp 344-373. *)
Definition fieldUpdate (e : env) (r cycle : nat) (t : R) (x : F) (p : fieldProbe) : res (list op) :=
  d <- due (e_final e) (Z.of_nat cycle) (fp_steps p) t ;;
  if (d : bool) then
    if fp_element p r =? -2 then Ok []
    else if fp_element p r <? 0 then UB
    else if fp_write p then
      id <- readId (fp_id p) ;;
      Ok [OAppend (fieldFile e id) [LRow (t / speedOfLight_SI) [getValue x (fp_comp p) (fp_element p r) (fp_point p)]]]
    else Ok []
  else Ok [].
(** updateProbe(NearFieldProbe&), ProbesManager.cpp 425-455; Save makes the directory and writes
    the mesh and the registered fields. *)
Definition nearUpdate (e : env) (r cycle : nat) (t : R) (x : F) (p : nearProbe) : res (list op) :=
  d <- due (e_final e) (Z.of_nat cycle) (np_steps p) t ;;
  if (d : bool) then
    let dir := nearSnapshot e (np_name p) r cycle in
    Ok ([OMkdirs dir; OTrunc (dir ++ ["mesh"]) [LMesh (np_tags p) r]] ++
        map (fun c => OTrunc (dir ++ [(polString c ++ ".gf")%string]) [LValues (surf x (np_tags p) c)]) comps ++
        [OTrunc (nearDir e (e_case e) (np_name p) r ++ ["mesh"]) [LMesh (np_tags p) r];
         OTrunc (dir ++ ["time.txt"]) [LTime t]])
  else Ok [].
(** updateProbe(DomainSnapshotProbe&), ProbesManager.cpp 457-496, with
    DomainSnapshotDataCollection::Save, Probes.h 49-63. *)
Definition snapUpdate (e : env) (r cycle : nat) (t : R) (x : F) (p : snapProbe) : res (list op) :=
  d <- due (e_final e) (Z.of_nat cycle) (dp_steps p) t ;;
  if (d : bool) then
    let first := match cycle with
                 | O => renew e r (snapDir e) [snapDir e ++ ["meshes"]] ++
                        [OTrunc (snapDir e ++ ["meshes"; ("mesh_rank" ++ to_string r)%string]) [LMesh [] r];
                         OMkdirs (snapDir e ++ [("rank_" ++ to_string r)%string])]
                 | S _ => []
                 end in
    let dir := snapFolder e r cycle in
    Ok (first ++ [OMkdirs dir] ++
        map (fun c => OTrunc (dir ++ [(polString c ++ ".gf")%string]) [LValues (dofs x c)]) comps ++
        [OTrunc (dir ++ ["time.txt"]) [LTime t]])
  else Ok [].
(** RCSSurfaceExporter::write, RCSSurfaceExporter.cpp 140-164, called in ProbesManager.cpp 557-563.
    The stream writes at its own position, here at the end of the file. *)
Definition surfUpdate (e : env) (r cycle : nat) (t : R) (x : F) (p : surfProbe) : res (list op) :=
  d <- due (e_final e) (Z.of_nat cycle) (sp_steps p) t ;;
  if (d : bool) then
    Ok [OAppend (surfDir e (sp_name p) r ++ ["surface_data.bin"]) (LTime t :: map (fun c => LValues (surf x (sp_tags p) c)) comps)]
  else Ok [].

(** The lines of one file x_k, ProbesManager.cpp 641-649. *)
Definition morLines (t : R) (x : F) : list line :=
  [LTime t; LCount (List.length (concat (map (dofs x) comps))); LValues (concat (map (dofs x) comps))].
(** updateProbe(MORStateProbe&), ProbesManager.cpp 609-658: the operations, read off the change
    of the probe's state ([updateMor], Probe_Model): a new context makes the directory (617-631),
    a new record writes the file (638-650). *)
Definition morUpdate (e : env) (r : nat) (t : R) (x : F) (name : string) (s : mstate F) : mstate F * list op :=
  let s' := updateMor F t x s in
  let made := match ms_ctx s, ms_ctx s' with
              | None, Some _ => (if e_root e r then [OMkdirs (morDir e name)] else []) ++ [OBarrier]
              | _, _ => []
              end in
  let wrote := map (fun q => OTrunc (morFile e name (Z.to_nat (fst (fst q)))) (morLines (snd (fst q)) (snd q)))
                   (skipn (List.length (ms_out s)) (ms_out s')) in
  (s', made ++ wrote).
(** Used in [updateProbes], ProbesManager.cpp 524-526. *)
Fixpoint morAll (e : env) (r : nat) (t : R) (x : F) (l : list (string * mstate F)) : list (string * mstate F) * list op :=
  match l with
  | [] => ([], [])
  | (n, s) :: rest =>
      let '(s', o) := morUpdate e r t x n s in
      let '(rest', o') := morAll e r t x rest in
      ((n, s') :: rest', o ++ o')
  end.

(** updateProbes, ProbesManager.cpp 498-529, on rank [r]: MOR states and operations. *)
Definition updateProbes (e : env) (r : nat) (p : probes) (cycle : nat) (call : R * (nat -> F)) (ms : list (string * mstate F))
  : res (list (string * mstate F) * list op) :=
  let t := fst call in
  let x := snd call r in
  a <- mapM (fieldUpdate e r cycle t x) (pr_field p) ;;
  b <- mapM (pointUpdate e r cycle t x) (pr_point p) ;;
  c <- mapM (nearUpdate e r cycle t x) (pr_near p) ;;
  d <- mapM (snapUpdate e r cycle t x) (pr_snap p) ;;
  f <- mapM (surfUpdate e r cycle t x) (pr_surf p) ;;
  let '(ms', g) := morAll e r t x ms in
  Ok (ms', concat a ++ concat b ++ concat c ++ concat d ++ concat f ++ g).
(** The calls of a run, with [cycle_] counted from the first one: Solver.cpp 129, 550. *)
Fixpoint allUpdates (e : env) (r : nat) (p : probes) (cycle : nat) (calls : list (R * (nat -> F))) (ms : list (string * mstate F))
  : res (list op) :=
  match calls with
  | [] => Ok []
  | c :: rest =>
      ' q <- updateProbes e r p cycle c ms ;;
      o <- allUpdates e r p (S cycle) rest (fst q) ;;
      Ok (snd q ++ o)
  end.

(** All file operations of rank [r] in one run: the constructor (ProbesManager.cpp 95-127),
    setCaseName (ProbesManager.h 76-79), initPointFieldProbeExport and the calls of updateProbes
    (Solver.cpp 127-129, 550). *)
Definition rankProgram (e : env) (p : probes) (calls : list (R * (nat -> F))) (r : nat) : res (list op) :=
  i <- initPointField e r p ;;
  u <- allUpdates e r p 0 calls (map (fun m => (mp_name m, mkMstate (mp_window m) None [])) (pr_mor p)) ;;
  Ok (concat (map (nearInit e r) (pr_near p)) ++ concat (map (surfInit e r) (pr_surf p)) ++ i ++ u).

(** A run of all ranks from file system [s] that ends with file system [s'].
    Solver.cpp 127-129, 550 on every rank. *)
Definition writes (e : env) (p : probes) (calls : list (R * (nat -> F))) (s s' : fs) : Prop :=
  exists todo, mapM (rankProgram e p calls) (seq 0 (e_ranks e)) = Ok todo /\ ends s todo s'.
End Fields.

(** The identifiers the case file gives: the position in the list, driver.cpp 710-711, 750-760, 765-777. *)
Definition numbered {A : Type} (set : nat -> A -> A) (l : list A) : list A :=
  map (fun ia => set (fst ia) (snd ia)) (combine (seq 0 (List.length l)) l).

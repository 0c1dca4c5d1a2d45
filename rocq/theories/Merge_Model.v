(** Model of the merging of per-rank result files (components/RCSManager.cpp) and of
    the reading of the incident wave (components/FarField.cpp, buildPlaneWaveData). *)
From Coq Require Import ZArith List Bool Reals String.
From Verif Require Import Common Rcs_Model.
Import ListNotations.
Local Open Scope R_scope.

(** RowData, RCSManager.cpp 11-14. *)
Record rowData := mkRD { d_theta : R; d_phi : R; d_freq : R; d_pot : R; d_norm : R }.
(** A line as `iss >> double` sees it: its words, each a number or not (conversion
    of decimal text to double is not modelled). Used in [readRow], RCSManager.cpp 115-120. *)
Definition line : Type := list (option R).
(** A file is a list of lines; a missing file is [None].
    Used in [readDataFile], RCSManager.cpp 104-123. *)
Definition file : Type := list line.

(** Lines RCSManager.cpp 115-120: five numbers at the start of the line, the rest is ignored. *)
Definition readRow (l : line) : res rowData :=
  match l with
  | Some a :: Some b :: Some c :: Some d :: Some e :: _ => Ok (mkRD a b c d e)
  | _ => Throw
  end.
(** readDataFile, RCSManager.cpp 104-123. *)
Definition readDataFile (f : option file) : res (list rowData) :=
  match f with
  | None => Throw
  | Some [] => Throw
  | Some (_ :: rest) => mapM readRow rest
  end.
(** addRows, RCSManager.cpp 125-133. *)
Fixpoint addAll (base additional : list rowData) : list rowData :=
  match base, additional with
  | b :: bs, a :: aa => mkRD (d_theta b) (d_phi b) (d_freq b) (d_pot b + d_pot a) (d_norm b + d_norm a) :: addAll bs aa
  | _, _ => base
  end.
(** Used in [mergeFile], RCSManager.cpp 172-178. *)
Definition addRows (base additional : list rowData) : res (list rowData) :=
  if Nat.eqb (List.length base) (List.length additional) then Ok (addAll base additional) else Throw.

(** A rank directory: the names of the files in its farfield (or rcs) directory and
    their contents. Used in [mergeFile], RCSManager.cpp 172-178. *)
Record rankDir := mkDir { rd_names : list string; rd_file : string -> option file }.
(** Lines RCSManager.cpp 172-178: the merged rows of one file. *)
Definition mergeFile (name : string) (first : rankDir) (others : list rankDir) : res (list rowData) :=
  base <- readDataFile (rd_file first name) ;;
  foldM (fun acc r => rows <- readDataFile (rd_file r name) ;; addRows acc rows) others base.
(** writeParallelDataIntoSingleFiles, RCSManager.cpp 144-183, for one of the two types: the files of
    the first rank found, in directory order. writeMergedFile (135-142) prints six
    significant digits; the rows before printing are modelled. *)
Definition mergeDirs (ranks : list rankDir) : res (list (string * list rowData)) :=
  match ranks with
  | [] => Throw
  | first :: others =>
    mapM (fun name => rows <- mergeFile name first others ;; Ok (name, rows)) (rd_names first)
  end.

(** A source of the case file as buildPlaneWaveData sees it: whether its type is
    "planewave", its spread, propagation, optional mean, frequency, whether it has
    tags, and the phases of the tagged boundary elements' centres along the
    propagation (242-252, computed from the mesh, which is not modelled).
    Used in [readSource], FarField.cpp 212-261. *)
Record srcJson := mkSrcJson {
  j_plane : bool; j_spread : R; j_prop : R * R * R; j_mean : option (R * R * R);
  j_freq : option R; j_tagged : bool; j_phases : list R }.
(** Used in [readSource], FarField.cpp 212-261. *)
Definition dotR3 (a b : R * R * R) : R :=
  let '(x, y, z) := a in let '(u, v, w) := b in x * u + y * v + z * w.
(** Norml2. Used in [readSource], FarField.cpp 212-261. *)
Definition normR3 (a : R * R * R) : R := sqrt (dotR3 a a).
(** Used in [readSource], FarField.cpp 212-261. *)
Definition scaleR3 (k : R) (a : R * R * R) : R * R * R := let '(x, y, z) := a in (k * x, k * y, k * z).

(** min_phase, RCSManager.cpp 228-254: the smallest phase, 0 if there is none. *)
Definition minPhase (l : list R) : R :=
  match l with [] => 0 | p :: m => fold_left Rmin m p end.
(** The loop body, FarField.cpp 212-261. [meshDir] tells whether a mesh directory was given. A zero
    propagation vector is out of scope (division by its norm). *)
Definition readSource (meshDir : bool) (st : pwave) (s : srcJson) : pwave :=
  if j_plane s then
    let spread := j_spread s in
    let dhat := scaleR3 (/ normR3 (j_prop s)) (j_prop s) in
    let mean :=
      match j_mean s with
      | Some m => dotR3 m dhat
      | None => if (meshDir && j_tagged s)%bool then minPhase (map (fun p => p / speedOfLight) (j_phases s)) - 5 * spread * sqrt 2
                else - (5) * spread * sqrt 2
      end in
    mkPw spread mean (match j_freq s with Some f => f / speedOfLight_SI | None => pw_freq st end)
  else st.
(** buildPlaneWaveData, FarField.cpp 206-268: sentinels -1e5 and the check of lines 263-265. *)
Definition buildPlaneWaveData (meshDir : bool) (sources : list srcJson) : res pwave :=
  let pw := fold_left (readSource meshDir) sources (mkPw (- 10 ^ 5) (- 10 ^ 5) 0) in
  if Rlt_dec (Rabs (pw_spread pw - 10 ^ 5)) (1 / 10 ^ 6) then Throw
  else if Rlt_dec (Rabs (pw_mean pw - 10 ^ 5)) (1 / 10 ^ 6) then Throw
  else Ok pw.

(** Names of the case: the path given to the launcher, the check of the folder, file and mesh
    names, the mesh file that is then opened, and the arguments of the launcher.

    std::string is a list of characters.  std::filesystem::path is the POSIX one of libstdc++
    ([/] is the only separator, there is no root name).  The file system is the oracle [ex]
    (std::filesystem::exists; its permission errors, which throw, are not modelled). *)
From Coq Require Import String Ascii ZArith List Bool.
From Verif Require Import Common.
Import ListNotations.

Notation str := (list ascii).

(** A C++ string literal. Used in [validateCaseNamingStyle], driver.cpp 1487-1543. *)
Definition lit (s : string) : str := list_ascii_of_string s.

(** operator== of std::string. Used in [validateCaseNamingStyle], driver.cpp 1487-1543. *)
Definition streq (a b : str) : bool := if list_eq_dec ascii_dec a b then true else false.

(** Used in [parent_path], driver.cpp 1496. *)
Definition slash : ascii := "/"%char.
(** Used in [extension], driver.cpp 1490. *)
Definition dot : ascii := "."%char.
(** Used in [filename], driver.cpp 1510. *)
Definition isSlash (a : ascii) : bool := Ascii.eqb a slash.
(** Used in [extension], driver.cpp 1490. *)
Definition isDot (a : ascii) : bool := Ascii.eqb a dot.

(** Longest prefix without a character satisfying [f], and the rest.
    Used in [filename], driver.cpp 1510. *)
Fixpoint spanNot (f : ascii -> bool) (l : str) : str * str :=
  match l with
  | [] => ([], [])
  | a :: t => if f a then ([], l) else let '(x, y) := spanNot f t in (a :: x, y)
  end.

(** Drop the leading characters satisfying [f]. Used in [parent_path], driver.cpp 1496. *)
Fixpoint dropWhile (f : ascii -> bool) (l : str) : str :=
  match l with [] => [] | a :: t => if f a then dropWhile f t else l end.

(** std::filesystem::path::filename, used in driver.cpp 1510, 1515, 1522: what follows the
    last separator. *)
Definition filename (p : str) : str := rev (fst (spanNot isSlash (rev p))).

(** std::filesystem::path::parent_path, used in driver.cpp 1496 and (has_parent_path) 1535: the
    path without its last component and without the separators before it; a path whose
    directory is the root keeps one separator. *)
Definition parent_path (p : str) : str :=
  let d := snd (spanNot isSlash (rev p)) in
  match dropWhile isSlash d with
  | [] => match d with [] => [] | _ => [slash] end
  | q => rev q
  end.

(** Position of the extension (libstdc++ path::_M_find_extension): the last dot, unless it
    comes first or the name is [..]. Used in [extension], driver.cpp 1490. *)
Definition splitExt (n : str) : str * str :=
  if streq n [dot; dot] then (n, [])
  else
    let '(x, y) := spanNot isDot (rev n) in
    match y with
    | [] => (n, [])
    | [_] => (n, [])
    | _ :: r => (rev r, dot :: rev x)
    end.

(** std::filesystem::path::extension, used in driver.cpp 1490. *)
Definition extension (p : str) : str := snd (splitExt (filename p)).

(** std::filesystem::path::stem, used in driver.cpp 1511. *)
Definition stem (p : str) : str := fst (splitExt (filename p)).

(** operator/ of std::filesystem::path, used in driver.cpp 1539: an absolute right side
    replaces the left one, a separator is added after a non-empty last component. *)
Definition pathAppend (a b : str) : str :=
  match b with
  | c :: _ => if isSlash c then b else
              match filename a with [] => a ++ b | _ => a ++ slash :: b end
  | [] => match filename a with [] => a | _ => a ++ [slash] end
  end.

(** validateCaseNamingStyle, driver.cpp 1487-1543.  [mf] is model.filename when the key is
    present and a string (1503-1508); the message of the exception is not modelled. *)
Definition validateCaseNamingStyle (ex : str -> bool) (path : str) (mf : option str) : res unit :=
  if negb (streq (extension path) (lit ".json")) then Throw
  else
    let case_dir := parent_path path in
    match case_dir with
    | [] => Throw
    | _ =>
      match mf with
      | None => Throw
      | Some raw =>
        let folder_name := filename case_dir in
        let json_name := stem path in
        let expected := json_name ++ lit ".msh" in
        if negb (streq folder_name json_name) then Throw
        else if negb (streq (filename raw) expected) then Throw
        else match parent_path raw with
             | _ :: _ => Throw
             | [] => if ex (pathAppend case_dir expected) then Ok tt else Throw
             end
      end
    end.

(** Does [l] begin with [pat]?. Used in [assembleMeshString], driver.cpp 889-904. *)
Fixpoint prefixb (pat l : str) : bool :=
  match pat, l with
  | [], _ => true
  | a :: p, b :: t => Ascii.eqb a b && prefixb p t
  | _ :: _, [] => false
  end.

(** std::string::find (first occurrence; None is npos).
    Used in [assembleMeshString], driver.cpp 889-904. *)
Fixpoint find (pat l : str) : option nat :=
  if prefixb pat l then Some O
  else match l with
       | [] => None
       | _ :: t => match find pat t with Some n => Some (S n) | None => None end
       end.

(** std::string::erase(pos, n): throws out_of_range when pos is past the end.
    Used in [assembleMeshString], driver.cpp 889-904. *)
Definition erase (l : str) (pos : option nat) (n : nat) : res str :=
  match pos with
  | None => Throw
  | Some i => if Nat.leb i (length l) then Ok (firstn i l ++ skipn (i + n) l) else Throw
  end.

(** dataFolder and maxwellInputsFolder, driver.cpp 867-868. *)
Definition maxwellInputsFolder : str := lit "./testData/maxwellInputs/".

(** assembleMeshString, driver.cpp 889-904: both positions are looked up before any erase. *)
Definition assembleMeshString (fn : str) : res str :=
  let input_msh := find (lit ".msh") fn in
  let input_mesh := find (lit ".mesh") fn in
  f1 <- match input_msh with None => Ok fn | Some _ => erase fn input_msh 4 end ;;
  f2 <- match input_mesh with None => Ok f1 | Some _ => erase f1 input_mesh 5 end ;;
  Ok (maxwellInputsFolder ++ f2 ++ slash :: fn).

(** assembleLauncherMeshString, driver.cpp 906-924. *)
Definition assembleLauncherMeshString (mesh_name case_path : str) : res str :=
  let input_msh := find (lit ".msh") mesh_name in
  let input_mesh := find (lit ".mesh") mesh_name in
  p <- erase case_path (find (lit ".json") case_path) 5 ;;
  let p1 := match input_msh with Some _ => p ++ lit ".msh" | None => p end in
  Ok (match input_mesh with Some _ => p1 ++ lit ".mesh" | None => p1 end).

(** The lambda ends_with of buildModel, driver.cpp 1279-1282. *)
Definition ends_with (s suf : str) : bool :=
  Nat.leb (length suf) (length s) && streq (skipn (length s - length suf) s) suf.

(** meshName_ in buildModel, driver.cpp 1284-1290. *)
Definition meshName (fn : str) : res str :=
  if ends_with fn (lit ".msh") then Ok (firstn (length fn - 4) fn)
  else if ends_with fn (lit ".mesh") then Ok (firstn (length fn - 5) fn)
  else Throw.

(** What the names of a case give once the case is built: the mesh file opened and the name of
    the model.  buildSolverJson, driver.cpp 1545-1551, with buildModel 1242-1249 and 1277-1290;
    [parse] is parseJSONfile followed by model.filename (None: the file cannot be read or
    parsed, which throws).  Everything else of buildSolver is left to other areas. *)
Definition buildNames (ex : str -> bool) (parse : str -> option (option str))
    (path : str) (isTest : bool) : res (str * str) :=
  match parse path with
  | None => Throw
  | Some mf =>
    _ <- validateCaseNamingStyle ex path mf ;;
    match mf with
    | None => Throw
    | Some fn =>
      m <- (if isTest then assembleMeshString fn else assembleLauncherMeshString fn path) ;;
      n <- meshName fn ;;
      Ok (m, n)
    end
  end.

(** How the launcher ends its reading of the arguments: it returns a status from main, it
    leaves main by an exception, or it goes on to build and run the case.
    Used in [argLoop], launcher.cpp 39-63. *)
Inductive launch := Exit (code : Z) | Abort | Start (path device : str).

(** The argument loop of main, launcher.cpp 39-63; [path] and [dev] are inputFilePath and
    deviceConfig, and [i + 1 < argc] is the presence of a further argument. *)
Fixpoint argLoop (path dev : str) (args : list str) : launch :=
  match args with
  | [] => Start path dev
  | a :: rest =>
    match rest with
    | nxt :: rest' =>
      if streq a (lit "-i") then argLoop nxt dev rest'
      else if streq a (lit "-h") then Exit 2
      else if streq a (lit "--device") || streq a (lit "-d") then
        if streq nxt (lit "cpu") || streq nxt (lit "omp") || streq nxt (lit "cuda")
        then argLoop path nxt rest'
        else Abort
      else argLoop path dev rest
    | [] =>
      if streq a (lit "-h") then Exit 2 else argLoop path dev rest
    end
  end.

(** main, launcher.cpp 24-90, up to the call of buildSolverJson.  [args] is argv without the
    program name.  The debugger pause of debug builds, the creation of the device and the
    start of MPI are not modelled. *)
Definition launcher (args : list str) : launch :=
  match args with
  | [] => Exit 1
  | _ =>
    match argLoop [] (lit "cpu") args with
    | Start path dev =>
        match find (lit ".json") path with None => Exit 3 | Some _ => Start path dev end
    | o => o
    end
  end.

(** Model of the far-field tool: its arguments (src/launcher/rcs_launcher.cpp) and the request file it
    carries out (src/driver/rcs_driver.cpp).  The two JSON files are oracles, and so is whether the
    processing of a probe succeeds; what that processing computes is in Rcs_Model. *)
From Coq Require Import String Ascii ZArith List Bool Reals.
From Verif Require Import Common Case_Model Rcs_Model.
Import ListNotations.

(** start, end and steps of a sweep.  rcs_driver.cpp 47-62. *)
Record range := mkRange { rg_start : R; rg_end : R; rg_steps : nat }.
(** The request file.  rcs_driver.cpp 38-71; a negative number of steps is not modelled. *)
Record request := mkReq { q_mode : str; q_case : str; q_freq : range; q_theta : range; q_phi : range; q_max : option R }.
(** One construction of RCSSurfacePostProcessor: its arguments.  rcs_driver.cpp 84. *)
Record job := mkJob { j_path : str; j_case : str; j_freqs : list R; j_angles : list angle; j_max : option R }.

(** How main ends: with a status, or by an exception.  rcs_launcher.cpp 24-58. *)
Inductive ending := Status (code : Z) | Thrown.

(** The argument loop, rcs_launcher.cpp 31-41: the file (None: help was asked for). *)
Fixpoint toolArgs (file : str) (args : list str) : option str :=
  match args with
  | [] => Some file
  | a :: rest =>
    match rest with
    | nxt :: rest' => if streq a (lit "-i") then toolArgs nxt rest' else if streq a (lit "-h") then None else toolArgs file rest
    | [] => if streq a (lit "-h") then None else toolArgs file rest
    end
  end.

(** rcs_driver.cpp 41. *)
Definition caseJson (c : str) : str := lit "./testData/maxwellInputs/" ++ c ++ lit "/" ++ c ++ lit ".json".
(** rcs_driver.cpp 75-76. *)
Definition dataPath (mode c name : str) : str := lit "./Exports/" ++ mode ++ lit "/" ++ c ++ lit "/RCSSurface/" ++ name ++ lit "/".
(** The directory in which a run with run mode tag [tag] and case name [c] exports the probe [name],
    RCSSurfaceExporter.cpp 32. *)
Definition exportBase (tag c name : str) : str := lit "Exports/" ++ tag ++ lit "/" ++ c ++ lit "/RCSSurface/" ++ name.

(** rcs_driver.cpp 47-62. *)
Definition sweep (r : range) : list R := linspace (rg_start r) (rg_end r) (rg_steps r).
(** The construction for one probe, rcs_driver.cpp 47-84. *)
Definition jobOf (q : request) (name : str) : job :=
  mkJob (dataPath (q_mode q) (q_case q) name) (caseJson (q_case q)) (sweep (q_freq q)) (angleList (sweep (q_theta q)) (sweep (q_phi q))) (q_max q).

Section Files.
(** The request file at a path; None: it cannot be opened or parsed, or a key is missing.  rcs_driver.cpp 33-71. *)
Variable requests : str -> option request.
(** The names of the rcssurface probes of a case file (None for a probe without name), None if there are
    no such probes; None altogether if the file cannot be parsed.  rcs_driver.cpp 43-46, 73-74. *)
Variable cases : str -> option (option (list (option str))).
(** Does the processing return, or throw?  rcs_driver.cpp 84. *)
Variable works : job -> bool.

(** The loop over the probes, rcs_driver.cpp 73-85: the jobs begun, and whether the loop ends. *)
Fixpoint probeLoop (q : request) (l : list (option str)) : list job * bool :=
  match l with
  | [] => ([], true)
  | None :: _ => ([], false)
  | Some n :: r => if works (jobOf q n) then (jobOf q n :: fst (probeLoop q r), snd (probeLoop q r)) else ([jobOf q n], false)
  end.
(** runRCSPostProcessing, rcs_driver.cpp 31-86. *)
Definition runRCS (file : str) : list job * bool :=
  match requests file with
  | None => ([], false)
  | Some q => match cases (caseJson (q_case q)) with Some (Some l) => probeLoop q l | _ => ([], false) end
  end.
(** main, rcs_launcher.cpp 24-58; [args] is argv without the program name. *)
Definition rcsMain (args : list str) : ending * list job :=
  match args with
  | [] => (Status 1, [])
  | _ =>
    match toolArgs [] args with
    | None => (Status 0, [])
    | Some [] => (Status 1, [])
    | Some file => let p := runRCS file in (if snd p then Status 0 else Thrown, fst p)
    end
  end.
End Files.

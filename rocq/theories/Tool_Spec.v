(** What the arguments of the far-field tool mean, what a request asks for, and which directory a path
    names. *)
From Coq Require Import String Ascii ZArith List Reals.
From Verif Require Import Common Case_Model Rcs_Model Tool_Model.
Import ListNotations.
Local Open Scope R_scope.

(** The words of the command line, from left to right: -i takes the next argument. *)
Inductive word := Input (f : str) | AskHelp | Ignored (a : str).
Inductive spells : list str -> list word -> Prop :=
| sp_end : spells [] []
| sp_input f t ws : spells t ws -> spells (lit "-i" :: f :: t) (Input f :: ws)
| sp_help t ws : spells t ws -> spells (lit "-h" :: t) (AskHelp :: ws)
| sp_lone : spells [lit "-i"] [Ignored (lit "-i")]
| sp_other a t ws : a <> lit "-i" -> a <> lit "-h" -> spells t ws -> spells (a :: t) (Ignored a :: ws).
(** [f] is the file given last. *)
Definition lastInput (ws : list word) (f : str) : Prop := exists a b, ws = a ++ Input f :: b /\ forall g, ~ In (Input g) b.

(** The components of a path: what stands between separators, without empty ones and without [.]. *)
Inductive parts : str -> list str -> Prop :=
| pt_end : parts [] []
| pt_sep p l : parts p l -> parts (slash :: p) l
| pt_last c : c <> [] -> ~ In slash c -> parts c (if list_eq_dec ascii_dec c [dot] then [] else [c])
| pt_comp c p l : c <> [] -> ~ In slash c -> parts p l -> parts (c ++ slash :: p) (if list_eq_dec ascii_dec c [dot] then l else c :: l).

(** Value [i] of a sweep: equally spaced, from the start to the end. *)
Definition sweepAt (r : range) (i : nat) : R := rg_start r + INR i * ((rg_end r - rg_start r) / INR (rg_steps r - 1)).
Definition sweeps (r : range) (l : list R) : Prop :=
  length l = rg_steps r /\ forall i, (i < rg_steps r)%nat -> nth i l 0 = if (rg_steps r =? 1)%nat then rg_start r else sweepAt r i.
(** What a request asks for about a probe: the directory of the exports, the case file, all frequencies,
    and every pair of angles, the azimuth varying first. *)
Definition asks (q : request) (name : str) (j : job) : Prop :=
  (forall a b, parts (q_mode q) a -> parts (q_case q) b -> forall c, parts name c ->
    parts (j_path j) (lit "Exports" :: a ++ b ++ lit "RCSSurface" :: c)) /\
  (forall b, parts (q_case q) b -> ~ In slash (q_case q) -> parts (j_case j) (lit "testData" :: lit "maxwellInputs" :: b ++ [q_case q ++ lit ".json"])) /\
  sweeps (q_freq q) (j_freqs j) /\
  (exists ts ps, sweeps (q_theta q) ts /\ sweeps (q_phi q) ps /\ length (j_angles j) = (rg_steps (q_theta q) * rg_steps (q_phi q))%nat /\
    forall i k, (i < rg_steps (q_theta q))%nat -> (k < rg_steps (q_phi q))%nat ->
      nth (i * rg_steps (q_phi q) + k) (j_angles j) (0, 0) = (nth i ts 0, nth k ps 0)) /\
  j_max j = q_max q.

(** What the tool does with a request file: one job for each named probe, in order, up to the first that
    fails. *)
Definition carries (requests : str -> option request) (cases : str -> option (option (list (option str)))) (works : job -> bool) (f : str) (o : ending) (jobs : list job) : Prop :=
  match requests f with
  | None => o = Thrown /\ jobs = []
  | Some q =>
    match cases (lit "./testData/maxwellInputs/" ++ q_case q ++ lit "/" ++ q_case q ++ lit ".json") with
    | Some (Some names) =>
        exists done, Forall2 (asks q) done jobs /\
          ((o = Status 0 /\ names = map Some done /\ Forall (fun j => works j = true) jobs) \/
           (o = Thrown /\ (exists r, names = map Some done ++ None :: r) /\ Forall (fun j => works j = true) jobs) \/
           (o = Thrown /\ (exists r, names = map Some done ++ r) /\ exists js j, jobs = js ++ [j] /\ Forall (fun j => works j = true) js /\ works j = false))
    | _ => o = Thrown /\ jobs = []
    end
  end.
(** What the tool does. *)
Definition toolSpec (requests : str -> option request) (cases : str -> option (option (list (option str)))) (works : job -> bool) (args : list str) (o : ending) (jobs : list job) : Prop :=
  exists ws, spells args ws /\
  ((args = [] /\ o = Status 1 /\ jobs = []) \/
   (In AskHelp ws /\ o = Status 0 /\ jobs = []) \/
   (~ In AskHelp ws /\ o = Status 1 /\ jobs = [] /\ ((forall g, ~ In (Input g) ws) \/ lastInput ws [])) \/
   (~ In AskHelp ws /\ exists f, f <> [] /\ lastInput ws f /\ carries requests cases works f o jobs)).

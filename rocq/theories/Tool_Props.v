(** The far-field tool. *)
From Coq Require Import String Ascii ZArith List Bool Reals.
From Verif Require Import Common Case_Model Case_Spec Rcs_Model Tool_Model Tool_Spec Tool_Proofs ToolEx_Proofs.
Import ListNotations.
Local Open Scope R_scope.

(** Whatever the arguments and the files, the tool prints its help, reports a missing file, or carries out
    the request file given last: one job for each probe of the case, in order, up to the first that fails. *)
Theorem C113_tool : forall requests cases works args o jobs, rcsMain requests cases works args = (o, jobs) -> toolSpec requests cases works args o jobs.
Proof. exact tool_does. Qed.
Print Assumptions C113_tool.

Example C113_tool_example :
  (forall works, works = (fun _ => true) -> rcsMain reqs spheres works [lit "-x"; lit "-i"; lit "rcs.json"] = (Status 0, [jobOf req (lit "near"); jobOf req (lit "far")])) /\
  rcsMain reqs spheres bad [lit "-i"; lit "rcs.json"] = (Thrown, [jobOf req (lit "near"); jobOf req (lit "far")]) /\
  rcsMain reqs spheres bad [lit "-i"; lit "other.json"] = (Thrown, []) /\
  rcsMain reqs spheres bad [lit "-i"] = (Status 1, []) /\
  rcsMain reqs spheres bad [lit "-i"; lit "rcs.json"; lit "-h"] = (Status 0, []).
Proof. exact ex_tool. Qed.

(** A path has exactly one list of components. *)
Theorem C113_parts : forall p, exists l, parts p l /\ forall l', parts p l' -> l' = l.
Proof. exact parts_one. Qed.
Print Assumptions C113_parts.

(** For a case below ./testData/maxwellInputs that the launcher accepts, the tool reads the case file of the
    run, and each probe from the directory to which the run exported it. *)
Theorem C113_finds : forall ex parse d m n name q, caseName d ->
  buildNames ex parse (caseJson d) false = Ok (m, n) -> q_case q = d ->
  j_case (jobOf q name) = caseJson d /\ forall l, parts (exportBase (q_mode q) n name) l <-> parts (j_path (jobOf q name)) l.
Proof. exact tool_finds. Qed.
Print Assumptions C113_finds.

Example C113_finds_example : exists m n, buildNames everywhere (fun _ => Some (Some (lit "sphere.msh"))) (caseJson (lit "sphere")) false = Ok (m, n) /\ caseName (lit "sphere") /\
  parts (exportBase (q_mode req) n (lit "far")) [lit "Exports"; lit "mpi-4"; lit "sphere"; lit "RCSSurface"; lit "far"].
Proof. exact ex_finds. Qed.

(** A case that the launcher accepts anywhere else is not the one the tool reads. *)
Theorem C113_elsewhere_refuted : ~ forall ex parse P c k path m n, casePath P c k path -> buildNames ex parse path false = Ok (m, n) -> forall l, parts (caseJson n) l <-> parts path l.
Proof. exact elsewhere_refuted. Qed.
Print Assumptions C113_elsewhere_refuted.

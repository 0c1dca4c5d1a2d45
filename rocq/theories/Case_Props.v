(** C39 and C77: the names of a case and the arguments of the launcher. *)
From Coq Require Import String Ascii ZArith List.
From Verif Require Import Common Case_Model Case_Spec Case_Proofs CaseLoad_Proofs CaseArgs_Proofs.
Import ListNotations.

(** A case is accepted exactly when path, model.filename and the mesh on disk agree. *)
Theorem C39_accept : forall (ex : str -> bool) (path : str) (mf : option str),
  validateCaseNamingStyle ex path mf = Ok tt <->
  exists P c k, casePath P c k path /\ mf = Some (c ++ lit ".msh") /\ ex (caseMesh P c) = true.
Proof. exact accept_iff. Qed.
Print Assumptions C39_accept.

(** Otherwise an exception is thrown. *)
Theorem C39_total : forall (ex : str -> bool) (path : str) (mf : option str),
  validateCaseNamingStyle ex path mf <> UB.
Proof. exact validate_no_ub. Qed.
Print Assumptions C39_total.

Example C39_accept_ex : casePath (lit "cases/") (lit "1D_PEC") 2 exPath /\
  validateCaseNamingStyle exFs exPath (Some (lit "1D_PEC.msh")) = Ok tt /\
  caseMesh (lit "cases/") (lit "1D_PEC") = exMesh.
Proof. exact ex_accept. Qed.
Example C39_reject_ex :
  validateCaseNamingStyle exFs (lit "cases/other/1D_PEC.json") (Some (lit "1D_PEC.msh")) = Throw /\
  validateCaseNamingStyle exFs (lit "1D_PEC.json") (Some (lit "1D_PEC.msh")) = Throw /\
  validateCaseNamingStyle exFs exPath (Some (lit "1D_PEC/1D_PEC.msh")) = Throw /\
  validateCaseNamingStyle exFs exPath None = Throw.
Proof. exact ex_reject. Qed.

(** No .mesh file is ever accepted, although the documentation allows it. *)
Theorem C39_mesh_refuted : forall (ex : str -> bool) (path c : str),
  validateCaseNamingStyle ex path (Some (c ++ lit ".mesh")) = Throw.
Proof. exact mesh_refused. Qed.
Print Assumptions C39_mesh_refuted.

(** An accepted case is built under its own name, and the mesh opened is the one that was
    checked exactly when ".json" occurs once in the path and ".mesh" does not occur in the
    name. *)
Theorem C39_opened : forall (ex : str -> bool) (parse : str -> option (option str)) (path m n : str),
  buildNames ex parse path false = Ok (m, n) ->
  exists P c k, casePath P c k path /\ parse path = Some (Some (c ++ lit ".msh")) /\
    ex (caseMesh P c) = true /\ n = c /\
    (sameFile m (caseMesh P c) <-> ~ occurs (lit ".json") (P ++ c) /\ ~ occurs (lit ".mesh") c).
Proof. exact built. Qed.
Print Assumptions C39_opened.

Theorem C39_opened_all : forall (ex : str -> bool) (parse : str -> option (option str)) (P c : str)
    (k : nat) (path : str),
  casePath P c k path -> parse path = Some (Some (c ++ lit ".msh")) -> ex (caseMesh P c) = true ->
  exists m, buildNames ex parse path false = Ok (m, c).
Proof. exact built_complete. Qed.
Print Assumptions C39_opened_all.

(** A case that cannot be read or names no mesh is an error, and no case is undefined. *)
Theorem C39_defined : forall (ex : str -> bool) (parse : str -> option (option str)) (path : str) (t : bool),
  buildNames ex parse path t <> UB /\
  (parse path = None -> buildNames ex parse path t = Throw) /\ (parse path = Some None -> buildNames ex parse path t = Throw).
Proof. exact names_defined. Qed.
Print Assumptions C39_defined.

(** In the test folder the mesh opened is the one checked. *)
Theorem C39_tests : forall (ex : str -> bool) (parse : str -> option (option str)) (c : str),
  caseName c -> ~ occurs (lit ".msh") c -> ~ occurs (lit ".mesh") c ->
  parse (maxwellInputsFolder ++ c ++ slash :: c ++ lit ".json") = Some (Some (c ++ lit ".msh")) ->
  ex (caseMesh maxwellInputsFolder c) = true ->
  buildNames ex parse (maxwellInputsFolder ++ c ++ slash :: c ++ lit ".json") true
    = Ok (caseMesh maxwellInputsFolder c, c).
Proof. exact built_test. Qed.
Print Assumptions C39_tests.

(** The name of the model is the file name without its ending, and no other ending passes. *)
Theorem C39_name : forall fn n : str,
  meshName fn = Ok n <-> fn = n ++ lit ".msh" \/ fn = n ++ lit ".mesh".
Proof. exact meshName_iff. Qed.
Print Assumptions C39_name.

(** Accepted cases whose opened mesh is another file. *)
Theorem C39_opened_refuted : exists ex path m n parse,
  buildNames ex parse path false = Ok (m, n) /\
  (forall q, ex q = true <-> q = lit "a.json/a.json.msh") /\
  path = lit "a.json/a.json.json" /\ m = lit "a/a.json.json.msh".
Proof. exact early_json. Qed.
Print Assumptions C39_opened_refuted.

Theorem C39_opened_refuted2 : exists ex path m n parse,
  buildNames ex parse path false = Ok (m, n) /\
  path = lit "a.mesh/a.mesh.json" /\ m = lit "a.mesh/a.mesh.msh.mesh" /\ ex m = false.
Proof. exact mesh_in_name. Qed.
Print Assumptions C39_opened_refuted2.

(** The launcher does what the command line says, for every command line. *)
Theorem C77_launch : forall (args : list str) (o : launch),
  launcher args = o <-> launchSpec args o.
Proof. exact launcher_iff. Qed.
Print Assumptions C77_launch.

Example C77_launch_ex :
  launcher [lit "-i"; lit "a/a.json"; lit "--device"; lit "omp"; lit "-i"; lit "b/b.json"; lit "-v"]
    = Start (lit "b/b.json") (lit "omp") /\
  launcher [lit "-d"; lit "gpu"; lit "-h"] = Abort /\ launcher [lit "-h"; lit "-d"; lit "gpu"] = Exit 2 /\
  launcher [] = Exit 1 /\ launcher [lit "a/a.json"] = Exit 3.
Proof. exact ex_launch. Qed.

(** A flag whose value is missing is not reported: the run goes on as if it were not there. *)
Theorem C77_lone_refuted :
  launcher [lit "-i"; lit "a/a.json"; lit "-i"] = Start (lit "a/a.json") (lit "cpu") /\
  launcher [lit "-i"; lit "a/a.json"; lit "-d"] = Start (lit "a/a.json") (lit "cpu") /\
  launcher [lit "-i"; lit "-h"] = Exit 3.
Proof. exact ex_lone. Qed.
Print Assumptions C77_lone_refuted.

(** The launcher's own test of the path is weaker than the check of names behind it. *)
Theorem C77_weaker :
  launcher [lit "-i"; lit "x.json/run"] = Start (lit "x.json/run") (lit "cpu") /\
  forall ex mf, validateCaseNamingStyle ex (lit "x.json/run") mf = Throw.
Proof. exact launcher_weaker. Qed.
Print Assumptions C77_weaker.

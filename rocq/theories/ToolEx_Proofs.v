(** The far-field tool: concrete requests, and a case it does not find. *)
From Coq Require Import String Ascii ZArith List Bool Reals Lia Lra.
From Verif Require Import Common Case_Model Case_Spec Case_Proofs CaseLoad_Proofs Rcs_Model Tool_Model Tool_Spec Tool_Proofs.
Import ListNotations.
Local Open Scope R_scope.

Definition req : request := mkReq (lit "mpi-4") (lit "sphere") (mkRange 1 3 3) (mkRange 0 2 2) (mkRange 0 1 2) None.
Definition reqs (f : str) : option request := if streq f (lit "rcs.json") then Some req else None.
Definition spheres (f : str) : option (option (list (option str))) :=
  if streq f (lit "./testData/maxwellInputs/sphere/sphere.json") then Some (Some [Some (lit "near"); Some (lit "far")]) else None.
Definition bad (j : job) : bool := negb (streq (j_path j) (lit "./Exports/mpi-4/sphere/RCSSurface/far/")).
Lemma ex_tool : (forall works, works = (fun _ => true) -> rcsMain reqs spheres works [lit "-x"; lit "-i"; lit "rcs.json"] = (Status 0, [jobOf req (lit "near"); jobOf req (lit "far")])) /\
  rcsMain reqs spheres bad [lit "-i"; lit "rcs.json"] = (Thrown, [jobOf req (lit "near"); jobOf req (lit "far")]) /\
  rcsMain reqs spheres bad [lit "-i"; lit "other.json"] = (Thrown, []) /\
  rcsMain reqs spheres bad [lit "-i"] = (Status 1, []) /\
  rcsMain reqs spheres bad [lit "-i"; lit "rcs.json"; lit "-h"] = (Status 0, []).
Proof. split; [intros works ->; reflexivity|]. repeat split. Qed.
Definition everywhere (_ : str) : bool := true.
Lemma ex_finds : exists m n, buildNames everywhere (fun _ => Some (Some (lit "sphere.msh"))) (caseJson (lit "sphere")) false = Ok (m, n) /\ caseName (lit "sphere") /\
  parts (exportBase (q_mode req) n (lit "far")) [lit "Exports"; lit "mpi-4"; lit "sphere"; lit "RCSSurface"; lit "far"].
Proof.
  eexists. exists (lit "sphere"). split; [reflexivity|]. split; [split; [discriminate|apply notin_lit; reflexivity]|].
  assert (E : partsF (exportBase (q_mode req) (lit "sphere") (lit "far")) = [lit "Exports"; lit "mpi-4"; lit "sphere"; lit "RCSSurface"; lit "far"]) by reflexivity. rewrite <- E. apply F_parts.
Qed.
Theorem elsewhere_refuted : ~ forall ex parse P c k path m n, casePath P c k path -> buildNames ex parse path false = Ok (m, n) -> forall l, parts (caseJson n) l <-> parts path l.
Proof.
  intros H. set (path := lit "my/sphere/sphere.json").
  assert (Cp : casePath (lit "my/") (lit "sphere") 1 path). { split; [right; exists (lit "my"); reflexivity|]. split; [split; [discriminate|apply notin_lit; reflexivity]|]. split; [lia|reflexivity]. }
  destruct (built_complete everywhere (fun _ => Some (Some (lit "sphere.msh"))) (lit "my/") (lit "sphere") 1 path Cp eq_refl eq_refl) as (m & Hb).
  pose proof (proj2 (H _ _ _ _ _ _ _ _ Cp Hb (partsF path)) (F_parts path)) as X. apply parts_F in X. vm_compute in X. discriminate.
Qed.

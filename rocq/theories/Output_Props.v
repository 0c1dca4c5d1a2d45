(** C86-C89: the files a run leaves behind, for every interleaving of the ranks. *)
From Coq Require Import String ZArith List Bool Lia Arith Reals Lra.
From Verif Require Import Common Probe_Model Output_Model Output_Spec OutputPoint_Proofs OutputField_Proofs OutputSnap_Proofs OutputDomain_Proofs OutputMore_Proofs OutputEx_Proofs OutputCase_Proofs OutputCaseB_Proofs OutputTag_Proofs.
Import ListNotations.
Local Open Scope string_scope.
Local Open Scope list_scope.
Local Open Scope nat_scope.

(** C86: tables of point and field probes. *)
Theorem C86_point_table : forall (F : Type) getValue dofs surf e p calls s s' p0 id w,
  writes F getValue dofs surf e p calls s s' -> someRoot e ->
  In p0 (pr_point p) -> pp_write p0 = true -> pp_id p0 = Some id -> heldBy (e_ranks e) (pp_element p0) w ->
  NoDup (map pp_id (filter pp_write (pr_point p))) ->
  exists rows,
    rowsOf (e_final e) (pp_steps p0)
      (fun t (x : nat -> F) => [LRow (t / 299792458) (map (fun k => getValue (x w) k (pp_element p0 w) (pp_point p0)) [Ex; Ey; Ez; Hx; Hy; Hz])]) 0 calls rows /\
    s' (["Exports"; runModeTag e] ++ e_case e ++ ["PointProbes"; ("PointProbe" ++ to_string id ++ ".dat")%string]) =
      Some (File (heading "PointProbe" id (pp_point p0) ["Ex"; "Ey"; "Ez"; "Hx"; "Hy"; "Hz"] ++ rows)).
Proof. exact point_table. Qed.
Print Assumptions C86_point_table.
Theorem C86_field_table : forall (F : Type) getValue dofs surf e p calls s s' p0 id w,
  writes F getValue dofs surf e p calls s s' -> someRoot e ->
  In p0 (pr_field p) -> fp_write p0 = true -> fp_id p0 = Some id -> heldBy (e_ranks e) (fp_element p0) w ->
  NoDup (map fp_id (filter fp_write (pr_field p))) ->
  exists rows,
    rowsOf (e_final e) (fp_steps p0)
      (fun t (x : nat -> F) => [LRow (t / 299792458) [getValue (x w) (fp_comp p0) (fp_element p0 w) (fp_point p0)]]) 0 calls rows /\
    s' (["Exports"; runModeTag e] ++ e_case e ++ ["FieldProbes"; ("FieldProbe" ++ to_string id ++ ".dat")%string]) =
      Some (File (heading "FieldProbe" id (fp_point p0) [polString (fp_comp p0)] ++ rows)).
Proof. exact field_table. Qed.
Print Assumptions C86_field_table.
(** The folder names the backend and the number of ranks, and tells them apart. *)
Theorem C86_folder : forall e,
  (e_cuda e = false -> e_ranks e = 1 -> runModeTag e = "single-core") /\
  (e_cuda e = false -> e_ranks e <> 1 -> runModeTag e = "mpi-" ++ to_string (e_ranks e))%string /\
  (e_cuda e = true -> runModeTag e = "cuda-" ++ to_string (e_ranks e))%string /\
  forall e', runModeTag e = runModeTag e' <-> e_cuda e = e_cuda e' /\ e_ranks e = e_ranks e'.
Proof. exact run_folder. Qed.
Print Assumptions C86_folder.
(** The case file's numbering gives what the two theorems ask for. *)
Theorem C86_numbered : forall (A : Type) (set : nat -> A -> A) (id : A -> option nat) (keep : A -> bool) l,
  (forall i a, id (set i a) = Some i) ->
  NoDup (map id (filter keep (numbered set l))) /\ forall a, In a (numbered set l) -> id a <> None.
Proof. exact (@numbered_distinct). Qed.
Print Assumptions C86_numbered.
(** A probe that was never numbered: the run is undefined. *)
Theorem C86_unnumbered : forall (F : Type) getValue dofs surf e p calls s s' p0 r,
  writes F getValue dofs surf e p calls s s' -> In p0 (pr_point p) -> pp_write p0 = true -> r < e_ranks e ->
  pp_element p0 r <> (-2)%Z -> pp_id p0 <> None.
Proof. exact id_needed. Qed.
Print Assumptions C86_unnumbered.
(** Two probes with one number: neither has its table. *)
Theorem C86_shared_refuted : exists e p calls s s',
  writes R gv dv sv e p calls s s' /\ someRoot e /\ pr_point p <> [] /\
  forall p0, In p0 (pr_point p) -> exists id, pp_write p0 = true /\ pp_id p0 = Some id /\ heldBy (e_ranks e) (pp_element p0) 0 /\
    forall rows, rowsOf (e_final e) (pp_steps p0)
        (fun t (x : nat -> R) => [LRow (t / 299792458) (map (fun k => gv (x 0) k (pp_element p0 0) (pp_point p0)) [Ex; Ey; Ez; Hx; Hy; Hz])]) 0 calls rows ->
      s' (pointFile e id) <> Some (File (heading "PointProbe" id (pp_point p0) ["Ex"; "Ey"; "Ez"; "Hx"; "Hy"; "Hz"] ++ rows)).
Proof. exact shared_refuted. Qed.
Print Assumptions C86_shared_refuted.
Example C86_case : exists s', writes R gv dv sv env2 probesA callsA before s' /\ someRoot env2 /\
  s' (pointFile env2 0) = Some (File (heading "PointProbe" 0 [1; 2]%R ["Ex"; "Ey"; "Ez"; "Hx"; "Hy"; "Hz"] ++
    [LRow (0 / 299792458) [INR 1; INR 1; INR 1; INR 1; INR 1; INR 1]; LRow (1 / 299792458) [INR 1 + 1; INR 1 + 1; INR 1 + 1; INR 1 + 1; INR 1 + 1; INR 1 + 1]%R])).
Proof. exact point_case. Qed.

(** C87: only this run's files. *)
Theorem C87_point_fresh : forall (F : Type) getValue dofs surf e p calls s s' q l,
  writes F getValue dofs surf e p calls s s' -> someRoot e -> pr_point p <> [] ->
  under (exportDir e (e_case e) "PointProbes") q -> s' q = Some (File l) ->
  exists p0 id r, In p0 (pr_point p) /\ pp_write p0 = true /\ pp_id p0 = Some id /\ r < e_ranks e /\ pp_element p0 r <> (-2)%Z /\ q = pointFile e id.
Proof. exact point_fresh. Qed.
Print Assumptions C87_point_fresh.
Theorem C87_field_fresh : forall (F : Type) getValue dofs surf e p calls s s' q l,
  writes F getValue dofs surf e p calls s s' -> someRoot e -> pr_field p <> [] ->
  under (exportDir e (e_case e) "FieldProbes") q -> s' q = Some (File l) ->
  exists p0 id r, In p0 (pr_field p) /\ fp_write p0 = true /\ fp_id p0 = Some id /\ r < e_ranks e /\ fp_element p0 r <> (-2)%Z /\ q = fieldFile e id.
Proof. exact field_fresh. Qed.
Print Assumptions C87_field_fresh.
(** Domain snapshots: exactly the meshes of the ranks and the due cycles, each with its rank's values. *)
Theorem C87_domain_exact : forall (F : Type) getValue dofs surf e p d, pr_snap p = [d] -> forall calls s s',
  writes F getValue dofs surf e p calls s s' -> someRoot e -> calls <> [] ->
  forall q l, under (["Exports"; runModeTag e] ++ e_case e ++ ["DomainSnapshotProbes"]) q ->
  (s' q = Some (File l) <->
   exists r, r < e_ranks e /\
    ((q = snapDir e ++ ["meshes"; ("mesh_rank" ++ to_string r)%string] /\ l = [LMesh [] r]) \/
     exists c t x a, nth_error calls c = Some (t, x) /\ dueAt (e_final e) (dp_steps d) c t /\
       q = snapDir e ++ [("rank_" ++ to_string r)%string; ("cycle_" ++ to_padded_string c 6)%string; a] /\ snapshotFile (dofs (x r)) t a l)).
Proof. exact domain_exact. Qed.
Print Assumptions C87_domain_exact.
(** Near-field snapshots that this run does not write stay. *)
Theorem C87_near_stays : forall (F : Type) getValue dofs surf e p calls s s' name r c a,
  writes F getValue dofs surf e p calls s s' ->
  (forall q, In q (pr_near p) -> np_name q = name -> forall t x, nth_error calls c = Some (t, x) -> ~ dueAt (e_final e) (np_steps q) c t) ->
  s' (nearSnapshot e name r c ++ [a]) = s (nearSnapshot e name r c ++ [a]).
Proof. exact near_stale. Qed.
Print Assumptions C87_near_stays.
Theorem C87_near_refuted : exists e p calls s s' q0 c a l,
  writes R gv dv sv e p calls s s' /\ someRoot e /\ In q0 (pr_near p) /\ length calls <= c /\
  s' (nearSnapshot e (np_name q0) 0 c ++ [a]) = Some (File l).
Proof. exact near_refuted. Qed.
Print Assumptions C87_near_refuted.
Theorem C87_mor_refuted : exists e p calls s s' m k l,
  writes R gv dv sv e p calls s s' /\ someRoot e /\ In m (pr_mor p) /\ (m_saves (mp_window m) <= Z.of_nat k)%Z /\
  s' (morFile e (mp_name m) k) = Some (File l).
Proof. exact mor_refuted. Qed.
Print Assumptions C87_mor_refuted.
Example C87_case : exists s', writes R gv dv sv env2 probesA callsA before s' /\ someRoot env2 /\ pr_snap probesA = [mkSnap 1] /\ pr_point probesA <> [] /\ pr_field probesA <> [] /\ callsA <> [].
Proof. exact fresh_case. Qed.

(** C88: each rank's share is kept. *)
Theorem C88_near_kept : forall (F : Type) getValue dofs surf e p calls s s' p0 r j t x a l,
  writes F getValue dofs surf e p calls s s' ->
  In p0 (pr_near p) -> NoDup (map np_name (pr_near p)) -> r < e_ranks e ->
  nth_error calls j = Some (t, x) -> dueAt (e_final e) (np_steps p0) j t -> snapshotFile (surf (x r) (np_tags p0)) t a l ->
  s (nearSnapshot e (np_name p0) r j ++ [a]) <> Some Dir ->
  s' (nearSnapshot e (np_name p0) r j ++ [a]) = Some (File l).
Proof. exact near_kept. Qed.
Print Assumptions C88_near_kept.
Theorem C88_surface_kept : forall (F : Type) getValue dofs surf e p calls s s' p0 r,
  writes F getValue dofs surf e p calls s s' ->
  In p0 (pr_surf p) -> NoDup (map sp_name (pr_surf p)) -> r < e_ranks e -> s (surfDir e (sp_name p0) r ++ ["surface_data.bin"]) <> Some Dir ->
  exists rows, rowsOf (e_final e) (sp_steps p0) (fun t (x : nat -> F) => LTime t :: map (fun c => LValues (surf (x r) (sp_tags p0) c)) [Ex; Ey; Ez; Hx; Hy; Hz]) 0 calls rows /\
    s' (surfDir e (sp_name p0) r ++ ["surface_data.bin"]) = Some (File (LGeometry (sp_tags p0) r :: rows)).
Proof. exact surf_kept. Qed.
Print Assumptions C88_surface_kept.
(** A state file holds one rank's values, of one call, or is untouched. *)
Theorem C88_mor_one_rank : forall (F : Type) getValue dofs surf e p calls s s' q,
  writes F getValue dofs surf e p calls s s' ->
  under (exportDir e (e_case e) "MORStateProbes") q -> (exists name k, q = morFile e name k) ->
  s' q = s q \/
  exists l, (exists call r, In call calls /\ r < e_ranks e /\ l = morLines F dofs (fst call) (snd call r)) /\ s' q = Some (File l).
Proof. exact mor_file. Qed.
Print Assumptions C88_mor_one_rank.
(** On two ranks one of the two states is in no file, whatever the schedule. *)
Theorem C88_mor_refuted : exists e p calls, e_ranks e = 2 /\ length (pr_mor p) = 1 /\
  (exists s', writes R gv dv sv e p calls empty s') /\
  forall s', writes R gv dv sv e p calls empty s' ->
    exists r call, r < 2 /\ In call calls /\ forall q, s' q <> Some (File (morLines R dv (fst call) (snd call r))).
Proof. exact lost_refuted. Qed.
Print Assumptions C88_mor_refuted.
Example C88_case : exists s', writes R gv dv sv env2 probesA callsA before s' /\ NoDup (map np_name (pr_near probesA)) /\ NoDup (map sp_name (pr_surf probesA)) /\
  s' (nearSnapshot env2 "sphere" 1 0 ++ ["Hy.gf"]) = Some (File [LValues [INR 1]]).
Proof. exact kept_case. Qed.

(** C89: no rank waits for ever. *)
Theorem C89_no_hang : forall (F : Type) getValue dofs surf e p calls s todo s1 rest,
  mapM (rankProgram F getValue dofs surf e p calls) (seq 0 (e_ranks e)) = Ok todo ->
  steps (mkWorld s todo) (mkWorld s1 rest) ->
  Forall (fun l => l = []) rest \/ (exists w, step (mkWorld s1 rest) w) \/
  exists r q tail, nth_error rest r = Some (OMkdirs q :: tail) /\ exists d old, prefixb d q = true /\ s1 d = Some (File old).
Proof. exact no_hang. Qed.
Print Assumptions C89_no_hang.
Theorem C89_ends : forall (F : Type) getValue dofs surf e p calls s todo s1 rest,
  mapM (rankProgram F getValue dofs surf e p calls) (seq 0 (e_ranks e)) = Ok todo ->
  steps (mkWorld s todo) (mkWorld s1 rest) ->
  exists s2 rest2, steps (mkWorld s1 rest) (mkWorld s2 rest2) /\ size rest2 <= size rest /\
    (Forall (fun l => l = []) rest2 \/ exists r q tail d old, nth_error rest2 r = Some (OMkdirs q :: tail) /\ prefixb d q = true /\ s2 d = Some (File old)).
Proof. exact run_exists. Qed.
Print Assumptions C89_ends.
(** Each step takes one operation, so there is no infinite run. *)
Theorem C89_measure : forall a b, step a b -> size (w_todo b) < size (w_todo a).
Proof. exact step_size. Qed.
Print Assumptions C89_measure.
Example C89_case : exists todo s', mapM (rankProgram R gv dv sv env2 probesA callsA) (seq 0 2) = Ok todo /\ ends empty todo s' /\ 40 <= size todo.
Proof. exact hang_case. Qed.

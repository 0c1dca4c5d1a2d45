(** The concrete runs in the words of the theorems. *)
From Coq Require Import String ZArith List Bool Lia Arith Reals Lra.
From Verif Require Import Common Probe_Model Input_Proofs Output_Model Output_Spec Output_Proofs OutputRun_Proofs OutputPoint_Proofs OutputField_Proofs OutputSnap_Proofs OutputDomain_Proofs OutputMore_Proofs OutputEx_Proofs OutputCase_Proofs.
Import ListNotations.
Local Open Scope string_scope.
Local Open Scope list_scope.
Local Open Scope nat_scope.

Lemma file_path : forall e k a, exportDir e (e_case e) k ++ [a] = ["Exports"; runModeTag e] ++ e_case e ++ [k; a].
Proof. intros. unfold exportDir. rewrite <- !app_assoc. reflexivity. Qed.
Lemma point_table : forall (F : Type) getValue dofs surf e p calls s s' p0 id w,
  writes F getValue dofs surf e p calls s s' -> someRoot e ->
  In p0 (pr_point p) -> pp_write p0 = true -> pp_id p0 = Some id -> heldBy (e_ranks e) (pp_element p0) w ->
  NoDup (map pp_id (filter pp_write (pr_point p))) ->
  exists rows,
    rowsOf (e_final e) (pp_steps p0)
      (fun t (x : nat -> F) => [LRow (t / 299792458) (map (fun k => getValue (x w) k (pp_element p0 w) (pp_point p0)) [Ex; Ey; Ez; Hx; Hy; Hz])]) 0 calls rows /\
    s' (["Exports"; runModeTag e] ++ e_case e ++ ["PointProbes"; ("PointProbe" ++ to_string id ++ ".dat")%string]) =
      Some (File (heading "PointProbe" id (pp_point p0) ["Ex"; "Ey"; "Ez"; "Hx"; "Hy"; "Hz"] ++ rows)).
Proof. intros. rewrite <- file_path. eapply point_file; eauto. Qed.
Lemma field_table : forall (F : Type) getValue dofs surf e p calls s s' p0 id w,
  writes F getValue dofs surf e p calls s s' -> someRoot e ->
  In p0 (pr_field p) -> fp_write p0 = true -> fp_id p0 = Some id -> heldBy (e_ranks e) (fp_element p0) w ->
  NoDup (map fp_id (filter fp_write (pr_field p))) ->
  exists rows,
    rowsOf (e_final e) (fp_steps p0)
      (fun t (x : nat -> F) => [LRow (t / 299792458) [getValue (x w) (fp_comp p0) (fp_element p0 w) (fp_point p0)]]) 0 calls rows /\
    s' (["Exports"; runModeTag e] ++ e_case e ++ ["FieldProbes"; ("FieldProbe" ++ to_string id ++ ".dat")%string]) =
      Some (File (heading "FieldProbe" id (fp_point p0) [polString (fp_comp p0)] ++ rows)).
Proof. intros. rewrite <- file_path. eapply field_file; eauto. Qed.
Lemma root1 : someRoot env1.
Proof. exists 0. split; [cbn; lia|reflexivity]. Qed.
Lemma root2 : someRoot env2.
Proof. exists 0. split; [cbn; lia|reflexivity]. Qed.
Lemma shared_refuted : exists e p calls s s',
  writes R gv dv sv e p calls s s' /\ someRoot e /\ pr_point p <> [] /\
  forall p0, In p0 (pr_point p) -> exists id, pp_write p0 = true /\ pp_id p0 = Some id /\ heldBy (e_ranks e) (pp_element p0) 0 /\
    forall rows, rowsOf (e_final e) (pp_steps p0)
        (fun t (x : nat -> R) => [LRow (t / 299792458) (map (fun k => gv (x 0) k (pp_element p0 0) (pp_point p0)) [Ex; Ey; Ez; Hx; Hy; Hz])]) 0 calls rows ->
      s' (pointFile e id) <> Some (File (heading "PointProbe" id (pp_point p0) ["Ex"; "Ey"; "Ez"; "Hx"; "Hy"; "Hz"] ++ rows)).
Proof.
  destruct shared as (s' & W & a & b & c & d & f & g & E). exists env1, probesB, [(0%R, INR)], empty, s'. split; [exact W|]. split; [exact root1|]. split; [discriminate|].
  intros p0 I. exists 5. assert (P : pp_write p0 = true /\ pp_id p0 = Some 5 /\ heldBy 1 (pp_element p0) 0).
  { destruct I as [<-|[<-|[]]]; (split; [reflexivity|]; split; [reflexivity|]; split; [lia|]; split; [cbn; lia|intros; lia]). }
  destruct P as (P1 & P2 & P3). split; [exact P1|]. split; [exact P2|]. split; [exact P3|]. intros rows Rw X. rewrite E in X.
  apply rows_bound in Rw; [|intros; cbn; lia]. injection X as _ _ _ _ X. rewrite <- X in Rw. cbn in Rw. lia.
Qed.
Lemma point_case : exists s', writes R gv dv sv env2 probesA callsA before s' /\ someRoot env2 /\
  s' (pointFile env2 0) = Some (File (heading "PointProbe" 0 [1; 2]%R ["Ex"; "Ey"; "Ez"; "Hx"; "Hy"; "Hz"] ++
    [LRow (0 / 299792458) [INR 1; INR 1; INR 1; INR 1; INR 1; INR 1]; LRow (1 / 299792458) [INR 1 + 1; INR 1 + 1; INR 1 + 1; INR 1 + 1; INR 1 + 1; INR 1 + 1]%R])).
Proof.
  destruct stale as (s' & W & _). exists s'. split; [exact W|]. split; [exact root2|].
  destruct (point_file R gv dv sv env2 probesA callsA before s' (mkPoint (Some 0) [1; 2]%R 1 true onRank1) 0 1 W root2) as (rows & Rw & E); auto.
  - now left.
  - split; [cbn; lia|]. split; [cbn; lia|]. intros q Q N. cbn in Q. destruct q as [|[|q]]; [reflexivity|congruence|lia].
  - cbn. constructor; [tauto|constructor].
  - rewrite E. do 3 f_equal. inversion Rw as [|? ? ? ? ? D R1|? ? ? ? ? D R1]; subst; [|exfalso; apply D; right; now exists 0%Z].
    inversion R1 as [|? ? ? ? ? D2 R2|? ? ? ? ? D2 R2]; subst; [|exfalso; apply D2; right; now exists 1%Z]. inversion R2; subst. reflexivity.
Qed.
Lemma domain_exact : forall (F : Type) getValue dofs surf e p d, pr_snap p = [d] -> forall calls s s',
  writes F getValue dofs surf e p calls s s' -> someRoot e -> calls <> [] ->
  forall q l, under (["Exports"; runModeTag e] ++ e_case e ++ ["DomainSnapshotProbes"]) q ->
  (s' q = Some (File l) <->
   exists r, r < e_ranks e /\
    ((q = snapDir e ++ ["meshes"; ("mesh_rank" ++ to_string r)%string] /\ l = [LMesh [] r]) \/
     exists c t x a, nth_error calls c = Some (t, x) /\ dueAt (e_final e) (dp_steps d) c t /\
       q = snapDir e ++ [("rank_" ++ to_string r)%string; ("cycle_" ++ to_padded_string c 6)%string; a] /\ snapshotFile (dofs (x r)) t a l)).
Proof.
  intros F getValue dofs surf e p d One calls s s' W Rt Nc q l U.
  rewrite (domain_files F getValue dofs surf e p d One calls s s' W Rt Nc q l U). unfold expected, meshFile.
  assert (P : forall r c a, snapFolder e r c ++ [a] = snapDir e ++ [("rank_" ++ to_string r)%string; ("cycle_" ++ to_padded_string c 6)%string; a]) by (intros; unfold snapFolder; now rewrite <- app_assoc).
  split; intros (r & R & [X|(c & t & x & a & A1 & A2 & A3 & A4)]); exists r; (split; [exact R|]); [now left|right|now left|right]; exists c, t, x, a; [rewrite <- P|rewrite P]; auto.
Qed.
Lemma near_refuted : exists e p calls s s' q0 c a l,
  writes R gv dv sv e p calls s s' /\ someRoot e /\ In q0 (pr_near p) /\ length calls <= c /\
  s' (nearSnapshot e (np_name q0) 0 c ++ [a]) = Some (File l).
Proof.
  destruct stale as (s' & W & E). exists env2, probesA, callsA, before, s', (mkNear "sphere" 1 [7]%Z), 5, "Ex.gf", [LValues [42%R]].
  split; [exact W|]. split; [exact root2|]. split; [now left|]. split; [cbn; lia|exact E].
Qed.
Definition oldState : path := morFile env2 "basis" 7.
Definition beforeM : fs := fun q => if path_eq q oldState then Some (File [LTime 9]) else if prefixb q oldState then Some Dir else None.
Lemma mor_refuted : exists e p calls s s' m k l,
  writes R gv dv sv e p calls s s' /\ someRoot e /\ In m (pr_mor p) /\ (m_saves (mp_window m) <= Z.of_nat k)%Z /\
  s' (morFile e (mp_name m) k) = Some (File l).
Proof.
  exists env2, probesM, callsM, beforeM. eexists. exists (mkMorProbe "basis" (mkMor 0 1 1)), 7, [LTime 9]. split; [|split; [exact root2|split; [now left|split; [cbn; lia|]]]].
  - exists todoM. split; [exact programM|]. apply (go_ends 20 [0; 1]). vm_compute. reflexivity.
  - vm_compute. reflexivity.
Qed.
Lemma fresh_case : exists s', writes R gv dv sv env2 probesA callsA before s' /\ someRoot env2 /\ pr_snap probesA = [mkSnap 1] /\ pr_point probesA <> [] /\ pr_field probesA <> [] /\ callsA <> [].
Proof. destruct stale as (s' & W & _). exists s'. repeat split; auto; try discriminate. exact root2. Qed.
Lemma lost_refuted : exists e p calls, e_ranks e = 2 /\ length (pr_mor p) = 1 /\
  (exists s', writes R gv dv sv e p calls empty s') /\
  forall s', writes R gv dv sv e p calls empty s' ->
    exists r call, r < 2 /\ In call calls /\ forall q, s' q <> Some (File (morLines R dv (fst call) (snd call r))).
Proof.
  exists env2, probesM, callsM. split; [reflexivity|]. split; [reflexivity|]. split; [exact runM|]. intros s' W. destruct (lost s' W) as (r & R & L).
  exists r, (0%R, INR). split; [exact R|]. split; [now left|exact L].
Qed.
Lemma kept_case : exists s', writes R gv dv sv env2 probesA callsA before s' /\ NoDup (map np_name (pr_near probesA)) /\ NoDup (map sp_name (pr_surf probesA)) /\
  s' (nearSnapshot env2 "sphere" 1 0 ++ ["Hy.gf"]) = Some (File [LValues [INR 1]]).
Proof.
  destruct stale as (s' & W & _). exists s'. split; [exact W|]. assert (N1 : NoDup (map np_name (pr_near probesA))) by (cbn; constructor; [tauto|constructor]).
  split; [exact N1|]. split; [cbn; constructor; [tauto|constructor]|].
  eapply (near_kept R gv dv sv env2 probesA callsA before s' (mkNear "sphere" 1 [7]%Z) 1 0); eauto.
  - now left.
  - reflexivity.
  - right. now exists 0%Z.
  - left. exists Hy, "Hy". split; [cbn; tauto|]. split; reflexivity.
  - vm_compute. discriminate.
Qed.
Lemma hang_case : exists todo s', mapM (rankProgram R gv dv sv env2 probesA callsA) (seq 0 2) = Ok todo /\ ends empty todo s' /\ 40 <= size todo.
Proof.
  eexists _, _. split; [program; rewrite ?due1; reflexivity|]. split; [apply (go_ends 200 [0; 1]); vm_compute; reflexivity|].
  vm_compute. repeat constructor.
Qed.

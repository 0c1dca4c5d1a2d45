(** Statistics: cases, and what goes wrong. *)
From Coq Require Import String ZArith List Bool Lia Arith Reals Lra.
From Verif Require Import Common Probe_Model Input_Proofs Output_Model Output_Spec Output_Proofs OutputRun_Proofs OutputEx_Proofs OutputCase_Proofs Stats_Model Stats_Spec Stats_Proofs.
Import ListNotations.
Local Open Scope string_scope.
Local Open Scope list_scope.
Local Open Scope nat_scope.

Theorem file_record : forall (F : Type) getValue dofs surf e p first calls info s s' r, launched F getValue dofs surf e p first calls info s s' -> r < e_ranks e -> i_sub (info r) = false ->
  exists q, runRecord (info r) q /\ s' (statisticsOf e r) = Some (File (initialRecord (info r) ++ q)).
Proof. intros. exists (runLines (info r)). split; [apply record_ok|]. eapply statistics_file; eauto. Qed.
Theorem file_only : forall (F : Type) getValue dofs surf e p first calls info s s' q l, launched F getValue dofs surf e p first calls info s s' -> 0 < e_ranks e ->
  under (statisticsDir e) q -> s' q = Some (File l) -> exists r, r < e_ranks e /\ i_sub (info r) = false /\ q = statisticsOf e r.
Proof.
  intros F gv' dv' sv' e p first calls info s s' q l L N U E. destruct (statistics_only F gv' dv' sv' e p first calls info s s' q L N U) as (r & [C|C]); [congruence| |congruence]. exists r. exact C.
Qed.
Theorem api_file : forall e us s s' c, used e us s = Ok s' ->
  (c = None /\ s (statisticsOf e 0) = None \/ exists o, c = Some o /\ s (statisticsOf e 0) = Some (File o) /\ s (statisticsDir e) = Some Dir) ->
  exists l, leaves (match s (statisticsDir e) with Some Dir => true | _ => false end) us l /\
    s' (statisticsOf e 0) = match c, l with None, [] => None | None, _ => Some (File l) | Some o, _ => Some (File (o ++ l)) end.
Proof.
  intros e us s s' c H K. rewrite !file_is, dir_is in *. assert (D : isDir s (statsDir e) = match s (statsDir e) with Some Dir => true | _ => false end) by reflexivity.
  destruct (used_file e us s s' H) with (c := c) as (l & L & E).
  - destruct K as [(_ & ->)|(o & _ & -> & _)]; discriminate.
  - destruct K as [(-> & ->)|(o & -> & -> & _)]; reflexivity.
  - intros Df. destruct K as [(-> & _)|(o & _ & _ & K)]; [reflexivity|]. rewrite D, K in Df. discriminate.
  - exists l. rewrite <- D. split; [exact L|]. rewrite E. destruct c as [o|]; [reflexivity|]. destruct l; reflexivity.
Qed.

(** ** Cases *)
Definition noProbes : probes := mkProbes [] [] [] [] [] [].
Definition someInfo (r : nat) : info := mkInfo false 3 100 (INR r) 10 1 (repeat 2%R (S r)) (4 * r) (Some (24, 30, 100)%Z) 50.
(** An earlier run on two ranks, with a file of its own. *)
Definition earlier : fs := fun q =>
  if path_eq q ["Exports"] then Some Dir else if path_eq q ["Exports"; "mpi-2"] then Some Dir else if path_eq q ["Exports"; "mpi-2"; "box"] then Some Dir
  else if path_eq q (statsDir env2) then Some Dir else if path_eq q (statsFile env2 0) then Some (File [LStat "Final Time" (Some 5%R)])
  else if path_eq q (statsDir env2 ++ ["notes.txt"]) then Some (File [LTitle]) else None.
Lemma ends_simple : forall (a b : nat -> list line), exists s', ends earlier
  [ [ORemove (statsDir env2); OMkdirs (statsDir env2); OBarrier; OAppend (statsFile env2 0) (a 0); OMkdirs (statsDir env2); OAppend (statsFile env2 0) (b 0)];
    [OBarrier; OAppend (statsFile env2 1) (a 1); OMkdirs (statsDir env2); OAppend (statsFile env2 1) (b 1)] ] s'.
Proof. intros a b. eexists. apply (go_ends 40 [1; 0]). vm_compute. reflexivity. Qed.
Lemma ex_launch : exists s', launched R gv dv sv env2 noProbes (0%R, INR) [(1%R, INR)] someInfo earlier s' /\ (forall r, i_sub (someInfo r) = false) /\ earlier (statsDir env2 ++ ["notes.txt"]) <> None /\ earlier (statsFile env2 0) <> None.
Proof.
  destruct (ends_simple (fun r => initLines (someInfo r)) (fun r => runLines (someInfo r))) as (s' & E). exists s'. split; [|split; [reflexivity|split; discriminate]].
  unfold launched. eexists. split; [|exact E]. reflexivity.
Qed.
(** The first solver a program makes leaves no initialisation record. *)
Lemma lost_simple : forall (a b : list line), exists s', foldM (fun s o => exec o s)
  [OAppend (statsFile (mkEnv false 1 (fun _ => true) ["box"] 1) 0) a; OMkdirs (statsDir (mkEnv false 1 (fun _ => true) ["box"] 1)); OAppend (statsFile (mkEnv false 1 (fun _ => true) ["box"] 1) 0) b] (fun _ => None) = Ok s' /\
  s' (statsFile (mkEnv false 1 (fun _ => true) ["box"] 1) 0) = Some (File b).
Proof. intros a b. eexists. split; [reflexivity|]. vm_compute. reflexivity. Qed.
Theorem first_lost : forall i, i_sub i = false -> exists e s', used e [New i; Run i] (fun _ => None) = Ok s' /\ s' (statisticsOf e 0) = Some (File (runLines i)).
Proof.
  intros i H. exists (mkEnv false 1 (fun _ => true) ["box"] 1). destruct (lost_simple (initLines i) (runLines i)) as (s' & A & B). exists s'.
  split; [|rewrite file_is; exact B]. unfold used. cbn [map concat useOps]. unfold constructed, finished. rewrite H. exact A.
Qed.
(** A second solver adds to the file of the first. *)
Lemma api_simple : forall (a b c : list line), exists s', foldM (fun s o => exec o s)
  [OMkdirs (statsDir env2); OAppend (statsFile env2 0) a; OAppend (statsFile env2 0) b; OMkdirs (statsDir env2); OAppend (statsFile env2 0) c] earlier = Ok s'.
Proof. intros a b c. eexists. vm_compute. reflexivity. Qed.
Lemma ex_api : exists s', used env2 [Run (someInfo 0); New (someInfo 1); Run (someInfo 1)] earlier = Ok s' /\ earlier (statisticsOf env2 0) = Some (File [LStat "Final Time" (Some 5%R)]) /\ earlier (statisticsDir env2) = Some Dir.
Proof. destruct (api_simple (runLines (someInfo 0)) (initLines (someInfo 1)) (runLines (someInfo 1))) as (s' & E). exists s'. split; [exact E|]. split; reflexivity. Qed.
Theorem square_lost : forall n, (94906265 < n)%Z -> Z.odd n = true -> forall i h w nnz, i_operator i = Some (h, w, nnz) -> h = n ->
  exists sq, In (LStat "Operator Total Elements for Local Degrees of Freedom" (Some (IZR sq))) (runLines i) /\ sq <> (n * n)%Z.
Proof.
  intros n Hn O i h w nnz E ->. exists (squaredElements n). split; [|now apply odd_square_lost]. unfold runLines. rewrite E. apply in_or_app. right. apply in_or_app. left. now left.
Qed.

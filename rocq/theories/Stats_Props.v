(** C107: the statistics files describe the run that was made. *)
From Coq Require Import String ZArith List Bool Reals.
From Verif Require Import Common Output_Model Output_Spec OutputCase_Proofs Stats_Model Stats_Spec StatsEx_Proofs.
Import ListNotations.
Local Open Scope string_scope.
Local Open Scope list_scope.
Local Open Scope nat_scope.

(** A case started from its file, with any probes, on any number of ranks and in any order: the file
    of each rank holds one initialisation record and one run record, both of this run. *)
Theorem C107_file : forall (F : Type) getValue dofs surf e p first calls info s s' r,
  launched F getValue dofs surf e p first calls info s s' -> r < e_ranks e -> i_sub (info r) = false ->
  exists q, runRecord (info r) q /\ s' (statisticsOf e r) = Some (File (initialRecord (info r) ++ q)).
Proof. exact file_record. Qed.
Print Assumptions C107_file.
(** The directory holds nothing else, whatever was in it before. *)
Theorem C107_only : forall (F : Type) getValue dofs surf e p first calls info s s' q l,
  launched F getValue dofs surf e p first calls info s s' -> 0 < e_ranks e ->
  under (statisticsDir e) q -> s' q = Some (File l) -> exists r, r < e_ranks e /\ i_sub (info r) = false /\ q = statisticsOf e r.
Proof. exact file_only. Qed.
Print Assumptions C107_only.
Example C107_file_ex : exists s', launched R gv dv sv env2 noProbes (0%R, INR) [(1%R, INR)] someInfo earlier s' /\ (forall r, i_sub (someInfo r) = false) /\
  earlier (statsDir env2 ++ ["notes.txt"]) <> None /\ earlier (statsFile env2 0) <> None.
Proof. exact ex_launch. Qed.

(** A program that makes and runs solvers itself, in any order and number: the records follow each
    other after what was there, except that those before the first run are lost when the directory
    is missing. *)
Theorem C107_api_partial : forall e us s s' c, used e us s = Ok s' ->
  (c = None /\ s (statisticsOf e 0) = None \/ exists o, c = Some o /\ s (statisticsOf e 0) = Some (File o) /\ s (statisticsDir e) = Some Dir) ->
  exists l, leaves (match s (statisticsDir e) with Some Dir => true | _ => false end) us l /\
    s' (statisticsOf e 0) = match c, l with None, [] => None | None, _ => Some (File l) | Some o, _ => Some (File (o ++ l)) end.
Proof. exact api_file. Qed.
Print Assumptions C107_api_partial.
Example C107_api_ex : exists s', used env2 [Run (someInfo 0); New (someInfo 1); Run (someInfo 1)] earlier = Ok s' /\
  earlier (statisticsOf env2 0) = Some (File [LStat "Final Time" (Some 5%R)]) /\ earlier (statisticsDir env2) = Some Dir.
Proof. exact ex_api. Qed.
(** So the first solver of such a program leaves no initialisation record. *)
Theorem C107_api_refuted : forall i, i_sub i = false ->
  exists e s', used e [New i; Run i] (fun _ => None) = Ok s' /\ s' (statisticsOf e 0) = Some (File (runLines i)).
Proof. exact first_lost. Qed.
Print Assumptions C107_api_refuted.
(** The number of places of the operator is wrong for every odd size above 94906265, since the square
    is taken in double precision. *)
Theorem C107_places_refuted : forall n, (94906265 < n)%Z -> Z.odd n = true -> forall i h w nnz, i_operator i = Some (h, w, nnz) -> h = n ->
  exists sq, In (LStat "Operator Total Elements for Local Degrees of Freedom" (Some (IZR sq))) (runLines i) /\ sq <> (n * n)%Z.
Proof. exact square_lost. Qed.
Print Assumptions C107_places_refuted.

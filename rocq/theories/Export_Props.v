(** C116: the exported evolution operators. *)
From Coq Require Import String ZArith List Bool Reals.
From Verif Require Import Common Print_Spec Export_Model Export_Spec Export_Proofs ExportEx_Proofs.
Import ListNotations.
Local Open Scope R_scope.

(** Which files a run writes: the global operator when the export is asked for, one process runs and the
    evolution is the global one or the element-wise one with curved elements; the source operator for the
    global evolution with a total-field boundary.  No name is written twice. *)
Theorem C116_files : forall s o fs, (1 <= s_world s)%nat -> exports s = Ok (o, fs) ->
  (forall n f, In (n, f) fs <-> (wantsGlobal s /\ n = globalName s /\ f = printCSR2 (threshold (1 / 10 ^ 20) (s_merged s))) \/
                                (wantsSource s /\ n = sourceName s /\ f = printCSR2 (s_source s))) /\
  NoDup (map fst fs).
Proof. exact exports_files. Qed.
Print Assumptions C116_files.

(** The run stops with an exception exactly when a file it is to write cannot be opened. *)
Theorem C116_throws : forall s, (1 <= s_world s)%nat ->
  (exports s = Throw <-> (wantsGlobal s /\ s_opens s (globalName s) = false) \/ (wantsSource s /\ s_opens s (sourceName s) = false)) /\
  exports s <> UB.
Proof. exact exports_throw. Qed.
Print Assumptions C116_throws.

(** Asking for the export does not change the operator of the run. *)
Theorem C116_same_run : forall s o fs, exports s = Ok (o, fs) -> exports (quietly s) = Ok (o, []).
Proof. exact exports_quiet. Qed.
Print Assumptions C116_same_run.

Example C116_files_example : exists m fs, exports (exSetup EvGlobal 1) = Ok (Some m, fs) /\
  map fst fs = ["Exports/Operators/box/box_global.csr"; "Exports/Operators/box/box_tfsf.csr"]%string.
Proof. exact ex_runs. Qed.

(** Asking is not enough: with several processes, or with the default evolution, nothing is written. *)
Theorem C116_asked_refuted :
  ~ (forall s o fs, (1 <= s_world s)%nat -> s_export s = true -> exports s = Ok (o, fs) -> fs <> []) /\
  ~ (forall s o fs, s_world s = 1%nat -> s_export s = true -> exports s = Ok (o, fs) -> fs <> []).
Proof. exact (conj asked_refuted asked_one_refuted). Qed.
Print Assumptions C116_asked_refuted.

(** The operator of the run is the merged one without the entries of at most 1e-20. *)
Theorem C116_operator : forall s m fs, exports s = Ok (Some m, fs) ->
  sp_h m = sp_h (s_merged s) /\ sp_w m = sp_w (s_merged s) /\ matching m /\
  forall i, (i < sp_h (s_merged s))%nat -> thinned (rowOf (s_merged s) i) (rowOf m i).
Proof. exact run_operator. Qed.
Print Assumptions C116_operator.

(** The file can be read back: every row has the columns of the operator of the run, in order, each value the
    closest one of six digits ... *)
Theorem C116_global_file : forall s o fs f, (1 <= s_world s)%nat -> exports s = Ok (o, fs) -> In (globalName s, f) fs ->
  exists m', readCsr f = Some m' /\ sp_h m' = sp_h (s_merged s) /\ sp_w m' = sp_w (s_merged s) /\
  forall i, (i < sp_h (s_merged s))%nat -> exists row, thinned (rowOf (s_merged s) i) row /\ closeRow row (rowOf m' i).
Proof. exact global_content. Qed.
Print Assumptions C116_global_file.
(** ... the source operator with all its entries. *)
Theorem C116_source_file : forall s o fs f, (1 <= s_world s)%nat -> matching (s_source s) -> exports s = Ok (o, fs) -> In (sourceName s, f) fs ->
  exists m', readCsr f = Some m' /\ sp_h m' = sp_h (s_source s) /\ sp_w m' = sp_w (s_source s) /\
  forall i, closeRow (rowOf (s_source s) i) (rowOf m' i).
Proof. exact source_content. Qed.
Print Assumptions C116_source_file.

(** Values are written one by one, by an odd and monotone rule: equal values stay equal, opposite ones
    opposite, none changes its sign or becomes zero. *)
Theorem C116_values : exists g : R -> R, (forall v, closest 6 v (g v)) /\ (forall v, g (- v) = - g v) /\ (forall v w, v <= w -> g v <= g w) /\
  (forall v, v <> 0 -> 0 < g v * v) /\
  forall m, matching m -> readCsr (printCSR2 m) = Some (mkSp (sp_h m) (sp_w m) (sp_I m) (sp_J m) (map g (sp_A m))).
Proof. exact values. Qed.
Print Assumptions C116_values.

(** The exported operator applied to any field is right to five parts in a million of the sum of the sizes
    of its terms. *)
Theorem C116_product : forall s o fs f m' i x, (1 <= s_world s)%nat -> exports s = Ok (o, fs) -> In (globalName s, f) fs -> readCsr f = Some m' ->
  (i < sp_h (s_merged s))%nat ->
  Rabs (applyRow (rowOf m' i) x - applyRow (rowOf (s_merged s) i) x) <=
  5 / 10 ^ 6 * weight (rowOf (s_merged s) i) x + 1 / 10 ^ 20 * load (rowOf (s_merged s) i) x.
Proof. exact global_product. Qed.
Print Assumptions C116_product.

Example C116_content_example : (matching exMerged /\ matching exSource) /\ large 1 /\ ~ large (/ 10 ^ 21).
Proof. exact (conj ex_matching ex_large). Qed.

(** Sums are not kept: an operator that gives zero on constant fields is exported as one that does not. *)
Theorem C116_sums_refuted : ~ forall s o fs f m' i, s_world s = 1%nat -> matching (s_merged s) -> exports s = Ok (o, fs) -> In (globalName s, f) fs ->
  readCsr f = Some m' -> (i < sp_h (s_merged s))%nat -> applyRow (rowOf (s_merged s) i) (fun _ => 1) = 0 -> applyRow (rowOf m' i) (fun _ => 1) = 0.
Proof. exact sums_refuted. Qed.
Print Assumptions C116_sums_refuted.

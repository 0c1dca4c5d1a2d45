(** C47, C48: merging per-rank result files, and reading the incident wave. *)
From Coq Require Import ZArith List Bool Reals String Permutation.
From Verif Require Import Common Rcs_Model Merge_Model Merge_Spec Merge_Proofs MergeEx_Proofs.
Import ListNotations.
Local Open Scope R_scope.

(** The merged file sums both value columns row by row and keeps the first rank's
    angles and frequencies. Missing: the normalisation column is not kept (refuted). *)
Theorem C47_sum_partial : forall name first others rows0 rest,
  holds first name rows0 -> Forall2 (fun r rows => holds r name rows) others rest ->
  Forall (fun rows => List.length rows = List.length rows0) rest ->
  exists out, mergeFile name first others = Ok out /\ List.length out = List.length rows0 /\
    forall i d, nth_error out i = Some d -> mergedRow i (rows0 :: rest) d.
Proof. exact merge_value. Qed.
Print Assumptions C47_sum_partial.

Theorem C47_order_partial : forall name first others first' others' perRank rows0,
  Permutation (first :: others) (first' :: others') ->
  Forall2 (fun r rows => holds r name rows) (first :: others) perRank ->
  Forall (fun rows => sameGrid rows0 rows) perRank ->
  exists out, mergeFile name first others = Ok out /\ mergeFile name first' others' = Ok out.
Proof. exact merge_order. Qed.
Print Assumptions C47_order_partial.

Example C47_hypotheses_met :
  Forall2 (fun r rows => holds r "a.dat" rows) [exDir [exRow 7; exRow 1]; exDir [exRow 8; exRow 2]] [[exRow 7; exRow 1]; [exRow 8; exRow 2]] /\
  Forall (fun rows => sameGrid [exRow 7; exRow 1] rows) [[exRow 7; exRow 1]; [exRow 8; exRow 2]].
Proof. exact ex_merge. Qed.

(** Every file of the first rank is merged, and nothing else is written. *)
Theorem C47_files_partial : forall first others out, mergeDirs (first :: others) = Ok out ->
  map fst out = rd_names first /\ forall name rows, In (name, rows) out -> mergeFile name first others = Ok rows.
Proof. exact mergeDirs_files. Qed.
Print Assumptions C47_files_partial.

(** Errors: a missing file, a malformed line, a different number of rows. *)
Theorem C47_missing_file : forall name first others r, In r (first :: others) -> rd_file r name = None ->
  mergeFile name first others <> UB /\ forall out, mergeFile name first others <> Ok out.
Proof. exact merge_missing. Qed.
Print Assumptions C47_missing_file.
Theorem C47_malformed : forall header lines l, In l lines -> (forall d, ~ rowLine l d) -> readDataFile (Some (header :: lines)) = Throw.
Proof. exact read_malformed. Qed.
Print Assumptions C47_malformed.
Theorem C47_mismatch : forall name first r others rows0 rows, holds first name rows0 -> holds r name rows -> List.length rows <> List.length rows0 ->
  mergeFile name first (r :: others) = Throw.
Proof. exact merge_mismatch. Qed.
Print Assumptions C47_mismatch.

Theorem C47_normalisation_refuted : exists name first other rows0 rows out,
  holds first name rows0 /\ holds other name rows /\ sameGrid rows0 rows /\ map d_norm rows0 = map d_norm rows /\
  mergeFile name first [other] = Ok out /\ map d_norm out <> map d_norm rows0.
Proof. exact norm_refuted. Qed.
Print Assumptions C47_normalisation_refuted.
Theorem C47_order_refuted : exists name first other out out',
  mergeFile name first [other] = Ok out /\ mergeFile name other [first] = Ok out' /\ map d_theta out <> map d_theta out'.
Proof. exact grid_refuted. Qed.
Print Assumptions C47_order_refuted.
Theorem C47_extra_file_refuted : exists ranks out, mergeDirs ranks = Ok out /\
  exists r name f, In r ranks /\ In name (rd_names r) /\ rd_file r name = Some f /\ ~ In name (map fst out).
Proof. exact extra_refuted. Qed.
Print Assumptions C47_extra_file_refuted.

(** No case without a plane wave is rejected: all of them are accepted, with the
    sentinels as data. *)
Theorem C48_no_plane_wave_refuted : forall meshDir sources, Forall (fun s => j_plane s = false) sources ->
  buildPlaneWaveData meshDir sources = Ok (mkPw (- 10 ^ 5) (- 10 ^ 5) 0).
Proof. exact no_plane. Qed.
Print Assumptions C48_no_plane_wave_refuted.
Example C48_no_plane_wave_met : Forall (fun s => j_plane s = false) [exDipole].
Proof. exact (Forall_cons exDipole eq_refl (Forall_nil _)). Qed.

(** A plane wave whose spread and mean are not near 1e5 is accepted, and the last one
    counts. *)
Theorem C48_plane_wave_partial : forall meshDir before s after, j_plane s = true -> normR3 (j_prop s) <> 0 -> Forall (fun x => j_plane x = false) after ->
  Rabs (j_spread s - 10 ^ 5) >= 1 / 10 ^ 6 ->
  (forall m, waveMean meshDir s m -> Rabs (m - 10 ^ 5) >= 1 / 10 ^ 6) ->
  exists pw, buildPlaneWaveData meshDir (before ++ s :: after) = Ok pw /\ pw_spread pw = j_spread s /\ waveMean meshDir s (pw_mean pw) /\
    (forall f, j_freq s = Some f -> pw_freq pw = f / speedOfLight_SI).
Proof. exact plane_accepted. Qed.
Print Assumptions C48_plane_wave_partial.
Example C48_plane_wave_met : j_plane (exPlane 2) = true /\ normR3 (j_prop (exPlane 2)) <> 0 /\ Forall (fun x => j_plane x = false) [exDipole] /\
  Rabs (j_spread (exPlane 2) - 10 ^ 5) >= 1 / 10 ^ 6 /\ forall m, waveMean true (exPlane 2) m -> Rabs (m - 10 ^ 5) >= 1 / 10 ^ 6.
Proof. exact ex_plane_ok. Qed.
Theorem C48_valid_rejected_refuted : exists s, j_plane s = true /\ normR3 (j_prop s) <> 0 /\ buildPlaneWaveData true [s] = Throw.
Proof. exact spread_refuted. Qed.
Print Assumptions C48_valid_rejected_refuted.
Theorem C48_frequency_refuted : exists s1 s2 pw, j_freq s2 = None /\ buildPlaneWaveData true [s1; s2] = Ok pw /\ pw_freq pw <> 0 /\
  exists pw', buildPlaneWaveData true [s2] = Ok pw' /\ pw_freq pw' = 0.
Proof. exact frequency_refuted. Qed.
Print Assumptions C48_frequency_refuted.
(** A directory without results of any rank is refused with an error. *)
Theorem C47_no_rank : mergeDirs [] = Throw.
Proof. exact eq_refl. Qed.
Print Assumptions C47_no_rank.

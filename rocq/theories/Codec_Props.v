(** Properties of the far-field surface data file (C43, C44). *)
From Coq Require Import ZArith List Bool.
From Verif Require Import Common Codec_Model Codec_Spec Codec_Proofs CodecEx_Proofs.
Import ListNotations.
Local Open Scope Z_scope.

(** C43.  What was written is what is read. *)
Theorem C43_round_trip : forall g l, goodGeometry g -> Forall (goodSnapshot (g_dofs g)) l ->
  readRankData (fileOf g l) = Ok (g, l).
Proof. exact round_trip. Qed.
Print Assumptions C43_round_trip.
(** Two points in the plane, one dof, two snapshots. *)
Example C43_hypotheses_met : goodGeometry exGeo /\ Forall (goodSnapshot (g_dofs exGeo)) exSnaps.
Proof. exact ex_good. Qed.

(** C44.  A file cut after the geometry gives the snapshots that are complete, and,
    when at least the time of the next one is there, one more whose missing bytes
    are zero. *)
Theorem C44_cut_in_snapshots_partial : forall g l c, goodGeometry g -> Forall (goodSnapshot (g_dofs g)) l ->
  bodyStart g <= Z.of_nat c < Z.of_nat (length (fileOf g l)) ->
  exists k r, Z.of_nat c = bodyStart g + snapSize g * Z.of_nat k + Z.of_nat r /\ (k < length l)%nat /\ Z.of_nat r < snapSize g /\
  ((r < 8)%nat -> readRankData (firstn c (fileOf g l)) = Ok (g, firstn k l)) /\
  ((8 <= r)%nat -> exists s p, nth_error l k = Some s /\ readRankData (firstn c (fileOf g l)) = Ok (g, firstn k l ++ [p]) /\
     blanked r (snapshotBytes s) (snapshotBytes p)).
Proof. exact cut_body. Qed.
Print Assumptions C44_cut_in_snapshots_partial.

(** C44.  A file cut inside the geometry gives no snapshot, and a geometry whose
    missing bytes are zero. *)
Theorem C44_cut_in_geometry_partial : forall g l c, goodGeometry g -> Forall (goodSnapshot (g_dofs g)) l ->
  20 <= Z.of_nat c < bodyStart g ->
  exists g', readRankData (firstn c (fileOf g l)) = Ok (g', []) /\
    g_dim g' = g_dim g /\ g_dofs g' = g_dofs g /\ g_bdr g' = g_bdr g /\ g_qp g' = g_qp g /\ g_basis g' = g_basis g /\
    blanked (c - 20) (geometryBytes g) (geometryBytes g').
Proof. exact cut_geometry. Qed.
Print Assumptions C44_cut_in_geometry_partial.
Example C44_positions_met : bodyStart exGeo = 116 /\ Z.of_nat (length (fileOf exGeo exSnaps)) = 228.
Proof. exact ex_sizes. Qed.

(** C44 fails: a cut inside a snapshot adds one that was never written. *)
Theorem C44_prefix_refuted : exists g l c r, goodGeometry g /\ Forall (goodSnapshot (g_dofs g)) l /\ (20 <= c)%nat /\
  readRankData (firstn c (fileOf g l)) = Ok (g, r) /\ forall k, r <> firstn k l.
Proof. exact ex_prefix. Qed.
Print Assumptions C44_prefix_refuted.

(** C44.  Whatever the file, what is read has arrays of the sizes its header states. *)
Theorem C44_sizes : forall file g l, readRankData file = Ok (g, l) ->
  (20 <= length file)%nat /\ 0 <= g_qp g /\
  Z.of_nat (length (g_pos g)) = g_qp g * g_dim g /\ Z.of_nat (length (g_nor g)) = g_qp g * 3 /\ Z.of_nat (length (g_wei g)) = g_qp g /\
  Z.of_nat (length (g_pos g)) <= 2147483647 /\ Z.of_nat (length (g_nor g)) <= 2147483647 /\
  Forall (fun s => length (s_comps s) = 6%nat /\ Forall (fun c => Z.of_nat (length c) = g_dofs g) (s_comps s)) l.
Proof. exact any_file. Qed.
Print Assumptions C44_sizes.
(** C44 fails: a file without a whole header, or whose header asks for too many points, is not
    refused but undefined. *)
Theorem C44_header_refuted : (forall file, (length file < 20)%nat -> readRankData file = UB) /\
  length overflowing = 20%nat /\ readRankData overflowing = UB.
Proof. exact (conj short_file overflow). Qed.
Print Assumptions C44_header_refuted.

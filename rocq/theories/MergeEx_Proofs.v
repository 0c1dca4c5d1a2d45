From Coq Require Import ZArith List Bool Reals String Lra Lia Permutation.
From Verif Require Import Common Rcs_Model Merge_Model Merge_Spec Merge_Proofs.
Import ListNotations.
Local Open Scope R_scope.
Local Open Scope string_scope.

Definition exRow (p : R) : rowData := mkRD 1 2 3 p 5.
Definition exLine (d : rowData) : line := [Some (d_theta d); Some (d_phi d); Some (d_freq d); Some (d_pot d); Some (d_norm d)].
Definition exDir (rows : list rowData) : rankDir := mkDir ["a.dat"] (fun n => if String.eqb n "a.dat" then Some ([None] :: map exLine rows) else None).
Lemma exDir_holds : forall rows, holds (exDir rows) "a.dat" rows.
Proof.
  intros rows. exists [None], (map exLine rows). split; [reflexivity|]. induction rows as [|d l IH]; cbn [map]; constructor; auto. exists []. reflexivity.
Qed.
Lemma ex_merge : Forall2 (fun r rows => holds r "a.dat" rows) [exDir [exRow 7; exRow 1]; exDir [exRow 8; exRow 2]] [[exRow 7; exRow 1]; [exRow 8; exRow 2]] /\
  Forall (fun rows => sameGrid [exRow 7; exRow 1] rows) [[exRow 7; exRow 1]; [exRow 8; exRow 2]].
Proof.
  split; [constructor; [apply exDir_holds|constructor; [apply exDir_holds|constructor]]|].
  repeat constructor.
Qed.

(** Two ranks with the same normalisation 5: the merged file says 10. *)
Lemma norm_refuted : exists name first other rows0 rows out,
  holds first name rows0 /\ holds other name rows /\ sameGrid rows0 rows /\ map d_norm rows0 = map d_norm rows /\
  mergeFile name first [other] = Ok out /\ map d_norm out <> map d_norm rows0.
Proof.
  exists "a.dat", (exDir [exRow 7]), (exDir [exRow 8]), [exRow 7], [exRow 8], [mkRD 1 2 3 (7 + 8) (5 + 5)].
  repeat split; try apply exDir_holds; try (repeat constructor).
  cbn. intros E. injection E. lra.
Qed.
(** No check that the ranks mean the same angles: the first rank's are kept. *)
Lemma grid_refuted : exists name first other out out',
  mergeFile name first [other] = Ok out /\ mergeFile name other [first] = Ok out' /\ map d_theta out <> map d_theta out'.
Proof.
  exists "a.dat", (exDir [mkRD 1 2 3 4 5]), (exDir [mkRD 9 2 3 4 5]), [mkRD 1 2 3 (4 + 4) (5 + 5)], [mkRD 9 2 3 (4 + 4) (5 + 5)].
  repeat split. cbn. intros E. injection E. lra.
Qed.
(** A file that only a later rank has is left out without an error. *)
Lemma extra_refuted : exists ranks out, mergeDirs ranks = Ok out /\
  exists r name f, In r ranks /\ In name (rd_names r) /\ rd_file r name = Some f /\ ~ In name (map fst out).
Proof.
  exists [exDir [exRow 7]; mkDir ["a.dat"; "b.dat"] (fun n => if String.eqb n "a.dat" then rd_file (exDir [exRow 8]) "a.dat" else Some [[None]])].
  exists [("a.dat", [mkRD 1 2 3 (7 + 8) (5 + 5)])]. split; [reflexivity|].
  eexists. exists "b.dat", [[None]]. split; [right; left; reflexivity|]. split; [cbn; auto|]. split; [reflexivity|].
  cbn. intros [E|[]]. discriminate.
Qed.
Lemma mergeDirs_files : forall first others out, mergeDirs (first :: others) = Ok out ->
  map fst out = rd_names first /\ forall name rows, In (name, rows) out -> mergeFile name first others = Ok rows.
Proof.
  intros first others out H. unfold mergeDirs in H. revert out H. induction (rd_names first) as [|n l IH]; intros out H; cbn [mapM] in H.
  - injection H as <-. split; [reflexivity|intros ? ? []].
  - destruct (mergeFile n first others) as [rows| |] eqn:E; cbn [bind] in H; try discriminate.
    destruct (mapM _ l) as [out'| |] eqn:E'; cbn [bind] in H; try discriminate. injection H as <-.
    destruct (IH out' eq_refl) as [A B]. split; [cbn; now f_equal|]. intros name r [Hin|Hin]; [injection Hin as <- <-; exact E|now apply B].
Qed.

Definition exPlane (spread : R) : srcJson := mkSrcJson true spread (0, 0, 1) (Some (0, 0, 3)) (Some speedOfLight_SI) true [].
Definition exDipole : srcJson := mkSrcJson false 1 (0, 0, 1) None None true [].
Lemma ex_norm : normR3 (j_prop (exPlane 2)) <> 0.
Proof. cbn. unfold normR3, dotR3. replace (0 * 0 + 0 * 0 + 1 * 1) with 1 by ring. rewrite sqrt_1. lra. Qed.
Lemma ex_plane_ok : j_plane (exPlane 2) = true /\ normR3 (j_prop (exPlane 2)) <> 0 /\ Forall (fun x => j_plane x = false) [exDipole] /\
  Rabs (j_spread (exPlane 2) - 10 ^ 5) >= 1 / 10 ^ 6 /\ forall m, waveMean true (exPlane 2) m -> Rabs (m - 10 ^ 5) >= 1 / 10 ^ 6.
Proof.
  split; [reflexivity|]. split; [apply ex_norm|]. split; [repeat constructor|]. split.
  - cbn [exPlane j_spread]. rewrite Rabs_left; lra.
  - intros m Hm. cbn in Hm. replace (0 * (0 * 1) + 0 * (0 * 1) + 1 * (1 * 1)) with 1 in Hm by ring.
    replace (0 * (0 * 1) + (0 * (0 * 1)) + (1 * (1 * 1))) with 1 in Hm by ring. rewrite sqrt_1 in Hm. subst m. rewrite Rabs_left; lra.
Qed.
(** A plane wave of spread 1e5 is taken for a missing one. *)
Lemma spread_refuted : exists s, j_plane s = true /\ normR3 (j_prop s) <> 0 /\ buildPlaneWaveData true [s] = Throw.
Proof.
  exists (exPlane (10 ^ 5)). split; [reflexivity|]. split; [exact ex_norm|].
  unfold buildPlaneWaveData. cbn [fold_left readSource exPlane j_plane pw_spread j_spread].
  destruct (Rlt_dec _ _) as [L|N]; [reflexivity|]. exfalso. apply N. rewrite Rminus_diag_eq, Rabs_R0 by reflexivity. lra.
Qed.
(** A plane wave without frequency after a modulated one is read as modulated. *)
Lemma frequency_refuted : exists s1 s2 pw, j_freq s2 = None /\ buildPlaneWaveData true [s1; s2] = Ok pw /\ pw_freq pw <> 0 /\
  exists pw', buildPlaneWaveData true [s2] = Ok pw' /\ pw_freq pw' = 0.
Proof.
  set (s2 := mkSrcJson true 2 (0, 0, 1) (Some (0, 0, 3)) None true []).
  exists (exPlane 2), s2. 
  assert (M : forall st, buildPlaneWaveData true [s2] = Ok (readSource true (mkPw (- 10 ^ 5) (- 10 ^ 5) 0) s2) /\
     pw_mean (readSource true st s2) = 3 * 1 /\ pw_spread (readSource true st s2) = 2).
  { intros st. assert (A : forall st, pw_mean (readSource true st s2) = 3 * 1).
    { intros st'. cbn. unfold normR3, dotR3. replace (0 * 0 + 0 * 0 + 1 * 1) with 1 by ring. rewrite sqrt_1. field. }
    split; [|split; [apply A|reflexivity]]. unfold buildPlaneWaveData. cbn [fold_left]. rewrite A. cbn [pw_spread readSource s2 j_plane j_spread].
    destruct (Rlt_dec _ _) as [L|N]; [rewrite Rabs_left in L by lra; lra|]. destruct (Rlt_dec _ _) as [L|N']; [rewrite Rabs_left in L by lra; lra|reflexivity]. }
  exists (readSource true (readSource true (mkPw (- 10 ^ 5) (- 10 ^ 5) 0) (exPlane 2)) s2).
  split; [reflexivity|]. split; [|split].
  - destruct (M (readSource true (mkPw (- 10 ^ 5) (- 10 ^ 5) 0) (exPlane 2))) as (_ & A & B). unfold buildPlaneWaveData. cbn [fold_left]. rewrite A, B.
    destruct (Rlt_dec _ _) as [L|N]; [rewrite Rabs_left in L by lra; lra|]. destruct (Rlt_dec _ _) as [L|N']; [rewrite Rabs_left in L by lra; lra|reflexivity].
  - cbn. unfold speedOfLight_SI. lra.
  - exists (readSource true (mkPw (- 10 ^ 5) (- 10 ^ 5) 0) s2). split; [apply (M (mkPw 0 0 0))|reflexivity].
Qed.

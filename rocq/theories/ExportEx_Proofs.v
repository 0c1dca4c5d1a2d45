From Coq Require Import String ZArith List Bool Reals Lra Lia Psatz.
From Flocq Require Import Core.Core.
From Verif Require Import Common Print_Model Print_Spec Print_Proofs PrintEx_Proofs Export_Model Export_Spec Export_Proofs.
Import ListNotations.
Local Open Scope R_scope.

(** Two rows: one with sum zero, one with a tiny entry. *)
Definition u : R := / 16777216.
Definition exMerged : spmat := mkSp 2 3 [0; 3; 5]%nat [0; 1; 2; 0; 1]%nat [1 + u; -1; - u; / 10 ^ 21; 2].
Definition exSource : spmat := mkSp 2 3 [0; 1; 1]%nat [2]%nat [/ 3].
Definition exSetup (e : evolution) (world : nat) : setup := mkSetup e true world false true "box" (fun _ => true) exMerged exSource.

Lemma one_text : significant 6 1 = 1.
Proof.
  rewrite (six_val 1 100000 (-5)); change (-5 + 5)%Z with 0%Z; change (-5 + 6)%Z with 1%Z; change (- -5)%Z with 5%Z.
  - cbn; lra.
  - rewrite Rabs_pos_eq by lra. cbn; lra.
  - cbn. apply Rabs_def1; lra.
Qed.
Lemma onu_text : significant 6 (1 + u) = 1.
Proof.
  unfold u. rewrite (six_val _ 100000 (-5)); change (-5 + 5)%Z with 0%Z; change (-5 + 6)%Z with 1%Z; change (- -5)%Z with 5%Z.
  - cbn; lra.
  - rewrite Rabs_pos_eq by lra. cbn; lra.
  - cbn. apply Rabs_def1; lra.
Qed.
Lemma u_text : 0 < significant 6 u.
Proof. pose proof (six_error u) as E. unfold u in *. rewrite (Rabs_pos_eq (/ 16777216)) in E by lra. unfold Rabs in E. destruct (Rcase_abs _); lra. Qed.

Lemma ex_matching : matching exMerged /\ matching exSource.
Proof. split; repeat split. Qed.
Lemma ex_runs : exists m fs, exports (exSetup EvGlobal 1) = Ok (Some m, fs) /\ map fst fs = ["Exports/Operators/box/box_global.csr"; "Exports/Operators/box/box_tfsf.csr"]%string.
Proof. eexists _, _. split; reflexivity. Qed.
Lemma ex_large : large 1 /\ ~ large (/ 10 ^ 21).
Proof. unfold large. rewrite !Rabs_pos_eq by lra. lra. Qed.

Lemma asked_refuted : ~ forall s o fs, (1 <= s_world s)%nat -> s_export s = true -> exports s = Ok (o, fs) -> fs <> [].
Proof. intros H. exact (H (exSetup EvGlobal 2) _ _ ltac:(cbn; lia) eq_refl eq_refl eq_refl). Qed.
Lemma asked_one_refuted : ~ forall s o fs, s_world s = 1%nat -> s_export s = true -> exports s = Ok (o, fs) -> fs <> [].
Proof. intros H. exact (H (exSetup EvMaxwell 1) _ _ eq_refl eq_refl eq_refl eq_refl). Qed.

Lemma sums_refuted : ~ forall s o fs f m' i, s_world s = 1%nat -> matching (s_merged s) -> exports s = Ok (o, fs) -> In (globalName s, f) fs ->
  readCsr f = Some m' -> (i < sp_h (s_merged s))%nat -> applyRow (rowOf (s_merged s) i) (fun _ => 1) = 0 -> applyRow (rowOf m' i) (fun _ => 1) = 0.
Proof.
  intros H. set (s := exSetup EvGlobal 1).
  assert (E : exists o fs, exports s = Ok (o, fs) /\ In (globalName s, printCSR2 (threshold (1 / 10 ^ 20) exMerged)) fs)
    by (eexists _, _; split; [reflexivity|left; reflexivity]).
  destruct E as (o & fs & E & I1).
  specialize (H s o fs _ _ O eq_refl (proj1 ex_matching) E I1 (read_print _ (threshold_matching _ _)) ltac:(cbn; lia) ltac:(cbn; unfold u; lra)).
  rewrite text_row in H. change (mkSp _ _ _ _ _) with (threshold (1 / 10 ^ 20) exMerged) in H.
  rewrite threshold_row in H by (cbn; lia).
  assert (B1 : big (1 / 10 ^ 20) (0%nat, 1 + u) = true) by (unfold big, u; cbn [snd]; destruct (Rlt_dec _ _) as [Q|Q]; [reflexivity|rewrite Rabs_pos_eq in Q by lra; lra]).
  assert (B2 : big (1 / 10 ^ 20) (1%nat, -1) = true) by (unfold big; cbn [snd]; destruct (Rlt_dec _ _) as [Q|Q]; [reflexivity|rewrite Rabs_left in Q by lra; lra]).
  assert (B3 : big (1 / 10 ^ 20) (2%nat, - u) = true) by (unfold big, u; cbn [snd]; destruct (Rlt_dec _ _) as [Q|Q]; [reflexivity|rewrite Rabs_left in Q by lra; lra]).
  change (rowOf exMerged 0) with [(0%nat, 1 + u); (1%nat, -1); (2%nat, - u)] in H.
  cbn [filter] in H. rewrite B1, B2, B3 in H. cbn [map fst snd applyRow fold_right] in H.
  replace (-1) with (Ropp 1) in H by lra. rewrite !six_opp, one_text, onu_text in H. pose proof u_text. lra.
Qed.

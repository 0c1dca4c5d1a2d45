(** The folder of a run. *)
From Coq Require Import String ZArith List Bool Lia Arith Reals.
From Verif Require Import Common Output_Model Output_Proofs.
Local Open Scope string_scope.
Local Open Scope nat_scope.

Lemma app_inj : forall a x y : string, a ++ x = a ++ y -> x = y.
Proof. induction a as [|c a IH]; intros x y H; [exact H|]. injection H. apply IH. Qed.
Lemma run_folder : forall e,
  (e_cuda e = false -> e_ranks e = 1 -> runModeTag e = "single-core") /\
  (e_cuda e = false -> e_ranks e <> 1 -> runModeTag e = "mpi-" ++ to_string (e_ranks e)) /\
  (e_cuda e = true -> runModeTag e = "cuda-" ++ to_string (e_ranks e)) /\
  forall e', runModeTag e = runModeTag e' <-> e_cuda e = e_cuda e' /\ e_ranks e = e_ranks e'.
Proof.
  intros e. unfold runModeTag. repeat split.
  - intros -> ->. reflexivity.
  - intros -> H. destruct (Nat.eqb_spec (e_ranks e) 1); [contradiction|reflexivity].
  - intros ->. reflexivity.
  - destruct (e_cuda e), (e_cuda e'); destruct (Nat.eqb_spec (e_ranks e) 1), (Nat.eqb_spec (e_ranks e') 1); cbn in H; try reflexivity; discriminate H.
  - destruct (e_cuda e), (e_cuda e'); destruct (Nat.eqb_spec (e_ranks e) 1), (Nat.eqb_spec (e_ranks e') 1); try congruence; cbn in H; try discriminate H; injection H as H; apply to_string_inj; exact H.
  - intros (-> & ->). reflexivity.
Qed.

(** Proofs: the statements for the states an actual run goes through. *)
From Coq Require Import ZArith List Bool Reals Lra Lia.
From Verif Require Import Common Evol_Model Evol_Spec Evol_Proofs EvolHist_Proofs EvolSolve_Proofs EvolRhs_Proofs EvolStage_Proofs.
Import ListNotations.
Local Open Scope Z_scope.

Section Reach.
Variable inv : list (list R) -> list R -> list R.
Variables ndofs nbr : nat.
Variable Aop : matrix.
Variables Top Sop : option matrix.
Variable hasTF : bool.
Variable sub2par : list Z.
Variable src : R -> list (list R).
Variables elem1 elem2 : list Z.
Variable junk : nat -> list R.
Hypothesis junk_len : forall n, length (junk n) = n.
Variable gmres : R -> list R -> list R -> list R.
Notation runSteps := (runSteps inv ndofs nbr Aop Top Sop hasTF sub2par src elem1 elem2 junk gmres).
Notation runOps := (runOps inv ndofs nbr Aop Top Sop hasTF sub2par src elem1 elem2 junk gmres).
Notation mult := (mult inv ndofs nbr Aop Top Sop hasTF sub2par src elem1 elem2 junk).
Notation implicitSolve := (implicitSolve inv ndofs nbr Aop Top hasTF sub2par src junk gmres).

(** In the middle of a step: some complete steps, then the commit of the next
    one, then some evaluations. *)
Definition midStep (e0 : evol) (hist : list tstep) (base dt : R) (fields : list R) (calls : list op) (e : evol) : Prop :=
  fresh e0 /\ Forall (good_step ndofs nbr) hist /\ (0 < dt)%R /\ Forall (evaluation ndofs nbr) calls /\
  (e1 <- runSteps e0 hist ;; e2 <- commit ndofs e1 base dt fields ;; runOps e2 calls) = Ok e.

Lemma outline_refl : forall l, Forall2 same_outline l l.
Proof. intros l. induction l; constructor; auto. repeat split. Qed.

Lemma mid_good : forall e0 hist base dt fields calls e, midStep e0 hist base dt fields calls e ->
  exists c, midStep e0 hist base dt fields [] c /\ good ndofs nbr Aop c /\ good ndofs nbr Aop e /\ runOps c calls = Ok e.
Proof.
  intros e0 hist base dt fields calls e (Hf & Hh & Hdt & Hc & Hr). ubind Hr. ubind Hr.
  pose proof (steps_rel inv ndofs nbr Aop Top Sop hasTF sub2par src elem1 elem2 junk junk_len gmres hist hist e0 e0 v v
    (relS_refl ndofs nbr Aop e0 (fresh_good ndofs nbr Aop e0 Hf)) (outline_refl hist) Hh Hh E E) as R1.
  pose proof (commit_agree ndofs nbr Aop v v base dt fields Hdt R1) as R2. rewrite E0 in R2. cbn in R2.
  exists v0. destruct R2 as [(Hg & _) _]. split; [|split; [exact Hg|split; [|exact Hr]]].
  - repeat split; try apply Hf; auto. rewrite E. cbn [bind]. rewrite E0. reflexivity.
  - pose proof (evals_keep inv ndofs nbr Aop Top Sop hasTF sub2par src elem1 elem2 junk junk_len gmres calls v0 e Hc Hg Hr) as Hk. apply Hk.
Qed.


(** Mult and ImplicitSolve in the middle of a step depend only on the outlines of
    the steps before, not on the evaluations made in them or in this step. *)
Lemma mid_rel : forall e0 h1 h2 base dt fields c1 c2 e1 e2, Forall2 same_outline h1 h2 ->
  midStep e0 h1 base dt fields c1 e1 -> midStep e0 h2 base dt fields c2 e2 -> rel ndofs nbr Aop e1 e2.
Proof.
  intros e0 h1 h2 base dt fields c1 c2 e1 e2 Ho M1 M2.
  destruct (mid_good _ _ _ _ _ _ _ M1) as (k1 & N1 & G1 & _ & R1). destruct (mid_good _ _ _ _ _ _ _ M2) as (k2 & N2 & G2 & _ & R2).
  destruct N1 as (Hf & Hh1 & Hdt & _ & E1). destruct N2 as (_ & Hh2 & _ & _ & E2).
  ubind E1. ubind E1. unfold EvolHist_Proofs.runOps in E1. cbn in E1. injection E1 as <-. ubind E2. ubind E2. unfold EvolHist_Proofs.runOps in E2. cbn in E2. injection E2 as <-.
  pose proof (steps_rel inv ndofs nbr Aop Top Sop hasTF sub2par src elem1 elem2 junk junk_len gmres h1 h2 e0 e0 v v1
    (relS_refl ndofs nbr Aop e0 (fresh_good ndofs nbr Aop e0 Hf)) Ho Hh1 Hh2 E E1) as RS.
  pose proof (commit_agree ndofs nbr Aop v v1 base dt fields Hdt RS) as RC. rewrite E0, E3 in RC. cbn in RC. destruct RC as [RC _].
  destruct M1 as (_ & _ & _ & Hc1 & _). destruct M2 as (_ & _ & _ & Hc2 & _).
  pose proof (evals_keep inv ndofs nbr Aop Top Sop hasTF sub2par src elem1 elem2 junk junk_len gmres c1 _ _ Hc1 G1 R1) as K1.
  pose proof (evals_keep inv ndofs nbr Aop Top Sop hasTF sub2par src elem1 elem2 junk junk_len gmres c2 _ _ Hc2 G2 R2) as K2.
  apply rel_trans with v0; [apply rel_sym; exact K1|]. apply rel_trans with v2; [exact RC|exact K2].
Qed.

Lemma mid_mult : forall e0 h1 h2 base dt fields c1 c2 e1 e2 t nd input, Forall2 same_outline h1 h2 ->
  midStep e0 h1 base dt fields c1 e1 -> midStep e0 h2 base dt fields c2 e2 -> sized ndofs nbr nd input ->
  agree (fun a b => fst a = fst b) (mult e1 t nd input) (mult e2 t nd input).
Proof.
  intros e0 h1 h2 base dt fields c1 c2 e1 e2 t nd input Ho M1 M2 Hs.
  eapply agree_mono; [|apply mult_agree; [exact junk_len|eapply mid_rel; eauto|exact Hs]]. cbn. tauto.
Qed.
Lemma mid_implicit : forall e0 h1 h2 base dt fields c1 c2 e1 e2 t g nd x k0, Forall2 same_outline h1 h2 ->
  midStep e0 h1 base dt fields c1 e1 -> midStep e0 h2 base dt fields c2 e2 -> g <> (-1)%R -> sized ndofs nbr nd x ->
  agree (fun a b => fst a = fst b) (implicitSolve e1 t g nd x k0) (implicitSolve e2 t g nd x k0).
Proof.
  intros e0 h1 h2 base dt fields c1 c2 e1 e2 t g nd x k0 Ho M1 M2 Hg Hs.
  eapply agree_mono; [|apply implicit_agree; [exact Hg|eapply mid_rel; eauto|exact Hs]]. cbn. tauto.
Qed.

Lemma mid_conditions : forall e0 hist base dt fields calls e, midStep e0 hist base dt fields calls e ->
  (e_work e = [] \/ e_work e = zeros (6 * (ndofs + nbr))) /\ cache_ok Aop (e_cache e).
Proof.
  intros e0 hist base dt fields calls e H. destruct (mid_good _ _ _ _ _ _ _ H) as (c & _ & _ & (H1 & _ & H2 & _) & _). split; auto.
Qed.
Lemma fresh_clean : forall l e e', fresh e -> runOps e l = Ok e' -> e_work e' = [] \/ e_work e' = zeros (6 * (ndofs + nbr)).
Proof.
  intros l e e' Hf Hr. eapply (runOps_clean inv ndofs nbr Aop Top Sop hasTF sub2par src elem1 elem2 junk junk_len gmres); [apply Hf|exact Hr].
Qed.
Lemma layers_same : forall e l1 l2 f1 f2, fresh e -> Forall2 same_outline l1 l2 ->
  Forall (good_step ndofs nbr) l1 -> Forall (good_step ndofs nbr) l2 ->
  runSteps e l1 = Ok f1 -> runSteps e l2 = Ok f2 -> layers f1 = layers f2.
Proof.
  intros e l1 l2 f1 f2 H1 H2 H3 H4 H5 H6.
  eapply (layers_pure inv ndofs nbr Aop Top Sop hasTF sub2par src elem1 elem2 junk junk_len gmres); eauto.
Qed.
End Reach.

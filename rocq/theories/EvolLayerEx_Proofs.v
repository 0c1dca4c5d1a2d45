(** A concrete layer that is fed and changes. *)
From Coq Require Import ZArith List Bool Reals Lra Lia.
From Flocq Require Import Core.Raux.
From Verif Require Import Common Evol_Model Evol_Spec EvolLayer_Spec Evol_Proofs EvolHist_Proofs EvolReach_Proofs EvolEx_Proofs EvolLayer_Proofs.
Import ListNotations.
Local Open Scope Z_scope.

Lemma ex_loud : ~ quiet 2 exIn exS.
Proof.
  intros [_ H]. unfold power, at_dof, nthZ in H. revert H. cbv -[Rplus Rmult Ropp Rinv IZR Rlt not]. lra.
Qed.
Lemma ex_notQuiet : ~ allQuiet 2 exIn (e_groups exE).
Proof. intros H. apply ex_loud. apply (H (mkG exW exD [exS])); left; auto. Qed.
Lemma ex_roomy : forall g, In g (e_groups exE) -> roomy (g_w g).
Proof. intros g [<-|[]]. unfold roomy. cbn. lia. Qed.

Lemma ex_layer_step : exists f s, exRun exE [stepB] = Ok f /\ fresh exE /\ Forall (good_step 2 0) [stepB] /\
  (forall g, In g (e_groups exE) -> roomy (g_w g)) /\ ~ allQuiet 2 (st_end stepB) (e_groups exE) /\
  map g_states (e_groups f) = [[s]] /\ nthZ (s_fs exS) 0 = 0%R /\ nthZ (s_fs s) 0 = 1%R /\ nthZ (s_fs s) 1 = 0%R.
Proof.
  destruct ex_steps as [_ (f & Hf)]. pose proof ex_outline as (_ & _ & Hg).
  destruct (layers_after_step exInv 2 0 exA None (Some exM) false [] (fun _ => []) [0] [1] exJunk exJunk_len (fun _ _ k0 => k0) exE [] stepB f ex_roomy exE_fresh Hg Hf)
    as (e1 & H1 & H2). injection H1 as <-.
  inversion H2 as [|g g' l l' [Hw Hs] Hl Q1 Q2]. subst g l. inversion Hl. subst l'. cbn [g_states] in Hs. inversion Hs as [|s s' k k' [_ Hn] Hl' Q3 Q4]. subst s k. inversion Hl'. subst k'.
  specialize (Hn ex_notQuiet). exists f, s'. split; [exact Hf|]. split; [apply exE_fresh|]. split; [exact Hg|]. split; [apply ex_roomy|].
  split; [apply ex_notQuiet|]. split; [rewrite <- Q2; cbn [map]; rewrite <- Q4; reflexivity|].
  split; [reflexivity|]. rewrite Hn. cbn [with_fs s_fs g_w st_base st_dt st_fields st_end stepB].
  assert (Em : parts (w_rec exW) 1 = 1).
  { unfold parts. cbn [w_rec exW]. destruct Rlt_dec; [|lra]. replace (1 / 1)%R with (IZR 1) by field. rewrite Zceil_IZR. reflexivity. }
  unfold evolve. rewrite Em. change (zseq (Z.to_nat 1)) with [0]. cbv zeta. cbn [fold_left].
  destruct Rlt_dec as [Hx|_]; [exfalso; lra|].
  cbn [exec w_ode exW euler]. split; cbv -[Rplus Rmult Ropp Rminus Rdiv Rinv IZR]; field.
Qed.

Lemma ex_frame : orthonormal [0; 1; 0; -1; 0; 0; 0; 0; 1]%R.
Proof.
  split; [reflexivity|]. intros i j Hi Hj. assert (i = 0 \/ i = 1 \/ i = 2) as K by lia. assert (j = 0 \/ j = 1 \/ j = 2) as L by lia.
  destruct K as [->|[->| ->]]; destruct L as [->|[->| ->]]; cbv -[Rplus Rmult Ropp IZR]; ring.
Qed.

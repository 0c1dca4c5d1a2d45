(** Runs on several processes with thin layers: from the start of the run, and without a condition on
    quiet layers when one process has them all. *)
From Coq Require Import ZArith List Bool Reals Lia Lra Permutation.
From Verif Require Import Common Csr_Model Csr_Spec Face_Model Face_Spec Setup_Model Assembly_Model Form_Model Form_Spec Nodal_Spec Global_Spec GlobalBalance_Proofs Evol_Model Evol_Spec EvolLayer_Spec Evol_Proofs EvolHist_Proofs EvolLayer_Proofs Tfsf_Spec Ode_Model Par_Model Par_Spec ParMult_Proofs ParSrc_Model ParSrc_Spec ParSrc_Proofs ParSrcRun_Proofs ParLay_Model ParLay_Spec ParLay_Proofs ParLayRun_Proofs ParLayOk_Proofs ParLayAll_Proofs.
Import ListNotations.
Local Open Scope R_scope.

Section Run.
Variable N : nat.
Variable m : fmesh.
Variable dim : Z.
Variable alpha : R.
Variable gb gi : list (Z * cond).
Variable ob ib : list (cond * marker).
Variable MInv D : Z -> mat.
Variable MSigma : mat.
Variables sm lm : marker.
Variable owns : list (list nat).
Variable rks : list prank.
Variable sub : list nat.
Variable inc : R -> nat -> nat -> R.
Variable ss : list psource.
Variables e1 e2 : list Z.
Variable els : list (list Z * list Z).
Hypothesis G : goodMesh N m dim.
Hypothesis T : tables m gb gi ob ib.
Hypothesis Msm : Z.of_nat (length sm) = markerSize (fm_battrs m).
Hypothesis Mlm : Z.of_nat (length lm) = markerSize (fm_battrs m).
Hypothesis Di : distributed N m dim MInv D MSigma owns rks.
Hypothesis Sh : sourcesShared N owns sub inc ss.
Hypothesis ND1 : NoDup e1.
Hypothesis ND2 : NoDup e2.
Hypothesis R1 : forall d, In d e1 -> (0 <= d < Z.of_nat N)%Z.
Hypothesis R2 : forall d, In d e2 -> (0 <= d < Z.of_nat N)%Z.
Hypothesis Se : Forall2 (fun own el => elementsShared own e1 (fst el) /\ elementsShared own e2 (snd el)) owns els.
Hypothesis Some1 : owns <> [].
Variable inv : list (list R) -> list R -> list R.
Variable junk : nat -> list R.
Hypothesis JL : forall n, length (junk n) = n.
Notation Ts := (buildSourceFaceOperator R Rplus Rmult 1 (-1) (factoryRows N m dim alpha ob ib MInv D MSigma sm) dim (Z.of_nat N) 0).
Notation Tl := (buildSourceFaceOperator R Rplus Rmult 1 (-1) (factoryRows N m dim alpha ob ib MInv D MSigma lm) dim (Z.of_nat N) 0).
Notation Mr := (map (rankSource dim alpha ob ib sm) rks).
Notation L0 := (mkLR N 0 (finalized (6 * N) (6 * N) Tl) e1 e2).
Notation Ls := (map (fun q => rankLayers dim alpha ob ib lm (fst q) (snd q)) (combine rks els)).
Lemma start_ready : forall e Es, startLayers inv N owns e Es -> readyAll N owns rks els inv e Es.
Proof.
  intros e Es (Fe & GL & F). unfold readyAll. destruct (places_owns N m dim alpha ob ib MInv D MSigma lm owns rks e1 e2 els Di Se) as (Eo & _).
  rewrite <- Eo in F at 1. clear Eo. revert Es F. induction (places owns rks els) as [|k l IH]; intros Es F; inversion F as [|? e' ? Es' (F1 & F2 & F3) F']; subst; constructor; [|apply IH; exact F'].
  split; [apply fresh_good; exact Fe|]. split; [apply fresh_good; exact F1|]. auto.
Qed.
Lemma ready_shared : forall e Es, readyAll N owns rks els inv e Es -> Forall2 (fun own e' => layersShared own (layersIn (e_groups e)) (layersIn (e_groups e'))) owns Es.
Proof.
  intros e Es F. unfold readyAll in F. destruct (places_owns N m dim alpha ob ib MInv D MSigma lm owns rks e1 e2 els Di Se) as (Eo & _).
  rewrite <- Eo at 1. clear Eo. induction F as [|k e' l Es (_ & _ & _ & _ & H) F IH]; [constructor|]. cbn [map]. constructor; assumption.
Qed.
Lemma lrun_ok : exists A Ps, serialOperator N m dim alpha ob ib MInv D MSigma sm = Ok A /\ mapM (rankOperator dim alpha ob ib sm) rks = Ok Ps /\
  forall F, (forall t x, length x = (6 * N)%nat -> exists y, applies A N x y /\ oneSource N (finalized (6 * N) (6 * N) Ts) (map Z.of_nat sub) (sampled inc sub) t y = Ok (F t x)) ->
  forall works x t dts e Es z f, length x = (6 * N)%nat -> (forall s k, length (works s k) = length rks) -> Forall (fun dt => 0 < dt) dts -> startLayers inv N owns e Es ->
    runCalls (list R) evol (fun _ _ e t x => addLayers inv L0 e t x (F t x)) addv (commit N) (finalize inv N)
      (fun e t x => sameVerdict owns sub inc t /\ sameDecisions N owns e x) (sameDecisions N owns) e x t dts ->
    oneRun inv F L0 e x t dts = Ok (z, f) ->
    exists Es', allRun inv junk rks Ps Mr ss Ls works Es (spread N owns x) t dts = Ok (spread N owns z, Es') /\
      Forall2 (fun own e' => layersShared own (layersIn (e_groups f)) (layersIn (e_groups e'))) owns Es'.
Proof.
  destruct (eval_ok N m dim alpha gb gi ob ib MInv D MSigma sm owns rks sub inc ss G T Msm Di Sh junk JL) as (A & Ps & EA & EP & V1 & V2).
  exists A, Ps. split; [exact EA|]. split; [exact EP|]. intros F HF works x t dts e Es z f Lx Lw Hd St C E.
  destruct (steps_all N m dim alpha ob ib MInv D MSigma sm lm owns rks ss e1 e2 els G Mlm Di ND1 ND2 R1 R2 Se Some1 inv junk Ps F (sameVerdict owns sub inc)) with (works := works) (dts := dts) (e := e) (Es := Es) (x := x) (t := t) (z := z) (f := f) as (Es' & E' & Rd); try assumption.
  - intros t0 x0 L0'. destruct (HF t0 x0 L0') as (y & HY & Ey). destruct (serial_source N m dim alpha ob ib MInv D MSigma sm owns sub inc ss Sh t0 (fieldV N sub inc t0) y (proj1 HY) (field_ok N sub inc t0)) as (z0 & Ez' & Z1 & Z2).
    rewrite Ey in Ez'. apply ok_inj in Ez'. rewrite Ez'. destruct (Rlt_dec (sizeAt inc t0 sub) (/ 100000000 * / 100000000)) as [Q|Nq].
    + rewrite (Z1 Q). exact (proj1 HY).
    + destruct (lil_act N m dim alpha ob ib MInv D MSigma sm (fieldV N sub inc t0)) as (w & Hw). rewrite (Z2 Nq w Hw), addv_len; [exact (proj1 HY)|]. rewrite (proj1 Hw). symmetry. exact (proj1 HY).
  - intros t0 x0 wk Sv L0' Lk. destruct (HF t0 x0 L0') as (y & HY & Ey). destruct (V2 t0 x0 L0') as (y' & z0 & HY' & Ez & Hz). rewrite (applies_unique N A x0 y' y HY' HY) in Ez. rewrite Ey in Ez. apply ok_inj in Ez. subst z0. apply Hz; assumption.
  - apply start_ready. exact St.
  - exists Es'. split; [exact E'|]. exact (ready_shared f Es' Rd).
Qed.

(** ** One process has all the layers *)
Lemma some_loud : forall k v gs, allQuiet k v gs \/ exists g s, In g gs /\ In s (g_states g) /\ ~ EvolLayer_Spec.quiet k v s.
Proof.
  intros k v gs. induction gs as [|g gs IH]; [left; intros g s []|]. destruct IH as [IH|(g0 & s & I & J & Q)]; [|right; exists g0, s; split; [right; exact I|auto]].
  assert (X : (forall s, In s (g_states g) -> EvolLayer_Spec.quiet k v s) \/ exists s, In s (g_states g) /\ ~ EvolLayer_Spec.quiet k v s).
  { clear IH. induction (g_states g) as [|s l IHl]; [left; intros s []|]. destruct (quiet_dec k v s) as [Q|Q]; [|right; exists s; split; [left; reflexivity|exact Q]].
    destruct IHl as [H|(s0 & I & Q0)]; [left; intros s0 [<-|I]; auto|right; exists s0; split; [right; exact I|exact Q0]]. }
  destruct X as [X|(s & I & Q)]; [left; intros g0 s [<-|I] J; [apply X; exact J|exact (IH g0 s I J)]|right; exists g, s; split; [left; reflexivity|auto]].
Qed.
Lemma one_decides : forall gs x own, onOneProcess owns gs -> In own owns -> sameDecision N own x gs.
Proof.
  intros gs x own (own0 & H) Io. destruct (some_loud N x gs) as [Q|(g & s & I & J & Q)]; [left; exact Q|]. right.
  destruct (list_eq_dec Nat.eq_dec own own0) as [->|Ne].
  - left. exists g, s. split; [exact I|]. split; [exact J|]. split; [apply (H g s own0 I J Io); reflexivity|exact Q].
  - right. intros g0 s0 I0 J0 T0. apply Ne. apply (H g0 s0 own I0 J0 Io). exact T0.
Qed.
Lemma one_restored : forall e x, onOneProcess owns (e_groups e) -> sameDecisions N owns e x.
Proof.
  intros e x (own0 & H) gs own Er Io. apply one_decides; [|exact Io]. exists own0. intros g s o I J K.
  destruct (e_cp e) as [cps|]; cbn [restore] in Er.
  - injection Er as <-. apply in_map_iff in I. destruct I as ([g0 cp] & <- & I). apply in_combine_l in I. cbn [fst snd g_states] in J. unfold restoreStates in J. apply in_map_iff in J. destruct J as ([s0 ci] & <- & J). apply in_combine_l in J.
    exact (H g0 s0 o I J K).
  - destruct (e_groups e); [injection Er as <-; destruct I|discriminate].
Qed.
Lemma one_same : forall gs gs', Forall2 same_group gs gs' -> onOneProcess owns gs -> onOneProcess owns gs'.
Proof.
  intros gs gs' F (own0 & H). exists own0. intros g' s' o I J K. destruct (forall2_in_r _ _ _ _ _ _ F I) as (g & I0 & (_ & Fs)). destruct (forall2_in_r _ _ _ _ _ _ Fs J) as (s & J0 & Ss).
  pose proof (H g s o I0 J0 K) as X. destruct Ss as (E1 & E2 & _). unfold touches in *. rewrite <- E1, <- E2. exact X.
Qed.
Definition alone (e : evol) : Prop := EvolHist_Proofs.good N 0 [] e /\ onOneProcess owns (e_groups e).
Lemma alone_rel : forall e f, EvolHist_Proofs.rel N 0 [] e f -> alone e -> alone f.
Proof. intros e f H (_ & O). split; [apply H|]. apply (one_same (e_groups e)); [apply H|exact O]. Qed.
Lemma alone_add : forall e t x y z f, alone e -> addLayers inv L0 e t x y = Ok (z, f) -> alone f.
Proof.
  intros e t x y z f H E. apply (alone_rel e); [|exact H]. unfold addLayers in E. cbn [lr_n lr_g lr_M lr_e1 lr_e2] in E.
  destruct (multSub inv N _ e t x) as [[gs q]| |] eqn:Es; cbn [bind fst snd] in E; try discriminate. pose proof (sub_rel inv N 0 _ e t x gs q (proj1 H) Es) as K.
  destruct gs; [injection E as _ <-; exact K|]. destruct q; [injection E as _ <-; exact K|]. destruct (sgbcFlux _ _ _ _ _ _ _ _ _); cbn [bind] in E; try discriminate. injection E as _ <-. exact K.
Qed.
Lemma alone_calls : forall F dts e x t, alone e -> Forall (fun dt => 0 < dt) dts -> Forall (sameVerdict owns sub inc) (stages t dts) ->
  runCalls (list R) evol (fun _ _ e t x => addLayers inv L0 e t x (F t x)) addv (commit N) (finalize inv N)
    (fun e t x => sameVerdict owns sub inc t /\ sameDecisions N owns e x) (sameDecisions N owns) e x t dts.
Proof.
  intros F. induction dts as [|dt l IH]; intros e x t H Hd Gd; [exact I|]. cbn [stages] in Gd. inversion Gd as [|? ? G1 Gd1]; subst. inversion Gd1 as [|? ? G2 Gd2]; subst. inversion Gd2 as [|? ? G3 Gd3]; subst. inversion Hd as [|? ? Hdt Hd']; subst.
  assert (X : forall s0, commit N e t dt x = Ok s0 -> alone s0).
  { intros s0 E. split; [exact (proj1 (commit_good N 0 e t dt x s0 Hdt (proj1 H) E))|]. rewrite (proj1 (commit_val N e t dt x s0 E)). apply H. }
  assert (Y : forall s0 z s1, alone s0 -> rk4Layers (list R) evol (fun _ _ e t x => addLayers inv L0 e t x (F t x)) addv (length l) s0 x t dt = Ok (z, s1) -> alone s1).
  { intros s0 z s1 A0 E. unfold rk4Layers in E. cbv beta zeta in E.
    destruct (addLayers inv L0 s0 _ _ _) as [[k1 f1]| |] eqn:E1; cbn [bind fst snd] in E; try discriminate. apply alone_add in E1; [|exact A0].
    destruct (addLayers inv L0 f1 _ _ _) as [[k2 f2]| |] eqn:E2; cbn [bind fst snd] in E; try discriminate. apply alone_add in E2; [|exact E1].
    destruct (addLayers inv L0 f2 _ _ _) as [[k3 f3]| |] eqn:E3; cbn [bind fst snd] in E; try discriminate. apply alone_add in E3; [|exact E2].
    destruct (addLayers inv L0 f3 _ _ _) as [[k4 f4]| |] eqn:E4; cbn [bind fst snd] in E; try discriminate. apply alone_add in E4; [|exact E3]. injection E as _ <-. exact E4. }
  cbn [runCalls]. split.
  - intros s0 E0. pose proof (X s0 E0) as A0. split.
    + split; [split; [exact G1|apply one_restored; apply A0]|]. intros k1 f1 E1. apply alone_add in E1; [|exact A0].
      split; [split; [exact G2|apply one_restored; apply E1]|]. intros k2 f2 E2. apply alone_add in E2; [|exact E1].
      split; [split; [exact G2|apply one_restored; apply E2]|]. intros k3 f3 E3. apply alone_add in E3; [|exact E2].
      split; [exact G3|apply one_restored; apply E3].
    + intros z s1 E1. apply one_restored. exact (proj2 (Y s0 z s1 A0 E1)).
  - intros z s2 E. unfold layerStep in E. destruct (commit N e t dt x) as [s0| |] eqn:E0; cbn [bind] in E; try discriminate. pose proof (X s0 eq_refl) as A0.
    destruct (rk4Layers _ _ _ _ _ s0 x t dt) as [[z1 s1]| |] eqn:E1; cbn [bind fst snd] in E; try discriminate. pose proof (Y s0 z1 s1 A0 E1) as A1.
    destruct (finalize inv N s1 z1) as [s3| |] eqn:E2; cbn [bind] in E; try discriminate. injection E as <- <-. apply IH; [|exact Hd'|exact Gd3].
    pose proof (finalize_agree inv N 0 [] s1 s1 z1 (rel_refl _ _ _ _ (proj1 A1))) as Ag. rewrite E2 in Ag. cbn in Ag. exact (alone_rel s1 s3 (proj2 Ag) A1).
Qed.
Lemma lone_ok : exists A Ps, serialOperator N m dim alpha ob ib MInv D MSigma sm = Ok A /\ mapM (rankOperator dim alpha ob ib sm) rks = Ok Ps /\
  forall F, (forall t x, length x = (6 * N)%nat -> exists y, applies A N x y /\ oneSource N (finalized (6 * N) (6 * N) Ts) (map Z.of_nat sub) (sampled inc sub) t y = Ok (F t x)) ->
  forall works x t dts e Es z f, length x = (6 * N)%nat -> (forall s k, length (works s k) = length rks) -> Forall (fun dt => 0 < dt) dts -> startLayers inv N owns e Es ->
    Forall (sameVerdict owns sub inc) (stages t dts) -> onOneProcess owns (e_groups e) ->
    oneRun inv F L0 e x t dts = Ok (z, f) ->
    exists Es', allRun inv junk rks Ps Mr ss Ls works Es (spread N owns x) t dts = Ok (spread N owns z, Es') /\
      Forall2 (fun own e' => layersShared own (layersIn (e_groups f)) (layersIn (e_groups e'))) owns Es'.
Proof.
  destruct lrun_ok as (A & Ps & EA & EP & V). exists A, Ps. split; [exact EA|]. split; [exact EP|]. intros F HF works x t dts e Es z f Lx Lw Hd St Gd O E.
  apply (V F HF works x t dts e Es z f); try assumption. apply alone_calls; [|exact Hd|exact Gd]. split; [apply fresh_good; apply St|exact O].
Qed.
End Run.

(** Concrete cases and counterexamples for the tables of materials and boundaries. *)
From Coq Require Import String ZArith List Bool Reals Lia Lra.
From Verif Require Import Common Setup_Model Setup_Spec Setup_Proofs SetupBdr_Proofs.
Import ListNotations.
Local Open Scope Z_scope.

(** The coefficient of the elements, from the input. *)
Lemma coefficient_of_input : forall Z0 ms bs sm a b get, assembleAttributeToMaterial Z0 ms bs sm = Ok (a, b) ->
  (forall t, In t (sm_attrs sm) -> 1 <= t) ->
  exists v, fillVector get a = Ok v /\
    (forall t i, firstFor t (matsIn ms) = Some i -> pwEval v t = Ok (get (materialOf Z0 i))) /\
    (forall t, ~ listed t (matsIn ms) -> pwEval v t = Ok 0%R \/ pwEval v t = UB).
Proof.
  intros Z0 ms bs sm a b get E Hp. destruct (materials_first _ _ _ _ _ _ E) as (V & _ & A & _).
  destruct (materials_inv Z0 ms bs sm) as [(a' & b' & E' & _ & _ & H3 & _)|E']; [|congruence].
  assert (L : forall t m, In (t, m) a -> listed t (matsIn ms)).
  { intros t m I. apply in_mfind in I; [|exact A]. rewrite V in I. apply first_listed. destruct (firstFor t (matsIn ms)); [eauto|discriminate]. }
  destruct (fill_vector get a A) as (v & F & G & N & _).
  { apply Forall_forall. intros [t m] I. cbn [fst]. apply Hp, H3, (L t m I). }
  exists v. split; [exact F|]. split.
  - intros t i X. apply G. apply mfind_in. rewrite V, X. reflexivity.
  - intros t X. apply N. intros m I. apply X, (L t m I).
Qed.
(** An epsilon, mu or sigma vector is one of these. *)
Lemma epsmu_of_input : forall Z0 ms bs sm a b isE, assembleAttributeToMaterial Z0 ms bs sm = Ok (a, b) ->
  (forall t, In t (sm_attrs sm) -> 1 <= t) ->
  exists v, buildEpsMuPiecewiseVector isE a = Ok v /\
    (forall t i, firstFor t (matsIn ms) = Some i -> pwEval v t = Ok ((if isE then m_eps else m_mu) (materialOf Z0 i))) /\
    (forall t, ~ listed t (matsIn ms) -> pwEval v t = Ok 0%R \/ pwEval v t = UB).
Proof. intros. exact (coefficient_of_input _ _ _ _ _ _ _ H H0). Qed.
Lemma sigma_of_input : forall Z0 ms bs sm a b, assembleAttributeToMaterial Z0 ms bs sm = Ok (a, b) ->
  (forall t, In t (sm_attrs sm) -> 1 <= t) ->
  exists v, buildSigmaPiecewiseVector a = Ok v /\
    (forall t i, firstFor t (matsIn ms) = Some i -> pwEval v t = Ok (m_sigma (materialOf Z0 i))) /\
    (forall t, ~ listed t (matsIn ms) -> pwEval v t = Ok 0%R \/ pwEval v t = UB).
Proof. intros. exact (coefficient_of_input _ _ _ _ _ _ _ H H0). Qed.

(** Two materials, tag 2 listed twice; a mesh with elements 1, 2, 4 and boundaries 5, 6. *)
Definition exMs : list matEntry :=
  [mkME [4; 2] (mkMatIn (Some 2%R) None None); mkME [2; 1] (mkMatIn None None (Some 3%R))].
Definition exSM : smesh := mkSM [1; 2; 4] [5; 6] [5; 6; 6] [-1; 0; 1; 2] [true; false; true; false].
Definition exBs : list bdrEntry :=
  [mkBE (Some [6]) (Some "PEC"%string) None; mkBE (Some [5; 6]) (Some "SMA"%string) None].
Lemma exSM_wf : wfSM exSM.
Proof. split; [reflexivity|]. apply Forall_forall. intros b [<-|[<-|[<-|[<-|[]]]]]; cbn; lia. Qed.
Lemma exMs_ok : exists a b, assembleAttributeToMaterial 1 exMs exBs exSM = Ok (a, b) /\
  mfind 2 a = Some (mkMat 2 1 0) /\ mfind 1 a = Some (mkMat 1 1 (3 * 1)).
Proof.
  destruct (materials_ok 1 exMs exBs exSM) as (a & b & E & _ & _ & V & _).
  - intros e [<-|[<-|[]]] _; unfold physical, materialOf; cbn [me_mat i_eps i_mu i_sigma m_eps m_mu m_sigma]; lra.
  - cbn. intros ? ? [].
  - intros t (ts & i & [I|[I|[]]] & T); injection I as <- <-; cbn in T |- *; intuition.
  - intros t (ts & i & [] & _).
  - exists a, b. split; [exact E|]. split; rewrite V; reflexivity.
Qed.
Lemma exBs_ok : Forall entryOk exBs.
Proof.
  apply Forall_forall. intros e [<-|[<-|[]]].
  - exists 6, [], "PEC"%string, PEC. unfold condNamed. auto.
  - exists 5, [6], "SMA"%string, SMA. unfold condNamed. auto 10.
Qed.
(** Tag 6 is on an interior face and on an outer one: it goes to the interior table. *)
Lemma exBs_run : assembleAttributeToBoundary exBs exSM = Ok ([(5, SMA)], [(6, PEC)]).
Proof. reflexivity. Qed.

(** An outer face whose tag also appears on an interior face gets no outer condition. *)
Lemma outer_lost : exists bs sm gb gi f b tag, wfSM sm /\ Forall entryOk bs /\
  assembleAttributeToBoundary bs sm = Ok (gb, gi) /\
  nth_error (sm_f2b sm) f = Some b /\ b <> -1 /\ nth_error (sm_inter sm) f = Some false /\ zget (sm_bdrAttr sm) b = Ok tag /\
  (exists s c, firstFor tag (condsIn bs) = Some s /\ condNamed s c) /\ mfind tag gb = None.
Proof.
  exists exBs, exSM, [(5, SMA)], [(6, PEC)], 3%nat, 2, 6. split; [exact exSM_wf|]. split; [exact exBs_ok|]. split; [exact exBs_run|].
  split; [reflexivity|]. split; [discriminate|]. split; [reflexivity|]. split; [reflexivity|]. split; [|reflexivity].
  exists "PEC"%string, PEC. split; [reflexivity|]. unfold condNamed. auto.
Qed.

(** The driver accepts a boundary tag the mesh does not have; the model then writes outside
    the marker. *)
Lemma unknown_tag : exists bs sm gb gi, wfSM sm /\ Forall entryOk bs /\
  assembleAttributeToBoundary bs sm = Ok (gb, gi) /\ newModel [] gb gi (sm_battrs sm) = UB.
Proof.
  exists [mkBE (Some [7]) (Some "PEC"%string) None], exSM, [(7, PEC)], []. split; [exact exSM_wf|]. split.
  - apply Forall_forall. intros e [<-|[]]. exists 7, [], "PEC"%string, PEC. unfold condNamed. auto.
  - split; [reflexivity|]. unfold newModel, buildVacuumMaterial. rewrite new_ok by (unfold physical; cbn [m_eps m_mu m_sigma]; lra). reflexivity.
Qed.
(** An element without a material is accepted; its permittivity is 0, or is read outside the
    vector. *)
Lemma missing_material : exists ms bs sm a b v, assembleAttributeToMaterial 1 ms bs sm = Ok (a, b) /\
  In 1 (sm_attrs sm) /\ In 3 (sm_attrs sm) /\ buildEpsMuPiecewiseVector true a = Ok v /\ pwEval v 1 = Ok 0%R /\ pwEval v 3 = UB.
Proof.
  exists [mkME [2] (mkMatIn None None None)], [], (mkSM [1; 2; 3] [] [] [] []), [(2, mkMat 1 1 0)], [], [0%R; 1%R].
  split; [|cbn; auto 8].
  unfold assembleAttributeToMaterial, loadMaterials, readMaterial, me_mat, i_eps, i_mu, i_sigma. cbn [foldM me_tags].
  rewrite new_ok by (unfold physical; cbn [m_eps m_mu m_sigma]; lra). reflexivity.
Qed.

(** A marker of the example. *)
Lemma exMk_ok : tagsFit 6 [(5, SMA)] /\ tagsFit 6 [(6, PEC)] /\ arrayMax (sm_battrs exSM) = Ok 6.
Proof.
  split; [|split; [|reflexivity]]; apply Forall_forall; intros p [<-|[]]; cbn [fst snd]; (split; [lia|]); split; discriminate.
Qed.

(** From the input to the markers: the two parts together. *)
Lemma input_markers : forall bs sm n gt2m, wfSM sm -> Forall entryOk bs -> arrayMax (sm_battrs sm) = Ok n ->
  (forall t, listed t (condsIn bs) -> 1 <= t <= n) ->
  exists gb gi md, assembleAttributeToBoundary bs sm = Ok (gb, gi) /\ newModel gt2m gb gi (sm_battrs sm) = Ok md /\
    forall c, mapped c ->
      ((exists m, In (c, m) (bdrToMarkerMap (md_mk md))) <->
         exists t s, firstFor t (condsIn bs) = Some s /\ condNamed s c /\ ~ onInterior sm t) /\
      ((exists m, In (c, m) (intBdrToMarkerMap (md_mk md))) <->
         exists t s, firstFor t (condsIn bs) = Some s /\ condNamed s c /\ onInterior sm t) /\
      (forall m, In (c, m) (bdrToMarkerMap (md_mk md)) -> Z.of_nat (length m) = n /\ forall t, 1 <= t <= n ->
         (zget m (t - 1) = Ok 1 /\ (exists s, firstFor t (condsIn bs) = Some s /\ condNamed s c /\ ~ onInterior sm t) \/
          zget m (t - 1) = Ok 0 /\ ~ (exists s, firstFor t (condsIn bs) = Some s /\ condNamed s c /\ ~ onInterior sm t))) /\
      (forall m, In (c, m) (intBdrToMarkerMap (md_mk md)) -> Z.of_nat (length m) = n /\ forall t, 1 <= t <= n ->
         (zget m (t - 1) = Ok 1 /\ (exists s, firstFor t (condsIn bs) = Some s /\ condNamed s c /\ onInterior sm t) \/
          zget m (t - 1) = Ok 0 /\ ~ (exists s, firstFor t (condsIn bs) = Some s /\ condNamed s c /\ onInterior sm t))).
Proof.
  intros bs sm n gt2m W Hb Hn Ht. destruct (boundary_assign bs sm W Hb) as (gb & gi & E & A1 & A2 & V1 & V2).
  assert (I1 : forall t c, In (t, c) gb <-> exists s, firstFor t (condsIn bs) = Some s /\ condNamed s c /\ ~ onInterior sm t).
  { intros t c. split.
    - intros I. apply in_mfind in I; [|exact A1]. apply V1 in I. destruct I as ((s & X & Y) & O). eauto.
    - intros (s & X & Y & O). apply mfind_in. apply V1. eauto. }
  assert (I2 : forall t c, In (t, c) gi <-> exists s, firstFor t (condsIn bs) = Some s /\ condNamed s c /\ onInterior sm t).
  { intros t c. split.
    - intros I. apply in_mfind in I; [|exact A2]. apply V2 in I. destruct I as ((s & X & Y) & O). eauto.
    - intros (s & X & Y & O). apply mfind_in. apply V2. eauto. }
  assert (HM : forall s c, condNamed s c -> hasMarker c).
  { intros s c D. unfold condNamed in D. decompose [or and] D; subst; split; discriminate. }
  assert (F1 : tagsFit n gb).
  { apply Forall_forall. intros [t c] I. apply I1 in I. destruct I as (s & X & Y & _). cbn [fst snd]. split; [apply Ht, first_listed; eauto|eapply HM; eauto]. }
  assert (F2 : tagsFit n gi).
  { apply Forall_forall. intros [t c] I. apply I2 in I. destruct I as (s & X & Y & _). cbn [fst snd]. split; [apply Ht, first_listed; eauto|eapply HM; eauto]. }
  destruct (model_markers gt2m gb gi (sm_battrs sm) n Hn F1 F2) as (md & Em & _ & _ & K).
  exists gb, gi, md. split; [exact E|]. split; [exact Em|]. intros c Hc. destruct (K c Hc) as (K1 & K2 & K3 & K4).
  split; [|split; [|split]].
  - rewrite K2. setoid_rewrite I1. reflexivity.
  - rewrite K4. setoid_rewrite I2. reflexivity.
  - intros m I. destruct (K1 m I) as (L & Q). split; [exact L|]. intros t Hr. rewrite <- I1. destruct (Q (t - 1) ltac:(lia)) as [(P1 & P2)|(P1 & P2)]; replace (t - 1 + 1) with t in P2 by lia; auto.
  - intros m I. destruct (K3 m I) as (L & Q). split; [exact L|]. intros t Hr. rewrite <- I2. destruct (Q (t - 1) ltac:(lia)) as [(P1 & P2)|(P1 & P2)]; replace (t - 1 + 1) with t in P2 by lia; auto.
Qed.
Lemma exInput : wfSM exSM /\ Forall entryOk exBs /\ arrayMax (sm_battrs exSM) = Ok 6 /\ (forall t, listed t (condsIn exBs) -> 1 <= t <= 6) /\
  (exists s, firstFor 6 (condsIn exBs) = Some s /\ condNamed s PEC /\ onInterior exSM 6).
Proof.
  split; [exact exSM_wf|]. split; [exact exBs_ok|]. split; [reflexivity|]. split.
  - intros t (ts & s & [I|[I|[]]] & T); injection I as <- <-; cbn in T; intuition; subst; lia.
  - exists "PEC"%string. split; [reflexivity|]. split; [unfold condNamed; auto|]. exists 2%nat, 1. repeat split; discriminate.
Qed.

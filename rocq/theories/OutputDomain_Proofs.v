(** Domain snapshots after every schedule. *)
From Coq Require Import String ZArith List Bool Lia Arith Reals Lra.
From Verif Require Import Common Probe_Model Input_Proofs Output_Model Output_Spec Output_Proofs OutputRun_Proofs OutputPoint_Proofs OutputField_Proofs OutputSnap_Proofs.
Import ListNotations.
Local Open Scope string_scope.
Local Open Scope list_scope.
Local Open Scope nat_scope.

(** A file that is there was there before or was written whole. *)
Lemma fin_origin : forall n s t s', fin n s t s' -> forall q l, (forall r o, r < n -> In o (t r) -> forall m, o <> OAppend q m) ->
  s' q = Some (File l) -> s q = Some (File l) \/ exists r, r < n /\ In (OTrunc q l) (t r).
Proof.
  intros n s t s' H. induction H as [s t D|s s1 s2 t t' r o R E O N X H IH|s s2 t t' P' E H IH]; intros q l K Q.
  - now left.
  - destruct (IH q l) as [I|(r' & R' & I)]; [|exact Q| |].
    { intros r' x Rx Ix. apply (K r' x Rx). destruct (Nat.eq_dec r' r) as [->|NQ]; [rewrite E; now right|]. now rewrite <- O. }
    + destruct o as [p|p|p m|p m|]; cbn [exec] in X.
      * unfold mkdirs in X. destruct (existsb _ _); [discriminate|]. injection X as <-. destruct (prefixb q p); [discriminate|now left].
      * injection X as <-. destruct (prefixb p q); [discriminate|now left].
      * assert (C : s1 = s \/ s1 = setNode s p (File m)) by (destruct (isDir s (removelast p)); [destruct (s p) as [[]|]|]; apply ok_inj in X; auto).
        destruct C as [-> | ->]; [now left|]. unfold setNode in I. destruct (path_eq q p) as [->|]; [|now left].
        injection I as <-. right. exists r. split; [assumption|rewrite E; now left].
      * assert (Np : p <> q) by (intros ->; apply (K r (OAppend q m) R) with m; [rewrite E; now left|reflexivity]).
        assert (C : s1 = s \/ exists z, s1 = setNode s p (File z)) by (destruct (isDir s (removelast p)); [destruct (s p) as [[]|]|]; apply ok_inj in X; eauto).
        destruct C as [-> |[z ->]]; [now left|]. unfold setNode in I. destruct (path_eq q p) as [->|]; [congruence|now left].
      * congruence.
    + right. exists r'. split; [assumption|]. destruct (Nat.eq_dec r' r) as [->|NQ]; [rewrite E; now right|]. now rewrite <- O.
  - destruct (IH q l) as [I|(r' & R' & I)]; [|exact Q|now left|].
    + intros r' x Rx Ix. apply (K r' x Rx). rewrite E by assumption. now right.
    + right. exists r'. split; [assumption|]. rewrite E by assumption. now right.
Qed.

Lemma snapshot_fun : forall v t a l l', snapshotFile v t a l -> snapshotFile v t a l' -> l = l'.
Proof.
  intros v t a l l' [(k & b & I & -> & ->)|[-> ->]] [(k' & b' & I' & E & ->)|[E ->]].
  - cbn in I, I'. repeat destruct I as [I|I]; try contradiction; injection I as <- <-; repeat destruct I' as [I'|I']; try contradiction; injection I' as <- <-; try reflexivity; discriminate E.
  - cbn in I. repeat destruct I as [I|I]; try contradiction; injection I as <- <-; discriminate E.
  - cbn in I'. repeat destruct I' as [I'|I']; try contradiction; injection I' as <- <-; discriminate E.
  - reflexivity.
Qed.
Lemma snapshot_comp : forall v t k, snapshotFile v t (polString k ++ ".gf")%string [LValues (v k)].
Proof. intros v t k. left. exists k, (polString k). split; [destruct k; cbn; tauto|]. now split. Qed.

Section Fields.
Variable F : Type.
Variable getValue : F -> comp -> Z -> list R -> R.
Variable dofs : F -> comp -> list R.
Variable surf : F -> list Z -> comp -> list R.
Notation partsF := (parts F getValue dofs surf).

(** The part of an export that is the same at every cycle. *)
Definition snapOps (e : env) (r c : nat) (t : R) (x : F) : list op :=
  OMkdirs (snapFolder e r c) :: map (fun k => OTrunc (snapFolder e r c ++ [(polString k ++ ".gf")%string]) [LValues (dofs x k)]) comps ++
  [OTrunc (snapFolder e r c ++ ["time.txt"]) [LTime t]].
Lemma snapOps_in : forall e r c t x o, In o (snapOps e r c t x) ->
  o = OMkdirs (snapFolder e r c) \/ exists a l, snapshotFile (dofs x) t a l /\ o = OTrunc (snapFolder e r c ++ [a]) l.
Proof.
  intros e r c t x o [<-|H]; [now left|]. right. apply in_app_or in H. destruct H as [H|[<-|[]]].
  - apply in_map_iff in H. destruct H as (k & <- & _). eexists _, _. split; [apply snapshot_comp|reflexivity].
  - eexists _, _. split; [right; split; reflexivity|reflexivity].
Qed.
Lemma snapOps_all : forall e r c t x a l, snapshotFile (dofs x) t a l -> In (OTrunc (snapFolder e r c ++ [a]) l) (snapOps e r c t x).
Proof.
  intros e r c t x a l [(k & b & I & -> & ->)|[-> ->]]; right; apply in_or_app; [left|right; now left].
  apply in_map_iff. exists k. cbn in I. repeat destruct I as [I|I]; try contradiction; injection I as <- <-; split; try reflexivity; cbn; tauto.
Qed.
Lemma snapOps_ready : forall e r c t x f, ready f false (snapOps e r c t x) = true.
Proof.
  intros e r c t x f. unfold snapOps. apply ready_mk. intros o Io So.
  assert (Tr : forall b m, OTrunc (snapFolder e r c ++ [b]) m = o -> prefixb (removelast f) (snapFolder e r c) = true).
  { intros b m <-. apply trunc_sets in So. rewrite <- So, removelast_last. apply prefix_refl. }
  apply in_app_or in Io. destruct Io as [Io|[Io|[]]]; [apply in_map_iff in Io; destruct Io as (k & Io & _)|]; eapply Tr; exact Io.
Qed.
Lemma folder_inj : forall e r c r' c' a b, snapFolder e r c ++ [a] = snapFolder e r' c' ++ [b] -> r = r' /\ c = c' /\ a = b.
Proof.
  intros e r c r' c' a b H. unfold snapFolder in H. rewrite <- !app_assoc in H. apply app_inv_head in H. cbn [app] in H.
  assert (H1 := f_equal (fun l => nth 0 l "") H). assert (H2 := f_equal (fun l => nth 1 l "") H). assert (H3 := f_equal (fun l => nth 2 l "") H). cbn [nth] in H1, H2, H3.
  apply (app_str_inj "rank_") in H1. apply (app_str_inj "cycle_") in H2. apply to_string_inj in H1. apply padded_inj in H2. auto.
Qed.

Section Domain.
Variable e : env.
Variable p : probes.
Variable d : snapProbe.
Hypothesis One : pr_snap p = [d].

Definition meshFile (r : nat) : path := snapDir e ++ ["meshes"; ("mesh_rank" ++ to_string r)%string].
(** What the directory should hold. *)
Definition expected (calls : list (R * (nat -> F))) (q : path) (l : list line) : Prop :=
  exists r, r < e_ranks e /\
    ((q = meshFile r /\ l = [LMesh [] r]) \/
     exists c t x a, nth_error calls c = Some (t, x) /\ dueAt (e_final e) (dp_steps d) c t /\ q = snapFolder e r c ++ [a] /\ snapshotFile (dofs (x r)) t a l).

Definition quietAll (o : op) : Prop := forall b rest, quiet (snapDir e ++ b :: rest) o.
Lemma others_quiet : forall r c t x ms a b n s g, 
    mapM (fieldUpdate F getValue e r c t x) (pr_field p) = Ok a ->
    mapM (pointUpdate F getValue e r c t x) (pr_point p) = Ok b ->
    mapM (nearUpdate F surf e r c t x) (pr_near p) = Ok n ->
    mapM (surfUpdate F surf e r c t x) (pr_surf p) = Ok s -> g = snd (morAll F dofs e r t x ms) ->
    forall o, In o (concat a ++ concat b ++ concat n ++ concat s ++ g) -> quietAll o.
Proof.
  intros r c t x ms a b n s g Ma Mb Mn Ms -> o K y rest. unfold snapDir.
  repeat (apply in_app_or in K; destruct K as [K|K]).
  - destruct (mapM_concat_in _ _ _ _ Ma K) as (q & os & I & G & Io). destruct (fieldUpdate_in F getValue _ _ _ _ _ _ _ _ G Io) as (i & l & _ & _ & _ & ->).
    apply (quiet_kind e _ "FieldProbes"); [discriminate|apply dir_prefix].
  - destruct (mapM_concat_in _ _ _ _ Mb K) as (q & os & I & G & Io). destruct (pointUpdate_in F getValue _ _ _ _ _ _ _ _ G Io) as (i & l & _ & _ & _ & ->).
    apply (quiet_kind e _ "PointProbes"); [discriminate|apply dir_prefix].
  - destruct (mapM_concat_in _ _ _ _ Mn K) as (q & os & I & G & Io). apply (quiet_kind e _ "NearToFarFieldProbes"); [discriminate|]. eapply near_at; eauto.
  - destruct (mapM_concat_in _ _ _ _ Ms K) as (q & os & I & G & Io). apply (quiet_kind e _ "RCSSurface"); [discriminate|]. eapply surf_at; eauto.
  - apply (quiet_kind e _ "MORStateProbes"); [discriminate|]. now apply (mor_at F dofs _ _ _ _ _ _ K).
Qed.
(** A call after the first one. *)
Lemma later_block : forall r c t x ms os, partsF e r (S c) t x p ms os ->
  exists u m v, os = u ++ m ++ v /\ (forall o, In o (u ++ v) -> quietAll o) /\
    ((dueAt (e_final e) (dp_steps d) (S c) t /\ m = snapOps e r (S c) t x) \/ (~ dueAt (e_final e) (dp_steps d) (S c) t /\ m = [])).
Proof.
  intros r c t x ms os [a b n dd s Ma Mb Mn Md Ms ->]. rewrite One in Md. destruct (mapM_cons_ok _ _ _ _ Md) as (o & os' & G & M & ->). injection M as <-.
  exists (concat a ++ concat b ++ concat n), o, (concat s ++ snd (morAll F dofs e r t x ms)). split; [cbn [concat]; rewrite app_nil_r; now rewrite <- !app_assoc|]. split.
  - intros y Iy. apply (others_quiet r _ t x ms a b n s _ Ma Mb Mn Ms eq_refl). rewrite <- !app_assoc in Iy. exact Iy.
  - unfold snapUpdate in G. binds G. apply due_iff in Q. destruct v.
    + left. split; [now apply Q|]. now apply ok_inj in G.
    + right. apply ok_inj in G. split; [intro Du; apply Q in Du; discriminate|exact G].
Qed.
(** The first call. *)
Lemma first_block : forall r t x ms os, partsF e r 0 t x p ms os ->
  exists u v, os = u ++ renew e r (snapDir e) [snapDir e ++ ["meshes"]] ++ [OTrunc (meshFile r) [LMesh [] r]; OMkdirs (snapDir e ++ [("rank_" ++ to_string r)%string])] ++ snapOps e r 0 t x ++ v /\
    (forall o, In o (u ++ v) -> quietAll o) /\ bars u = 0 /\ (forall o, In o u -> removes o (snapDir e) = false /\ setsFile o (snapDir e) = false).
Proof.
  intros r t x ms os [a b n dd s Ma Mb Mn Md Ms ->]. rewrite One in Md. destruct (mapM_cons_ok _ _ _ _ Md) as (o & os' & G & M & ->). injection M as <-.
  exists (concat a ++ concat b ++ concat n), (concat s ++ snd (morAll F dofs e r t x ms)).
  unfold snapUpdate in G. binds G. apply due_iff in Q. destruct v; [|exfalso; assert (dueAt (e_final e) (dp_steps d) 0 t) by (right; now exists 0%Z); apply Q in H; discriminate].
  apply ok_inj in G. subst o. split; [|split; [|split]].
  - cbn [concat]. rewrite app_nil_r. unfold snapOps, meshFile. rewrite <- !app_assoc. do 4 f_equal.
  - intros y Iy. apply (others_quiet r _ t x ms a b n s _ Ma Mb Mn Ms eq_refl). rewrite <- !app_assoc in Iy. exact Iy.
  - apply bars_in. intros o K. repeat (apply in_app_or in K; destruct K as [K|K]).
    + destruct (mapM_concat_in _ _ _ _ Ma K) as (q & os & I & G & Io). destruct (fieldUpdate_in F getValue _ _ _ _ _ _ _ _ G Io) as (i & l & _ & _ & _ & ->). discriminate.
    + destruct (mapM_concat_in _ _ _ _ Mb K) as (q & os & I & G & Io). destruct (pointUpdate_in F getValue _ _ _ _ _ _ _ _ G Io) as (i & l & _ & _ & _ & ->). discriminate.
    + destruct (mapM_concat_in _ _ _ _ Mn K) as (q & os & I & G & Io). now apply (nearUpdate_in F surf _ _ _ _ _ _ _ _ G Io).
  - assert (G : forall o k, k <> "DomainSnapshotProbes" -> atDir (exportDir e (e_case e) k) o -> removes o (snapDir e) = false /\ setsFile o (snapDir e) = false).
    { intros o k Nk At. destruct (quiet_kind e "DomainSnapshotProbes" k [] o (not_eq_sym Nk) At) as (X & Y & _). rewrite app_nil_r in X, Y. now split. }
    intros o K. repeat (apply in_app_or in K; destruct K as [K|K]).
    + destruct (mapM_concat_in _ _ _ _ Ma K) as (q & os & I & G' & Io). destruct (fieldUpdate_in F getValue _ _ _ _ _ _ _ _ G' Io) as (i & l & _ & _ & _ & ->). apply (G _ "FieldProbes"); [discriminate|apply dir_prefix].
    + destruct (mapM_concat_in _ _ _ _ Mb K) as (q & os & I & G' & Io). destruct (pointUpdate_in F getValue _ _ _ _ _ _ _ _ G' Io) as (i & l & _ & _ & _ & ->). apply (G _ "PointProbes"); [discriminate|apply dir_prefix].
    + destruct (mapM_concat_in _ _ _ _ Mn K) as (q & os & I & G' & Io). apply (G _ "NearToFarFieldProbes"); [discriminate|eapply near_at; eauto].
Qed.

(** After the barrier of the first call. *)
Inductive after (r : nat) (calls : list (R * (nat -> F))) (B : list op) : Prop :=
| after_intro : forall t0 x0 rest v bl, calls = (t0, x0) :: rest ->
    B = [OTrunc (meshFile r) [LMesh [] r]; OMkdirs (snapDir e ++ [("rank_" ++ to_string r)%string])] ++ snapOps e r 0 t0 (x0 r) ++ v ++ concat bl ->
    (forall o, In o v -> quietAll o) -> length bl = length rest ->
    (forall j os, nth_error bl j = Some os -> exists t x u m w, nth_error rest j = Some (t, x) /\ os = u ++ m ++ w /\ (forall o, In o (u ++ w) -> quietAll o) /\
       ((dueAt (e_final e) (dp_steps d) (S j) t /\ m = snapOps e r (S j) t (x r)) \/ (~ dueAt (e_final e) (dp_steps d) (S j) t /\ m = []))) ->
    after r calls B.
Lemma after_in : forall r calls B o, after r calls B -> In o B ->
  quietAll o \/ o = OTrunc (meshFile r) [LMesh [] r] \/ o = OMkdirs (snapDir e ++ [("rank_" ++ to_string r)%string]) \/
  exists c t x, nth_error calls c = Some (t, x) /\ dueAt (e_final e) (dp_steps d) c t /\ In o (snapOps e r c t (x r)).
Proof.
  intros r calls B o [t0 x0 rest v bl -> -> Qv L Bl] I. apply in_app_or in I. destruct I as [[<-|[<-|[]]]|I]; [auto|auto|].
  apply in_app_or in I. destruct I as [I|I]; [do 3 right; exists 0, t0, x0; repeat split; auto; right; now exists 0%Z|].
  apply in_app_or in I. destruct I as [I|I]; [left; auto|]. apply in_concat in I. destruct I as (os & Ios & Io). apply In_nth_error in Ios. destruct Ios as (j & Nj).
  destruct (Bl j os Nj) as (t & x & u & m & w & N & -> & Qa & M). apply in_app_or in Io. destruct Io as [Io|Io]; [left; apply Qa; apply in_or_app; now left|].
  apply in_app_or in Io. destruct Io as [Io|Io]; [|left; apply Qa; apply in_or_app; now right].
  destruct M as [(Du & ->)|(_ & ->)]; [|contradiction]. do 3 right. exists (S j), t, x. auto.
Qed.
Lemma after_has : forall r calls B c t x o, after r calls B -> nth_error calls c = Some (t, x) -> dueAt (e_final e) (dp_steps d) c t -> In o (snapOps e r c t (x r)) -> In o B.
Proof.
  intros r calls B c t x o [t0 x0 rest v bl -> -> Qv L Bl] N Du I. apply in_or_app. right. destruct c as [|c]; cbn [nth_error] in N.
  - injection N as <- <-. apply in_or_app. now left.
  - apply in_or_app. right. apply in_or_app. right.
    assert (exists os, nth_error bl c = Some os) as [os No].
    { destruct (nth_error bl c) eqn:E; [eauto|]. apply nth_error_None in E. rewrite L in E. assert (H : nth_error rest c <> None) by congruence. apply nth_error_Some in H. lia. }
    destruct (Bl c os No) as (t' & x' & u & m & w & N' & -> & _ & M). rewrite N in N'. injection N' as <- <-. destruct M as [(_ & ->)|(C & _)]; [|contradiction].
    apply in_concat. eexists. split; [eapply nth_error_In; exact No|]. apply in_or_app. right. apply in_or_app. now left.
Qed.
Lemma quiet_ready : forall b rest l, (forall o, In o l -> quietAll o) -> ready (snapDir e ++ b :: rest) false l = true.
Proof. intros b rest l H. apply ready_skip. intros o I. apply (H o I b rest). Qed.
Lemma after_ready : forall r calls B b rest, after r calls B -> snapDir e ++ b :: rest <> meshFile r -> ready (snapDir e ++ b :: rest) false B = true.
Proof.
  intros r calls B b rest [t0 x0 l v bl -> -> Qv L Bl] N. apply ready_app.
  { apply ready_skip. intros o [<-|[<-|[]]]; [|reflexivity]. cbn [setsFile]. destruct (path_eq _ _) as [E|]; [congruence|reflexivity]. }
  apply ready_app; [apply snapOps_ready|]. apply ready_app; [now apply quiet_ready|]. apply ready_concat. intros os Ios. apply In_nth_error in Ios. destruct Ios as (j & Nj).
  destruct (Bl j os Nj) as (t & x & u & m & w & _ & -> & Qa & M). apply ready_app; [apply quiet_ready; intros; apply Qa, in_or_app; now left|]. apply ready_app.
  - destruct M as [(_ & ->)|(_ & ->)]; [apply snapOps_ready|reflexivity].
  - apply quiet_ready. intros; apply Qa, in_or_app; now right.
Qed.
Lemma mesh_inj : forall r r', meshFile r = meshFile r' -> r = r'.
Proof.
  intros r r' H. unfold meshFile in H. apply app_inv_head in H. assert (H1 := f_equal (fun l => nth 1 l "") H). cbn [nth] in H1.
  apply (app_str_inj "mesh_rank") in H1. now apply to_string_inj in H1.
Qed.
Lemma mesh_not_folder : forall r r' c a, meshFile r <> snapFolder e r' c ++ [a].
Proof. intros r r' c a H. apply (f_equal (@length string)) in H. unfold meshFile, snapFolder in H. rewrite !app_length in H. cbn in H. lia. Qed.

Theorem domain_files : forall calls s s', writes F getValue dofs surf e p calls s s' -> someRoot e -> calls <> [] ->
  forall q l, under (snapDir e) q -> (s' q = Some (File l) <-> expected calls q l).
Proof.
  intros calls s s' Wr Root Nc q l Uq. destruct (writes_fin _ _ _ _ _ _ _ _ _ Wr) as (todo & H & Pt).
  set (k0 := length (pr_near p) + (match pr_point p with [] => 0 | _ => 1 end + match pr_field p with [] => 0 | _ => 1 end)).
  destruct (fin_phase _ _ _ _ (k0 + 1) (fun r a b => (exists pre, a = pre ++ renew e r (snapDir e) [snapDir e ++ ["meshes"]] /\ 
     (forall o, In o pre -> (forall y, removes o (snapDir e ++ y) = false) /\ (forall y, setsFile o (snapDir e ++ y) = false) /\ forall y1 y2 y3, makes o (snapDir e ++ y1 :: y2 :: y3) = false)) /\ after r calls b) H) as (A & B & s1 & F1 & F2 & AB).
  { intros r R. destruct (program_parts _ _ _ _ _ _ _ _ _ (Pt r R)) as (i & u & Ei & Eu & Et).
    destruct (updates_blocks _ _ _ _ _ _ _ _ _ _ _ Eu) as (bl & -> & L & Bl). destruct calls as [|[t0 x0] rest]; [congruence|].
    destruct bl as [|b0 bl]; [discriminate|]. destruct (Bl 0 b0 eq_refl) as (call & ms0 & N0 & P0). injection N0 as <-. cbn [fst snd Nat.add] in P0.
    destruct (first_block _ _ _ _ _ P0) as (u0 & v & Eb & Qa & Bu & Ru'). assert (Ru := fun o I => proj1 (Ru' o I)). assert (Su := fun o I => proj2 (Ru' o I)).
    exists ((early e p r ++ i ++ u0) ++ renew e r (snapDir e) [snapDir e ++ ["meshes"]]),
      ([OTrunc (meshFile r) [LMesh [] r]; OMkdirs (snapDir e ++ [("rank_" ++ to_string r)%string])] ++ snapOps e r 0 t0 (x0 r) ++ v ++ concat bl).
    split; [rewrite Et; cbn [concat]; rewrite Eb; now rewrite <- !app_assoc|].
    destruct (renew_closed e r (early e p r ++ i ++ u0) (snapDir e) [snapDir e ++ ["meshes"]]) as [X Y]. split; [exact X|]. split.
    { rewrite Y. rewrite !bars_app, early_bars, (init_bars _ _ _ _ Ei), Bu. unfold k0. lia. }
    split.
    - exists (early e p r ++ i ++ u0). split; [reflexivity|]. intros o I. apply in_app_or in I. destruct I as [I|I].
      + split; [intro; eapply early_removes; eauto|]. split.
        * intros y. apply early_in in I. destruct I as [->|[(z & _ & I)|(z & _ & I)]]; [reflexivity|destruct I as [->| ->]; reflexivity|].
          destruct (surfInit_at _ _ _ _ I) as (At & _ & _). now apply (quiet_kind e "DomainSnapshotProbes" "RCSSurface" y o).
        * intros y1 y2 y3. apply (early_files2 e p r o "DomainSnapshotProbes" (y1 :: y2 :: y3)); auto; try discriminate. cbn; lia.
      + apply in_app_or in I. destruct I as [I|I].
        * assert (Qo : forall a, quiet (snapDir e ++ a) o) by (intro a; destruct (init_at _ _ _ _ _ Ei I) as [At|At]; eapply quiet_kind; eauto; discriminate).
          split; [intro; apply Qo|]. split; [intros y; apply Qo|intros; apply Qo].
        * split; [intros [|a b]; [rewrite app_nil_r; auto|apply (Qa o); apply in_or_app; now left]|]. split; [|intros; apply (Qa o); apply in_or_app; now left]. intro y. destruct y as [|a b]; [|apply (Qa o); apply in_or_app; now left]. rewrite app_nil_r. now apply Su.
    - apply (after_intro r _ _ t0 x0 rest v bl); auto.
      + intros o I. apply Qa, in_or_app. now right.
      + intros j os Nj. destruct (Bl (S j) os Nj) as ([t x] & ms & N & P). cbn [fst snd Nat.add nth_error] in N, P.
        destruct (later_block _ _ _ _ _ _ P) as (u & m & w & E & Q1 & Q2). exists t, x, u, m, w. split; [exact N|]. split; [exact E|]. split; [exact Q1|exact Q2]. }
  destruct Root as (r0 & R0 & Rt).
  assert (NF : noFile s1 (snapDir e)).
  { apply (fin_nofile _ _ _ _ F1).
    - intros r o y R I Py. apply prefix_iff in Py. destruct Py as (z & ->). destruct (AB r R) as ((pre & E & W) & _). rewrite E in I. apply in_app_or in I. destruct I as [I|I]; [now apply (W o I)|].
      apply renew_in in I. destruct I as [->|[->|(y & _ & ->)]]; reflexivity.
    - right. exists r0. split; [assumption|]. destruct (AB r0 R0) as ((pre & E & _) & _). rewrite E, existsb_app. unfold renew. rewrite Rt. cbn [app existsb removes]. rewrite prefix_refl. cbn [orb]. now rewrite orb_true_r. }
  assert (MD : isDir s1 (snapDir e ++ ["meshes"]) = true).
  { apply (fin_made _ _ _ _ F1).
    - intros r R. destruct (AB r R) as ((pre & E & W) & _). rewrite E, guarded_app.
      + unfold renew. destruct (e_root e r); [|reflexivity]. cbn [app map guarded removes makes existsb]. rewrite prefix_refl. rewrite (prefix_snoc _ _ ["meshes"] (prefix_refl (snapDir e))). cbn [orb andb]. now rewrite orb_true_r.
      + intros o I. apply (W o I).
    - right. exists r0. split; [assumption|]. destruct (AB r0 R0) as ((pre & E & _) & _). rewrite E, existsb_app. unfold renew. rewrite Rt. cbn [app map existsb makes]. rewrite prefix_refl. cbn [orb]. now rewrite !orb_true_r. }
  assert (Gone : forall y1 y2 y3, s1 (snapDir e ++ y1 :: y2 :: y3) = None).
  { intros y1 y2 y3. apply (renewed (e_ranks e) e s A s1 "DomainSnapshotProbes" (y1 :: y2 :: y3) [snapDir e ++ ["meshes"]]); auto.
    - now exists r0.
    - intros r R. destruct (AB r R) as ((pre & E & W) & _). exists pre. split; [exact E|]. intros o I. destruct (W o I) as (W1 & W2 & W3). split; [rewrite <- (app_nil_r (exportDir _ _ _)); apply W1|]. split; [apply W2|apply W3].
    - discriminate.
    - intros m [<-|[]]. apply prefix_long. unfold snapDir. rewrite !app_length. cbn [length]. lia. }
  assert (Sets : forall r o y ys, r < e_ranks e -> In o (B r) -> setsFile o (snapDir e ++ y :: ys) = true ->
     (snapDir e ++ y :: ys = meshFile r /\ o = OTrunc (meshFile r) [LMesh [] r]) \/
     exists c t x a l', nth_error calls c = Some (t, x) /\ dueAt (e_final e) (dp_steps d) c t /\ snapDir e ++ y :: ys = snapFolder e r c ++ [a] /\ snapshotFile (dofs (x r)) t a l' /\ o = OTrunc (snapFolder e r c ++ [a]) l').
  { intros r o y ys R I So. destruct (AB r R) as (_ & Af). destruct (after_in _ _ _ _ Af I) as [Qo|[->|[->|(c & t & x & N & Du & Io)]]].
    - destruct (Qo y ys) as (X & _). congruence.
    - left. apply trunc_sets in So. now split.
    - discriminate.
    - right. apply snapOps_in in Io. destruct Io as [->|(a & l' & Sn & ->)]; [discriminate|]. apply trunc_sets in So. exists c, t, x, a, l'. auto 6. }
  destruct Uq as (q1 & qs & ->). split.
  - intro Fq. destruct (fin_origin _ _ _ _ F2 (snapDir e ++ q1 :: qs) l) as [X|(r & R & I)]; [|exact Fq| |].
    + intros r o R I m E. destruct (Sets r o q1 qs R I) as [(_ & X)|(c & t & x & a & l' & _ & _ & _ & _ & X)]; try congruence.
      rewrite E. cbn [setsFile]. now destruct (path_eq _ _).
    + exfalso. apply (NF (snapDir e ++ q1 :: qs) l); [apply prefix_snoc, prefix_refl|exact X].
    + exists r. split; [exact R|]. destruct (Sets r _ q1 qs R I) as [(E & X)|(c & t & x & a & l' & N & Du & E & Sn & X)].
      * cbn [setsFile]. now destruct (path_eq _ _).
      * left. split; [exact E|]. now injection X.
      * right. exists c, t, x, a. repeat split; auto. assert (l = l') by congruence. now subst.
  - intros (r & R & X).
    assert (Two : exists y1 y2 y3, snapDir e ++ q1 :: qs = snapDir e ++ y1 :: y2 :: y3).
    { destruct X as [(-> & _)|(c & t & x & a & _ & _ & -> & _)]; [eexists _, _, _; reflexivity|]. unfold snapFolder. rewrite <- app_assoc. eexists _, _, _. reflexivity. }
    assert (U : forall r' o, r' < e_ranks e -> In o (B r') -> removes o (snapDir e ++ q1 :: qs) = false /\ makes o (snapDir e ++ q1 :: qs) = false /\ (r' <> r -> setsFile o (snapDir e ++ q1 :: qs) = false)).
    { intros r' o R' I. destruct (setsFile o (snapDir e ++ q1 :: qs)) eqn:So.
      - destruct (Sets r' o q1 qs R' I So) as [(E & ->)|(c & t & x & a & l' & N & Du & E & Sn & ->)]; (split; [reflexivity|]; split; [reflexivity|]); intro NW; exfalso; apply NW.
        + destruct X as [(E' & _)|(c & t & x & a & _ & _ & E' & _)]; rewrite E' in E; [now apply mesh_inj in E|exfalso; symmetry in E; now apply mesh_not_folder in E].
        + destruct X as [(E' & _)|(c' & t' & x' & a' & _ & _ & E' & _)]; rewrite E' in E; [exfalso; now apply mesh_not_folder in E|apply folder_inj in E; symmetry; now apply E].
      - destruct (AB r' R') as (_ & Af). assert (I' := I). destruct (after_in _ _ _ _ Af I) as [Qo|[->|[->|(c & t & x & N & Du & Io)]]]; [destruct (Qo q1 qs) as (X1 & X2 & X3); auto|auto| |].
        + repeat split; auto. cbn [makes]. destruct Two as (y1 & y2 & y3 & ->). apply prefix_long. rewrite !app_length. cbn. lia.
        + apply snapOps_in in Io. destruct Io as [->|(a & l' & Sn & ->)]; [|auto]. repeat split; auto. cbn [makes].
          destruct X as [(-> & _)|(c' & t' & x' & a' & _ & _ & -> & _)].
          * unfold meshFile, snapFolder. rewrite prefix_app. cbn [prefixb]. destruct (string_dec "meshes" ("rank_" ++ to_string r')) as [E|]; [discriminate E|reflexivity].
          * apply prefix_long. unfold snapFolder. rewrite !app_length. cbn. lia. }
    destruct (AB r R) as (_ & Af).
    assert (Con : content (snapDir e ++ q1 :: qs) None (B r) = Some l).
    { apply content_const.
      - intros o I So. destruct (Sets r o q1 qs R I So) as [(E & ->)|(c & t & x & a & l' & N & Du & E & Sn & ->)].
        + rewrite E. f_equal. destruct X as [(_ & ->)|(c & t & x & a & _ & _ & E' & _)]; [reflexivity|]. rewrite E' in E. symmetry in E. now apply mesh_not_folder in E.
        + rewrite <- E. f_equal. destruct X as [(E' & _)|(c' & t' & x' & a' & N' & _ & E' & Sn')]; rewrite E' in E; [now apply mesh_not_folder in E|].
          apply folder_inj in E. destruct E as (_ & -> & ->). rewrite N in N'. injection N' as <- <-. eapply snapshot_fun; eauto.
      - apply existsb_exists. destruct X as [(-> & ->)|(c & t & x & a & N & Du & -> & Sn)].
        + exists (OTrunc (meshFile r) [LMesh [] r]). split; [|cbn [setsFile]; now destruct (path_eq _ _)]. destruct Af as [t0 x0 rest v bl _ -> _ _ _]. now left.
        + exists (OTrunc (snapFolder e r c ++ [a]) l). split; [|cbn [setsFile]; now destruct (path_eq _ _)]. eapply after_has; eauto. now apply snapOps_all. }
    destruct Two as (y1 & y2 & y3 & Ey).
    destruct (path_eq (snapDir e ++ q1 :: qs) (meshFile r)) as [Em|Nm].
    + rewrite (fin_single _ _ _ _ F2 _ r None true); auto.
      * now rewrite Con.
      * now destruct (snapDir e).
      * rewrite Ey. apply Gone.
      * intros _. rewrite Em. unfold meshFile. change ["meshes"; ("mesh_rank" ++ to_string r)%string] with (["meshes"] ++ [("mesh_rank" ++ to_string r)%string]). rewrite app_assoc, removelast_last. exact MD.
      * apply ready_true.
    + rewrite (fin_single _ _ _ _ F2 _ r None false); auto.
      * now rewrite Con.
      * now destruct (snapDir e).
      * rewrite Ey. apply Gone.
      * discriminate.
      * eapply after_ready; eauto.
Qed.
End Domain.
End Fields.

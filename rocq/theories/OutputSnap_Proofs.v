(** Snapshots, surface data and model-order-reduction states after every schedule. *)
From Coq Require Import String ZArith List Bool Lia Arith Reals Lra.
From Verif Require Import Common Probe_Model Input_Proofs Output_Model Output_Spec Output_Proofs OutputRun_Proofs OutputPoint_Proofs OutputField_Proofs.
Import ListNotations.
Local Open Scope string_scope.
Local Open Scope list_scope.
Local Open Scope nat_scope.

(** ** Helpers *)
Lemma ok_inj : forall {A} (a b : A), Ok a = Ok b -> b = a.
Proof. congruence. Qed.
Lemma sets_eq : forall o f, setsFile o f = true -> exists l, o = OTrunc f l \/ o = OAppend f l.
Proof. intros o f H. destruct o as [p|p|p l|p l|]; try discriminate; cbn in H; destruct (path_eq p f) as [->|]; try discriminate; exists l; auto. Qed.
Lemma trunc_sets : forall p m f, setsFile (OTrunc p m) f = true -> p = f.
Proof. intros p m f H. cbn [setsFile] in H. now destruct (path_eq p f). Qed.
Lemma content_const : forall f l ops c, (forall o, In o ops -> setsFile o f = true -> o = OTrunc f l) ->
  existsb (fun o => setsFile o f) ops = true -> content f c ops = Some l.
Proof.
  intros f l ops. assert (G : forall c, (forall o, In o ops -> setsFile o f = true -> o = OTrunc f l) ->
    content f c ops = if existsb (fun o => setsFile o f) ops then Some l else c).
  { induction ops as [|o ops I]; intros c H; [reflexivity|].
    assert (H' : forall o', In o' ops -> setsFile o' f = true -> o' = OTrunc f l) by (intros; apply H; auto; now right).
    cbn [existsb]. destruct (setsFile o f) eqn:E.
    - rewrite (H o (or_introl eq_refl) E). cbn [content]. destruct (path_eq f f); [|congruence]. rewrite I by assumption. now destruct existsb.
    - cbn [orb]. transitivity (content f c ops); [|now apply I]. destruct o as [p|p|p x|p x|]; try reflexivity; cbn in E |- *; destruct (path_eq p f); try discriminate; reflexivity. }
  intros c H E. rewrite G by assumption. now rewrite E.
Qed.
Lemma ready_skip : forall f b ops, (forall o, In o ops -> setsFile o f = false) -> ready f b ops = true.
Proof.
  intros f b ops. revert b. induction ops as [|o ops I]; intros b H; [reflexivity|]. cbn. rewrite (H o) by now left. cbn. apply I. intros; apply H; now right.
Qed.
Lemma ready_mono : forall f ops b, ready f false ops = true -> ready f b ops = true.
Proof. intros f ops b H. destruct b; [apply ready_true|assumption]. Qed.
Lemma ready_app : forall f a b x, ready f x a = true -> ready f false b = true -> ready f x (a ++ b) = true.
Proof.
  induction a as [|o a I]; intros b x H K; [now apply ready_mono|]. cbn in *. apply andb_true_iff in H. destruct H as [H1 H2]. rewrite H1. cbn. now apply I.
Qed.
Lemma ready_concat : forall f l, (forall x, In x l -> ready f false x = true) -> ready f false (concat l) = true.
Proof. induction l as [|x l I]; intro H; [reflexivity|]. cbn [concat]. apply ready_app; [apply H; now left|]. apply I. intros; apply H; now right. Qed.
Lemma ready_mk : forall f d rest, (forall o, In o rest -> setsFile o f = true -> prefixb (removelast f) d = true) -> ready f false (OMkdirs d :: rest) = true.
Proof.
  intros f d rest H. cbn [ready setsFile andb orb makes]. destruct (prefixb (removelast f) d) eqn:E; [apply ready_true|].
  apply ready_skip. intros o I. destruct (setsFile o f) eqn:So; [|reflexivity]. specialize (H o I So). congruence.
Qed.
Lemma mapM_concat_ready : forall {A} (g : A -> res (list op)) l os f, mapM g l = Ok os -> (forall a o, In a l -> g a = Ok o -> ready f false o = true) -> ready f false (concat os) = true.
Proof.
  intros A g l os f H K. apply ready_concat. revert os H. induction l as [|a l I]; intros os H x Ix.
  - injection H as <-. contradiction.
  - destruct (mapM_cons_ok _ _ _ _ H) as (o & os' & G & M & ->). destruct Ix as [<-|Ix]; [apply (K a); [now left|assumption]|].
    eapply I; eauto. intros; eapply K; eauto. now right.
Qed.
Lemma mapM_part : forall {A} (g : A -> res (list op)) l os a, mapM g l = Ok os -> In a l -> exists o, g a = Ok o /\ forall x, In x o -> In x (concat os).
Proof.
  induction l as [|b l I]; intros os a H K; [contradiction|]. destruct (mapM_cons_ok _ _ _ _ H) as (o & os' & G & M & ->). destruct K as [<-|K].
  - exists o. split; [assumption|]. intros x X. cbn. apply in_or_app. now left.
  - destruct (I _ _ M K) as (o' & G' & S). exists o'. split; [assumption|]. intros x X. cbn. apply in_or_app. right. now apply S.
Qed.
Lemma early_files2 : forall e p r o k a, k <> "RCSSurface" -> k <> "NearToFarFieldProbes" -> 2 <= length a ->
  In o (early e p r) -> setsFile o (exportDir e (e_case e) k ++ a) = false /\ makes o (exportDir e (e_case e) k ++ a) = false.
Proof.
  intros e p r o k a Nk Nn Na H. apply early_in in H. destruct H as [->|[(q & _ & H)|(q & _ & H)]].
  - now split.
  - assert (L : exists b c, o = OMkdirs (exportDir e [] "NearToFarFieldProbes" ++ b :: c) /\ length c <= 1).
    { destruct H as [->| ->]; eexists _, _; (split; [reflexivity|cbn; lia]). }
    destruct L as (b & c & -> & C). split; [reflexivity|]. cbn [makes].
    destruct (prefixb (exportDir e (e_case e) k ++ a) (exportDir e [] "NearToFarFieldProbes" ++ b :: c)) eqn:P; [|reflexivity].
    exfalso. apply prefix_iff in P. destruct P as [z P]. unfold exportDir in P. rewrite <- !app_assoc in P. cbn [app] in P. injection P as P.
    destruct (e_case e) as [|c0 cs]; cbn [app] in P; [injection P as P; congruence|].
    apply (f_equal (@length string)) in P. cbn [length] in P. rewrite !app_length in P. cbn [length] in P. rewrite app_length in P. lia.
  - destruct (surfInit_at _ _ _ _ H) as (A & _ & _).
    destruct (apart (exportDir e (e_case e) k) (exportDir e (e_case e) "RCSSurface") (exportDir e (e_case e) k ++ a) o) as (X & _ & Y); auto.
    + now apply kinds_apart.
    + apply dir_prefix.
Qed.
Lemma near_early : forall e p r o a, 4 <= length a -> In o (early e p r) ->
  setsFile o (exportDir e (e_case e) "NearToFarFieldProbes" ++ a) = false /\ makes o (exportDir e (e_case e) "NearToFarFieldProbes" ++ a) = false.
Proof.
  intros e p r o a Na H. apply early_in in H. destruct H as [->|[(q & _ & H)|(q & _ & H)]].
  - now split.
  - assert (L : exists c, o = OMkdirs (exportDir e [] "NearToFarFieldProbes" ++ c) /\ length c <= 2).
    { destruct H as [->| ->]; eexists; (split; [reflexivity|cbn; lia]). }
    destruct L as (c & -> & C). split; [reflexivity|]. cbn [makes]. apply prefix_long. unfold exportDir. rewrite !app_length. cbn [length]. lia.
  - destruct (surfInit_at _ _ _ _ H) as (A & _ & _).
    destruct (apart (exportDir e (e_case e) "NearToFarFieldProbes") (exportDir e (e_case e) "RCSSurface") (exportDir e (e_case e) "NearToFarFieldProbes" ++ a) o) as (X & _ & Y); auto.
    + apply kinds_apart. discriminate.
    + apply dir_prefix.
Qed.
Lemma init_at : forall e r p i o, initPointField e r p = Ok i -> In o i ->
  atDir (exportDir e (e_case e) "PointProbes") o \/ atDir (exportDir e (e_case e) "FieldProbes") o.
Proof.
  intros e r p i o H I. unfold initPointField in H. binds H. injection H as <-. apply in_app_or in I. destruct I as [I|I].
  - left. destruct (pr_point p) as [|f1 fs]; [injection Q as <-; contradiction|]. binds Q. injection Q as <-. apply in_app_or in I. destruct I as [I|I].
    + apply renew_in in I. destruct I as [->|[->|(q & [<-|[]] & ->)]]; cbn [atDir]; try apply prefix_refl. exact Logic.I.
    + destruct (mapM_concat_in _ _ _ _ Q1 I) as (q & os & Iq & G & Io). destruct (pointHead_in _ _ _ _ _ G Io) as (j & l & _ & _ & _ & ->). apply dir_prefix.
  - right. destruct (pr_field p) as [|f1 fs]; [injection Q0 as <-; contradiction|]. binds Q0. injection Q0 as <-. apply in_app_or in I. destruct I as [I|I].
    + apply renew_in in I. destruct I as [->|[->|(q & [<-|[]] & ->)]]; cbn [atDir]; try apply prefix_refl. exact Logic.I.
    + destruct (mapM_concat_in _ _ _ _ Q1 I) as (q & os & Iq & G & Io). destruct (fieldHead_in _ _ _ _ _ G Io) as (j & l & _ & _ & _ & ->). apply dir_prefix.
Qed.
Lemma init_bars : forall e r p i, initPointField e r p = Ok i ->
  bars i = match pr_point p with [] => 0 | _ => 1 end + match pr_field p with [] => 0 | _ => 1 end.
Proof.
  intros e r p i H. unfold initPointField in H. binds H. injection H as <-. rewrite bars_app. f_equal.
  - destruct (pr_point p) as [|f1 fs]; [injection Q as <-; reflexivity|]. binds Q. injection Q as <-. rewrite bars_app, (bars_in (concat v1)).
    + pose proof (proj2 (renew_closed e r [] (exportDir e (e_case e) "PointProbes") [])) as X. cbn [app] in X. now rewrite X.
    + intros o I. destruct (mapM_concat_in _ _ _ _ Q1 I) as (q & os & Iq & G & Io). destruct (pointHead_in _ _ _ _ _ G Io) as (j & l & _ & _ & _ & ->). discriminate.
  - destruct (pr_field p) as [|f1 fs]; [injection Q0 as <-; reflexivity|]. binds Q0. injection Q0 as <-. rewrite bars_app, (bars_in (concat v1)).
    + pose proof (proj2 (renew_closed e r [] (exportDir e (e_case e) "FieldProbes") [])) as X. cbn [app] in X. now rewrite X.
    + intros o I. destruct (mapM_concat_in _ _ _ _ Q1 I) as (q & os & Iq & G & Io). destruct (fieldHead_in _ _ _ _ _ G Io) as (j & l & _ & _ & _ & ->). discriminate.
Qed.

Section Fields.
Variable F : Type.
Variable getValue : F -> comp -> Z -> list R -> R.
Variable dofs : F -> comp -> list R.
Variable surf : F -> list Z -> comp -> list R.
Notation partsF := (parts F getValue dofs surf).

(** The blocks of the calls. *)
Lemma updates_blocks : forall e r p calls c ms us, allUpdates F getValue dofs surf e r p c calls ms = Ok us ->
  exists blocks, us = concat blocks /\ length blocks = length calls /\
    forall j os, nth_error blocks j = Some os -> exists call ms', nth_error calls j = Some call /\ partsF e r (c + j) (fst call) (snd call r) p ms' os.
Proof.
  intros e r p. induction calls as [|call calls I]; intros c ms us H.
  - injection H as <-. exists []. split; [reflexivity|]. split; [reflexivity|]. intros [|j] os K; discriminate.
  - cbn [allUpdates] in H. binds H. injection H as <-. destruct (update_parts F getValue dofs surf _ _ _ _ _ _ _ Q) as [P _].
    destruct (I _ _ _ Q0) as (bl & -> & L & B). exists (snd v :: bl). split; [reflexivity|]. split; [cbn; now rewrite L|].
    intros [|j] os K; cbn [nth_error] in K.
    + injection K as <-. exists call, ms. rewrite Nat.add_0_r. now split.
    + destruct (B j os K) as (cl & ms' & N & Pj). exists cl, ms'. split; [exact N|]. now rewrite <- Nat.add_succ_comm.
Qed.

(** Parts of other kinds do not concern a path of kind [k]. *)
Definition quiet (f : path) (o : op) : Prop := setsFile o f = false /\ removes o f = false /\ makes o f = false.
Inductive from (e : env) (r c : nat) (t : R) (x : F) (p : probes) (ms : list (string * mstate F)) (o : op) : Prop :=
| from_field : forall q os, In q (pr_field p) -> fieldUpdate F getValue e r c t x q = Ok os -> In o os -> from e r c t x p ms o
| from_point : forall q os, In q (pr_point p) -> pointUpdate F getValue e r c t x q = Ok os -> In o os -> from e r c t x p ms o
| from_near : forall q os, In q (pr_near p) -> nearUpdate F surf e r c t x q = Ok os -> In o os -> from e r c t x p ms o
| from_snap : forall q os, In q (pr_snap p) -> snapUpdate F dofs e r c t x q = Ok os -> In o os -> from e r c t x p ms o
| from_surf : forall q os, In q (pr_surf p) -> surfUpdate F surf e r c t x q = Ok os -> In o os -> from e r c t x p ms o
| from_mor : In o (snd (morAll F dofs e r t x ms)) -> from e r c t x p ms o.
Lemma parts_from : forall e r c t x p ms os o, partsF e r c t x p ms os -> In o os -> from e r c t x p ms o.
Proof.
  intros e r c t x p ms os o [a b n d s Ma Mb Mn Md Ms ->] K. repeat (apply in_app_or in K; destruct K as [K|K]).
  - destruct (mapM_concat_in _ _ _ _ Ma K) as (q & os & I & G & Io). eapply from_field; eauto.
  - destruct (mapM_concat_in _ _ _ _ Mb K) as (q & os & I & G & Io). eapply from_point; eauto.
  - destruct (mapM_concat_in _ _ _ _ Mn K) as (q & os & I & G & Io). eapply from_near; eauto.
  - destruct (mapM_concat_in _ _ _ _ Md K) as (q & os & I & G & Io). eapply from_snap; eauto.
  - destruct (mapM_concat_in _ _ _ _ Ms K) as (q & os & I & G & Io). eapply from_surf; eauto.
  - now apply from_mor.
Qed.
(** The kind of results an operation belongs to. *)
Lemma kind_of : forall e r c t x p ms o, from e r c t x p ms o ->
  (exists q os, In q (pr_near p) /\ nearUpdate F surf e r c t x q = Ok os /\ In o os) \/
  (exists q os, In q (pr_snap p) /\ snapUpdate F dofs e r c t x q = Ok os /\ In o os) \/
  (exists q os, In q (pr_surf p) /\ surfUpdate F surf e r c t x q = Ok os /\ In o os) \/
  In o (snd (morAll F dofs e r t x ms)) \/
  ((atDir (exportDir e (e_case e) "PointProbes") o \/ atDir (exportDir e (e_case e) "FieldProbes") o) /\ o <> OBarrier /\ forall b, o <> ORemove b).
Proof.
  intros e r c t x p ms o [q os I G Io|q os I G Io|q os I G Io|q os I G Io|q os I G Io|Io].
  - do 4 right. destruct (fieldUpdate_in F getValue _ _ _ _ _ _ _ _ G Io) as (i & l & _ & _ & _ & ->).
    split; [right; apply dir_prefix|split; [discriminate|intro; discriminate]].
  - do 4 right. destruct (pointUpdate_in F getValue _ _ _ _ _ _ _ _ G Io) as (i & l & _ & _ & _ & ->).
    split; [left; apply dir_prefix|split; [discriminate|intro; discriminate]].
  - left. eauto.
  - right. left. eauto.
  - right. right. left. eauto.
  - right. right. right. now left.
Qed.
Lemma near_at : forall e r c t x q os o, nearUpdate F surf e r c t x q = Ok os -> In o os -> atDir (exportDir e (e_case e) "NearToFarFieldProbes") o.
Proof.
  intros e r c t x q os o G Io. destruct (nearUpdate_in F surf _ _ _ _ _ _ _ _ G Io) as (A & _ & _).
  destruct o; cbn [atDir] in *; try exact A; eapply prefix_trans; try exact A; unfold nearDir; apply dir_prefix.
Qed.
Lemma surf_at : forall e r c t x q os o, surfUpdate F surf e r c t x q = Ok os -> In o os -> atDir (exportDir e (e_case e) "RCSSurface") o.
Proof.
  intros e r c t x q os o G Io. destruct (surfUpdate_in F surf _ _ _ _ _ _ _ _ G Io) as (l & ->). cbn [atDir]. unfold surfDir. apply prefix_snoc, dir_prefix.
Qed.
Lemma quiet_kind : forall e k k' a o, k <> k' -> atDir (exportDir e (e_case e) k') o -> quiet (exportDir e (e_case e) k ++ a) o.
Proof. intros e k k' a o N A. eapply apart; [|apply dir_prefix|exact A]. now apply kinds_apart. Qed.
Lemma quiet_parts : forall e r c t x p ms o k a, from e r c t x p ms o ->
  (k = "NearToFarFieldProbes" \/ k = "DomainSnapshotProbes" \/ k = "RCSSurface" \/ k = "MORStateProbes") ->
  quiet (exportDir e (e_case e) k ++ a) o \/
  (k = "NearToFarFieldProbes" /\ exists q os, In q (pr_near p) /\ nearUpdate F surf e r c t x q = Ok os /\ In o os) \/
  (k = "DomainSnapshotProbes" /\ exists q os, In q (pr_snap p) /\ snapUpdate F dofs e r c t x q = Ok os /\ In o os) \/
  (k = "RCSSurface" /\ exists q os, In q (pr_surf p) /\ surfUpdate F surf e r c t x q = Ok os /\ In o os) \/
  (k = "MORStateProbes" /\ In o (snd (morAll F dofs e r t x ms))).
Proof.
  intros e r c t x p ms o k a H K. apply kind_of in H.
  destruct H as [(q & os & I & G & Io)|[(q & os & I & G & Io)|[(q & os & I & G & Io)|[Io|([A|A] & _ & _)]]]].
  - pose proof (near_at _ _ _ _ _ _ _ _ G Io) as A. destruct (string_dec k "NearToFarFieldProbes") as [E|N]; [right; left; eauto 7|left; eapply quiet_kind; eauto].
  - pose proof (snapUpdate_in F dofs _ _ _ _ _ _ _ _ G Io) as A. destruct (string_dec k "DomainSnapshotProbes") as [E|N]; [right; right; left; eauto 7|left; eapply quiet_kind; eauto].
  - pose proof (surf_at _ _ _ _ _ _ _ _ G Io) as A. destruct (string_dec k "RCSSurface") as [E|N]; [do 3 right; left; eauto 7|left; eapply quiet_kind; eauto].
  - pose proof (proj1 (mor_at F dofs _ _ _ _ _ _ Io)) as A. destruct (string_dec k "MORStateProbes") as [E|N]; [do 4 right; auto|left; eapply quiet_kind; eauto].
  - left. eapply quiet_kind; eauto. intro E. subst k. destruct K as [K|[K|[K|K]]]; discriminate K.
  - left. eapply quiet_kind; eauto. intro E. subst k. destruct K as [K|[K|[K|K]]]; discriminate K.
Qed.

(** ** Model-order-reduction states: one rank wins *)
Definition fromRank (n : nat) (calls : list (R * (nat -> F))) (l : list line) : Prop :=
  exists call r, In call calls /\ r < n /\ l = morLines F dofs (fst call) (snd call r).
Lemma mor_out : forall t x s q, In q (ms_out (updateMor F t x s)) -> In q (ms_out s) \/ (snd (fst q) = t /\ snd q = x).
Proof.
  intros t x s q H. unfold updateMor in H. destruct (m_saves (ms_probe s) <=? 0)%Z; [now left|]. destruct (Rlt_dec _ _); [now left|]. destruct (Rlt_dec _ _); [now left|].
  destruct (m_saves (ms_probe s) <=? _)%Z; [now left|]. destruct (Rlt_dec t _); [now left|]. cbn [ms_out] in H. apply in_app_or in H. destruct H as [H|[<-|[]]]; [now left|right; now split].
Qed.
Lemma mor_new : forall t x (s : mstate F), exists z, ms_out (updateMor F t x s) = ms_out s ++ z /\ forall q, In q z -> snd (fst q) = t /\ snd q = x.
Proof.
  intros t x s. assert (N : exists z, ms_out s = ms_out s ++ z /\ forall q, In q z -> snd (fst q) = t /\ snd q = x) by (exists []; split; [now rewrite app_nil_r|contradiction]).
  unfold updateMor. destruct (m_saves (ms_probe s) <=? 0)%Z; [exact N|]. destruct (Rlt_dec _ _); [exact N|]. destruct (Rlt_dec _ _); [exact N|].
  destruct (m_saves (ms_probe s) <=? _)%Z; [exact N|]. destruct (Rlt_dec t _); [exact N|]. eexists. split; [reflexivity|]. intros q [<-|[]]. now split.
Qed.
Lemma mor_writes : forall e r t x ms q l, In (OTrunc q l) (snd (morAll F dofs e r t x ms)) -> l = morLines F dofs t x.
Proof.
  intros e r t x ms q l H. apply morAll_in in H. destruct H as (n & s & _ & H). unfold morUpdate in H. cbn [snd] in H. apply in_app_or in H. destruct H as [H|H].
  - exfalso. destruct (ms_ctx s); [contradiction|]. destruct (ms_ctx (updateMor F t x s)); [|contradiction].
    apply in_app_or in H. destruct H as [H|[H|[]]]; [|discriminate]. destruct (e_root e r); [|contradiction]. destruct H as [H|[]]. discriminate.
  - apply in_map_iff in H. destruct H as (z & E & I). injection E as _ <-. destruct (mor_new t x s) as (w & Ew & Z). rewrite Ew, skipn_app, skipn_all, Nat.sub_diag in I.
    cbn in I. destruct (Z z I) as [-> ->]. reflexivity.
Qed.
Theorem mor_file : forall e p calls s s' q, writes F getValue dofs surf e p calls s s' ->
  under (exportDir e (e_case e) "MORStateProbes") q -> (exists name k, q = morFile e name k) ->
  s' q = s q \/ exists l, fromRank (e_ranks e) calls l /\ s' q = Some (File l).
Proof.
  intros e p calls s s' q Wr _ (name & k & ->). destruct (writes_fin _ _ _ _ _ _ _ _ _ Wr) as (t & H & Pt).
  unfold morFile, morDir. rewrite <- app_assoc. cbn [app].
  apply (fin_last _ _ _ _ H). intros r o R I. destruct (program_parts _ _ _ _ _ _ _ _ _ (Pt r R)) as (i & u & Ei & Eu & Et). rewrite Et in I.
  set (f := exportDir e (e_case e) "MORStateProbes" ++ [name; ("x_" ++ to_string k)%string]).
  assert (Qt : quiet f o -> removes o f = false /\ makes o f = false /\ forall q l, (o = OTrunc q l -> q = f -> fromRank (e_ranks e) calls l) /\ (o = OAppend q l -> q <> f)).
  { intros (X & Y & Z). repeat split; auto; intros; subst; cbn [setsFile] in X; match type of X with context [path_eq ?a ?b] => destruct (path_eq a b) end; congruence. }
  apply in_app_or in I. destruct I as [I|I].
  { apply Qt. destruct (early_files2 e p r o "MORStateProbes" [name; ("x_" ++ to_string k)%string]) as [X Y]; auto; try discriminate.
    split; [exact X|]. split; [eapply early_removes; eauto|exact Y]. }
  apply in_app_or in I. destruct I as [I|I].
  { apply Qt. destruct (init_at _ _ _ _ _ Ei I) as [A|A]; eapply quiet_kind; eauto; discriminate. }
  destruct (updates_blocks _ _ _ _ _ _ _ Eu) as (bl & -> & L & B). apply in_concat in I. destruct I as (os & Ios & Io). apply In_nth_error in Ios. destruct Ios as (j & Nj).
  destruct (B j os Nj) as (call & ms' & Nc & P). apply nth_error_In in Nc.
  destruct (quiet_parts e r _ _ _ p ms' o "MORStateProbes" [name; ("x_" ++ to_string k)%string] (parts_from _ _ _ _ _ _ _ _ _ P Io)) as [A|[(E & _)|[(E & _)|[(E & _)|(_ & A)]]]]; try discriminate E; auto 6.
  destruct (mor_at F dofs _ _ _ _ _ _ A) as [_ Nr]. split; [destruct o; try reflexivity; now destruct (Nr p0)|]. split.
  - destruct o as [d|d|d l|d l|]; try reflexivity. cbn [makes]. apply morAll_in in A. destruct A as (n & st & _ & A). apply morUpdate_in in A.
    destruct A as [A|[A|(k' & q & _ & A)]]; try discriminate. injection A as ->. apply prefix_long. unfold f, morDir. rewrite !app_length. cbn. lia.
  - intros q l. split.
    + intros -> _. exists call, r. repeat split; auto. eapply mor_writes; eauto.
    + intros -> _. apply morAll_in in A. destruct A as (n & st & _ & A). apply morUpdate_in in A. destruct A as [A|[A|(k' & z & _ & A)]]; discriminate.
Qed.

(** ** Near-field snapshots *)
Section Near.
Variable e : env.
Variable p : probes.
Variable p0 : nearProbe.
Variable l1 l2 : list nearProbe.
Hypothesis Sp : pr_near p = l1 ++ p0 :: l2.
Hypothesis Names : forall q, In q (l1 ++ l2) -> np_name q <> np_name p0.

Lemma near_probe_at : forall r c t x q os o, nearUpdate F surf e r c t x q = Ok os -> In o os -> atDir (nearDir e (e_case e) (np_name q) r) o /\ o <> OBarrier /\ (forall b, o <> ORemove b).
Proof. intros. eapply nearUpdate_in; eauto. Qed.
Lemma near_dirs : forall r r' n n', comparable (nearDir e (e_case e) n r) (nearDir e (e_case e) n' r') = true -> n = n' /\ r = r'.
Proof.
  intros r r' n n' H. unfold comparable, nearDir in H. rewrite !prefix_app in H. cbn [prefixb] in H.
  destruct (string_dec n n') as [->|N].
  - split; [reflexivity|]. destruct (string_dec n' n'); [|congruence].
    destruct (string_dec ("rank" ++ to_string r) ("rank" ++ to_string r')) as [E|E]; [apply app_str_inj in E; now apply to_string_inj|].
    destruct (string_dec ("rank" ++ to_string r') ("rank" ++ to_string r)) as [E'|E']; [apply app_str_inj in E'; now apply to_string_inj|discriminate].
  - destruct (string_dec n' n); [congruence|discriminate].
Qed.
Lemma pol_inj : forall a b, (polString a ++ ".gf")%string = (polString b ++ ".gf")%string -> a = b.
Proof. intros a b H. destruct a, b; try reflexivity; discriminate H. Qed.
Lemma snapshot_inj : forall r c c' a b, nearSnapshot e (np_name p0) r c ++ a :: [] = nearSnapshot e (np_name p0) r c' ++ b :: [] -> c = c' /\ a = b.
Proof.
  intros r c c' a b H. unfold nearSnapshot in H. rewrite <- !app_assoc in H. apply app_inv_head in H. cbn [app] in H. injection H as H ->. split; [|reflexivity].
  apply app_str_inj, (app_str_inj "_") in H. now apply padded_inj in H.
Qed.
(** What the files of one snapshot hold. *)
Inductive nearHas (t : R) (x : F) : string -> list line -> Prop :=
| near_comp : forall k, nearHas t x (polString k ++ ".gf")%string [LValues (surf x (np_tags p0) k)]
| near_time : nearHas t x "time.txt" [LTime t].
Lemma nearHas_fun : forall t x a l l', nearHas t x a l -> nearHas t x a l' -> l = l'.
Proof.
  intros t x a l l' H K. destruct H as [k|].
  - remember (polString k ++ ".gf")%string as a eqn:Ea. destruct K as [k'|]; [apply pol_inj in Ea; now subst|destruct k; discriminate].
  - remember "time.txt" as a eqn:Ea. destruct K as [k'|]; [destruct k'; discriminate|reflexivity].
Qed.
Lemma near_has_not_mesh : forall t x a l, nearHas t x a l -> a <> "mesh".
Proof. intros t x a l [k|]; [destruct k|]; discriminate. Qed.
(** A write to such a file. *)
Lemma near_sets : forall r c t x os o a c' t' x' l, nearUpdate F surf e r c t x p0 = Ok os -> In o os -> nearHas t' x' a l ->
  setsFile o (nearSnapshot e (np_name p0) r c' ++ [a]) = true -> c = c' /\ exists l', nearHas t x a l' /\ o = OTrunc (nearSnapshot e (np_name p0) r c' ++ [a]) l'.
Proof.
  intros r c t x os o a c' t' x' l H K N E. assert (Nm := near_has_not_mesh _ _ _ _ N).
  unfold nearUpdate in H. binds H. destruct v; [|injection H as <-; contradiction]. apply ok_inj in H; subst.
  assert (G : forall b m, nearHas t x b m -> OTrunc (nearSnapshot e (np_name p0) r c ++ [b]) m = o -> c = c' /\ exists l', nearHas t x a l' /\ o = OTrunc (nearSnapshot e (np_name p0) r c' ++ [a]) l').
  { intros b m Hb <-. cbn [setsFile] in E. destruct (path_eq _ _) as [Q'|] in E; [|discriminate]. apply snapshot_inj in Q'. destruct Q' as [-> ->]. split; [reflexivity|]. exists m. split; [exact Hb|reflexivity]. }
  assert (M : OTrunc (nearDir e (e_case e) (np_name p0) r ++ ["mesh"]) [LMesh (np_tags p0) r] <> o).
  { intros <-. cbn [setsFile] in E. destruct (path_eq _ _) as [Q'|] in E; [|discriminate]. apply (f_equal (@length string)) in Q'. unfold nearSnapshot in Q'. rewrite !app_length in Q'. cbn in Q'. lia. }
  apply in_app_or in K. destruct K as [[<-|[<-|[]]]|K]; [discriminate E| |].
  { cbn [setsFile] in E. destruct (path_eq _ _) as [Q'|] in E; [|discriminate]. apply snapshot_inj in Q'. destruct Q' as [_ Q']. congruence. }
  apply in_app_or in K. destruct K as [K|K].
  - apply in_map_iff in K. destruct K as (k & K & _). now apply (G _ _ (near_comp t x k)).
  - destruct K as [K|[K|[]]]; [contradiction|]. now apply (G _ _ (near_time t x)).
Qed.
Lemma near_ready : forall r c t x os f q, In q (pr_near p) -> nearUpdate F surf e r c t x q = Ok os -> ready f false os = true.
Proof.
  intros r c t x os f q Iq H. unfold nearUpdate in H. binds H. destruct v; [|injection H as <-; reflexivity]. apply ok_inj in H; subst.
  apply ready_mk. intros o Io So.
  assert (Tr : forall b m, o = OTrunc (nearSnapshot e (np_name q) r c ++ [b]) m -> prefixb (removelast f) (nearSnapshot e (np_name q) r c) = true).
  { intros b m ->. apply trunc_sets in So. rewrite <- So, removelast_last. apply prefix_refl. }
  destruct Io as [Io|Io]; [eapply Tr; symmetry; exact Io|]. apply in_app_or in Io. destruct Io as [Io|[Io|[Io|[]]]].
  - apply in_map_iff in Io. destruct Io as (k & Io & _). eapply Tr; symmetry; exact Io.
  - subst o. apply trunc_sets in So. rewrite <- So, removelast_last. unfold nearSnapshot. apply prefix_snoc, prefix_refl.
  - eapply Tr; symmetry; exact Io.
Qed.
Theorem near_file : forall calls s s' r j t x a l, writes F getValue dofs surf e p calls s s' -> r < e_ranks e ->
  nth_error calls j = Some (t, x) -> dueAt (e_final e) (np_steps p0) j t -> nearHas t (x r) a l ->
  s (nearSnapshot e (np_name p0) r j ++ [a]) <> Some Dir ->
  s' (nearSnapshot e (np_name p0) r j ++ [a]) = Some (File l).
Proof.
  intros calls s s' r j t x a l Wr R Nj Du Ha Nd. destruct (writes_fin _ _ _ _ _ _ _ _ _ Wr) as (todo & H & Pt).
  set (f := nearSnapshot e (np_name p0) r j ++ [a]) in *.
  assert (Ef : f = exportDir e (e_case e) "NearToFarFieldProbes" ++ [np_name p0; ("rank" ++ to_string r)%string; (np_name p0 ++ "_" ++ to_padded_string j 6)%string; a]).
  { unfold f, nearSnapshot, nearDir. now rewrite <- !app_assoc. }
  assert (All : forall r' o, r' < e_ranks e -> In o (todo r') -> quiet f o \/
    (exists j' t' x' q os, nth_error calls j' = Some (t', x') /\ In q (pr_near p) /\ nearUpdate F surf e r' j' t' (x' r') q = Ok os /\ In o os)).
  { intros r' o R' I. destruct (program_parts _ _ _ _ _ _ _ _ _ (Pt r' R')) as (i & u & Ei & Eu & Et). rewrite Et in I. rewrite Ef.
    apply in_app_or in I. destruct I as [I|I].
    { left. destruct (near_early e p r' o [np_name p0; ("rank" ++ to_string r)%string; (np_name p0 ++ "_" ++ to_padded_string j 6)%string; a]) as [X Y]; auto.
      split; [exact X|]. split; [eapply early_removes; eauto|exact Y]. }
    apply in_app_or in I. destruct I as [I|I].
    { left. destruct (init_at _ _ _ _ _ Ei I) as [A|A]; eapply quiet_kind; eauto; discriminate. }
    destruct (updates_blocks _ _ _ _ _ _ _ Eu) as (bl & -> & L & B). apply in_concat in I. destruct I as (os & Ios & Io). apply In_nth_error in Ios. destruct Ios as (j' & Nj').
    destruct (B j' os Nj') as ([t' x'] & ms' & Nc & P). cbn [fst snd] in P.
    destruct (quiet_parts e r' _ _ _ p ms' o "NearToFarFieldProbes" [np_name p0; ("rank" ++ to_string r)%string; (np_name p0 ++ "_" ++ to_padded_string j 6)%string; a] (parts_from _ _ _ _ _ _ _ _ _ P Io)) as [A|[(_ & q & os' & A & B' & C)|[(E & _)|[(E & _)|(E & A)]]]]; try discriminate E; auto.
    right. exists j', t', x', q, os'. auto. }
  assert (Pf : forall r' c t' x' q os o, nearUpdate F surf e r' c t' x' q = Ok os -> In o os -> (setsFile o f = true \/ makes o f = true) -> In q (pr_near p) -> r' = r /\ q = p0).
  { intros r' c t' x' q os o G Io S Iq. destruct (nearUpdate_in F surf _ _ _ _ _ _ _ _ G Io) as (A & _ & _).
    assert (C : comparable (nearDir e (e_case e) (np_name p0) r) (nearDir e (e_case e) (np_name q) r') = true).
    { assert (Pd : prefixb (nearDir e (e_case e) (np_name p0) r) f = true) by (unfold f, nearSnapshot; apply prefix_snoc, prefix_snoc, prefix_refl).
      destruct (comparable (nearDir e (e_case e) (np_name p0) r) (nearDir e (e_case e) (np_name q) r')) eqn:C; [reflexivity|].
      destruct (apart _ _ _ _ C Pd A) as (X & _ & Y). destruct S; congruence. }
    apply near_dirs in C. destruct C as [Cn Cr]. split; [now symmetry|]. rewrite Sp in Iq. apply in_app_or in Iq. destruct Iq as [Iq|[->|Iq]]; [|reflexivity|];
      exfalso; apply (Names q); auto; apply in_or_app; auto. }
  assert (c0 : exists c0, s f = asNode c0) by (destruct (s f) as [[|old]|]; [congruence|exists (Some old); reflexivity|exists None; reflexivity]).
  destruct c0 as [c0 Ec0].
  rewrite (fin_single _ _ _ _ H f r c0 false); auto.
  - destruct (program_parts _ _ _ _ _ _ _ _ _ (Pt r R)) as (i & u & Ei & Eu & Et).
    rewrite (content_const f l); [reflexivity| |].
    + intros o Io So. destruct (All r o R Io) as [(X & _)|(j' & t' & x' & q & os & N' & Iq & G & Io')]; [congruence|].
      destruct (Pf _ _ _ _ _ _ _ G Io' (or_introl So) Iq) as [_ ->]. destruct (near_sets _ _ _ _ _ _ _ _ _ _ _ G Io' Ha So) as [-> (l' & Hl' & ->)].
      rewrite Nj in N'. injection N' as <- <-. now rewrite (nearHas_fun _ _ _ _ _ Ha Hl').
    + apply existsb_exists. destruct (updates_blocks _ _ _ _ _ _ _ Eu) as (bl & Eb & L & B).
      assert (exists os, nth_error bl j = Some os) as [os No].
      { destruct (nth_error bl j) eqn:E; [eauto|]. apply nth_error_None in E. rewrite L in E. assert (nth_error calls j <> None) by congruence. apply nth_error_Some in H0. lia. }
      destruct (B j os No) as ([t' x'] & ms' & Nc & P). rewrite Nj in Nc. injection Nc as <- <-. cbn [fst snd Nat.add] in P.
      destruct P as [pa pb pn pd ps Ma Mb Mn Md Ms Eos].
      destruct (mapM_part _ _ _ p0 Mn) as (on & Gn & Sn); [rewrite Sp; apply in_or_app; right; now left|].
      assert (Io : In (OTrunc f l) on).
      { unfold nearUpdate in Gn. binds Gn. apply due_iff in Q. destruct v; [|exfalso; apply Q in Du; discriminate]. apply ok_inj in Gn; subst on.
        apply in_or_app. right. apply in_or_app. inversion Ha; subst; [left; apply in_map_iff; exists k; split; [reflexivity|destruct k; cbn; tauto]|right; right; now left]. }
      exists (OTrunc f l). split; [|cbn [setsFile]; destruct (path_eq f f); congruence].
      rewrite Et. apply in_or_app. right. apply in_or_app. right. rewrite Eb. apply in_concat. exists os. split; [eapply nth_error_In; eauto|].
      rewrite Eos. apply in_or_app. right. apply in_or_app. right. apply in_or_app. left. now apply Sn.
  - unfold f. now destruct (nearSnapshot e (np_name p0) r j).
  - discriminate.
  - destruct (program_parts _ _ _ _ _ _ _ _ _ (Pt r R)) as (i & u & Ei & Eu & Et). rewrite Et.
    assert (All' : forall o, In o (early e p r ++ i) -> setsFile o f = false).
    { intros o I. rewrite Ef. apply in_app_or in I. destruct I as [I|I].
      - eapply near_early; eauto. 
      - destruct (init_at _ _ _ _ _ Ei I) as [A|A]; eapply quiet_kind; eauto; discriminate. }
    rewrite app_assoc. apply ready_app; [now apply ready_skip|].
    destruct (updates_blocks _ _ _ _ _ _ _ Eu) as (bl & -> & L & B). apply ready_concat. intros os Ios. apply In_nth_error in Ios. destruct Ios as (j' & Nj').
    destruct (B j' os Nj') as (call & ms' & Nc & P). assert (P' := P). destruct P' as [pa pb pn pd ps Ma Mb Mn Md Ms Eos].
    assert (Sk : forall o, In o os -> setsFile o f = true -> In o (concat pn)).
    { intros o Io So. rewrite Eos in Io.
      assert (A' : forall k, k <> "NearToFarFieldProbes" -> ~ atDir (exportDir e (e_case e) k) o).
      { intros k Nk A. destruct (quiet_kind e "NearToFarFieldProbes" k [np_name p0; ("rank" ++ to_string r)%string; (np_name p0 ++ "_" ++ to_padded_string j 6)%string; a] o (not_eq_sym Nk) A) as (X & _). rewrite <- Ef in X. congruence. }
      repeat (apply in_app_or in Io; destruct Io as [Io|Io]); auto; exfalso.
      - destruct (mapM_concat_in _ _ _ _ Ma Io) as (q & os' & I & G & Iq). destruct (fieldUpdate_in F getValue _ _ _ _ _ _ _ _ G Iq) as (i' & l' & _ & _ & _ & ->). apply (A' "FieldProbes"); [discriminate|apply dir_prefix].
      - destruct (mapM_concat_in _ _ _ _ Mb Io) as (q & os' & I & G & Iq). destruct (pointUpdate_in F getValue _ _ _ _ _ _ _ _ G Iq) as (i' & l' & _ & _ & _ & ->). apply (A' "PointProbes"); [discriminate|apply dir_prefix].
      - destruct (mapM_concat_in _ _ _ _ Md Io) as (q & os' & I & G & Iq). apply (A' "DomainSnapshotProbes"); [discriminate|]. eapply (snapUpdate_in F dofs); eauto.
      - destruct (mapM_concat_in _ _ _ _ Ms Io) as (q & os' & I & G & Iq). apply (A' "RCSSurface"); [discriminate|]. eapply surf_at; eauto.
      - apply (A' "MORStateProbes"); [discriminate|]. apply (mor_at F dofs _ _ _ _ _ _ Io). }
    assert (Rp : forall part rest, (forall o, In o part -> setsFile o f = true -> False) -> ready f false rest = true -> ready f false (part ++ rest) = true).
    { intros part rest Np Rr. apply ready_app; [|exact Rr]. apply ready_skip. intros o Io. destruct (setsFile o f) eqn:So; [exfalso; eapply Np; eauto|reflexivity]. }
    assert (A' : forall o k, setsFile o f = true -> k <> "NearToFarFieldProbes" -> ~ atDir (exportDir e (e_case e) k) o).
    { intros o k So Nk A. destruct (quiet_kind e "NearToFarFieldProbes" k [np_name p0; ("rank" ++ to_string r)%string; (np_name p0 ++ "_" ++ to_padded_string j 6)%string; a] o (not_eq_sym Nk) A) as (X & _). rewrite <- Ef in X. congruence. }
    rewrite Eos. apply Rp.
    { intros o Io So. destruct (mapM_concat_in _ _ _ _ Ma Io) as (q & os' & I & G & Iq). destruct (fieldUpdate_in F getValue _ _ _ _ _ _ _ _ G Iq) as (i' & l' & _ & _ & _ & ->). eapply (A' _ "FieldProbes"); eauto; [discriminate|apply dir_prefix]. }
    apply Rp.
    { intros o Io So. destruct (mapM_concat_in _ _ _ _ Mb Io) as (q & os' & I & G & Iq). destruct (pointUpdate_in F getValue _ _ _ _ _ _ _ _ G Iq) as (i' & l' & _ & _ & _ & ->). eapply (A' _ "PointProbes"); eauto; [discriminate|apply dir_prefix]. }
    apply ready_app.
    { eapply mapM_concat_ready; eauto. intros q o Iq G. eapply near_ready; eauto. }
    apply Rp.
    { intros o Io So. destruct (mapM_concat_in _ _ _ _ Md Io) as (q & os' & I & G & Iq). eapply (A' _ "DomainSnapshotProbes"); eauto; [discriminate|]. eapply (snapUpdate_in F dofs); eauto. }
    apply Rp.
    { intros o Io So. destruct (mapM_concat_in _ _ _ _ Ms Io) as (q & os' & I & G & Iq). eapply (A' _ "RCSSurface"); eauto; [discriminate|]. eapply surf_at; eauto. }
    apply ready_skip. intros o Io. destruct (setsFile o f) eqn:So; [exfalso|reflexivity]. eapply (A' _ "MORStateProbes"); eauto; [discriminate|]. apply (mor_at F dofs _ _ _ _ _ _ Io).
  - intros r' o R' Io. destruct (All r' o R' Io) as [(X & Y & Z)|(j' & t' & x' & q & os & N' & Iq & G & Io')]; [auto|].
    destruct (nearUpdate_in F surf _ _ _ _ _ _ _ _ G Io') as (_ & _ & Nr). split; [destruct o; try reflexivity; now destruct (Nr p1)|]. split.
    + destruct (makes o f) eqn:Mk; [exfalso|reflexivity]. destruct (Pf _ _ _ _ _ _ _ G Io' (or_intror Mk) Iq) as [-> ->].
      unfold nearUpdate in G. binds G. destruct v; [|injection G as <-; contradiction]. apply ok_inj in G; subst. apply in_app_or in Io'. destruct Io' as [[<-|[<-|[]]]|Io']; [|discriminate|].
      * cbn [makes] in Mk. unfold f, nearSnapshot in Mk. rewrite prefix_long in Mk; [discriminate|]. rewrite !app_length. cbn. lia.
      * apply in_app_or in Io'. destruct Io' as [Io'|[<-|[<-|[]]]]; try discriminate Mk. apply in_map_iff in Io'. destruct Io' as (k & <- & _). discriminate Mk.
    + intro NW. destruct (setsFile o f) eqn:So; [exfalso|reflexivity]. destruct (Pf _ _ _ _ _ _ _ G Io' (or_introl So) Iq) as [-> _]. congruence.
Qed.
End Near.

(** Files of near-field snapshots that this run does not write stay as they were. *)
Theorem near_stale : forall e p calls s s' name r c a, writes F getValue dofs surf e p calls s s' ->
  (forall q, In q (pr_near p) -> np_name q = name -> forall t x, nth_error calls c = Some (t, x) -> ~ dueAt (e_final e) (np_steps q) c t) ->
  s' (nearSnapshot e name r c ++ [a]) = s (nearSnapshot e name r c ++ [a]).
Proof.
  intros e p calls s s' name r c a Wr Hd. destruct (writes_fin _ _ _ _ _ _ _ _ _ Wr) as (todo & H & Pt).
  apply (fin_keep _ _ _ _ H). intros r' o R' I. destruct (program_parts _ _ _ _ _ _ _ _ _ (Pt r' R')) as (i & u & Ei & Eu & Et). rewrite Et in I.
  set (f := nearSnapshot e name r c ++ [a]).
  assert (Ef : f = exportDir e (e_case e) "NearToFarFieldProbes" ++ [name; ("rank" ++ to_string r)%string; (name ++ "_" ++ to_padded_string c 6)%string; a]).
  { unfold f, nearSnapshot, nearDir. now rewrite <- !app_assoc. }
  change (quiet f o). apply in_app_or in I. destruct I as [I|I].
  { rewrite Ef. destruct (near_early e p r' o [name; ("rank" ++ to_string r)%string; (name ++ "_" ++ to_padded_string c 6)%string; a]) as [X Y]; auto.
    split; [exact X|]. split; [eapply early_removes; eauto|exact Y]. }
  apply in_app_or in I. destruct I as [I|I].
  { rewrite Ef. destruct (init_at _ _ _ _ _ Ei I) as [A|A]; eapply quiet_kind; eauto; discriminate. }
  destruct (updates_blocks _ _ _ _ _ _ _ Eu) as (bl & -> & L & B). apply in_concat in I. destruct I as (os & Ios & Io). apply In_nth_error in Ios. destruct Ios as (j' & Nj').
  destruct (B j' os Nj') as ([t' x'] & ms' & Nc & P). cbn [fst snd Nat.add] in P.
  destruct (quiet_parts e r' _ _ _ p ms' o "NearToFarFieldProbes" [name; ("rank" ++ to_string r)%string; (name ++ "_" ++ to_padded_string c 6)%string; a] (parts_from _ _ _ _ _ _ _ _ _ P Io) (or_introl eq_refl)) as [A|[(_ & q & os' & A & B' & C)|[(E & _)|[(E & _)|(E & A)]]]]; try discriminate E; [rewrite <- Ef in A; exact A|].
  destruct (nearUpdate_in F surf _ _ _ _ _ _ _ _ B' C) as (At & _ & Nr).
  assert (Pd : prefixb (nearDir e (e_case e) name r) f = true) by (unfold f, nearSnapshot; apply prefix_snoc, prefix_snoc, prefix_refl).
  destruct (comparable (nearDir e (e_case e) name r) (nearDir e (e_case e) (np_name q) r')) eqn:Cp; [|eapply apart; eauto].
  apply near_dirs in Cp. destruct Cp as [En Er]. subst r'. assert (Hd' := Hd q A (eq_sym En)). clear Hd. subst name.
  unfold nearUpdate in B'. binds B'. apply due_iff in Q. destruct v; [|injection B' as <-; contradiction]. apply ok_inj in B'; subst.
  assert (Nj : j' <> c) by (intros ->; apply (Hd' t' x' Nc), Q, eq_refl).
  assert (Ne : forall b, nearSnapshot e (np_name q) r j' ++ [b] <> f).
  { intros b E. unfold f, nearSnapshot in E. rewrite <- !app_assoc in E. apply app_inv_head in E. cbn [app] in E. injection E as E _.
    apply app_str_inj, (app_str_inj "_") in E. now apply padded_inj in E. }
  assert (Tr : forall b m, quiet f (OTrunc (nearSnapshot e (np_name q) r j' ++ [b]) m)).
  { intros b m. split; [|now split]. cbn [setsFile]. destruct (path_eq _ _) as [E|]; [now destruct (Ne b)|reflexivity]. }
  apply in_app_or in C. destruct C as [[<-|[<-|[]]]|C]; [|apply Tr|].
  - split; [reflexivity|]. split; [reflexivity|]. cbn [makes]. apply prefix_long. unfold f, nearSnapshot. rewrite !app_length. cbn. lia.
  - apply in_app_or in C. destruct C as [C|[<-|[<-|[]]]]; [apply in_map_iff in C; destruct C as (k & <- & _); apply Tr| |apply Tr].
    split; [|now split]. cbn [setsFile]. destruct (path_eq _ _) as [E|]; [|reflexivity]. apply (f_equal (@length string)) in E. unfold f, nearSnapshot in E. rewrite !app_length in E. cbn in E. lia.
Qed.
End Fields.

(** Surface data after every schedule, and that runs do not hang at barriers. *)
From Coq Require Import String ZArith List Bool Lia Arith Reals Lra.
From Verif Require Import Common Probe_Model Input_Proofs Output_Model Output_Spec Output_Proofs OutputRun_Proofs OutputPoint_Proofs OutputField_Proofs OutputSnap_Proofs OutputDomain_Proofs.
Import ListNotations.
Local Open Scope string_scope.
Local Open Scope list_scope.
Local Open Scope nat_scope.

Section Fields.
Variable F : Type.
Variable getValue : F -> comp -> Z -> list R -> R.
Variable dofs : F -> comp -> list R.
Variable surf : F -> list Z -> comp -> list R.
Notation partsF := (parts F getValue dofs surf).

Section Surf.
Variable e : env.
Variable p : probes.
Variable p0 : surfProbe.
Variable w : nat.
Variable l1 l2 : list surfProbe.
Hypothesis Sp : pr_surf p = l1 ++ p0 :: l2.
Hypothesis Names : forall q, In q (l1 ++ l2) -> sp_name q <> sp_name p0.
Definition dataFile : path := surfDir e (sp_name p0) w ++ ["surface_data.bin"].
Definition dataRow (t : R) (x : nat -> F) : list line := LTime t :: map (fun c => LValues (surf (x w) (sp_tags p0) c)) comps.

Lemma data_kind : dataFile = exportDir e (e_case e) "RCSSurface" ++ [sp_name p0; ("rank" ++ to_string w)%string; "surface_data.bin"].
Proof. unfold dataFile, surfDir. now rewrite <- app_assoc. Qed.
Lemma surf_inj : forall q r, surfDir e (sp_name q) r ++ ["surface_data.bin"] = dataFile -> sp_name q = sp_name p0 /\ r = w.
Proof.
  intros q r H. unfold dataFile, surfDir in H. rewrite <- !app_assoc in H. apply app_inv_head in H. cbn [app] in H.
  assert (H1 := f_equal (fun l => nth 0 l "") H). assert (H2 := f_equal (fun l => nth 1 l "") H). cbn [nth] in H1, H2.
  apply (app_str_inj "rank") in H2. split; [exact H1|now apply to_string_inj].
Qed.
Lemma surfInit_sets : forall q r o, In o (surfInit e r q) -> setsFile o dataFile = true -> sp_name q = sp_name p0 /\ r = w /\ o = OTrunc dataFile [LGeometry (sp_tags q) r].
Proof.
  intros q r o I So. destruct I as [<-|[<-|[<-|[<-|[]]]]]; try discriminate So.
  - apply trunc_sets in So. unfold dataFile in So. apply (f_equal (fun l => last l "")) in So. rewrite !last_last in So. discriminate.
  - apply trunc_sets in So. destruct (surf_inj q r So) as [A B]. split; [exact A|]. split; [exact B|]. now rewrite <- So.
Qed.
Lemma init_makes : forall q r o, In o (surfInit e r q) -> makes o dataFile = false.
Proof.
  intros q r o I. destruct I as [<-|[<-|[<-|[<-|[]]]]]; try reflexivity; cbn [makes]; apply prefix_long; unfold dataFile, surfDir; rewrite !app_length; cbn; lia.
Qed.
Lemma near_quiet : forall q r o, In o (nearInit e r q) -> quiet dataFile o.
Proof.
  intros q r o I. unfold nearInit in I. apply in_app_or in I. destruct I as [I|[<-|[<-|[]]]]; [|repeat split| ].
  - destruct (e_root e r); [|contradiction]. destruct I as [<-|[]]. repeat split. cbn [makes]. apply prefix_long. unfold dataFile, surfDir, exportDir. rewrite !app_length. cbn. lia.
  - repeat split. cbn [makes]. apply prefix_long. unfold dataFile, surfDir, nearDir, exportDir. rewrite !app_length. cbn. lia.
Qed.
Lemma quiet_update : forall r c t x ms a b n dd g,
    mapM (fieldUpdate F getValue e r c t x) (pr_field p) = Ok a ->
    mapM (pointUpdate F getValue e r c t x) (pr_point p) = Ok b ->
    mapM (nearUpdate F surf e r c t x) (pr_near p) = Ok n ->
    mapM (snapUpdate F dofs e r c t x) (pr_snap p) = Ok dd -> g = snd (morAll F dofs e r t x ms) ->
    forall o, In o (concat a ++ concat b ++ concat n ++ concat dd ++ g) -> quiet dataFile o.
Proof.
  intros r c t x ms a b n s g Ma Mb Mn Ms -> o K. rewrite data_kind.
  repeat (apply in_app_or in K; destruct K as [K|K]).
  - destruct (mapM_concat_in _ _ _ _ Ma K) as (q & os & I & G & Io). destruct (fieldUpdate_in F getValue _ _ _ _ _ _ _ _ G Io) as (i & l & _ & _ & _ & ->).
    apply (quiet_kind e _ "FieldProbes"); [discriminate|apply dir_prefix].
  - destruct (mapM_concat_in _ _ _ _ Mb K) as (q & os & I & G & Io). destruct (pointUpdate_in F getValue _ _ _ _ _ _ _ _ G Io) as (i & l & _ & _ & _ & ->).
    apply (quiet_kind e _ "PointProbes"); [discriminate|apply dir_prefix].
  - destruct (mapM_concat_in _ _ _ _ Mn K) as (q & os & I & G & Io). apply (quiet_kind e _ "NearToFarFieldProbes"); [discriminate|]. eapply near_at; eauto.
  - destruct (mapM_concat_in _ _ _ _ Ms K) as (q & os & I & G & Io). apply (quiet_kind e _ "DomainSnapshotProbes"); [discriminate|]. eapply (snapUpdate_in F dofs); eauto.
  - apply (quiet_kind e _ "MORStateProbes"); [discriminate|]. now apply (mor_at F dofs _ _ _ _ _ _ K).
Qed.
Lemma surf_content : forall c t x os old, mapM (surfUpdate F surf e w c t (x w)) (l1 ++ p0 :: l2) = Ok os ->
  exists dd, due (e_final e) (Z.of_nat c) (sp_steps p0) t = Ok dd /\ content dataFile (Some old) (concat os) = Some (if dd then old ++ dataRow t x else old).
Proof.
  intros c t x os old H. destruct (mapM_app_ok _ _ _ _ H) as (a & b & M1 & M2 & ->). destruct (mapM_cons_ok _ _ _ _ M2) as (o & b' & G & M3 & ->).
  assert (Sk : forall ls os' x' old', (forall q, In q ls -> In q (l1 ++ l2)) -> mapM (surfUpdate F surf e w c t x') ls = Ok os' -> content dataFile old' (concat os') = old').
  { intros ls os' x' old' Sub M. apply content_skip. intros z Iz. destruct (mapM_concat_in _ _ _ _ M Iz) as (q & ops & Iq & Gq & Ioq).
    destruct (surfUpdate_in F surf _ _ _ _ _ _ _ _ Gq Ioq) as (l & ->). cbn [setsFile]. destruct (path_eq _ _) as [E|]; [|reflexivity].
    apply surf_inj in E. exfalso. apply (Names q (Sub q Iq)), E. }
  unfold surfUpdate in G. binds G. exists v. split; [reflexivity|].
  rewrite concat_app, content_app. rewrite (Sk l1 a (x w)); auto; [|intros; apply in_or_app; now left]. cbn [concat]. rewrite content_app.
  rewrite (Sk l2 b' (x w)); auto; [|intros; apply in_or_app; now right].
  destruct v; apply ok_inj in G; subst o; [|reflexivity]. cbn [content]. fold dataFile. destruct (path_eq dataFile dataFile); [reflexivity|congruence].
Qed.
Lemma surf_updates : forall calls c ms us old, allUpdates F getValue dofs surf e w p c calls ms = Ok us ->
  exists rows, rowsOf (e_final e) (sp_steps p0) dataRow c calls rows /\ content dataFile (Some old) us = Some (old ++ rows).
Proof.
  induction calls as [|call calls I]; intros c ms us old H.
  - injection H as <-. exists []. split; [constructor|]. cbn [content]. now rewrite app_nil_r.
  - cbn [allUpdates] in H. binds H. injection H as <-. destruct (update_parts F getValue dofs surf _ _ _ _ _ _ _ Q) as [P _].
    destruct call as [t x]. cbn [fst snd] in P.
    assert (C : exists d, due (e_final e) (Z.of_nat c) (sp_steps p0) t = Ok d /\ content dataFile (Some old) (snd v) = Some (if d then old ++ dataRow t x else old)).
    { destruct P as [a b n d s Ma Mb Mn Md Ms E]. rewrite Sp in Ms. destruct (surf_content c t x s old Ms) as (dd & D & C). exists dd. split; [exact D|].
      assert (Qa := quiet_update w c t (x w) ms a b n d _ Ma Mb Mn Md eq_refl). rewrite E. rewrite !content_app.
      assert (Sk : forall l z, (forall o, In o l -> In o (concat a ++ concat b ++ concat n ++ concat d ++ snd (morAll F dofs e w t (x w) ms))) -> content dataFile z l = z).
      { intros l z Sub. apply content_skip. intros o Io. apply (Qa o). now apply Sub. }
      rewrite (Sk (concat a)) by (intros o Io; apply in_or_app; now left).
      rewrite (Sk (concat b)) by (intros o Io; do 1 (apply in_or_app; right); apply in_or_app; now left).
      rewrite (Sk (concat n)) by (intros o Io; do 2 (apply in_or_app; right); apply in_or_app; now left).
      rewrite (Sk (concat d)) by (intros o Io; do 3 (apply in_or_app; right); apply in_or_app; now left).
      rewrite C. apply Sk. intros o Io. do 4 (apply in_or_app; right). exact Io. }
    destruct C as (d & D & C). rewrite content_app, C. apply due_iff in D.
    match goal with |- context [content _ (Some ?o) v0] => destruct (I (S c) _ _ o Q0) as (rows & Rw & Ct) end.
    destruct d.
    + eexists. split; [apply rows_due; [now apply D|exact Rw]|]. rewrite Ct. now rewrite <- app_assoc.
    + eexists. split; [apply rows_skip; [intro X; apply D in X; discriminate|exact Rw]|]. exact Ct.
Qed.
Theorem surf_file : forall calls s s', writes F getValue dofs surf e p calls s s' -> w < e_ranks e -> s dataFile <> Some Dir ->
  exists rows, rowsOf (e_final e) (sp_steps p0) dataRow 0 calls rows /\ s' dataFile = Some (File (LGeometry (sp_tags p0) w :: rows)).
Proof.
  intros calls s s' Wr W Nd. destruct (writes_fin _ _ _ _ _ _ _ _ _ Wr) as (todo & H & Pt).
  destruct (program_parts _ _ _ _ _ _ _ _ _ (Pt w W)) as (i & u & Ei & Eu & Et).
  destruct (surf_updates _ _ _ _ [LGeometry (sp_tags p0) w] Eu) as (rows & Rw & Ct). exists rows. split; [exact Rw|].
  assert (c0 : exists c0, s dataFile = asNode c0) by (destruct (s dataFile) as [[|old]|]; [congruence|exists (Some old); reflexivity|exists None; reflexivity]).
  destruct c0 as [c0 Ec0].
  assert (NI : forall r o, In o (concat (map (nearInit e r) (pr_near p))) -> quiet dataFile o).
  { intros r o I. apply in_concat in I. destruct I as (ops & I & Io). apply in_map_iff in I. destruct I as (q & <- & _). eapply near_quiet; eauto. }
  assert (SI : forall r ls o, (forall q, In q ls -> In q (l1 ++ l2)) -> In o (concat (map (surfInit e r) ls)) -> setsFile o dataFile = false).
  { intros r ls o Sub I. apply in_concat in I. destruct I as (ops & I & Io). apply in_map_iff in I. destruct I as (q & <- & Iq).
    destruct (setsFile o dataFile) eqn:So; [|reflexivity]. destruct (surfInit_sets q r o Io So) as (A & _ & _). exfalso. now apply (Names q (Sub q Iq)). }
  assert (IQ : forall r o i', initPointField e r p = Ok i' -> In o i' -> quiet dataFile o).
  { intros r o i' Ei' Io. rewrite data_kind. destruct (init_at _ _ _ _ _ Ei' Io) as [A|A]; eapply quiet_kind; eauto; discriminate. }
  assert (Todo : todo w = concat (map (nearInit e w) (pr_near p)) ++ concat (map (surfInit e w) l1) ++ surfInit e w p0 ++ (concat (map (surfInit e w) l2) ++ i ++ u)).
  { rewrite Et. unfold early. rewrite Sp, map_app, concat_app. cbn [map concat]. now rewrite <- !app_assoc. }
  rewrite (fin_single _ _ _ _ H dataFile w c0 false); auto.
  - rewrite Todo, !content_app. rewrite (content_skip _ (concat (map (nearInit e w) (pr_near p)))) by (intros o I; apply (NI w o I)).
    rewrite (content_skip _ (concat (map (surfInit e w) l1))) by (intros o I; apply (SI w l1 o); [intros; apply in_or_app; now left|exact I]).
    assert (C : content dataFile c0 (surfInit e w p0) = Some [LGeometry (sp_tags p0) w]).
    { apply content_const.
      - intros o I So. now destruct (surfInit_sets p0 w o I So) as (_ & _ & ->).
      - apply existsb_exists. exists (OTrunc dataFile [LGeometry (sp_tags p0) w]). split; [unfold surfInit; do 3 right; now left|cbn [setsFile]; now destruct (path_eq _ _)]. }
    rewrite C. rewrite (content_skip _ (concat (map (surfInit e w) l2))) by (intros o I; apply (SI w l2 o); [intros; apply in_or_app; now right|exact I]).
    rewrite (content_skip _ i) by (intros o I; eapply IQ; eauto). now rewrite Ct.
  - unfold dataFile. now destruct (surfDir e (sp_name p0) w).
  - discriminate.
  - rewrite Todo. apply ready_app; [apply ready_skip; intros o I; apply (NI w o I)|].
    apply ready_app; [apply ready_skip; intros o I; apply (SI w l1 o); [intros; apply in_or_app; now left|exact I]|].
    unfold surfInit at 1. cbn [app ready setsFile andb]. replace (false || makes (OMkdirs (exportDir e (e_case e) "RCSSurface" ++ [sp_name p0])) (removelast dataFile) || makes (OMkdirs (surfDir e (sp_name p0) w)) (removelast dataFile)) with true.
    + destruct (path_eq _ _), (path_eq _ _); cbn [orb andb]; apply ready_true.
    + symmetry. apply orb_true_iff. right. cbn [makes]. unfold dataFile. rewrite removelast_last. apply prefix_refl.
  - intros r o R I. destruct (program_parts _ _ _ _ _ _ _ _ _ (Pt r R)) as (i' & u' & Ei' & Eu' & Et'). rewrite Et' in I. apply in_app_or in I. destruct I as [I|I].
    { unfold early in I. apply in_app_or in I. destruct I as [I|I]; [destruct (NI r o I) as (X & Y & Z); auto|].
      split; [eapply early_removes; unfold early; apply in_or_app; right; exact I|]. apply in_concat in I. destruct I as (ops & I & Io). apply in_map_iff in I. destruct I as (q & <- & Iq).
      split; [eapply init_makes; eauto|]. intro NW. destruct (setsFile o dataFile) eqn:So; [|reflexivity]. destruct (surfInit_sets q r o Io So) as (_ & X & _). congruence. }
    apply in_app_or in I. destruct I as [I|I]; [destruct (IQ r o i' Ei' I) as (X & Y & Z); auto|].
    destruct (updates_blocks _ _ _ _ _ _ _ _ _ _ _ Eu') as (bl & -> & L & B). apply in_concat in I. destruct I as (os & Ios & Io). apply In_nth_error in Ios. destruct Ios as (j & Nj).
    destruct (B j os Nj) as (call & ms' & Nc & P).
    destruct (quiet_parts F getValue dofs surf e r _ _ _ p ms' o "RCSSurface" [sp_name p0; ("rank" ++ to_string w)%string; "surface_data.bin"] (parts_from _ _ _ _ _ _ _ _ _ _ _ _ _ P Io)) as [A|[(E & _)|[(E & _)|[(_ & q & os' & Iq & G & Io')|(E & _)]]]]; try discriminate E; auto.
    + rewrite <- data_kind in A. destruct A as (X & Y & Z). auto.
    + destruct (surfUpdate_in F surf _ _ _ _ _ _ _ _ G Io') as (l & ->). split; [reflexivity|]. split; [reflexivity|]. intro NW. cbn [setsFile].
      destruct (path_eq _ _) as [E|]; [|reflexivity]. apply surf_inj in E. destruct E. congruence.
Qed.
End Surf.

(** ** No rank waits for ever *)
Definition alike (a b : string * mstate F) : Prop := fst a = fst b /\ ms_probe (snd a) = ms_probe (snd b) /\ ms_ctx (snd a) = ms_ctx (snd b).
Lemma update_alike : forall t x y a b, ms_probe a = ms_probe b -> ms_ctx a = ms_ctx b ->
  ms_probe (updateMor F t x a) = ms_probe (updateMor F t y b) /\ ms_ctx (updateMor F t x a) = ms_ctx (updateMor F t y b).
Proof.
  intros t x y a b E1 E2. unfold updateMor. rewrite E1, E2. repeat match goal with |- context [if ?c then _ else _] => destruct c end; now split.
Qed.
Lemma mor_bars : forall e r r' t x y ms ms', Forall2 alike ms ms' ->
  bars (snd (morAll F dofs e r t x ms)) = bars (snd (morAll F dofs e r' t y ms')) /\
  Forall2 alike (fst (morAll F dofs e r t x ms)) (fst (morAll F dofs e r' t y ms')).
Proof.
  intros e r r' t x y ms ms' H. induction H as [|[n a] [n' b] ms ms' (E & E1 & E2) H (I1 & I2)]; [split; [reflexivity|constructor]|]. cbn [fst snd] in E, E1, E2. subst n'.
  cbn [morAll]. destruct (update_alike t x y a b E1 E2) as [U1 U2]. unfold morUpdate.
  destruct (morAll F dofs e r t x ms) as [q1 o1]. destruct (morAll F dofs e r' t y ms') as [q2 o2]. cbn [fst snd] in *. split; [|constructor; [repeat split; assumption|assumption]].
  rewrite !bars_app. rewrite I1. f_equal. rewrite E2, U2.
  assert (Z : forall g : Z * R * F -> op, forall l, (forall q, g q <> OBarrier) -> bars (map g l) = 0).
  { intros g l Ng. apply bars_in. intros o Io. apply in_map_iff in Io. destruct Io as (q & <- & _). apply Ng. }
  rewrite !Z by discriminate. f_equal. destruct (ms_ctx b); [reflexivity|]. destruct (ms_ctx (updateMor F t y b)); [|reflexivity]. rewrite !bars_app. f_equal. destruct (e_root e r), (e_root e r'); reflexivity.
Qed.
Lemma snap_bars : forall e r r' c t x y l os os', mapM (snapUpdate F dofs e r c t x) l = Ok os -> mapM (snapUpdate F dofs e r' c t y) l = Ok os' -> bars (concat os) = bars (concat os').
Proof.
  intros e r r' c t x y. induction l as [|q l I]; intros os os' H K; [injection H as <-; injection K as <-; reflexivity|].
  destruct (mapM_cons_ok _ _ _ _ H) as (o & b & G & M & ->). destruct (mapM_cons_ok _ _ _ _ K) as (o' & b' & G' & M' & ->). cbn [concat]. rewrite !bars_app. rewrite (I _ _ M M'). f_equal.
  unfold snapUpdate in G, G'. binds G. cbn [bind] in G'.
  assert (Z : forall e r x, bars (OMkdirs (snapFolder e r c) :: map (fun k => OTrunc (snapFolder e r c ++ [(polString k ++ ".gf")%string]) [LValues (dofs x k)]) comps ++ [OTrunc (snapFolder e r c ++ ["time.txt"]) [LTime t]]) = 0).
  { intros. apply bars_in. intros z Iz. apply snapOps_in in Iz. destruct Iz as [->|(a & l' & _ & ->)]; discriminate. }
  destruct v; apply ok_inj in G, G'; subst o o'; [|reflexivity]. rewrite !bars_app.
  assert (Z' : forall r x, bars [OMkdirs (snapFolder e r c)] + (bars (map (fun k => OTrunc (snapFolder e r c ++ [(polString k ++ ".gf")%string]) [LValues (dofs x k)]) comps) + bars [OTrunc (snapFolder e r c ++ ["time.txt"]) [LTime t]]) = 0).
  { intros r1 x1. rewrite <- !bars_app. apply Z. }
  rewrite !Z'. f_equal. destruct c; [|reflexivity]. rewrite !bars_app. f_equal. unfold renew. rewrite !bars_app. f_equal. destruct (e_root e r), (e_root e r'); reflexivity.
Qed.
Lemma zero_bars : forall {A} (g : A -> res (list op)) l os, mapM g l = Ok os -> (forall a o z, g a = Ok o -> In z o -> z <> OBarrier) -> bars (concat os) = 0.
Proof. intros A g l os H K. apply bars_in. intros o I. destruct (mapM_concat_in _ _ _ _ H I) as (a & ops & _ & G & Io). eapply K; eauto. Qed.
Lemma updates_bars : forall e p r r' calls c ms ms' u u', Forall2 alike ms ms' ->
  allUpdates F getValue dofs surf e r p c calls ms = Ok u -> allUpdates F getValue dofs surf e r' p c calls ms' = Ok u' -> bars u = bars u'.
Proof.
  intros e p r r'. induction calls as [|call calls I]; intros c ms ms' u u' A H K; [injection H as <-; injection K as <-; reflexivity|].
  cbn [allUpdates] in H, K. binds H. binds K. injection H as <-. injection K as <-. rewrite !bars_app.
  destruct (update_parts F getValue dofs surf _ _ _ _ _ _ _ Q) as [P E]. destruct (update_parts F getValue dofs surf _ _ _ _ _ _ _ Q1) as [P' E'].
  destruct (mor_bars e r r' (fst call) (snd call r) (snd call r') ms ms' A) as [MB MA]. rewrite E in Q0. rewrite E' in Q2. rewrite (I _ _ _ _ _ MA Q0 Q2). f_equal.
  destruct P as [a b n d s Ma Mb Mn Md Ms ->]. destruct P' as [a' b' n' d' s' Ma' Mb' Mn' Md' Ms' ->]. rewrite !bars_app, MB, (snap_bars _ _ _ _ _ _ _ _ _ _ Md Md').
  assert (Zf : forall r os, mapM (fieldUpdate F getValue e r c (fst call) (snd call r)) (pr_field p) = Ok os -> bars (concat os) = 0).
  { intros r1 os M. eapply zero_bars; [exact M|]. intros q o z G Iz. destruct (fieldUpdate_in F getValue _ _ _ _ _ _ _ _ G Iz) as (i & l & _ & _ & _ & ->). discriminate. }
  assert (Zp : forall r os, mapM (pointUpdate F getValue e r c (fst call) (snd call r)) (pr_point p) = Ok os -> bars (concat os) = 0).
  { intros r1 os M. eapply zero_bars; [exact M|]. intros q o z G Iz. destruct (pointUpdate_in F getValue _ _ _ _ _ _ _ _ G Iz) as (i & l & _ & _ & _ & ->). discriminate. }
  assert (Zn : forall r os, mapM (nearUpdate F surf e r c (fst call) (snd call r)) (pr_near p) = Ok os -> bars (concat os) = 0).
  { intros r1 os M. eapply zero_bars; [exact M|]. intros q o z G Iz. now apply (nearUpdate_in F surf _ _ _ _ _ _ _ _ G Iz). }
  assert (Zs : forall r os, mapM (surfUpdate F surf e r c (fst call) (snd call r)) (pr_surf p) = Ok os -> bars (concat os) = 0).
  { intros r1 os M. eapply zero_bars; [exact M|]. intros q o z G Iz. destruct (surfUpdate_in F surf _ _ _ _ _ _ _ _ G Iz) as (l & ->). discriminate. }
  rewrite (Zf _ _ Ma), (Zf _ _ Ma'), (Zp _ _ Mb), (Zp _ _ Mb'), (Zn _ _ Mn), (Zn _ _ Mn'), (Zs _ _ Ms), (Zs _ _ Ms'). reflexivity.
Qed.
Lemma program_bars : forall e p calls r r' os os', rankProgram F getValue dofs surf e p calls r = Ok os -> rankProgram F getValue dofs surf e p calls r' = Ok os' -> bars os = bars os'.
Proof.
  intros e p calls r r' os os' H K. destruct (program_parts _ _ _ _ _ _ _ _ _ H) as (i & u & Ei & Eu & ->). destruct (program_parts _ _ _ _ _ _ _ _ _ K) as (i' & u' & Ei' & Eu' & ->).
  rewrite !bars_app, !early_bars, (init_bars _ _ _ _ Ei), (init_bars _ _ _ _ Ei'). do 2 f_equal. eapply updates_bars; [|exact Eu|exact Eu'].
  clear. induction (pr_mor p); [constructor|]. constructor; [repeat split|assumption].
Qed.
Lemma bars_cons : forall o l, o <> OBarrier -> bars (o :: l) = bars l.
Proof. intros o l N. destruct o; try reflexivity. congruence. Qed.
Lemma upd_nth_error : forall {A} (l : list A) r x q, r < length l -> nth_error (upd l r x) q = if Nat.eqb q r then Some x else nth_error l q.
Proof.
  induction l as [|a l I]; intros r x q H; [cbn in H; lia|]. destruct r; cbn.
  - destruct q; reflexivity.
  - destruct q; [reflexivity|]. cbn in H. cbn. apply I. lia.
Qed.
Lemma steps_bars : forall a b, steps a b -> forall k, (forall l, In l (w_todo a) -> bars l = k) -> exists k', (forall l, In l (w_todo b) -> bars l = k') /\ length (w_todo b) = length (w_todo a).
Proof.
  intros a b H. induction H as [a|a b c St H I]; intros k K; [eauto|].
  assert (exists k', (forall l, In l (w_todo b) -> bars l = k') /\ length (w_todo b) = length (w_todo a)) as (k' & K' & L).
  { destruct St as [s s' todo r o rest N O X|s todo rest Ne ->]; cbn [w_todo] in *.
    - exists k. assert (R : r < length todo) by (apply nth_error_Some; congruence). split; [|apply upd_length].
      intros l Il. apply In_nth_error in Il. destruct Il as (q & Q). rewrite upd_nth_error in Q by assumption. destruct (Nat.eqb q r); [|apply K; eapply nth_error_In; eauto].
      injection Q as <-. rewrite <- (bars_cons o rest O). apply K. eapply nth_error_In; eauto.
    - exists (pred k). split; [|now rewrite map_length]. intros l Il. rewrite <- (K (OBarrier :: l)); [reflexivity|]. now apply in_map. }
  destruct (I k' K') as (k'' & K'' & L''). exists k''. split; [exact K''|congruence].
Qed.
Theorem no_hang : forall e p calls s todo s1 rest, mapM (rankProgram F getValue dofs surf e p calls) (seq 0 (e_ranks e)) = Ok todo ->
  steps (mkWorld s todo) (mkWorld s1 rest) ->
  Forall (fun l => l = []) rest \/ (exists w, step (mkWorld s1 rest) w) \/
  exists r q tail, nth_error rest r = Some (OMkdirs q :: tail) /\ exists d old, prefixb d q = true /\ s1 d = Some (File old).
Proof.
  intros e p calls s todo s1 rest M St.
  assert (All : exists k, forall l, In l todo -> bars l = k).
  { destruct (e_ranks e) as [|n] eqn:En; [cbn in M; injection M as <-; exists 0; contradiction|].
    destruct (mapM_seq_nth _ (S n) 0 todo [] 0 M) as [G0 L]; [lia|]. exists (bars (nth 0 todo [])). intros l Il. apply In_nth with (d := []) in Il. destruct Il as (r & R & <-).
    rewrite L in R. destruct (mapM_seq_nth _ (S n) 0 todo [] r M R) as [Gr _]. eapply program_bars; eauto. }
  destruct All as (k & K). destruct (steps_bars _ _ St k K) as (k' & K' & _). cbn [w_todo] in K'.
  destruct (stuck (length rest) (fun r => nth r rest []) k') as [D|[(r & o & tail & R & E & N)|(P & D)]].
  - intros r R. apply K'. now apply nth_In.
  - left. apply Forall_forall. intros l Il. apply In_nth with (d := []) in Il. destruct Il as (r & R & <-). now apply D.
  - right. assert (Nr : nth_error rest r = Some (o :: tail)) by (rewrite <- E; now apply nth_error_nth').
    destruct (exec o s1) as [s2| |] eqn:X.
    + left. eexists. eapply step_op; eauto.
    + right. destruct o as [q|q|q l|q l|]; cbn [exec] in X; try discriminate X.
      * exists r, q, tail. split; [exact Nr|]. unfold mkdirs in X. destruct (existsb _ _) eqn:Ex; [|discriminate]. apply existsb_exists in Ex. destruct Ex as (d & Id & Fd).
        apply prefixes_in in Id. exists d. destruct (s1 d) as [[|old]|]; try discriminate. exists old. now split.
      * destruct (isDir _ _); [|discriminate]. destruct (s1 q) as [[|]|]; discriminate.
      * destruct (isDir _ _); [|discriminate]. destruct (s1 q) as [[|]|]; discriminate.
    + exfalso. destruct o as [q|q|q l|q l|]; cbn [exec] in X; try discriminate X.
      * unfold mkdirs in X. destruct (existsb _ _); discriminate.
      * destruct (isDir _ _); [|discriminate]. destruct (s1 q) as [[|]|]; discriminate.
      * destruct (isDir _ _); [|discriminate]. destruct (s1 q) as [[|]|]; discriminate.
  - right. left. exists (mkWorld s1 (map (@tl op) rest)). apply step_barrier; [destruct rest; [cbn in P; lia|discriminate]|].
    rewrite map_map. rewrite <- (map_id rest) at 1. apply map_ext_in. intros l Il. apply In_nth with (d := []) in Il. destruct Il as (r & R & <-). destruct (D r R) as (x & ->). reflexivity.
Qed.
End Fields.

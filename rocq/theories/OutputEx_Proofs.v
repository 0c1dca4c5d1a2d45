(** Fresh tables, runs that exist, and concrete runs. *)
From Coq Require Import String ZArith List Bool Lia Arith Reals Lra FinFun.
From Verif Require Import Common Probe_Model Input_Proofs Output_Model Output_Spec Output_Proofs OutputRun_Proofs OutputPoint_Proofs OutputField_Proofs OutputSnap_Proofs OutputDomain_Proofs OutputMore_Proofs.
Import ListNotations.
Local Open Scope string_scope.
Local Open Scope list_scope.
Local Open Scope nat_scope.

Lemma fin_writer : forall n s t s', fin n s t s' -> forall q l, s' q = Some (File l) -> s q = Some (File l) \/ exists r o, r < n /\ In o (t r) /\ setsFile o q = true.
Proof.
  intros n s t s' H. induction H as [s t D|s s1 s2 t t' r o R E O N X H IH|s s2 t t' P' E H IH]; intros q l Q.
  - now left.
  - destruct (IH q l Q) as [I|(r' & o' & R' & I & So)].
    + destruct (setsFile o q) eqn:So; [right; exists r, o; split; [assumption|split; [rewrite E; now left|assumption]]|].
      left. destruct o as [p|p|p m|p m|]; cbn [exec] in X; cbn [setsFile] in So.
      * unfold mkdirs in X. destruct (existsb _ _); [discriminate|]. injection X as <-. destruct (prefixb q p); [discriminate|assumption].
      * injection X as <-. destruct (prefixb p q); [discriminate|assumption].
      * assert (C : s1 = s \/ s1 = setNode s p (File m)) by (destruct (isDir s (removelast p)); [destruct (s p) as [[]|]|]; apply ok_inj in X; auto).
        destruct C as [-> | ->]; [assumption|]. unfold setNode in I. destruct (path_eq p q); [discriminate|]. destruct (path_eq q p); [congruence|assumption].
      * assert (C : s1 = s \/ exists z, s1 = setNode s p (File z)) by (destruct (isDir s (removelast p)); [destruct (s p) as [[]|]|]; apply ok_inj in X; eauto).
        destruct C as [-> |[z ->]]; [assumption|]. unfold setNode in I. destruct (path_eq p q); [discriminate|]. destruct (path_eq q p); [congruence|assumption].
      * congruence.
    + right. exists r', o'. split; [assumption|]. split; [|assumption]. destruct (Nat.eq_dec r' r) as [->|NQ]; [rewrite E; now right|]. now rewrite <- O.
  - destruct (IH q l Q) as [I|(r' & o' & R' & I & So)]; [now left|]. right. exists r', o'. split; [assumption|]. split; [|assumption]. rewrite E by assumption. now right.
Qed.

Section Fields.
Variable F : Type.
Variable getValue : F -> comp -> Z -> list R -> R.
Variable dofs : F -> comp -> list R.
Variable surf : F -> list Z -> comp -> list R.

(** ** Only this run's tables *)
Lemma early_sets : forall e p r o k q, k <> "RCSSurface" -> In o (early e p r) -> prefixb (exportDir e (e_case e) k) q = true -> setsFile o q = false.
Proof.
  intros e p r o k q Nk I P. apply early_in in I. destruct I as [->|[(z & _ & I)|(z & _ & I)]]; [reflexivity|destruct I as [->| ->]; reflexivity|].
  destruct (surfInit_at _ _ _ _ I) as (At & _ & _). apply prefix_iff in P. destruct P as (a & ->). now apply (quiet_kind e k "RCSSurface" a o).
Qed.
Lemma update_kind : forall e r c t x p ms o, from F getValue dofs surf e r c t x p ms o ->
  (exists q os, In q (pr_point p) /\ pointUpdate F getValue e r c t x q = Ok os /\ In o os) \/
  (exists q os, In q (pr_field p) /\ fieldUpdate F getValue e r c t x q = Ok os /\ In o os) \/
  exists k, (k = "NearToFarFieldProbes" \/ k = "DomainSnapshotProbes" \/ k = "RCSSurface" \/ k = "MORStateProbes") /\ atDir (exportDir e (e_case e) k) o.
Proof.
  intros e r c t x p ms o [q os I G Io|q os I G Io|q os I G Io|q os I G Io|q os I G Io|Io].
  - right. left. eauto.
  - left. eauto.
  - right. right. eexists. split; [left; reflexivity|]. eapply near_at; eauto.
  - right. right. eexists. split; [right; left; reflexivity|]. eapply (snapUpdate_in F dofs); eauto.
  - right. right. eexists. split; [right; right; left; reflexivity|]. eapply surf_at; eauto.
  - right. right. eexists. split; [right; right; right; reflexivity|]. apply (mor_at F dofs _ _ _ _ _ _ Io).
Qed.
Theorem point_fresh : forall e p calls s s' q l, writes F getValue dofs surf e p calls s s' -> someRoot e -> pr_point p <> [] ->
  under (exportDir e (e_case e) "PointProbes") q -> s' q = Some (File l) ->
  exists p0 id r, In p0 (pr_point p) /\ pp_write p0 = true /\ pp_id p0 = Some id /\ r < e_ranks e /\ pp_element p0 r <> (-2)%Z /\ q = pointFile e id.
Proof.
  intros e p calls s s' q l Wr (r0 & R0 & Rt) Np (q1 & qs & ->) Fq. destruct (writes_fin _ _ _ _ _ _ _ _ _ Wr) as (t & H & Pt). set (b := exportDir e (e_case e) "PointProbes") in *.
  destruct (fin_phase _ _ _ _ (length (pr_near p) + 1) (fun r a q => a = early e p r ++ renew e r b [] /\
     exists h c u, mapM (pointHead e r) (pr_point p) = Ok h /\ (forall o, In o c -> atDir (exportDir e (e_case e) "FieldProbes") o) /\
     allUpdates F getValue dofs surf e r p 0 calls (map (fun m => (mp_name m, mkMstate (mp_window m) None [])) (pr_mor p)) = Ok u /\ q = concat h ++ c ++ u) H) as (A & B & s1 & F1 & F2 & AB).
  { intros r R. destruct (program_parts _ _ _ _ _ _ _ _ _ (Pt r R)) as (i & u & Ei & Eu & Et). destruct (point_init _ _ _ _ Ei Np) as (h & c & Mh & -> & Cc).
    exists (early e p r ++ renew e r b []), (concat h ++ c ++ u). split; [rewrite Et; unfold b; now rewrite <- !app_assoc|].
    destruct (renew_closed e r (early e p r) b []) as [X Y]. split; [exact X|]. split; [now rewrite Y, early_bars|]. split; [reflexivity|]. exists h, c, u. repeat split; auto. }
  assert (NF : noFile s1 b).
  { apply (fin_nofile _ _ _ _ F1).
    - intros r o y R I Py. destruct (AB r R) as (E & _). rewrite E in I. apply in_app_or in I. destruct I as [I|I]; [eapply early_sets; eauto; discriminate|].
      apply renew_in in I. destruct I as [->|[->|(z & _ & ->)]]; reflexivity.
    - right. exists r0. split; [assumption|]. destruct (AB r0 R0) as (E & _). rewrite E, existsb_app. unfold renew. rewrite Rt. cbn [app existsb removes]. rewrite prefix_refl. cbn [orb]. now rewrite orb_true_r. }
  destruct (fin_writer _ _ _ _ F2 _ _ Fq) as [X|(r & o & R & I & So)]; [exfalso; eapply NF; [|exact X]; apply prefix_snoc, prefix_refl|].
  destruct (AB r R) as (_ & h & c & u & Mh & Cc & Eu & EB). rewrite EB in I. apply in_app_or in I. destruct I as [I|I].
  { destruct (mapM_concat_in _ _ _ _ Mh I) as (p0 & os & Ip & G & Io). destruct (pointHead_in _ _ _ _ _ G Io) as (id & m & A1 & A2 & A3 & ->). apply trunc_sets in So. exists p0, id, r. rewrite So. auto 7. }
  apply in_app_or in I. destruct I as [I|I].
  { exfalso. destruct (quiet_kind e "PointProbes" "FieldProbes" (q1 :: qs) o) as (X & _); [discriminate|now apply Cc|]. fold b in X. congruence. }
  destruct (updates_blocks _ _ _ _ _ _ _ _ _ _ _ Eu) as (bl & -> & L & Bl). apply in_concat in I. destruct I as (os & Ios & Io). apply In_nth_error in Ios. destruct Ios as (j & Nj).
  destruct (Bl j os Nj) as (call & ms' & Nc & P). destruct (update_kind _ _ _ _ _ _ _ _ (parts_from _ _ _ _ _ _ _ _ _ _ _ _ _ P Io)) as [(p0 & os' & Ip & G & Iq)|[(p0 & os' & Ip & G & Iq)|(k & K & At)]].
  - destruct (pointUpdate_in F getValue _ _ _ _ _ _ _ _ G Iq) as (id & m & A1 & A2 & A3 & ->). cbn [setsFile] in So. exists p0, id, r. destruct (path_eq _ _) as [E|]; [|discriminate]. rewrite E. auto 7.
  - exfalso. destruct (fieldUpdate_in F getValue _ _ _ _ _ _ _ _ G Iq) as (id & m & _ & _ & _ & ->).
    destruct (quiet_kind e "PointProbes" "FieldProbes" (q1 :: qs) (OAppend (fieldFile e id) m)) as (X & _); [discriminate|apply dir_prefix|]. fold b in X. congruence.
  - exfalso. destruct (quiet_kind e "PointProbes" k (q1 :: qs) o) as (X & _); [intro; subst k; destruct K as [K|[K|[K|K]]]; discriminate|exact At|]. fold b in X. congruence.
Qed.
Theorem field_fresh : forall e p calls s s' q l, writes F getValue dofs surf e p calls s s' -> someRoot e -> pr_field p <> [] ->
  under (exportDir e (e_case e) "FieldProbes") q -> s' q = Some (File l) ->
  exists p0 id r, In p0 (pr_field p) /\ fp_write p0 = true /\ fp_id p0 = Some id /\ r < e_ranks e /\ fp_element p0 r <> (-2)%Z /\ q = fieldFile e id.
Proof.
  intros e p calls s s' q l Wr (r0 & R0 & Rt) Np (q1 & qs & ->) Fq. destruct (writes_fin _ _ _ _ _ _ _ _ _ Wr) as (t & H & Pt). set (b := exportDir e (e_case e) "FieldProbes") in *.
  destruct (fin_phase _ _ _ _ (length (pr_near p) + (match pr_point p with [] => 0 | _ => 1 end + 1)) (fun r a q => (exists pre, a = pre ++ renew e r b [] /\ forall o, In o pre -> forall y, prefixb b y = true -> setsFile o y = false) /\
     exists h u, mapM (fieldHead e r) (pr_field p) = Ok h /\
     allUpdates F getValue dofs surf e r p 0 calls (map (fun m => (mp_name m, mkMstate (mp_window m) None [])) (pr_mor p)) = Ok u /\ q = concat h ++ u) H) as (A & B & s1 & F1 & F2 & AB).
  { intros r R. destruct (program_parts _ _ _ _ _ _ _ _ _ (Pt r R)) as (i & u & Ei & Eu & Et).
    assert (D : exists a h, mapM (fieldHead e r) (pr_field p) = Ok h /\ i = a ++ renew e r b [] ++ concat h /\ bars a = match pr_point p with [] => 0 | _ => 1 end /\ forall o, In o a -> atDir (exportDir e (e_case e) "PointProbes") o).
    { assert (Bi := init_bars _ _ _ _ Ei). unfold initPointField in Ei. binds Ei. injection Ei as <-. destruct (pr_field p) as [|f1 fs] eqn:Ef; [congruence|]. binds Q0. apply ok_inj in Q0. subst v0.
      exists v, v1. split; [reflexivity|]. split; [reflexivity|]. split.
      - assert (N0 : bars (concat v1) = 0) by (apply bars_in; intros o I; destruct (mapM_concat_in _ _ _ _ Q1 I) as (z & os & Iz & G & Io); destruct (fieldHead_in _ _ _ _ _ G Io) as (j & m & _ & _ & _ & ->); discriminate).
        rewrite !bars_app, N0 in Bi. pose proof (proj2 (renew_closed e r [] b [])) as X. cbn [app] in X. change (bars []) with 0 in X. fold b in Bi. rewrite X in Bi. lia.
      - intros o I. destruct (pr_point p) as [|g1 gs]; [apply ok_inj in Q; subst v; contradiction|]. binds Q. apply ok_inj in Q. subst v. apply in_app_or in I. destruct I as [I|I].
        + apply renew_in in I. destruct I as [->|[->|(z & [<-|[]] & ->)]]; cbn [atDir]; try apply prefix_refl. exact Logic.I.
        + destruct (mapM_concat_in _ _ _ _ Q0 I) as (z & os & Iz & G & Io). destruct (pointHead_in _ _ _ _ _ G Io) as (j & m & _ & _ & _ & ->). apply dir_prefix. }
    destruct D as (a & h & Mh & -> & Ba & Ca).
    exists ((early e p r ++ a) ++ renew e r b []), (concat h ++ u). split; [rewrite Et; now rewrite <- !app_assoc|].
    destruct (renew_closed e r (early e p r ++ a) b []) as [X Y]. split; [exact X|]. split; [rewrite Y, bars_app, early_bars, Ba; lia|]. split.
    - exists (early e p r ++ a). split; [reflexivity|]. intros o I y Py. apply in_app_or in I. destruct I as [I|I]; [eapply early_sets; eauto; discriminate|].
      apply prefix_iff in Py. destruct Py as (z & ->). apply (quiet_kind e "FieldProbes" "PointProbes" z o); [discriminate|now apply Ca].
    - exists h, u. repeat split; auto. }
  assert (NF : noFile s1 b).
  { apply (fin_nofile _ _ _ _ F1).
    - intros r o y R I Py. destruct (AB r R) as ((pre & E & W) & _). rewrite E in I. apply in_app_or in I. destruct I as [I|I]; [now apply (W o I)|].
      apply renew_in in I. destruct I as [->|[->|(z & _ & ->)]]; reflexivity.
    - right. exists r0. split; [assumption|]. destruct (AB r0 R0) as ((pre & E & W) & _). rewrite E, existsb_app. unfold renew. rewrite Rt. cbn [app existsb removes]. rewrite prefix_refl. cbn [orb]. now rewrite orb_true_r. }
  destruct (fin_writer _ _ _ _ F2 _ _ Fq) as [X|(r & o & R & I & So)]; [exfalso; eapply NF; [|exact X]; apply prefix_snoc, prefix_refl|].
  destruct (AB r R) as (_ & h & u & Mh & Eu & EB). rewrite EB in I. apply in_app_or in I. destruct I as [I|I].
  { destruct (mapM_concat_in _ _ _ _ Mh I) as (p0 & os & Ip & G & Io). destruct (fieldHead_in _ _ _ _ _ G Io) as (id & m & A1 & A2 & A3 & ->). apply trunc_sets in So. exists p0, id, r. rewrite So. auto 7. }
  destruct (updates_blocks _ _ _ _ _ _ _ _ _ _ _ Eu) as (bl & -> & L & Bl). apply in_concat in I. destruct I as (os & Ios & Io). apply In_nth_error in Ios. destruct Ios as (j & Nj).
  destruct (Bl j os Nj) as (call & ms' & Nc & P). destruct (update_kind _ _ _ _ _ _ _ _ (parts_from _ _ _ _ _ _ _ _ _ _ _ _ _ P Io)) as [(p0 & os' & Ip & G & Iq)|[(p0 & os' & Ip & G & Iq)|(k & K & At)]].
  - exfalso. destruct (pointUpdate_in F getValue _ _ _ _ _ _ _ _ G Iq) as (id & m & _ & _ & _ & ->).
    destruct (quiet_kind e "FieldProbes" "PointProbes" (q1 :: qs) (OAppend (pointFile e id) m)) as (X & _); [discriminate|apply dir_prefix|]. fold b in X. congruence.
  - destruct (fieldUpdate_in F getValue _ _ _ _ _ _ _ _ G Iq) as (id & m & A1 & A2 & A3 & ->). cbn [setsFile] in So. exists p0, id, r. destruct (path_eq _ _) as [E|]; [|discriminate]. rewrite E. auto 7.
  - exfalso. destruct (quiet_kind e "FieldProbes" k (q1 :: qs) o) as (X & _); [intro; subst k; destruct K as [K|[K|[K|K]]]; discriminate|exact At|]. fold b in X. congruence.
Qed.

(** ** Near-field snapshots in the words of the specification *)
Theorem near_kept : forall e p calls s s' p0 r j t x a l, writes F getValue dofs surf e p calls s s' ->
  In p0 (pr_near p) -> NoDup (map np_name (pr_near p)) -> r < e_ranks e ->
  nth_error calls j = Some (t, x) -> dueAt (e_final e) (np_steps p0) j t -> snapshotFile (surf (x r) (np_tags p0)) t a l ->
  s (nearSnapshot e (np_name p0) r j ++ [a]) <> Some Dir ->
  s' (nearSnapshot e (np_name p0) r j ++ [a]) = Some (File l).
Proof.
  intros e p calls s s' p0 r j t x a l Wr Ip ND R N Du Sn Nd. destruct (in_split _ _ Ip) as (l1 & l2 & Sp).
  eapply (near_file F getValue dofs surf e p p0 l1 l2 Sp); eauto.
  - intros q Iq E. rewrite Sp, map_app in ND. cbn [map] in ND. apply NoDup_remove_2 in ND. apply ND. rewrite <- map_app, <- E. now apply in_map.
  - destruct Sn as [(k & b & I & -> & ->)|[-> ->]]; [|constructor]. cbn in I. repeat destruct I as [I|I]; try contradiction; injection I as <- <-; match goal with |- nearHas _ _ _ _ _ _ [LValues (_ _ _ ?k)] => apply (near_comp F surf p0 t (x r) k) end.
Qed.
Theorem surf_kept : forall e p calls s s' p0 r, writes F getValue dofs surf e p calls s s' ->
  In p0 (pr_surf p) -> NoDup (map sp_name (pr_surf p)) -> r < e_ranks e -> s (surfDir e (sp_name p0) r ++ ["surface_data.bin"]) <> Some Dir ->
  exists rows, rowsOf (e_final e) (sp_steps p0) (fun t (x : nat -> F) => LTime t :: map (fun c => LValues (surf (x r) (sp_tags p0) c)) [Ex; Ey; Ez; Hx; Hy; Hz]) 0 calls rows /\
    s' (surfDir e (sp_name p0) r ++ ["surface_data.bin"]) = Some (File (LGeometry (sp_tags p0) r :: rows)).
Proof.
  intros e p calls s s' p0 r Wr Ip ND R Nd. destruct (in_split _ _ Ip) as (l1 & l2 & Sp).
  apply (surf_file F getValue dofs surf e p p0 r l1 l2 Sp) with (s := s); auto.
  intros q Iq E. rewrite Sp, map_app in ND. cbn [map] in ND. apply NoDup_remove_2 in ND. apply ND. rewrite <- map_app, <- E. now apply in_map.
Qed.

(** ** Identifiers *)
Lemma mapM_all_ok : forall {A B} (g : A -> res B) l os, mapM g l = Ok os -> forall a, In a l -> exists b, g a = Ok b.
Proof.
  induction l as [|b l I]; intros os H a K; [contradiction|]. destruct (mapM_cons_ok _ _ _ _ H) as (o & os' & G & M & ->). destruct K as [<-|K]; [eauto|eapply I; eauto].
Qed.
Theorem id_needed : forall e p calls s s' p0 r, writes F getValue dofs surf e p calls s s' -> In p0 (pr_point p) -> pp_write p0 = true -> r < e_ranks e ->
  pp_element p0 r <> (-2)%Z -> pp_id p0 <> None.
Proof.
  intros e p calls s s' p0 r Wr Ip Pw R Ne. destruct (writes_fin _ _ _ _ _ _ _ _ _ Wr) as (t & _ & Pt). destruct (program_parts _ _ _ _ _ _ _ _ _ (Pt r R)) as (i & u & Ei & _ & _).
  destruct (point_init _ _ _ _ Ei) as (h & b & Mh & _ & _); [intro E; now rewrite E in Ip|]. destruct (mapM_all_ok _ _ _ Mh p0 Ip) as (os & G). unfold pointHead in G. rewrite Pw in G.
  destruct (pp_element p0 r =? -2)%Z eqn:E; [apply Z.eqb_eq in E; contradiction|]. binds G. unfold readId in Q. destruct (pp_id p0); [discriminate|discriminate].
Qed.
Lemma numbered_ids : forall {A} (set : nat -> A -> A) (id : A -> option nat) l k, (forall i a, id (set i a) = Some i) ->
  map id (map (fun ia => set (fst ia) (snd ia)) (combine (seq k (length l)) l)) = map Some (seq k (length l)).
Proof. intros A set id l k H. revert k. induction l as [|a l I]; intro k; [reflexivity|]. cbn [length seq combine map fst snd]. now rewrite H, I. Qed.
Theorem numbered_distinct : forall {A} (set : nat -> A -> A) (id : A -> option nat) (keep : A -> bool) l, (forall i a, id (set i a) = Some i) ->
  NoDup (map id (filter keep (numbered set l))) /\ forall a, In a (numbered set l) -> id a <> None.
Proof.
  intros A set id keep l H. assert (E := numbered_ids set id l 0 H). unfold numbered. split.
  - assert (ND : NoDup (map id (map (fun ia => set (fst ia) (snd ia)) (combine (seq 0 (length l)) l)))) by (rewrite E; apply FinFun.Injective_map_NoDup; [intros x y; congruence|apply seq_NoDup]).
    revert ND. generalize (map (fun ia => set (fst ia) (snd ia)) (combine (seq 0 (length l)) l)). intro m. induction m as [|b m I]; intro ND; [constructor|].
    cbn [map] in ND. inversion ND; subst. cbn [filter]. destruct (keep b); [|auto]. cbn [map]. constructor; [|auto]. intro K. apply H2. apply in_map_iff in K. destruct K as (z & Ez & K). apply filter_In in K. rewrite <- Ez. now apply in_map.
  - intros a I. apply (in_map id) in I. rewrite E in I. apply in_map_iff in I. destruct I as (i & <- & _). discriminate.
Qed.

(** ** Every run comes to an end *)
Definition size (l : list (list op)) : nat := list_sum (map (@length op) l).
Lemma size_upd : forall l r o rest, nth_error l r = Some (o :: rest) -> size l = S (size (upd l r rest)).
Proof.
  unfold size. induction l as [|a l I]; intros r o rest H; [destruct r; discriminate|]. destruct r; cbn [upd map list_sum nth_error fold_right] in *; [injection H as ->; reflexivity|]. specialize (I _ _ _ H). unfold list_sum in *. cbn [fold_right]. lia.
Qed.
Lemma size_bar : forall l, l <> [] -> size (map (cons OBarrier) l) > size l.
Proof.
  assert (G : forall l, size (map (cons OBarrier) l) = length l + size l).
  { unfold size, list_sum. induction l as [|a l I]; [reflexivity|]. cbn [map fold_right length]. rewrite I. lia. }
  intros l N. rewrite G. destruct l; [congruence|cbn [length]; lia].
Qed.
Lemma step_size : forall a b, step a b -> size (w_todo b) < size (w_todo a).
Proof.
  intros a b [s s' todo r o rest N O X|s todo rest Ne ->]; cbn [w_todo].
  - rewrite (size_upd _ _ _ _ N). lia.
  - apply size_bar. now destruct rest.
Qed.
Lemma steps_trans : forall a b c, steps a b -> steps b c -> steps a c.
Proof. intros a b c H. induction H; [auto|]. intro K. eapply steps_next; eauto. Qed.
Theorem run_exists : forall e p calls s todo s1 rest, mapM (rankProgram F getValue dofs surf e p calls) (seq 0 (e_ranks e)) = Ok todo ->
  steps (mkWorld s todo) (mkWorld s1 rest) ->
  exists s2 rest2, steps (mkWorld s1 rest) (mkWorld s2 rest2) /\ size rest2 <= size rest /\
    (Forall (fun l => l = []) rest2 \/ exists r q tail d old, nth_error rest2 r = Some (OMkdirs q :: tail) /\ prefixb d q = true /\ s2 d = Some (File old)).
Proof.
  intros e p calls s todo s1 rest M. remember (size rest) as k eqn:Ek. assert (Hk : size rest <= k) by lia. clear Ek. revert s1 rest Hk. induction k as [|k I]; intros s1 rest Hk St.
  - destruct (no_hang _ _ _ _ _ _ _ _ _ _ _ M St) as [D|[(w & W)|(r & q & tail & N & d & old & P & Fd)]].
    + exists s1, rest. split; [constructor|]. split; [lia|now left].
    + apply step_size in W. cbn [w_todo] in W. lia.
    + exists s1, rest. split; [constructor|]. split; [lia|right]. eauto 8.
  - destruct (no_hang _ _ _ _ _ _ _ _ _ _ _ M St) as [D|[(w & W)|(r & q & tail & N & d & old & P & Fd)]].
    + exists s1, rest. split; [constructor|]. split; [lia|now left].
    + destruct w as [s2 rest2]. assert (Z := step_size _ _ W). cbn [w_todo] in Z. destruct (I s2 rest2) as (s3 & rest3 & S3 & Z3 & E3); [lia|eapply steps_trans; [exact St|eapply steps_next; [exact W|constructor]]|].
      exists s3, rest3. split; [eapply steps_next; eauto|]. split; [lia|exact E3].
    + exists s1, rest. split; [constructor|]. split; [lia|right]. eauto 8.
Qed.
End Fields.

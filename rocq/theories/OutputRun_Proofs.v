(** The files of point and field probes after every schedule. *)
From Coq Require Import String ZArith List Bool Lia Arith Reals Lra.
From Verif Require Import Common Probe_Model Input_Proofs Output_Model Output_Spec Output_Proofs.
Import ListNotations.
Local Open Scope string_scope.
Local Open Scope list_scope.
Local Open Scope nat_scope.

(** ** Operations on one kind of result *)
Definition atDir (d : path) (o : op) : Prop :=
  match o with OBarrier => True | OMkdirs p | ORemove p | OTrunc p _ | OAppend p _ => prefixb d p = true end.
Definition comparable (a b : path) : bool := prefixb a b || prefixb b a.
Lemma both_prefix : forall a b f, prefixb a f = true -> prefixb b f = true -> comparable a b = true.
Proof.
  unfold comparable. induction a as [|x a I]; intros b f A B; [reflexivity|].
  destruct b as [|y b]; [now rewrite orb_true_r|]. destruct f as [|z f]; [discriminate|]. cbn in *.
  destruct (string_dec x z); [|discriminate]. destruct (string_dec y z); [|discriminate]. subst.
  destruct (string_dec z z); [|congruence]. now apply (I b f).
Qed.
Lemma apart : forall d1 d2 f o, comparable d1 d2 = false -> prefixb d1 f = true -> atDir d2 o ->
  setsFile o f = false /\ removes o f = false /\ makes o f = false.
Proof.
  intros d1 d2 f o C P A. destruct o as [p|p|p l|p l|]; cbn in *; repeat split; try reflexivity.
  - destruct (prefixb f p) eqn:E; [|reflexivity]. rewrite (both_prefix d1 d2 p) in C; [discriminate| |assumption]. eapply prefix_trans; eassumption.
  - destruct (prefixb p f) eqn:E; [|reflexivity]. rewrite (both_prefix d1 d2 f) in C; [discriminate|assumption|]. eapply prefix_trans; eassumption.
  - destruct (path_eq p f) as [->|]; [|reflexivity]. rewrite (both_prefix d1 d2 f) in C; [discriminate|assumption|assumption].
  - destruct (path_eq p f) as [->|]; [|reflexivity]. rewrite (both_prefix d1 d2 f) in C; [discriminate|assumption|assumption].
Qed.
Lemma kinds_apart : forall e c k1 k2, k1 <> k2 -> comparable (exportDir e c k1) (exportDir e c k2) = false.
Proof.
  intros e c k1 k2 N. unfold comparable, exportDir. rewrite !prefix_app. cbn.
  destruct (string_dec k1 k2); [contradiction|]. destruct (string_dec k2 k1); [congruence|reflexivity].
Qed.
Lemma dir_prefix : forall e c k l, prefixb (exportDir e c k) (exportDir e c k ++ l) = true.
Proof. intros. apply prefix_iff. now exists l. Qed.
Lemma content_skip : forall f l c, (forall o, In o l -> setsFile o f = false) -> content f c l = c.
Proof.
  induction l as [|o l I]; intros c H; [reflexivity|]. assert (Q := H o (or_introl eq_refl)).
  assert (T : content f c l = c) by (apply I; intros; apply H; now right).
  cbn [content]. destruct o as [p|p|p x|p x|]; try exact T; cbn in Q; destruct (path_eq p f); try discriminate; exact T.
Qed.

(** ** mapM *)
Lemma mapM_cons_ok : forall {A B} (g : A -> res B) a l os, mapM g (a :: l) = Ok os -> exists o os', g a = Ok o /\ mapM g l = Ok os' /\ os = o :: os'.
Proof.
  intros A B g a l os H. cbn in H. destruct (g a) as [o| |]; try discriminate. cbn in H. destruct (mapM g l) as [os'| |]; try discriminate.
  injection H as <-. now exists o, os'.
Qed.
Lemma mapM_app_ok : forall {A B} (g : A -> res B) l1 l2 os, mapM g (l1 ++ l2) = Ok os -> exists a b, mapM g l1 = Ok a /\ mapM g l2 = Ok b /\ os = a ++ b.
Proof.
  induction l1 as [|x l1 I]; intros l2 os H.
  - exists [], os. now split.
  - cbn [app] in H. destruct (mapM_cons_ok _ _ _ _ H) as (o & os' & G & M & ->). destruct (I _ _ M) as (a & b & M1 & M2 & ->).
    exists (o :: a), b. split; [|now split]. cbn. now rewrite G, M1.
Qed.
Lemma mapM_concat_in : forall {A B} (g : A -> res (list B)) l os x, mapM g l = Ok os -> In x (concat os) -> exists a o, In a l /\ g a = Ok o /\ In x o.
Proof.
  induction l as [|a l I]; intros os x H K.
  - injection H as <-. contradiction.
  - destruct (mapM_cons_ok _ _ _ _ H) as (o & os' & G & M & ->). cbn in K. apply in_app_or in K. destruct K as [K|K].
    + exists a, o. split; [now left|now split].
    + destruct (I _ _ M K) as (b & o' & Ib & Gb & Kb). exists b, o'. split; [now right|now split].
Qed.
Lemma mapM_seq_nth : forall {B} (g : nat -> res B) n k os d r, mapM g (seq k n) = Ok os -> r < n -> g (k + r) = Ok (nth r os d) /\ length os = n.
Proof.
  induction n as [|n I]; intros k os d r H R; [lia|]. cbn [seq] in H. destruct (mapM_cons_ok _ _ _ _ H) as (o & os' & G & M & ->).
  destruct r as [|r]; cbn [nth].
  - rewrite Nat.add_0_r. split; [assumption|]. destruct n; [injection M as <-; reflexivity|]. cbn [length]. f_equal. eapply (proj2 (I (S k) os' d 0 M ltac:(lia))).
  - destruct (I (S k) os' d r M ltac:(lia)) as [A L]. split; [|cbn; now rewrite L]. now rewrite <- Nat.add_succ_comm.
Qed.

(** ** When exports are due *)
Lemma due_iff : forall final c steps t d, due final (Z.of_nat c) steps t = Ok d -> (d = true <-> dueAt final steps c t).
Proof.
  intros final c steps t d H. unfold due in H. unfold dueAt. destruct (Rlt_dec _ _) as [L|L].
  - injection H as <-. split; [now left|reflexivity].
  - destruct (Z.eqb_spec steps 0); [discriminate|]. injection H as <-. rewrite Z.eqb_eq. split.
    + intro E. right. apply Z.rem_divide in E; [|assumption]. destruct E as [k E]. now exists k.
    + intros [K|[k K]]; [contradiction|]. apply Z.rem_divide; [assumption|]. now exists k.
Qed.
Lemma position_ok : forall p l, position p = Ok l -> l = LPos (nth 0 p 0%R) (nth 1 p 0%R) (nth 2 p 0%R).
Proof. intros p l H. destruct p as [|x [|y [|z [|u p]]]]; cbn in H; try discriminate; injection H as <-; reflexivity. Qed.

Ltac binds H := repeat match type of H with
  | bind ?m _ = Ok _ => let a := fresh "v" in let E := fresh "Q" in destruct m as [a| |] eqn:E; try discriminate H; cbn [bind] in H
  end.

(** ** What each part of a program does *)
Lemma renew_in : forall e r b more o, In o (renew e r b more) -> o = OBarrier \/ o = ORemove b \/ exists p, In p (b :: more) /\ o = OMkdirs p.
Proof.
  intros e r b more o H. unfold renew in H. apply in_app_or in H. destruct H as [H|[H|[]]]; [|now left].
  destruct (e_root e r); [|contradiction]. destruct H as [H|H]; [right; left; congruence|].
  apply in_map_iff in H. destruct H as (p & <- & I). right. right. now exists p.
Qed.
Lemma pointHead_in : forall e r p os o, pointHead e r p = Ok os -> In o os ->
  exists id l, pp_id p = Some id /\ pp_write p = true /\ pp_element p r <> (-2)%Z /\ o = OTrunc (pointFile e id) l.
Proof.
  intros e r p os o H K. unfold pointHead in H. destruct (pp_write p); [|injection H as <-; contradiction].
  destruct (Z.eqb_spec (pp_element p r) (-2)); [injection H as <-; contradiction|].
  unfold readId in H. destruct (pp_id p) as [id|]; [|discriminate]. cbn [bind] in H. binds H. injection H as <-. destruct K as [<-|[]].
  eexists _, _. repeat split; try reflexivity. assumption.
Qed.
Lemma fieldHead_in : forall e r p os o, fieldHead e r p = Ok os -> In o os ->
  exists id l, fp_id p = Some id /\ fp_write p = true /\ fp_element p r <> (-2)%Z /\ o = OTrunc (fieldFile e id) l.
Proof.
  intros e r p os o H K. unfold fieldHead in H. destruct (fp_write p); [|injection H as <-; contradiction].
  destruct (Z.eqb_spec (fp_element p r) (-2)); [injection H as <-; contradiction|].
  unfold readId in H. destruct (fp_id p) as [id|]; [|discriminate]. cbn [bind] in H. binds H. injection H as <-. destruct K as [<-|[]].
  eexists _, _. repeat split; try reflexivity. assumption.
Qed.

Section Fields.
Variable F : Type.
Variable getValue : F -> comp -> Z -> list R -> R.
Variable dofs : F -> comp -> list R.
Variable surf : F -> list Z -> comp -> list R.

Lemma pointUpdate_in : forall e r c t x p os o, pointUpdate F getValue e r c t x p = Ok os -> In o os ->
  exists id l, pp_id p = Some id /\ pp_write p = true /\ pp_element p r <> (-2)%Z /\ o = OAppend (pointFile e id) l.
Proof.
  intros e r c t x p os o H K. unfold pointUpdate in H. binds H. destruct v; [|injection H as <-; contradiction].
  destruct (Z.eqb_spec (pp_element p r) (-2)); [injection H as <-; contradiction|].
  destruct (pp_element p r <? 0)%Z; [discriminate|]. destruct (pp_write p); [|injection H as <-; contradiction].
  unfold readId in H. destruct (pp_id p) as [id|]; [|discriminate]. cbn [bind] in H. injection H as <-. destruct K as [<-|[]].
  eexists _, _. repeat split; try reflexivity. assumption.
Qed.
Lemma fieldUpdate_in : forall e r c t x p os o, fieldUpdate F getValue e r c t x p = Ok os -> In o os ->
  exists id l, fp_id p = Some id /\ fp_write p = true /\ fp_element p r <> (-2)%Z /\ o = OAppend (fieldFile e id) l.
Proof.
  intros e r c t x p os o H K. unfold fieldUpdate in H. binds H. destruct v; [|injection H as <-; contradiction].
  destruct (Z.eqb_spec (fp_element p r) (-2)); [injection H as <-; contradiction|].
  destruct (fp_element p r <? 0)%Z; [discriminate|]. destruct (fp_write p); [|injection H as <-; contradiction].
  unfold readId in H. destruct (fp_id p) as [id|]; [|discriminate]. cbn [bind] in H. injection H as <-. destruct K as [<-|[]].
  eexists _, _. repeat split; try reflexivity. assumption.
Qed.
Lemma nearUpdate_in : forall e r c t x p os o, nearUpdate F surf e r c t x p = Ok os -> In o os ->
  atDir (nearDir e (e_case e) (np_name p) r) o /\ o <> OBarrier /\ (forall b, o <> ORemove b).
Proof.
  intros e r c t x p os o H K. unfold nearUpdate in H. binds H. destruct v; [|injection H as <-; contradiction]. injection H as <-.
  assert (A : forall l, prefixb (nearDir e (e_case e) (np_name p) r) (nearSnapshot e (np_name p) r c ++ l) = true).
  { intro l. unfold nearSnapshot. rewrite <- app_assoc. apply prefix_iff. eexists. reflexivity. }
  cbn [app comps map In] in K.
  repeat (destruct K as [<-|K]; [split; [cbn [atDir]; try apply A; try (rewrite <- (app_nil_r (nearSnapshot _ _ _ _)); apply A); try (apply prefix_iff; eexists; reflexivity)|split; [discriminate|intro; discriminate]]|]).
  contradiction.
Qed.
Lemma snapUpdate_in : forall e r c t x p os o, snapUpdate F dofs e r c t x p = Ok os -> In o os -> atDir (snapDir e) o.
Proof.
  intros e r c t x p os o H K. unfold snapUpdate in H. binds H. destruct v; [|injection H as <-; contradiction]. injection H as <-.
  assert (A : forall l, prefixb (snapDir e) (snapDir e ++ l) = true) by (intro l; apply prefix_iff; now exists l).
  apply in_app_or in K. destruct K as [K|K].
  - destruct c; [|contradiction]. apply in_app_or in K. destruct K as [K|[<-|[<-|[]]]]; [|apply A|apply A].
    apply renew_in in K. destruct K as [->|[->|(q & I & ->)]]; cbn [atDir]; [exact I|apply prefix_refl|].
    destruct I as [<-|[<-|[]]]; [apply prefix_refl|apply A].
  - unfold snapFolder in K. cbn [app comps map In] in K.
    assert (A2 : forall l m, prefixb (snapDir e) ((snapDir e ++ l) ++ m) = true) by (intros l m; apply prefix_snoc, A).
    repeat (destruct K as [<-|K]; [cbn [atDir]; first [apply A2|apply A]|]). contradiction.
Qed.
Lemma surfUpdate_in : forall e r c t x p os o, surfUpdate F surf e r c t x p = Ok os -> In o os ->
  exists l, o = OAppend (surfDir e (sp_name p) r ++ ["surface_data.bin"]) l.
Proof.
  intros e r c t x p os o H K. unfold surfUpdate in H. binds H. destruct v; [|injection H as <-; contradiction]. injection H as <-.
  destruct K as [<-|[]]. eexists. reflexivity.
Qed.
Lemma morUpdate_in : forall e r t x n s o, In o (snd (morUpdate F dofs e r t x n s)) ->
  o = OBarrier \/ o = OMkdirs (morDir e n) \/ exists k q, In q (ms_out (updateMor F t x s)) /\ o = OTrunc (morFile e n k) (morLines F dofs (snd (fst q)) (snd q)).
Proof.
  intros e r t x n s o K. unfold morUpdate in K. cbn [snd] in K. apply in_app_or in K. destruct K as [K|K].
  - destruct (ms_ctx s); [contradiction|]. destruct (ms_ctx (updateMor F t x s)); [|contradiction].
    apply in_app_or in K. destruct K as [K|[K|[]]]; [|now left]. destruct (e_root e r); [|contradiction]. destruct K as [K|[]]. right. left. now symmetry.
  - apply in_map_iff in K. destruct K as (q & <- & I). right. right. exists (Z.to_nat (fst (fst q))), q. split; [|reflexivity].
    rewrite <- (firstn_skipn (length (ms_out s)) (ms_out (updateMor F t x s))). apply in_or_app. now right.
Qed.
Lemma morAll_in : forall e r t x l o, In o (snd (morAll F dofs e r t x l)) -> exists n s, In (n, s) l /\ In o (snd (morUpdate F dofs e r t x n s)).
Proof.
  induction l as [|[n s] l I]; intros o K; [contradiction|]. cbn [morAll] in K.
  destruct (morUpdate F dofs e r t x n s) as [s' o1] eqn:E. destruct (morAll F dofs e r t x l) as [l' o2] eqn:E2. cbn [snd] in K.
  apply in_app_or in K. destruct K as [K|K].
  - exists n, s. split; [now left|]. now rewrite E.
  - destruct (I o K) as (m & s0 & Im & Ko). exists m, s0. split; [now right|exact Ko].
Qed.
Lemma mor_at : forall e r t x l o, In o (snd (morAll F dofs e r t x l)) -> atDir (exportDir e (e_case e) "MORStateProbes") o /\ (forall b, o <> ORemove b).
Proof.
  intros e r t x l o K. apply morAll_in in K. destruct K as (n & s & _ & K). apply morUpdate_in in K.
  destruct K as [->|[->|(k & q & _ & ->)]]; (split; [cbn [atDir]; try exact I|intro; discriminate]).
  - apply dir_prefix.
  - unfold morFile, morDir. rewrite <- app_assoc. apply dir_prefix.
Qed.

(** The operations of one call, kind by kind. *)
Inductive parts (e : env) (r c : nat) (t : R) (x : F) (p : probes) (ms : list (string * mstate F)) (os : list op) : Prop :=
| parts_intro : forall a b n d s,
    mapM (fieldUpdate F getValue e r c t x) (pr_field p) = Ok a ->
    mapM (pointUpdate F getValue e r c t x) (pr_point p) = Ok b ->
    mapM (nearUpdate F surf e r c t x) (pr_near p) = Ok n ->
    mapM (snapUpdate F dofs e r c t x) (pr_snap p) = Ok d ->
    mapM (surfUpdate F surf e r c t x) (pr_surf p) = Ok s ->
    os = concat a ++ concat b ++ concat n ++ concat d ++ concat s ++ snd (morAll F dofs e r t x ms) -> parts e r c t x p ms os.
Lemma update_parts : forall e r p c call ms q, updateProbes F getValue dofs surf e r p c call ms = Ok q ->
  parts e r c (fst call) (snd call r) p ms (snd q) /\ fst q = fst (morAll F dofs e r (fst call) (snd call r) ms).
Proof.
  intros e r p c call ms q H. unfold updateProbes in H. binds H. destruct (morAll F dofs e r (fst call) (snd call r) ms) as [ms' g] eqn:E.
  injection H as <-. split; [|reflexivity]. econstructor; try eassumption. rewrite E. reflexivity.
Qed.

(** ** Point probes *)
Section Point.
Variable e : env.
Variable p0 : pointProbe.
Variable id : nat.
Variable w : nat.
Hypothesis Pid : pp_id p0 = Some id.
Hypothesis Pw : pp_write p0 = true.
Hypothesis Held : heldBy (e_ranks e) (pp_element p0) w.
Variable l1 l2 : list pointProbe.
Hypothesis Others : forall p, In p (l1 ++ l2) -> pp_write p = true -> pp_id p <> Some id.

Lemma file_inj : forall i, pointFile e i = pointFile e id -> i = id.
Proof.
  intros i H. unfold pointFile in H. apply app_inv_head in H. injection H as H. apply app_str_r in H. now apply to_string_inj.
Qed.
Lemma point_prefix : prefixb (exportDir e (e_case e) "PointProbes") (pointFile e id) = true.
Proof. apply dir_prefix. Qed.
Lemma element_w : pp_element p0 w <> (-2)%Z.
Proof. destruct Held as (_ & H & _). lia. Qed.

Lemma others_head : forall r p os o, In p (l1 ++ l2) -> pointHead e r p = Ok os -> In o os -> setsFile o (pointFile e id) = false.
Proof.
  intros r p os o I H K. destruct (pointHead_in _ _ _ _ _ H K) as (i & l & A & B & _ & ->). cbn [setsFile].
  destruct (path_eq (pointFile e i) (pointFile e id)) as [E|]; [|reflexivity]. exfalso. apply file_inj in E. subst i. now apply (Others p I B).
Qed.
Lemma others_update : forall r c t x p os o, In p (l1 ++ l2) -> pointUpdate F getValue e r c t x p = Ok os -> In o os -> setsFile o (pointFile e id) = false.
Proof.
  intros r c t x p os o I H K. destruct (pointUpdate_in _ _ _ _ _ _ _ _ H K) as (i & l & A & B & _ & ->). cbn [setsFile].
  destruct (path_eq (pointFile e i) (pointFile e id)) as [E|]; [|reflexivity]. exfalso. apply file_inj in E. subst i. now apply (Others p I B).
Qed.
(** No other rank writes the file. *)
Lemma other_rank_head : forall r p os o, r < e_ranks e -> r <> w -> In p (l1 ++ p0 :: l2) -> pointHead e r p = Ok os -> In o os -> setsFile o (pointFile e id) = false.
Proof.
  intros r p os o R N I H K. apply in_app_or in I. destruct I as [I|[<-|I]]; [eapply others_head; eauto; apply in_or_app; now left| |eapply others_head; eauto; apply in_or_app; now right].
  destruct (pointHead_in _ _ _ _ _ H K) as (i & l & _ & _ & E & _). exfalso. apply E. now apply Held.
Qed.
Lemma other_rank_update : forall r c t x p os o, r < e_ranks e -> r <> w -> In p (l1 ++ p0 :: l2) -> pointUpdate F getValue e r c t x p = Ok os -> In o os -> setsFile o (pointFile e id) = false.
Proof.
  intros r c t x p os o R N I H K. apply in_app_or in I. destruct I as [I|[<-|I]]; [eapply others_update; eauto; apply in_or_app; now left| |eapply others_update; eauto; apply in_or_app; now right].
  destruct (pointUpdate_in _ _ _ _ _ _ _ _ H K) as (i & l & _ & _ & E & _). exfalso. apply E. now apply Held.
Qed.
Lemma content_others : forall {g : pointProbe -> res (list op)} ls os c, mapM g ls = Ok os ->
  (forall p o os', In p ls -> g p = Ok os' -> In o os' -> setsFile o (pointFile e id) = false) -> content (pointFile e id) c (concat os) = c.
Proof.
  intros g ls os c H K. apply content_skip. intros o I. destruct (mapM_concat_in _ _ _ _ H I) as (a & os' & Ia & Ga & Io). eapply K; eauto.
Qed.
Lemma head_content : forall os c, mapM (pointHead e w) (l1 ++ p0 :: l2) = Ok os ->
  content (pointFile e id) c (concat os) = Some (heading "PointProbe" id (pp_point p0) ["Ex"; "Ey"; "Ez"; "Hx"; "Hy"; "Hz"]).
Proof.
  intros os c H. destruct (mapM_app_ok _ _ _ _ H) as (a & b & M1 & M2 & ->). destruct (mapM_cons_ok _ _ _ _ M2) as (o & b' & G & M3 & ->).
  rewrite concat_app. cbn [concat]. rewrite !content_app.
  rewrite (content_others l2 b' _ M3) by (intros p o0 os' I; apply others_head; apply in_or_app; now right).
  unfold pointHead in G. rewrite Pw, Pid in G. destruct (Z.eqb_spec (pp_element p0 w) (-2)); [now destruct element_w|].
  cbn [readId bind] in G. binds G. injection G as <-. apply position_ok in Q. subst v. cbn [content].
  destruct (path_eq (pointFile e id) (pointFile e id)); [reflexivity|congruence].
Qed.
Lemma update_content : forall c t x os old, mapM (pointUpdate F getValue e w c t x) (l1 ++ p0 :: l2) = Ok os ->
  exists d, due (e_final e) (Z.of_nat c) (pp_steps p0) t = Ok d /\
  content (pointFile e id) (Some old) (concat os) =
    Some (if d then old ++ [LRow (t / speedOfLight_SI) (map (fun k => getValue x k (pp_element p0 w) (pp_point p0)) comps)] else old).
Proof.
  intros c t x os old H. destruct (mapM_app_ok _ _ _ _ H) as (a & b & M1 & M2 & ->). destruct (mapM_cons_ok _ _ _ _ M2) as (o & b' & G & M3 & ->).
  rewrite concat_app. cbn [concat]. rewrite !content_app.
  rewrite (content_others l2 b' _ M3) by (intros p o0 os' I; apply others_update; apply in_or_app; now right).
  rewrite (content_others l1 a _ M1) by (intros p o0 os' I; apply others_update; apply in_or_app; now left).
  unfold pointUpdate in G. binds G. exists v. split; [reflexivity|]. destruct v; [|injection G as <-; reflexivity].
  rewrite Pw, Pid in G. destruct (Z.eqb_spec (pp_element p0 w) (-2)); [now destruct element_w|].
  destruct (pp_element p0 w <? 0)%Z; [discriminate|]. cbn [readId bind] in G. injection G as <-. cbn [content].
  destruct (path_eq (pointFile e id) (pointFile e id)); [reflexivity|congruence].
Qed.
(** No part of a later call but the point probes concerns the file. *)
Lemma foreign : forall r c t x p ms os, parts e r c t x p ms os -> forall o, In o os ->
  (exists b p', In p' (pr_point p) /\ pointUpdate F getValue e r c t x p' = Ok b /\ In o b) \/
  (setsFile o (pointFile e id) = false /\ removes o (pointFile e id) = false /\ makes o (pointFile e id) = false).
Proof.
  intros r c t x p ms os [a b n d s Ma Mb Mn Md Ms ->] o K.
  assert (Ap : forall k, k <> "PointProbes" -> atDir (exportDir e (e_case e) k) o -> setsFile o (pointFile e id) = false /\ removes o (pointFile e id) = false /\ makes o (pointFile e id) = false).
  { intros k Nk A. eapply apart; [|apply point_prefix|exact A]. apply kinds_apart. congruence. }
  repeat (apply in_app_or in K; destruct K as [K|K]).
  - destruct (mapM_concat_in _ _ _ _ Ma K) as (q & os & I & G & Io). destruct (fieldUpdate_in _ _ _ _ _ _ _ _ G Io) as (i & l & _ & _ & _ & ->).
    right. apply (Ap "FieldProbes"); [discriminate|]. apply dir_prefix.
  - destruct (mapM_concat_in _ _ _ _ Mb K) as (q & os & I & G & Io). left. now exists os, q.
  - destruct (mapM_concat_in _ _ _ _ Mn K) as (q & os & I & G & Io). destruct (nearUpdate_in _ _ _ _ _ _ _ _ G Io) as (A & _ & _).
    right. apply (Ap "NearToFarFieldProbes"); [discriminate|]. destruct o; cbn [atDir] in *; try exact A; eapply prefix_trans; try exact A; unfold nearDir; apply dir_prefix.
  - destruct (mapM_concat_in _ _ _ _ Md K) as (q & os & I & G & Io). right. apply (Ap "DomainSnapshotProbes"); [discriminate|]. eapply snapUpdate_in; eauto.
  - destruct (mapM_concat_in _ _ _ _ Ms K) as (q & os & I & G & Io). destruct (surfUpdate_in _ _ _ _ _ _ _ _ G Io) as (l & ->).
    right. apply (Ap "RCSSurface"); [discriminate|]. cbn [atDir]. unfold surfDir. rewrite <- app_assoc. apply dir_prefix.
  - right. apply (Ap "MORStateProbes"); [discriminate|]. apply (mor_at _ _ _ _ _ _ K).
Qed.
Lemma updates_foreign : forall r p calls c ms us, allUpdates F getValue dofs surf e r p c calls ms = Ok us -> forall o, In o us ->
  (exists b p' c' t x, In p' (pr_point p) /\ pointUpdate F getValue e r c' t x p' = Ok b /\ In o b) \/
  (setsFile o (pointFile e id) = false /\ removes o (pointFile e id) = false /\ makes o (pointFile e id) = false).
Proof.
  intros r p. induction calls as [|call calls I]; intros c ms us H o K.
  - injection H as <-. contradiction.
  - cbn [allUpdates] in H. binds H. injection H as <-. destruct (update_parts _ _ _ _ _ _ _ Q) as [P _]. apply in_app_or in K. destruct K as [K|K].
    + destruct (foreign _ _ _ _ _ _ _ P o K) as [(b & p' & A)|A]; [left; exists b, p', c, (fst call), (snd call r); exact A|now right].
    + now apply (I _ _ _ Q0).
Qed.
Lemma updates_content : forall p calls c ms us old, pr_point p = l1 ++ p0 :: l2 -> allUpdates F getValue dofs surf e w p c calls ms = Ok us ->
  exists rows, rowsOf (e_final e) (pp_steps p0)
      (fun t (x : nat -> F) => [LRow (t / speedOfLight_SI) (map (fun k => getValue (x w) k (pp_element p0 w) (pp_point p0)) comps)]) c calls rows /\
    content (pointFile e id) (Some old) us = Some (old ++ rows).
Proof.
  intros p calls. induction calls as [|call calls I]; intros c ms us old Sp H.
  - injection H as <-. exists []. split; [constructor|]. cbn. now rewrite app_nil_r.
  - cbn [allUpdates] in H. binds H. injection H as <-. destruct (update_parts _ _ _ _ _ _ _ Q) as [P _].
    destruct call as [t x]. cbn [fst snd] in P.
    assert (C : exists d, due (e_final e) (Z.of_nat c) (pp_steps p0) t = Ok d /\
       content (pointFile e id) (Some old) (snd v) = Some (if d then old ++ [LRow (t / speedOfLight_SI) (map (fun k => getValue (x w) k (pp_element p0 w) (pp_point p0)) comps)] else old)).
    { assert (Fo := foreign _ _ _ _ _ _ _ P). destruct P as [a b n d s Ma Mb Mn Md Ms E]. rewrite Sp in Mb.
      destruct (update_content _ _ _ _ old Mb) as (dd & D & C). exists dd. split; [exact D|].
      rewrite E. rewrite content_app. rewrite (content_skip _ (concat a)), content_app, C.
      - apply content_skip. intros o Io. rewrite E in Fo. clear -Fo Io Mn Md Ms Sp.
        assert (Ap : forall k, k <> "PointProbes" -> atDir (exportDir e (e_case e) k) o -> setsFile o (pointFile e id) = false).
        { intros k Nk A. eapply apart; [|apply point_prefix|exact A]. apply kinds_apart. congruence. }
        repeat (apply in_app_or in Io; destruct Io as [Io|Io]).
        + destruct (mapM_concat_in _ _ _ _ Mn Io) as (q & os & I & G & Iq). destruct (nearUpdate_in _ _ _ _ _ _ _ _ G Iq) as (A & _ & _).
          apply (Ap "NearToFarFieldProbes"); [discriminate|]. destruct o; cbn [atDir] in *; try exact A; eapply prefix_trans; try exact A; unfold nearDir; apply dir_prefix.
        + destruct (mapM_concat_in _ _ _ _ Md Io) as (q & os & I & G & Iq). apply (Ap "DomainSnapshotProbes"); [discriminate|]. eapply snapUpdate_in; eauto.
        + destruct (mapM_concat_in _ _ _ _ Ms Io) as (q & os & I & G & Iq). destruct (surfUpdate_in _ _ _ _ _ _ _ _ G Iq) as (l & ->).
          apply (Ap "RCSSurface"); [discriminate|]. cbn [atDir]. unfold surfDir. rewrite <- app_assoc. apply dir_prefix.
        + apply (Ap "MORStateProbes"); [discriminate|]. apply (mor_at _ _ _ _ _ _ Io).
      - intros o Io. destruct (mapM_concat_in _ _ _ _ Ma Io) as (q & os & Iq & G & Io'). destruct (fieldUpdate_in _ _ _ _ _ _ _ _ G Io') as (i & l & _ & _ & _ & ->).
        eapply apart; [|apply point_prefix|]; [apply kinds_apart with (k2 := "FieldProbes"); discriminate|]. apply dir_prefix. }
    destruct C as (d & D & C). rewrite content_app, C. apply due_iff in D.
    match goal with |- context [content _ (Some ?o) v0] => destruct (I (S c) _ _ o Sp Q0) as (rows & Rw & Ct) end.
    destruct d.
    + eexists. split; [apply rows_due; [now apply D|exact Rw]|]. rewrite Ct. now rewrite <- app_assoc.
    + eexists. split; [apply rows_skip; [intro X; apply D in X; discriminate|exact Rw]|]. exact Ct.
Qed.
End Point.
End Fields.

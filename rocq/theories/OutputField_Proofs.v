(** The files of field probes after every schedule. *)
From Coq Require Import String ZArith List Bool Lia Arith Reals Lra.
From Verif Require Import Common Probe_Model Input_Proofs Output_Model Output_Spec Output_Proofs OutputRun_Proofs OutputPoint_Proofs.
Import ListNotations.
Local Open Scope string_scope.
Local Open Scope list_scope.
Local Open Scope nat_scope.

Section Fields.
Variable F : Type.
Variable getValue : F -> comp -> Z -> list R -> R.
Variable dofs : F -> comp -> list R.
Variable surf : F -> list Z -> comp -> list R.

(** ** Field probes *)
Section Field.
Variable e : env.
Variable p0 : fieldProbe.
Variable id : nat.
Variable w : nat.
Hypothesis Pid : fp_id p0 = Some id.
Hypothesis Pw : fp_write p0 = true.
Hypothesis Held : heldBy (e_ranks e) (fp_element p0) w.
Variable l1 l2 : list fieldProbe.
Hypothesis Others : forall p, In p (l1 ++ l2) -> fp_write p = true -> fp_id p <> Some id.

Lemma file_inj : forall i, fieldFile e i = fieldFile e id -> i = id.
Proof.
  intros i H. unfold fieldFile in H. apply app_inv_head in H. injection H as H. apply app_str_r in H. now apply to_string_inj.
Qed.
Lemma field_prefix : prefixb (exportDir e (e_case e) "FieldProbes") (fieldFile e id) = true.
Proof. apply dir_prefix. Qed.
Lemma element_w : fp_element p0 w <> (-2)%Z.
Proof. destruct Held as (_ & H & _). lia. Qed.

Lemma others_head : forall r p os o, In p (l1 ++ l2) -> fieldHead e r p = Ok os -> In o os -> setsFile o (fieldFile e id) = false.
Proof.
  intros r p os o I H K. destruct (fieldHead_in _ _ _ _ _ H K) as (i & l & A & B & _ & ->). cbn [setsFile].
  destruct (path_eq (fieldFile e i) (fieldFile e id)) as [E|]; [|reflexivity]. exfalso. apply file_inj in E. subst i. now apply (Others p I B).
Qed.
Lemma others_update : forall r c t x p os o, In p (l1 ++ l2) -> fieldUpdate F getValue e r c t x p = Ok os -> In o os -> setsFile o (fieldFile e id) = false.
Proof.
  intros r c t x p os o I H K. destruct (fieldUpdate_in F getValue _ _ _ _ _ _ _ _ H K) as (i & l & A & B & _ & ->). cbn [setsFile].
  destruct (path_eq (fieldFile e i) (fieldFile e id)) as [E|]; [|reflexivity]. exfalso. apply file_inj in E. subst i. now apply (Others p I B).
Qed.
(** No other rank writes the file. *)
Lemma other_rank_head : forall r p os o, r < e_ranks e -> r <> w -> In p (l1 ++ p0 :: l2) -> fieldHead e r p = Ok os -> In o os -> setsFile o (fieldFile e id) = false.
Proof.
  intros r p os o R N I H K. apply in_app_or in I. destruct I as [I|[<-|I]]; [eapply others_head; eauto; apply in_or_app; now left| |eapply others_head; eauto; apply in_or_app; now right].
  destruct (fieldHead_in _ _ _ _ _ H K) as (i & l & _ & _ & E & _). exfalso. apply E. now apply Held.
Qed.
Lemma other_rank_update : forall r c t x p os o, r < e_ranks e -> r <> w -> In p (l1 ++ p0 :: l2) -> fieldUpdate F getValue e r c t x p = Ok os -> In o os -> setsFile o (fieldFile e id) = false.
Proof.
  intros r c t x p os o R N I H K. apply in_app_or in I. destruct I as [I|[<-|I]]; [eapply others_update; eauto; apply in_or_app; now left| |eapply others_update; eauto; apply in_or_app; now right].
  destruct (fieldUpdate_in F getValue _ _ _ _ _ _ _ _ H K) as (i & l & _ & _ & E & _). exfalso. apply E. now apply Held.
Qed.
Lemma content_others : forall {g : fieldProbe -> res (list op)} ls os c, mapM g ls = Ok os ->
  (forall p o os', In p ls -> g p = Ok os' -> In o os' -> setsFile o (fieldFile e id) = false) -> content (fieldFile e id) c (concat os) = c.
Proof.
  intros g ls os c H K. apply content_skip. intros o I. destruct (mapM_concat_in _ _ _ _ H I) as (a & os' & Ia & Ga & Io). eapply K; eauto.
Qed.
Lemma head_content : forall os c, mapM (fieldHead e w) (l1 ++ p0 :: l2) = Ok os ->
  content (fieldFile e id) c (concat os) = Some (heading "FieldProbe" id (fp_point p0) [polString (fp_comp p0)]).
Proof.
  intros os c H. destruct (mapM_app_ok _ _ _ _ H) as (a & b & M1 & M2 & ->). destruct (mapM_cons_ok _ _ _ _ M2) as (o & b' & G & M3 & ->).
  rewrite concat_app. cbn [concat]. rewrite !content_app.
  rewrite (content_others l2 b' _ M3) by (intros p o0 os' I; apply others_head; apply in_or_app; now right).
  unfold fieldHead in G. rewrite Pw, Pid in G. destruct (Z.eqb_spec (fp_element p0 w) (-2)); [now destruct element_w|].
  cbn [readId bind] in G. binds G. injection G as <-. apply position_ok in Q. subst v. cbn [content].
  destruct (path_eq (fieldFile e id) (fieldFile e id)); [reflexivity|congruence].
Qed.
Lemma update_content : forall c t x os old, mapM (fieldUpdate F getValue e w c t x) (l1 ++ p0 :: l2) = Ok os ->
  exists d, due (e_final e) (Z.of_nat c) (fp_steps p0) t = Ok d /\
  content (fieldFile e id) (Some old) (concat os) =
    Some (if d then old ++ [LRow (t / speedOfLight_SI) [getValue x (fp_comp p0) (fp_element p0 w) (fp_point p0)]] else old).
Proof.
  intros c t x os old H. destruct (mapM_app_ok _ _ _ _ H) as (a & b & M1 & M2 & ->). destruct (mapM_cons_ok _ _ _ _ M2) as (o & b' & G & M3 & ->).
  rewrite concat_app. cbn [concat]. rewrite !content_app.
  rewrite (content_others l2 b' _ M3) by (intros p o0 os' I; apply others_update; apply in_or_app; now right).
  rewrite (content_others l1 a _ M1) by (intros p o0 os' I; apply others_update; apply in_or_app; now left).
  unfold fieldUpdate in G. binds G. exists v. split; [reflexivity|]. destruct v; [|injection G as <-; reflexivity].
  rewrite Pw, Pid in G. destruct (Z.eqb_spec (fp_element p0 w) (-2)); [now destruct element_w|].
  destruct (fp_element p0 w <? 0)%Z; [discriminate|]. cbn [readId bind] in G. injection G as <-. cbn [content].
  destruct (path_eq (fieldFile e id) (fieldFile e id)); [reflexivity|congruence].
Qed.
(** No part of a later call but the point probes concerns the file. *)
Lemma foreign : forall r c t x p ms os, parts F getValue dofs surf e r c t x p ms os -> forall o, In o os ->
  (exists b p', In p' (pr_field p) /\ fieldUpdate F getValue e r c t x p' = Ok b /\ In o b) \/
  (setsFile o (fieldFile e id) = false /\ removes o (fieldFile e id) = false /\ makes o (fieldFile e id) = false).
Proof.
  intros r c t x p ms os [a b n d s Ma Mb Mn Md Ms ->] o K.
  assert (Ap : forall k, k <> "FieldProbes" -> atDir (exportDir e (e_case e) k) o -> setsFile o (fieldFile e id) = false /\ removes o (fieldFile e id) = false /\ makes o (fieldFile e id) = false).
  { intros k Nk A. eapply apart; [|apply field_prefix|exact A]. apply kinds_apart. congruence. }
  repeat (apply in_app_or in K; destruct K as [K|K]).
  - destruct (mapM_concat_in _ _ _ _ Ma K) as (q & os & I & G & Io). left. now exists os, q.
  - destruct (mapM_concat_in _ _ _ _ Mb K) as (q & os & I & G & Io). destruct (pointUpdate_in F getValue _ _ _ _ _ _ _ _ G Io) as (i & l & _ & _ & _ & ->).
    right. apply (Ap "PointProbes"); [discriminate|]. apply dir_prefix.
  - destruct (mapM_concat_in _ _ _ _ Mn K) as (q & os & I & G & Io). destruct (nearUpdate_in F surf _ _ _ _ _ _ _ _ G Io) as (A & _ & _).
    right. apply (Ap "NearToFarFieldProbes"); [discriminate|]. destruct o; cbn [atDir] in *; try exact A; eapply prefix_trans; try exact A; unfold nearDir; apply dir_prefix.
  - destruct (mapM_concat_in _ _ _ _ Md K) as (q & os & I & G & Io). right. apply (Ap "DomainSnapshotProbes"); [discriminate|]. eapply snapUpdate_in; eauto.
  - destruct (mapM_concat_in _ _ _ _ Ms K) as (q & os & I & G & Io). destruct (surfUpdate_in F surf _ _ _ _ _ _ _ _ G Io) as (l & ->).
    right. apply (Ap "RCSSurface"); [discriminate|]. cbn [atDir]. unfold surfDir. rewrite <- app_assoc. apply dir_prefix.
  - right. apply (Ap "MORStateProbes"); [discriminate|]. apply (mor_at F dofs _ _ _ _ _ _ K).
Qed.
Lemma updates_foreign : forall r p calls c ms us, allUpdates F getValue dofs surf e r p c calls ms = Ok us -> forall o, In o us ->
  (exists b p' c' t x, In p' (pr_field p) /\ fieldUpdate F getValue e r c' t x p' = Ok b /\ In o b) \/
  (setsFile o (fieldFile e id) = false /\ removes o (fieldFile e id) = false /\ makes o (fieldFile e id) = false).
Proof.
  intros r p. induction calls as [|call calls I]; intros c ms us H o K.
  - injection H as <-. contradiction.
  - cbn [allUpdates] in H. binds H. injection H as <-. destruct (update_parts F getValue dofs surf _ _ _ _ _ _ _ Q) as [P _]. apply in_app_or in K. destruct K as [K|K].
    + destruct (foreign _ _ _ _ _ _ _ P o K) as [(b & p' & A)|A]; [left; exists b, p', c, (fst call), (snd call r); exact A|now right].
    + now apply (I _ _ _ Q0).
Qed.
Lemma updates_content : forall p calls c ms us old, pr_field p = l1 ++ p0 :: l2 -> allUpdates F getValue dofs surf e w p c calls ms = Ok us ->
  exists rows, rowsOf (e_final e) (fp_steps p0)
      (fun t (x : nat -> F) => [LRow (t / speedOfLight_SI) [getValue (x w) (fp_comp p0) (fp_element p0 w) (fp_point p0)]]) c calls rows /\
    content (fieldFile e id) (Some old) us = Some (old ++ rows).
Proof.
  intros p calls. induction calls as [|call calls I]; intros c ms us old Sp H.
  - injection H as <-. exists []. split; [constructor|]. cbn. now rewrite app_nil_r.
  - cbn [allUpdates] in H. binds H. injection H as <-. destruct (update_parts F getValue dofs surf _ _ _ _ _ _ _ Q) as [P _].
    destruct call as [t x]. cbn [fst snd] in P.
    assert (C : exists d, due (e_final e) (Z.of_nat c) (fp_steps p0) t = Ok d /\
       content (fieldFile e id) (Some old) (snd v) = Some (if d then old ++ [LRow (t / speedOfLight_SI) [getValue (x w) (fp_comp p0) (fp_element p0 w) (fp_point p0)]] else old)).
    { assert (Fo := foreign _ _ _ _ _ _ _ P). destruct P as [a b n d s Ma Mb Mn Md Ms E]. rewrite Sp in Ma.
      destruct (update_content _ _ _ _ old Ma) as (dd & D & C). exists dd. split; [exact D|].
      rewrite E. rewrite content_app, C.
      apply content_skip. intros o Io. rewrite E in Fo. clear -Fo Io Mb Mn Md Ms Sp.
        assert (Ap : forall k, k <> "FieldProbes" -> atDir (exportDir e (e_case e) k) o -> setsFile o (fieldFile e id) = false).
        { intros k Nk A. eapply apart; [|apply field_prefix|exact A]. apply kinds_apart. congruence. }
        repeat (apply in_app_or in Io; destruct Io as [Io|Io]).
        + destruct (mapM_concat_in _ _ _ _ Mb Io) as (q & os & I & G & Iq). destruct (pointUpdate_in F getValue _ _ _ _ _ _ _ _ G Iq) as (i & l & _ & _ & _ & ->).
          apply (Ap "PointProbes"); [discriminate|]. apply dir_prefix.
        + destruct (mapM_concat_in _ _ _ _ Mn Io) as (q & os & I & G & Iq). destruct (nearUpdate_in F surf _ _ _ _ _ _ _ _ G Iq) as (A & _ & _).
          apply (Ap "NearToFarFieldProbes"); [discriminate|]. destruct o; cbn [atDir] in *; try exact A; eapply prefix_trans; try exact A; unfold nearDir; apply dir_prefix.
        + destruct (mapM_concat_in _ _ _ _ Md Io) as (q & os & I & G & Iq). apply (Ap "DomainSnapshotProbes"); [discriminate|]. eapply snapUpdate_in; eauto.
        + destruct (mapM_concat_in _ _ _ _ Ms Io) as (q & os & I & G & Iq). destruct (surfUpdate_in F surf _ _ _ _ _ _ _ _ G Iq) as (l & ->).
          apply (Ap "RCSSurface"); [discriminate|]. cbn [atDir]. unfold surfDir. rewrite <- app_assoc. apply dir_prefix.
        + apply (Ap "MORStateProbes"); [discriminate|]. apply (mor_at F dofs _ _ _ _ _ _ Io). }
    destruct C as (d & D & C). rewrite content_app, C. apply due_iff in D.
    match goal with |- context [content _ (Some ?o) v0] => destruct (I (S c) _ _ o Sp Q0) as (rows & Rw & Ct) end.
    destruct d.
    + eexists. split; [apply rows_due; [now apply D|exact Rw]|]. rewrite Ct. now rewrite <- app_assoc.
    + eexists. split; [apply rows_skip; [intro X; apply D in X; discriminate|exact Rw]|]. exact Ct.
Qed.
End Field.
Lemma field_init : forall e r p i, initPointField e r p = Ok i -> pr_field p <> [] ->
  exists h b, mapM (fieldHead e r) (pr_field p) = Ok h /\ i = b ++ renew e r (exportDir e (e_case e) "FieldProbes") [] ++ concat h /\
    (forall o, In o b -> atDir (exportDir e (e_case e) "PointProbes") o) /\ bars b = match pr_point p with [] => 0 | _ => 1 end.
Proof.
  intros e r p i H N. unfold initPointField in H. destruct (pr_field p) as [|p1 ps] eqn:Ep; [congruence|]. binds H. injection H as <-. binds Q0. injection Q0 as <-.
  exists v1, v. split; [reflexivity|]. split; [reflexivity|].
  destruct (pr_point p) as [|f1 fs]; [injection Q as <-; split; [contradiction|reflexivity]|]. binds Q. injection Q as <-. split.
  - intros o I. apply in_app_or in I. destruct I as [I|I].
    + apply renew_in in I. destruct I as [->|[->|(q & [<-|[]] & ->)]]; cbn [atDir]; try apply prefix_refl. exact Logic.I.
    + destruct (mapM_concat_in _ _ _ _ Q0 I) as (q & os & Iq & G & Io). destruct (pointHead_in _ _ _ _ _ G Io) as (j & l & _ & _ & _ & ->). apply dir_prefix.
  - rewrite bars_app. rewrite (bars_in (concat v0)).
    + pose proof (proj2 (renew_closed e r [] (exportDir e (e_case e) "PointProbes") [])) as X. cbn [app] in X. rewrite X. reflexivity.
    + intros o I. destruct (mapM_concat_in _ _ _ _ Q0 I) as (q & os & Iq & G & Io). destruct (pointHead_in _ _ _ _ _ G Io) as (j & l & _ & _ & _ & ->). discriminate.
Qed.
Lemma point_apart_field : forall e o a, atDir (exportDir e (e_case e) "PointProbes") o ->
  setsFile o (exportDir e (e_case e) "FieldProbes" ++ a) = false /\ removes o (exportDir e (e_case e) "FieldProbes" ++ a) = false /\ makes o (exportDir e (e_case e) "FieldProbes" ++ a) = false.
Proof. intros e o a A. eapply apart; [|apply dir_prefix|exact A]. apply kinds_apart. discriminate. Qed.

Theorem field_file : forall e p calls s s' p0 id w, writes F getValue dofs surf e p calls s s' -> someRoot e ->
  In p0 (pr_field p) -> fp_write p0 = true -> fp_id p0 = Some id -> heldBy (e_ranks e) (fp_element p0) w ->
  NoDup (map fp_id (filter fp_write (pr_field p))) ->
  exists rows, rowsOf (e_final e) (fp_steps p0)
      (fun t (x : nat -> F) => [LRow (t / speedOfLight_SI) [getValue (x w) (fp_comp p0) (fp_element p0 w) (fp_point p0)]]) 0 calls rows /\
    s' (fieldFile e id) = Some (File (heading "FieldProbe" id (fp_point p0) [polString (fp_comp p0)] ++ rows)).
Proof.
  intros e p calls s s' p0 id w Wr Root Ip Pw Pid Held ND. destruct (writes_fin _ _ _ _ _ _ _ _ _ Wr) as (t & H & Pt).
  destruct (in_split _ _ Ip) as (l1 & l2 & Sp).
  assert (Others : forall q, In q (l1 ++ l2) -> fp_write q = true -> fp_id q <> Some id).
  { intros q Iq Wq E. rewrite Sp, filter_app in ND. cbn [filter] in ND. rewrite Pw in ND. rewrite map_app in ND. cbn [map] in ND.
    apply NoDup_remove_2 in ND. apply ND. rewrite Pid, <- E. apply in_app_or in Iq. apply in_or_app.
    destruct Iq as [Iq|Iq]; [left|right]; apply in_map; apply filter_In; now split. }
  set (b := exportDir e (e_case e) "FieldProbes").
  assert (Np : pr_field p <> []) by (rewrite Sp; now destruct l1).
  destruct (fin_phase _ _ _ _ (length (pr_near p) + match pr_point p with [] => 0 | _ => 1 end + 1) (fun r a q =>
     (exists c, a = (early e p r ++ c) ++ renew e r b [] /\ (forall o, In o c -> atDir (exportDir e (e_case e) "PointProbes") o)) /\
     exists h u, mapM (fieldHead e r) (l1 ++ p0 :: l2) = Ok h /\
     allUpdates F getValue dofs surf e r p 0 calls (map (fun m => (mp_name m, mkMstate (mp_window m) None [])) (pr_mor p)) = Ok u /\
     q = concat h ++ u) H) as (A & B & s1 & F1 & F2 & AB).
  { intros r R. destruct (program_parts _ _ _ _ _ _ _ _ _ (Pt r R)) as (i & u & Ei & Eu & Et). destruct (field_init _ _ _ _ Ei Np) as (h & c & Mh & -> & Cc & Bc).
    exists ((early e p r ++ c) ++ renew e r b []), (concat h ++ u). split; [rewrite Et; unfold b; now rewrite <- !app_assoc|].
    destruct (renew_closed e r (early e p r ++ c) b []) as [X Y]. split; [exact X|]. split; [now rewrite Y, bars_app, early_bars, Bc|].
    split; [exists c; now split|]. exists h, u. rewrite <- Sp. repeat split; auto. }
  assert (Ds := fun r R => proj2 (AB r R)).
  destruct (renewed (e_ranks e) e s A s1 "FieldProbes" [("FieldProbe" ++ to_string id ++ ".dat")%string] []) as [D N]; auto.
  { intros r R. destruct (AB r R) as [(c & E & Cc) _]. exists (early e p r ++ c). split; [exact E|]. intros o I. apply in_app_or in I. destruct I as [I|I].
    - split; [eapply early_removes; eauto|]. eapply (early_files e p r o "FieldProbes"); eauto; discriminate.
    - destruct (point_apart_field e o [("FieldProbe" ++ to_string id ++ ".dat")%string] (Cc o I)) as (X & _ & Z).
      destruct (point_apart_field e o [] (Cc o I)) as (_ & Y & _). rewrite app_nil_r in Y. auto. }
  { discriminate. } { intros m []. }
  assert (Wn : w < e_ranks e) by apply Held.
  destruct (Ds w Wn) as (h & u & Mh & Eu & EB).
  destruct (updates_content e p0 id w Pid Pw Held l1 l2 Others p calls 0 _ u (heading "FieldProbe" id (fp_point p0) [polString (fp_comp p0)]) Sp Eu) as (rows & Rw & Ct).
  exists rows. split; [exact Rw|].
  rewrite (fin_single _ _ _ _ F2 (fieldFile e id) w None true).
  - rewrite EB, !content_app. rewrite (head_content e p0 id w Pid Pw Held l1 l2 Others h None Mh). now rewrite Ct.
  - unfold fieldFile. now destruct (exportDir e (e_case e) "FieldProbes").
  - exact Wn.
  - exact N.
  - intros _. unfold fieldFile. rewrite removelast_last. exact D.
  - apply ready_true.
  - intros r o R I. destruct (Ds r R) as (h' & u' & Mh' & Eu' & EB'). rewrite EB' in I. apply in_app_or in I. destruct I as [I|I].
    + destruct (mapM_concat_in _ _ _ _ Mh' I) as (q & os & Iq & G & Io). destruct (fieldHead_in _ _ _ _ _ G Io) as (j & l & _ & _ & _ & E).
      split; [now rewrite E|]. split; [now rewrite E|]. intro NW. eapply (other_rank_head e p0 id w Held l1 l2 Others); eauto.
    + destruct (updates_foreign e id r p calls 0 _ u' Eu' o I) as [(q & p' & c0 & t0 & x0 & Ip' & G & Io)|(X & Y & Z)]; [|auto].
      destruct (fieldUpdate_in F getValue _ _ _ _ _ _ _ _ G Io) as (j & l & _ & _ & _ & E).
      split; [now rewrite E|]. split; [now rewrite E|]. intro NW. rewrite Sp in Ip'. eapply (other_rank_update e p0 id w Held l1 l2 Others); eauto.
Qed.
End Fields.

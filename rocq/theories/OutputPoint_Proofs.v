(** The files of point probes after every schedule: the whole run. *)
From Coq Require Import String ZArith List Bool Lia Arith Reals Lra.
From Verif Require Import Common Probe_Model Input_Proofs Output_Model Output_Spec Output_Proofs OutputRun_Proofs.
Import ListNotations.
Local Open Scope string_scope.
Local Open Scope list_scope.
Local Open Scope nat_scope.

(** ** The part before the probe tables *)
Definition early (e : env) (p : probes) (r : nat) : list op :=
  concat (map (nearInit e r) (pr_near p)) ++ concat (map (surfInit e r) (pr_surf p)).
Lemma early_in : forall e p r o, In o (early e p r) ->
  o = OBarrier \/
  (exists q, In q (pr_near p) /\ (o = OMkdirs (exportDir e [] "NearToFarFieldProbes" ++ [np_name q]) \/ o = OMkdirs (nearDir e [] (np_name q) r))) \/
  (exists q, In q (pr_surf p) /\ In o (surfInit e r q)).
Proof.
  intros e p r o H. apply in_app_or in H. destruct H as [H|H]; apply in_concat in H; destruct H as (l & L & H); apply in_map_iff in L; destruct L as (q & <- & Q).
  - unfold nearInit in H. apply in_app_or in H. destruct H as [H|[H|[H|[]]]].
    + destruct (e_root e r); [|contradiction]. destruct H as [H|[]]. right. left. exists q. split; [assumption|left; now symmetry].
    + left. now symmetry.
    + right. left. exists q. split; [assumption|right; now symmetry].
  - right. right. now exists q.
Qed.
Lemma surfInit_at : forall e r q o, In o (surfInit e r q) -> atDir (exportDir e (e_case e) "RCSSurface") o /\ o <> OBarrier /\ (forall b, o <> ORemove b).
Proof.
  intros e r q o H. unfold surfInit in H. unfold surfDir in H.
  repeat (destruct H as [<-|H]; [split; [cbn [atDir]; first [apply dir_prefix|apply prefix_snoc, dir_prefix]|split; [discriminate|intro; discriminate]]|]). contradiction.
Qed.
Lemma early_bars : forall e p r, bars (early e p r) = length (pr_near p).
Proof.
  intros e p r. unfold early. rewrite bars_app. replace (bars (concat (map (surfInit e r) (pr_surf p)))) with 0.
  - induction (pr_near p) as [|q l I]; [reflexivity|]. cbn [map concat]. rewrite bars_app. cbn [length]. rewrite Nat.add_0_r in *.
    rewrite I. unfold nearInit. destruct (e_root e r); cbn; lia.
  - symmetry. apply bars_in. intros o H. apply in_concat in H. destruct H as (l & L & H). apply in_map_iff in L. destruct L as (q & <- & _). now apply (surfInit_at e r q).
Qed.
Lemma early_removes : forall e p r o f, In o (early e p r) -> removes o f = false.
Proof.
  intros e p r o f H. apply early_in in H. destruct H as [->|[(q & _ & [->| ->])|(q & _ & H)]]; try reflexivity.
  destruct (surfInit_at _ _ _ _ H) as (_ & _ & N). destruct o; try reflexivity. now destruct (N p0).
Qed.
(** No file or directory of another kind is touched by the early part, if its name is not that of a rank directory. *)
Lemma early_files : forall e p r o k a, k <> "RCSSurface" -> k <> "NearToFarFieldProbes" -> (forall i, a <> "rank" ++ to_string i)%string ->
  In o (early e p r) -> setsFile o (exportDir e (e_case e) k ++ [a]) = false /\ makes o (exportDir e (e_case e) k ++ [a]) = false.
Proof.
  intros e p r o k a Nk Nn Na H. apply early_in in H. destruct H as [->|[(q & _ & H)|(q & _ & H)]].
  - now split.
  - assert (L : exists b c, o = OMkdirs (exportDir e [] "NearToFarFieldProbes" ++ b :: c) /\ (c = [] \/ c = [("rank" ++ to_string r)%string])).
    { destruct H as [->| ->]; [exists (np_name q), []|exists (np_name q), [("rank" ++ to_string r)%string]]; split; auto. }
    destruct L as (b & c & -> & C). split; [reflexivity|]. cbn [makes].
    destruct (prefixb (exportDir e (e_case e) k ++ [a]) (exportDir e [] "NearToFarFieldProbes" ++ b :: c)) eqn:P; [|reflexivity].
    exfalso. apply prefix_iff in P. destruct P as [z P]. unfold exportDir in P. rewrite <- !app_assoc in P. cbn [app] in P. injection P as P.
    destruct (e_case e) as [|c0 [|c1 cs]]; cbn [app] in P.
    + injection P as P. congruence.
    + injection P as P1 P2 P3. destruct C as [->| ->]; [discriminate|]. injection P3 as P3 _. now apply (Na r).
    + apply (f_equal (@length string)) in P. cbn [length] in P. rewrite app_length in P. cbn [length] in P. destruct C as [->| ->]; cbn [length] in P; lia.
  - destruct (surfInit_at _ _ _ _ H) as (A & _ & _).
    destruct (apart (exportDir e (e_case e) k) (exportDir e (e_case e) "RCSSurface") (exportDir e (e_case e) k ++ [a]) o) as (X & _ & Y); auto.
    + now apply kinds_apart.
    + apply dir_prefix.
Qed.

(** [base] removed and made by every first rank of a node: at the barrier it is an empty directory. *)
Lemma renewed : forall n e s (A : nat -> list op) s1 k a more,
  (exists r, r < n /\ e_root e r = true) ->
  (forall r, r < n -> exists pre, A r = pre ++ renew e r (exportDir e (e_case e) k) more /\
     forall o, In o pre -> removes o (exportDir e (e_case e) k) = false /\
       setsFile o (exportDir e (e_case e) k ++ a) = false /\ makes o (exportDir e (e_case e) k ++ a) = false) ->
  a <> [] -> (forall m, In m more -> prefixb (exportDir e (e_case e) k ++ a) m = false) -> 
  fin n s A s1 -> isDir s1 (exportDir e (e_case e) k) = true /\ s1 (exportDir e (e_case e) k ++ a) = None.
Proof.
  intros n e s A s1 k a more (r0 & R0 & Root) EA Na Nm H. set (b := exportDir e (e_case e) k) in *. clearbody b. split.
  - apply (fin_made _ _ _ _ H).
    + intros r R. destruct (EA r R) as (pre & -> & W). rewrite guarded_app by (intros o I; now apply W). unfold renew. destruct (e_root e r); [|reflexivity].
      cbn. rewrite prefix_refl. cbn. assert (G : forall l, guarded b (map OMkdirs l ++ [OBarrier]) = true) by (induction l; [reflexivity|cbn; assumption]). apply G.
    + right. exists r0. split; [assumption|]. destruct (EA r0 R0) as (pre & -> & _). rewrite existsb_app. unfold renew. rewrite Root. cbn. rewrite prefix_refl. cbn. now rewrite orb_true_r.
  - apply (fin_gone _ _ _ _ H).
    + intros r o R I. destruct (EA r R) as (pre & E & W). rewrite E in I. apply in_app_or in I. destruct I as [I|I]; [now apply W|].
      apply renew_in in I. destruct I as [->|[->|(q & I & ->)]]; try (now split). split; [reflexivity|]. cbn [makes]. destruct I as [<-|I]; [|now apply Nm].
      apply prefix_long. rewrite app_length. destruct a; [congruence|cbn; lia].
    + right. exists r0. split; [assumption|]. destruct (EA r0 R0) as (pre & -> & _). rewrite existsb_app. unfold renew. rewrite Root. cbn. rewrite (prefix_snoc _ _ a (prefix_refl b)). cbn. now rewrite orb_true_r.
Qed.
Lemma renew_closed : forall e r pre b more, closed (pre ++ renew e r b more) /\ bars (pre ++ renew e r b more) = bars pre + 1.
Proof.
  intros e r pre b more. unfold renew. split.
  - right. exists (pre ++ (if e_root e r then ORemove b :: map OMkdirs (b :: more) else [])). now rewrite app_assoc.
  - rewrite !bars_app. cbn [bars]. destruct (e_root e r); [|cbn; lia]. cbn [bars map]. rewrite (bars_in (map OMkdirs more)); [cbn; lia|].
    intros o I. apply in_map_iff in I. destruct I as (q & <- & _). discriminate.
Qed.

Section Fields.
Variable F : Type.
Variable getValue : F -> comp -> Z -> list R -> R.
Variable dofs : F -> comp -> list R.
Variable surf : F -> list Z -> comp -> list R.

Lemma program_parts : forall e p calls r os, rankProgram F getValue dofs surf e p calls r = Ok os ->
  exists i u, initPointField e r p = Ok i /\
    allUpdates F getValue dofs surf e r p 0 calls (map (fun m => (mp_name m, mkMstate (mp_window m) None [])) (pr_mor p)) = Ok u /\
    os = early e p r ++ i ++ u.
Proof.
  intros e p calls r os H. unfold rankProgram in H. binds H. injection H as <-. exists v, v0. repeat split; auto. unfold early. now rewrite app_assoc.
Qed.
Lemma writes_fin : forall e p calls s s', writes F getValue dofs surf e p calls s s' -> exists t, fin (e_ranks e) s t s' /\
  forall r, r < e_ranks e -> rankProgram F getValue dofs surf e p calls r = Ok (t r).
Proof.
  intros e p calls s s' (todo & M & E). exists (fun r => nth r todo []). destruct (e_ranks e) as [|n] eqn:En.
  - injection M as <-. split; [apply (ends_fin _ _ _ E)|intros; lia].
  - assert (L : length todo = S n) by (apply (proj2 (mapM_seq_nth _ (S n) 0 todo [] 0 M ltac:(lia)))).
    split; [rewrite <- L; now apply ends_fin|]. intros r R. apply (proj1 (mapM_seq_nth _ (S n) 0 todo [] r M R)).
Qed.
Lemma point_init : forall e r p i, initPointField e r p = Ok i -> pr_point p <> [] ->
  exists h b, mapM (pointHead e r) (pr_point p) = Ok h /\ i = renew e r (exportDir e (e_case e) "PointProbes") [] ++ concat h ++ b /\
    (forall o, In o b -> atDir (exportDir e (e_case e) "FieldProbes") o).
Proof.
  intros e r p i H N. unfold initPointField in H. destruct (pr_point p) as [|p1 ps] eqn:Ep; [congruence|]. binds H. injection H as <-. binds Q. injection Q as <-.
  exists v1, v0. split; [reflexivity|]. split; [now rewrite <- app_assoc|]. intros o I.
  destruct (pr_field p) as [|f1 fs]; [injection Q0 as <-; contradiction|]. binds Q0. injection Q0 as <-. apply in_app_or in I. destruct I as [I|I].
  - apply renew_in in I. destruct I as [->|[->|(q & [<-|[]] & ->)]]; cbn [atDir]; try apply prefix_refl. exact Logic.I.
  - destruct (mapM_concat_in _ _ _ _ Q I) as (q & os & Iq & G & Io). destruct (fieldHead_in _ _ _ _ _ G Io) as (j & l & _ & _ & _ & ->). apply dir_prefix.
Qed.
Lemma not_rank : forall a i j, ("PointProbe" ++ a <> "rank" ++ to_string i)%string /\ ("FieldProbe" ++ a <> "rank" ++ to_string j)%string.
Proof. intros a i j. split; discriminate. Qed.

Theorem point_file : forall e p calls s s' p0 id w, writes F getValue dofs surf e p calls s s' -> someRoot e ->
  In p0 (pr_point p) -> pp_write p0 = true -> pp_id p0 = Some id -> heldBy (e_ranks e) (pp_element p0) w ->
  NoDup (map pp_id (filter pp_write (pr_point p))) ->
  exists rows, rowsOf (e_final e) (pp_steps p0)
      (fun t (x : nat -> F) => [LRow (t / speedOfLight_SI) (map (fun k => getValue (x w) k (pp_element p0 w) (pp_point p0)) comps)]) 0 calls rows /\
    s' (pointFile e id) = Some (File (heading "PointProbe" id (pp_point p0) ["Ex"; "Ey"; "Ez"; "Hx"; "Hy"; "Hz"] ++ rows)).
Proof.
  intros e p calls s s' p0 id w Wr Root Ip Pw Pid Held ND. destruct (writes_fin _ _ _ _ _ Wr) as (t & H & Pt).
  destruct (in_split _ _ Ip) as (l1 & l2 & Sp).
  assert (Others : forall q, In q (l1 ++ l2) -> pp_write q = true -> pp_id q <> Some id).
  { intros q Iq Wq E. rewrite Sp, filter_app in ND. cbn [filter] in ND. rewrite Pw in ND. rewrite map_app in ND. cbn [map] in ND.
    apply NoDup_remove_2 in ND. apply ND. rewrite Pid, <- E. apply in_app_or in Iq. apply in_or_app.
    destruct Iq as [Iq|Iq]; [left|right]; apply in_map; apply filter_In; now split. }
  set (b := exportDir e (e_case e) "PointProbes").
  assert (Np : pr_point p <> []) by (rewrite Sp; now destruct l1).
  destruct (fin_phase _ _ _ _ (length (pr_near p) + 1) (fun r a q => a = early e p r ++ renew e r b [] /\
     exists h c u, mapM (pointHead e r) (l1 ++ p0 :: l2) = Ok h /\
     (forall o, In o c -> atDir (exportDir e (e_case e) "FieldProbes") o) /\
     allUpdates F getValue dofs surf e r p 0 calls (map (fun m => (mp_name m, mkMstate (mp_window m) None [])) (pr_mor p)) = Ok u /\
     q = concat h ++ c ++ u) H) as (A & B & s1 & F1 & F2 & AB).
  { intros r R. destruct (program_parts _ _ _ _ _ (Pt r R)) as (i & u & Ei & Eu & Et). destruct (point_init _ _ _ _ Ei Np) as (h & c & Mh & -> & Cc).
    exists (early e p r ++ renew e r b []), (concat h ++ c ++ u). split; [rewrite Et; unfold b; now rewrite <- !app_assoc|].
    destruct (renew_closed e r (early e p r) b []) as [X Y]. split; [exact X|]. split; [now rewrite Y, early_bars|]. split; [reflexivity|].
    exists h, c, u. rewrite <- Sp. repeat split; auto. }
  assert (Ds := fun r R => proj2 (AB r R)).
  destruct (renewed (e_ranks e) e s A s1 "PointProbes" [("PointProbe" ++ to_string id ++ ".dat")%string] []) as [D N]; auto.
  { intros r R. exists (early e p r). split; [apply AB, R|]. intros o I. split; [eapply early_removes; eauto|].
    eapply (early_files e p r o "PointProbes"); eauto; discriminate. }
  { discriminate. } { intros m []. }
  assert (Wn : w < e_ranks e) by apply Held.
  destruct (Ds w Wn) as (h & c & u & Mh & Cc & Eu & EB).
  destruct (updates_content F getValue dofs surf e p0 id w Pid Pw Held l1 l2 Others p calls 0 _ u (heading "PointProbe" id (pp_point p0) ["Ex"; "Ey"; "Ez"; "Hx"; "Hy"; "Hz"]) Sp Eu) as (rows & Rw & Ct).
  exists rows. split; [exact Rw|].
  rewrite (fin_single _ _ _ _ F2 (pointFile e id) w None true).
  - rewrite EB, !content_app. rewrite (head_content e p0 id w Pid Pw Held l1 l2 Others h None Mh).
    rewrite (content_skip _ c), Ct; [reflexivity|]. intros o I. eapply apart; [|apply point_prefix|apply Cc, I]. apply kinds_apart. discriminate.
  - unfold pointFile. now destruct (exportDir e (e_case e) "PointProbes").
  - exact Wn.
  - exact N.
  - intros _. unfold pointFile. rewrite removelast_last. exact D.
  - apply ready_true.
  - intros r o R I. destruct (Ds r R) as (h' & c' & u' & Mh' & Cc' & Eu' & EB'). rewrite EB' in I. apply in_app_or in I. destruct I as [I|I].
    + destruct (mapM_concat_in _ _ _ _ Mh' I) as (q & os & Iq & G & Io). destruct (pointHead_in _ _ _ _ _ G Io) as (j & l & _ & _ & _ & E).
      split; [now rewrite E|]. split; [now rewrite E|]. intro NW. eapply (other_rank_head e p0 id w Held l1 l2 Others); eauto.
    + apply in_app_or in I. destruct I as [I|I].
      * destruct (apart b (exportDir e (e_case e) "FieldProbes") (pointFile e id) o) as (X & Y & Z); auto; [apply kinds_apart; discriminate|apply point_prefix].
      * destruct (updates_foreign F getValue dofs surf e id r p calls 0 _ u' Eu' o I) as [(q & p' & c0 & t0 & x0 & Ip' & G & Io)|(X & Y & Z)]; [|auto].
        destruct (pointUpdate_in F getValue _ _ _ _ _ _ _ _ G Io) as (j & l & _ & _ & _ & E).
        split; [now rewrite E|]. split; [now rewrite E|]. intro NW. rewrite Sp in Ip'. eapply (other_rank_update F getValue e p0 id w Held l1 l2 Others); eauto.
Qed.
End Fields.

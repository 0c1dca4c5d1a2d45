(** The statistics files after every schedule, and their numbers. *)
From Coq Require Import String ZArith List Bool Lia Arith Reals Lra Psatz.
From Flocq Require Import Core.
From Verif Require Import Common Probe_Model Input_Proofs Output_Model Output_Spec Output_Proofs OutputRun_Proofs OutputPoint_Proofs OutputField_Proofs OutputSnap_Proofs OutputDomain_Proofs OutputMore_Proofs OutputEx_Proofs Stats_Model Stats_Spec.
Import ListNotations.
Local Open Scope string_scope.
Local Open Scope list_scope.
Local Open Scope nat_scope.

Lemma file_is : forall e r, statisticsOf e r = statsFile e r.
Proof. intros. unfold statisticsOf, statsFile, statsDir, exportDir. rewrite <- !app_assoc. reflexivity. Qed.
Lemma dir_is : forall e, statisticsDir e = statsDir e.
Proof. reflexivity. Qed.
Lemma statsFile_inj : forall e r q, statsFile e r = statsFile e q -> r = q.
Proof.
  intros e r q H. unfold statsFile in H. apply app_inv_head in H. injection H as H. apply app_str_r in H. now apply to_string_inj.
Qed.
Lemma statsFile_last : forall e r, removelast (statsFile e r) = statsDir e.
Proof. intros. apply removelast_last. Qed.
Lemma file_not_dir : forall e r, prefixb (statsFile e r) (statsDir e) = false.
Proof. intros. apply prefix_long. unfold statsFile. rewrite app_length. cbn. lia. Qed.

Section Fields.
Variable F : Type.
Variable getValue : F -> comp -> Z -> list R -> R.
Variable dofs : F -> comp -> list R.
Variable surf : F -> list Z -> comp -> list R.

(** ** Nothing else of a run touches the statistics *)
Definition foreign (e : env) (o : op) : Prop :=
  removes o (statsDir e) = false /\ (forall q, prefixb (statsDir e) q = true -> setsFile o q = false /\ removes o q = false) /\ forall r, makes o (statsFile e r) = false.
Lemma foreign_kind : forall e k o, k <> "SimulationStats" -> atDir (exportDir e (e_case e) k) o -> foreign e o.
Proof.
  intros e k o N A. assert (C : comparable (statsDir e) (exportDir e (e_case e) k) = false) by (apply kinds_apart; congruence).
  split; [apply (apart _ _ (statsDir e) o C (prefix_refl _) A)|]. split.
  - intros q P. destruct (apart _ _ q o C P A) as (X & Y & _). now split.
  - intros r. destruct (apart _ _ (statsFile e r) o C (dir_prefix _ _ _ _) A) as (_ & _ & X). exact X.
Qed.
Lemma early_foreign : forall e p r o, In o (early e p r) -> foreign e o.
Proof.
  intros e p r o I. split; [eapply early_removes; eauto|]. split.
  - intros q P. split; [|eapply early_removes; eauto]. apply (early_sets e p r o "SimulationStats" q); auto. discriminate.
  - intros q. refine (proj2 (early_files e p r o "SimulationStats" _ _ _ _ I)); try discriminate.
Qed.
Lemma init_foreign : forall e r p i o, initPointField e r p = Ok i -> In o i -> foreign e o.
Proof.
  intros e r p i o H I. unfold initPointField in H. binds H. injection H as <-. apply in_app_or in I. destruct I as [I|I].
  - destruct (pr_point p) as [|p1 ps]; [injection Q as <-; contradiction|]. binds Q. injection Q as <-. apply (foreign_kind e "PointProbes"); [discriminate|]. apply in_app_or in I. destruct I as [I|I].
    + apply renew_in in I. destruct I as [->|[->|(q & [<-|[]] & ->)]]; cbn [atDir]; try apply prefix_refl. exact Logic.I.
    + match goal with M : mapM (pointHead _ _) _ = Ok _ |- _ => destruct (mapM_concat_in _ _ _ _ M I) as (q & os & Iq & G & Io) end. destruct (pointHead_in _ _ _ _ _ G Io) as (j & l & _ & _ & _ & ->). apply dir_prefix.
  - destruct (pr_field p) as [|p1 ps]; [injection Q0 as <-; contradiction|]. binds Q0. injection Q0 as <-. apply (foreign_kind e "FieldProbes"); [discriminate|]. apply in_app_or in I. destruct I as [I|I].
    + apply renew_in in I. destruct I as [->|[->|(q & [<-|[]] & ->)]]; cbn [atDir]; try apply prefix_refl. exact Logic.I.
    + match goal with M : mapM (fieldHead _ _) _ = Ok _ |- _ => destruct (mapM_concat_in _ _ _ _ M I) as (q & os & Iq & G & Io) end. destruct (fieldHead_in _ _ _ _ _ G Io) as (j & l & _ & _ & _ & ->). apply dir_prefix.
Qed.
Lemma part_foreign : forall e r c t x p ms os o, parts F getValue dofs surf e r c t x p ms os -> In o os -> foreign e o.
Proof.
  intros e r c t x p ms os o P Io. destruct (update_kind _ _ _ _ _ _ _ _ _ _ _ _ (parts_from _ _ _ _ _ _ _ _ _ _ _ _ _ P Io)) as [(q & b & _ & G & Iq)|[(q & b & _ & G & Iq)|(k & K & At)]].
  - destruct (pointUpdate_in F getValue _ _ _ _ _ _ _ _ G Iq) as (id & m & _ & _ & _ & ->). apply (foreign_kind e "PointProbes"); [discriminate|]. apply dir_prefix.
  - destruct (fieldUpdate_in F getValue _ _ _ _ _ _ _ _ G Iq) as (id & m & _ & _ & _ & ->). apply (foreign_kind e "FieldProbes"); [discriminate|]. apply dir_prefix.
  - apply (foreign_kind e k); [intro; subst k; destruct K as [K|[K|[K|K]]]; discriminate|exact At].
Qed.
Lemma updates_foreign : forall e r p calls c ms us o, allUpdates F getValue dofs surf e r p c calls ms = Ok us -> In o us -> foreign e o.
Proof.
  intros e r p calls c ms us o H I. destruct (updates_blocks _ _ _ _ _ _ _ _ _ _ _ H) as (bl & -> & L & Bl). apply in_concat in I. destruct I as (os & Ios & Io). apply In_nth_error in Ios. destruct Ios as (j & Nj).
  destruct (Bl j os Nj) as (call & ms' & Nc & P). eapply part_foreign; eauto.
Qed.

(** ** The program of a rank *)
Lemma case_parts : forall e p first calls info r os, caseProgram F getValue dofs surf e p first calls info r = Ok os ->
  exists a b, os = prepareExportDirectories e r ++ a ++ constructed e r (info r) ++ b ++ finished e r (info r) /\ (forall o, In o a -> foreign e o) /\ (forall o, In o b -> foreign e o).
Proof.
  intros e p first calls info r os H. unfold caseProgram in H. binds H. injection H as <-. eexists. eexists. split; [reflexivity|].
  destruct (update_parts _ _ _ _ _ _ _ _ _ _ _ Q0) as (P & _). split.
  - intros o I. rewrite app_assoc in I. apply in_app_or in I. destruct I as [I|I]; [eapply early_foreign; eauto|]. apply in_app_or in I. destruct I as [I|I]; [eapply init_foreign; eauto|].
    eapply part_foreign; eauto.
  - intros o I. eapply updates_foreign; eauto.
Qed.
Lemma launched_fin : forall e p first calls info s s', launched F getValue dofs surf e p first calls info s s' -> exists t, fin (e_ranks e) s t s' /\
  forall r, r < e_ranks e -> caseProgram F getValue dofs surf e p first calls info r = Ok (t r).
Proof.
  intros e p first calls info s s' (todo & M & E). exists (fun r => nth r todo []). destruct (e_ranks e) as [|n] eqn:En.
  - injection M as <-. split; [apply (ends_fin _ _ _ E)|intros; lia].
  - assert (L : length todo = S n) by (apply (proj2 (mapM_seq_nth _ (S n) 0 todo [] 0 M ltac:(lia)))).
    split; [rewrite <- L; now apply ends_fin|]. intros r R. apply (proj1 (mapM_seq_nth _ (S n) 0 todo [] r M R)).
Qed.
Lemma prepared : forall e r, closed (prepareExportDirectories e r) /\ bars (prepareExportDirectories e r) = 1.
Proof.
  intros e r. unfold prepareExportDirectories. split; [right; eexists; reflexivity|]. destruct (r =? 0); reflexivity.
Qed.
Lemma cleared : forall e s s1 A, 0 < e_ranks e -> (forall r, r < e_ranks e -> A r = prepareExportDirectories e r) -> fin (e_ranks e) s A s1 ->
  isDir s1 (statsDir e) = true /\ forall q, under (statsDir e) q -> s1 q = None.
Proof.
  intros e s s1 A N EA H. split.
  - apply (fin_made _ _ _ _ H).
    + intros r R. rewrite EA by assumption. unfold prepareExportDirectories. destruct (r =? 0); [|reflexivity]. cbn [app guarded removes existsb makes]. now rewrite prefix_refl.
    + right. exists 0. split; [assumption|]. rewrite EA by assumption. cbn [prepareExportDirectories Nat.eqb app existsb makes]. rewrite prefix_refl. reflexivity.
  - intros q (x & l & ->). apply (fin_gone _ _ _ _ H).
    + intros r o R I. rewrite EA in I by assumption. unfold prepareExportDirectories in I. destruct (r =? 0); cbn [app] in I.
      * destruct I as [<-|[<-|[<-|[]]]]; split; try reflexivity. cbn [makes]. apply prefix_long. rewrite app_length. cbn. lia.
      * destruct I as [<-|[]]. split; reflexivity.
    + right. exists 0. split; [assumption|]. rewrite EA by assumption. cbn [prepareExportDirectories Nat.eqb app existsb removes]. rewrite (prefix_snoc _ _ (x :: l) (prefix_refl (statsDir e))). reflexivity.
Qed.
Definition rest (e : env) (i : info) (r : nat) (l : list op) : Prop :=
  exists a b, l = a ++ constructed e r i ++ b ++ finished e r i /\ (forall o, In o a -> foreign e o) /\ (forall o, In o b -> foreign e o).
Lemma rest_in : forall e i r l o, rest e i r l -> In o l -> foreign e o \/ o = OMkdirs (statsDir e) \/ exists c, o = OAppend (statsFile e r) c.
Proof.
  intros e i r l o (a & b & -> & Fa & Fb) I. apply in_app_or in I. destruct I as [I|I]; [left; auto|]. apply in_app_or in I. destruct I as [I|I].
  - unfold constructed in I. destruct (i_sub i); [contradiction|]. destruct I as [<-|[]]. right. right. eexists. reflexivity.
  - apply in_app_or in I. destruct I as [I|I]; [left; auto|]. unfold finished in I. destruct (i_sub i); [contradiction|]. destruct I as [<-|[<-|[]]]; [right; now left|]. right. right. eexists. reflexivity.
Qed.
Lemma phases : forall e p first calls info s s', launched F getValue dofs surf e p first calls info s s' -> 0 < e_ranks e ->
  exists B s1, fin (e_ranks e) s1 B s' /\ isDir s1 (statsDir e) = true /\ (forall q, under (statsDir e) q -> s1 q = None) /\ forall r, r < e_ranks e -> rest e (info r) r (B r).
Proof.
  intros e p first calls info s s' L N. destruct (launched_fin _ _ _ _ _ _ _ L) as (t & H & Pt).
  destruct (fin_phase _ _ _ _ 1 (fun r a q => a = prepareExportDirectories e r /\ rest e (info r) r q) H) as (A & B & s1 & F1 & F2 & AB).
  { intros r R. destruct (case_parts _ _ _ _ _ _ _ (Pt r R)) as (a & b & E & Fa & Fb). destruct (prepared e r) as (C & D).
    exists (prepareExportDirectories e r), (a ++ constructed e r (info r) ++ b ++ finished e r (info r)). split; [exact E|]. split; [exact C|]. split; [exact D|]. split; [reflexivity|]. exists a, b. auto. }
  destruct (cleared e s s1 A N (fun r R => proj1 (AB r R)) F1) as (D & E). exists B, s1. split; [exact F2|]. split; [exact D|]. split; [exact E|]. intros r R. apply AB, R.
Qed.
Lemma own_content : forall e i r l, rest e i r l -> i_sub i = false -> content (statsFile e r) None l = Some (initLines i ++ runLines i).
Proof.
  intros e i r l (a & b & -> & Fa & Fb) Sb. assert (P : prefixb (statsDir e) (statsFile e r) = true) by apply dir_prefix.
  rewrite !content_app. rewrite (content_skip _ a) by (intros o I; apply (proj1 (proj2 (Fa o I)) _ P)).
  unfold constructed, finished. rewrite Sb. cbn [content]. destruct (path_eq (statsFile e r) (statsFile e r)) as [_|C]; [|congruence]. rewrite (content_skip _ b) by (intros o I; apply (proj1 (proj2 (Fb o I)) _ P)).
  reflexivity.
Qed.
Theorem statistics_file : forall e p first calls info s s' r, launched F getValue dofs surf e p first calls info s s' -> r < e_ranks e -> i_sub (info r) = false ->
  s' (statisticsOf e r) = Some (File (initLines (info r) ++ runLines (info r))).
Proof.
  intros e p first calls info s s' r L R Sb. rewrite file_is. destruct (phases _ _ _ _ _ _ _ L ltac:(lia)) as (B & s1 & F2 & D & Em & Rs).
  rewrite (fin_single _ _ _ _ F2 (statsFile e r) r None true).
  - now rewrite (own_content e (info r) r (B r) (Rs r R) Sb).
  - unfold statsFile. now destruct (statsDir e).
  - exact R.
  - apply Em. exists ("statistics_rank" ++ to_string r ++ ".dat")%string, []. reflexivity.
  - intros _. now rewrite statsFile_last.
  - apply ready_true.
  - intros q o Q I. destruct (rest_in _ _ _ _ _ (Rs q Q) I) as [(_ & X & Y)|[->|(c & ->)]].
    + destruct (X (statsFile e r) (dir_prefix _ _ _ _)) as (X1 & X2). split; [exact X2|]. split; [apply Y|]. intros _. exact X1.
    + split; [reflexivity|]. split; [apply file_not_dir|reflexivity].
    + split; [reflexivity|]. split; [reflexivity|]. intros NE. cbn [setsFile]. destruct (path_eq (statsFile e q) (statsFile e r)) as [E|]; [|reflexivity]. now apply statsFile_inj in E.
Qed.
Theorem statistics_only : forall e p first calls info s s' q, launched F getValue dofs surf e p first calls info s s' -> 0 < e_ranks e ->
  under (statisticsDir e) q -> s' q <> None -> exists r, r < e_ranks e /\ i_sub (info r) = false /\ q = statisticsOf e r \/ s' q = Some Dir.
Proof.
  intros e p first calls info s s' q L N U Nq. destruct (phases _ _ _ _ _ _ _ L N) as (B & s1 & F2 & D & Em & Rs).
  destruct (s' q) as [[|l]|] eqn:E; [exists 0; now right| |congruence].
  destruct (fin_writer _ _ _ _ F2 _ _ E) as [X|(r & o & R & I & So)]; [rewrite (Em q U) in X; discriminate|]. exists r. left. split; [exact R|].
  assert (P : prefixb (statsDir e) q = true) by (destruct U as (x & z & ->); apply prefix_snoc, prefix_refl).
  pose proof (Rs r R) as Q. destruct (i_sub (info r)) eqn:Sb.
  - destruct Q as (a & b & Eb & Fa & Fb). rewrite Eb in I. unfold constructed, finished in I. rewrite Sb in I. rewrite app_nil_r in I. cbn [app] in I. apply in_app_or in I.
    destruct I as [I|I]; [destruct (proj1 (proj2 (Fa o I)) q P); congruence|destruct (proj1 (proj2 (Fb o I)) q P); congruence].
  - split; [reflexivity|]. rewrite file_is. destruct (rest_in _ _ _ _ _ Q I) as [(_ & X & _)|[->|(c & ->)]].
    + destruct (X q P) as (X1 & _). congruence.
    + discriminate.
    + cbn [setsFile] in So. destruct (path_eq (statsFile e r) q); congruence.
Qed.
End Fields.

(** ** Use without the driver *)
Lemma exec_append_dir : forall e s l c, isDir s (statsDir e) = true -> s (statsFile e 0) = asNode c ->
  exec (OAppend (statsFile e 0) l) s = Ok (setNode s (statsFile e 0) (File (match c with Some o => o ++ l | None => l end))).
Proof. intros e s l c D E. cbn [exec]. rewrite statsFile_last, D, E. destruct c; reflexivity. Qed.
Lemma set_same : forall s p n, setNode s p n p = Some n.
Proof. intros. unfold setNode. destruct (path_eq p p); congruence. Qed.
Lemma set_dir : forall e s n, isDir (setNode s (statsFile e 0) n) (statsDir e) = isDir s (statsDir e).
Proof.
  intros. unfold isDir, setNode. destruct (statsDir e) as [|x l] eqn:Ed; [reflexivity|]. destruct (path_eq (x :: l) (statsFile e 0)) as [C|]; [|reflexivity].
  exfalso. apply (f_equal (@length string)) in C. unfold statsFile in C. rewrite Ed, app_length in C. cbn in C. lia.
Qed.
Lemma mkdirs_file : forall e s s', mkdirs s (statsDir e) = Ok s' -> s' (statsFile e 0) = s (statsFile e 0) /\ isDir s' (statsDir e) = true.
Proof.
  intros e s s' H. split; [exact (exec_other (OMkdirs (statsDir e)) s s' (statsFile e 0) H eq_refl eq_refl (file_not_dir e 0))|].
  apply (exec_makes (OMkdirs (statsDir e)) s s' (statsDir e) H). cbn [makes]. apply prefix_refl.
Qed.
Definition sum_left : forall l a, (fold_left Rplus l a = a + fold_right Rplus 0 l)%R.
Proof. induction l as [|x l IH]; intros a; cbn; [lra|]. rewrite IH. lra. Qed.
Lemma square_exact : forall n, (0 <= n <= 94906265)%Z -> squaredElements n = (n * n)%Z.
Proof.
  intros n H. unfold squaredElements. rewrite round_generic; [apply Ztrunc_IZR|auto with typeclass_instances|].
  apply generic_format_FLT. exists (Float radix2 (n * n) 0).
  - unfold F2R. cbn. ring.
  - cbn [Fnum]. change (radix2 ^ 53)%Z with 9007199254740992%Z. nia.
  - cbn. lia.
Qed.
Lemma odd_square_lost : forall n, (94906265 < n)%Z -> Z.odd n = true -> squaredElements n <> (n * n)%Z.
Proof.
  intros n H O E. unfold squaredElements in E. set (y := round radix2 (FLT_exp (-1074) 53) ZnearestE (IZR (n * n))) in *.
  assert (G : generic_format radix2 (FLT_exp (-1074) 53) y) by (apply generic_format_round; [apply FLT_exp_valid; reflexivity|auto with typeclass_instances]).
  apply FLT_format_generic in G; [|reflexivity]. destruct G as [f Ef Hm He].
  assert (N : (9007199254740992 < n * n)%Z) by nia.
  assert (Y : (IZR (n * n) <= y)%R).
  { rewrite <- E. apply Ztrunc_floor_le || (unfold Ztrunc; destruct (Rlt_bool_spec y 0) as [C|C]; [|apply Zfloor_lb]).
    exfalso. rewrite Ztrunc_ceil in E by lra. assert (Zceil y <= 0)%Z by (apply Zceil_glb; cbn; lra). lia. }
  destruct f as [m ex]. cbn [Fnum Fexp] in *. unfold F2R in Ef. cbn [Fnum Fexp] in Ef.
  assert (M : (Z.abs m < 9007199254740992)%Z) by exact Hm.
  assert (X : (0 < ex)%Z).
  { destruct (Z_lt_le_dec 0 ex) as [|C]; [assumption|]. exfalso. assert (B : (bpow radix2 ex <= 1)%R) by (change 1%R with (bpow radix2 0); apply bpow_le; lia). pose proof (bpow_gt_0 radix2 ex) as B0.
    assert (IZR m < IZR 9007199254740992)%R by (apply IZR_lt; lia). assert (IZR 9007199254740992 < IZR (n * n))%R by (apply IZR_lt; lia).
    rewrite Ef in Y. destruct (Rle_lt_dec 0 (IZR m)); nra. }
  assert (T : y = IZR (m * 2 ^ ex)).
  { rewrite Ef, mult_IZR. f_equal. rewrite <- IZR_Zpower by lia. reflexivity. }
  rewrite T, Ztrunc_IZR in E. assert (V : Z.odd (n * n) = Z.odd (m * 2 ^ ex)) by congruence. rewrite !Z.odd_mul, O in V. cbn [andb] in V.
  rewrite Z.odd_pow in V by lia. cbn in V. now rewrite andb_false_r in V.
Qed.
Lemma record_ok : forall i, runRecord i (runLines i).
Proof.
  intros i. exists (averageElementSize (i_sizes i)), (match i_operator i with Some (h, w, nnz) => [LStat "Operator Total Elements for Local Degrees of Freedom" (Some (IZR (squaredElements h))); LStat "Operator Total Elements for Local and Ghost Degrees of Freedom" (Some (IZR (h * w))); LStat "Number of Operator Non-Zero Elements" (Some (IZR nnz))] | None => [] end).
  split.
  { intros m E. unfold averageElementSize in E. destruct (i_sizes i) as [|x l] eqn:Ez; [discriminate|]. assert (E' : m = (fold_left Rplus (x :: l) 0 / INR (length (x :: l)))%R) by congruence. clear E. subst m. unfold isMean. rewrite sum_left. assert (0 < INR (length (x :: l)))%R by (apply lt_0_INR; cbn; lia).
    set (k := INR (length (x :: l))) in *. clearbody k. cbn [fold_right]. field. lra. }
  split; [unfold averageElementSize; destruct (i_sizes i); split; congruence|].
  split; [intros h w nnz ->; exists (squaredElements h); split; [reflexivity|]; intros Hh; now apply square_exact|].
  split; [now intros ->|]. reflexivity.
Qed.
Theorem used_file : forall e us s s', used e us s = Ok s' -> (s (statsFile e 0) <> Some Dir) ->
  forall c, s (statsFile e 0) = asNode c -> (isDir s (statsDir e) = false -> c = None) ->
  exists l, leaves (isDir s (statsDir e)) us l /\ s' (statsFile e 0) = asNode (match c, l with None, [] => None | None, _ => Some l | Some o, _ => Some (o ++ l) end).
Proof.
  intros e us. unfold used. induction us as [|u us IH]; intros s s' H ND c Ec Dc.
  - injection H as <-. exists []. split; [constructor|]. destruct c; [|exact Ec]. now rewrite app_nil_r.
  - assert (Sub : forall o rest, concat (map (useOps e) (u :: us)) = o ++ rest -> True) by trivial. clear Sub.
    cbn [map concat] in H. destruct u as [i|i]; cbn [useOps] in H; unfold constructed, finished in H; destruct (i_sub i) eqn:Sb; cbn [app] in H.
    + destruct (IH s s' H ND c Ec Dc) as (l & L & E). exists l. split; [now constructor|exact E].
    + cbn [foldM] in H. destruct (isDir s (statsDir e)) eqn:D.
      * rewrite (exec_append_dir e s _ c D Ec) in H. cbn [bind] in H. set (s1 := setNode s (statsFile e 0) _) in *.
        assert (E1 : s1 (statsFile e 0) = asNode (Some (match c with Some o => o ++ initLines i | None => initLines i end))) by apply set_same.
        destruct (IH s1 s' H ltac:(rewrite E1; discriminate) _ E1) as (l & L & E); [unfold s1; rewrite set_dir, D; discriminate|].
        unfold s1 in L. rewrite set_dir, D in L. exists (initialRecord i ++ l). split; [now constructor|]. rewrite E. destruct c; cbn [asNode]; [now rewrite <- app_assoc|reflexivity].
      * cbn [exec] in H. rewrite statsFile_last, D in H. cbn [bind] in H. destruct (IH s s' H ND c Ec ltac:(auto)) as (l & L & E). rewrite D in L. exists l. split; [now constructor|exact E].
    + destruct (IH s s' H ND c Ec Dc) as (l & L & E). exists l. split; [now constructor|exact E].
    + cbn [foldM exec] in H. destruct (mkdirs s (statsDir e)) as [s0| |] eqn:Mk; try discriminate. cbn [bind] in H. destruct (mkdirs_file e s s0 Mk) as (K & D0).
      change (match exec (OAppend (statsFile e 0) (runLines i)) s0 with Ok a => foldM (fun s o => exec o s) (concat (map (useOps e) us)) a | Throw => Throw | UB => UB end = Ok s') in H.
      rewrite (exec_append_dir e s0 _ c D0 ltac:(now rewrite K)) in H. set (s1 := setNode s0 (statsFile e 0) _) in *.
      assert (E1 : s1 (statsFile e 0) = asNode (Some (match c with Some o => o ++ runLines i | None => runLines i end))) by apply set_same.
      destruct (IH s1 s' H ltac:(rewrite E1; discriminate) _ E1) as (l & L & E); [unfold s1; rewrite set_dir, D0; discriminate|].
      unfold s1 in L. rewrite set_dir, D0 in L. exists (runLines i ++ l). split; [constructor; auto; apply record_ok|]. rewrite E. destruct c; cbn [asNode]; [now rewrite <- app_assoc|].
      unfold runLines. reflexivity.
Qed.

(** Proofs about all the layers of a mesh. *)
From Coq Require Import ZArith List Bool Reals Lra Lia ZifyBool Sorting.Sorted Sorting.Permutation.
From Verif Require Import Common Evol_Model Setup_Model Setup_Spec Geo_Model Geo_Spec Geo_Proofs Input_Model Input_Proofs InputWall_Proofs Wall_Model Conn_Model Conn_Proofs Sub_Model Sub_Spec Sub_Proofs SubGeo_Proofs Attach_Model Attach_Spec Attach_Proofs AttachSite_Proofs.
Import ListNotations.
Open Scope Z_scope.

(** * Lists *)
Lemma zseq_nodup : forall n, NoDup (zseq n).
Proof. intros n. unfold zseq. apply FinFun.Injective_map_NoDup; [intros a b E; lia|apply seq_NoDup]. Qed.
Lemma notin_before : forall (l done rest : list Z) x, NoDup l -> l = done ++ x :: rest -> ~ In x done.
Proof. intros l done rest x N -> I. apply (NoDup_remove_2 _ _ _ N). apply in_or_app. left. exact I. Qed.
Lemma flat_map_nil : forall {A B} (l : list A), flat_map (fun _ => @nil B) l = [].
Proof. intros A B l. induction l; [reflexivity|exact IHl]. Qed.
Lemma flat_map_ext_in : forall {A B} (f g : A -> list B) l, (forall x, In x l -> f x = g x) -> flat_map f l = flat_map g l.
Proof. intros A B f g l H. induction l as [|x t IH]; [reflexivity|]. cbn [flat_map]. rewrite (H x) by (left; reflexivity). rewrite IH; [reflexivity|]. intros y I. apply H. right. exact I. Qed.

Lemma NoDup_app_c : forall {A} (a b : list A), NoDup a -> NoDup b -> (forall x, In x a -> In x b -> False) -> NoDup (a ++ b).
Proof.
  intros A a b Na Nb D. induction a as [|x t IH]; [exact Nb|]. inversion Na as [|? ? Nx Nt]; subst. cbn [app]. constructor.
  - intros I. apply in_app_iff in I as [I|I]; [exact (Nx I)|exact (D x (or_introl eq_refl) I)].
  - apply IH; [exact Nt|]. intros y I J. exact (D y (or_intror I) J).
Qed.
Lemma F2_length : forall {A B} (P : A -> B -> Prop) l r, Forall2 P l r -> List.length l = List.length r.
Proof. intros A B P l r F. induction F; [reflexivity|]. cbn [List.length]. rewrite IHF. reflexivity. Qed.
Lemma setIn_dec : forall mk a, setIn mk a \/ ~ setIn mk a.
Proof.
  intros mk a. unfold setIn. destruct (zget mk (a - 1)) as [v| |]; [|right; discriminate|right; discriminate].
  destruct (Z.eq_dec v 1) as [->|N]; [left; reflexivity|]. right. intros X. injection X. exact N.
Qed.
Section All.
Variables (m : mesh) (order : Z) (mkI mkB : list Z) (dofs : list (list Z)) (ndofs : nat) (facePairs : Z -> res (list (Z * Z))) (faceNodes : Z -> res (list Z))
  (nodes : Z -> list point) (quad : Z -> list (point * list R)).
Hypothesis T : tableOk dofs ndofs.
Hypothesis Sok : sitesOk m mkI mkB dofs facePairs faceNodes nodes quad.
Notation good := (rawGood m dofs ndofs nodes quad).
Notation contrib := (contributed m mkI mkB facePairs faceNodes).

Definition tagged (t be : Z) : bool := match zget (m_bdr m) be with Ok b => b_attr b =? t | _ => false end.
Lemma raw_all : exists rp F, rawPairs m order mkI mkB dofs facePairs faceNodes nodes quad = Ok rp /\ goodMap rp /\
  (forall be, 0 <= be < Z.of_nat (List.length (m_bdr m)) -> contrib be (map fst (F be)) /\ Forall (good be) (F be)) /\
  forall t, entry t rp = flat_map F (withTag m t).
Proof.
  assert (X : exists rp F, foldM (pairsOf m order mkI mkB dofs facePairs faceNodes nodes quad) (zseq (List.length (m_bdr m))) [] = Ok rp /\ goodMap rp /\
    (forall be, 0 <= be < Z.of_nat (List.length (m_bdr m)) -> contrib be (map fst (F be)) /\ Forall (good be) (F be)) /\
    forall t, entry t rp = flat_map F (withTag m t)).
  { destruct (foldM_inv (pairsOf m order mkI mkB dofs facePairs faceNodes nodes quad)
      (fun done acc => goodMap acc /\ exists F : Z -> list raw, (forall be, In be done -> contrib be (map fst (F be)) /\ Forall (good be) (F be)) /\
         forall t, entry t acc = flat_map F (filter (tagged t) done)) (zseq (List.length (m_bdr m))) []) as (rp & E & G & F & HF & HE).
    - split; [split; constructor|]. exists (fun _ => []). split; [intros be []|reflexivity].
    - intros done be rest acc El (G & F & HF & HE).
      assert (R : 0 <= be < Z.of_nat (List.length (m_bdr m))). { apply in_zseq. rewrite El. apply in_or_app. right. left. reflexivity. }
      destruct (zget_some _ _ R) as (b & Eb). destruct (face_step m order mkI mkB dofs ndofs facePairs faceNodes nodes quad T Sok be b Eb) as (rs & C & Go & St).
      destruct (St acc G) as (acc' & E' & G' & He'). exists acc'. split; [exact E'|]. split; [exact G'|].
      assert (ND := notin_before _ _ _ _ (zseq_nodup _) El).
      assert (Q : forall k, In k done -> (k =? be) = false) by (intros k I; destruct (Z.eqb_spec k be); [subst; contradiction|reflexivity]).
      exists (fun k => if k =? be then rs else F k). split.
      + intros k I. apply in_app_iff in I as [I|[<-|[]]]; [rewrite (Q k I); exact (HF k I)|]. rewrite Z.eqb_refl. split; assumption.
      + intros t. rewrite He', HE. rewrite filter_app, flat_map_app. f_equal.
        * apply flat_map_ext_in. intros k I. apply filter_In in I as [I _]. rewrite (Q k I). reflexivity.
        * cbn [filter]. unfold tagged at 1. rewrite Eb. destruct (b_attr b =? t); [|reflexivity]. cbn [flat_map]. rewrite Z.eqb_refl. symmetry. apply app_nil_r.
    - exists rp, F. split; [exact E|]. split; [exact G|]. split; [|exact HE]. intros be R. apply HF. apply in_zseq. exact R. }
  unfold rawPairs. destruct mkI as [|i ti] eqn:EI; [|exact X]. destruct mkB as [|o to] eqn:EB; [|exact X].
  exists [], (fun _ => []). split; [reflexivity|]. split; [split; constructor|]. split.
  - intros be R. split; [|constructor]. destruct (zget_some _ _ R) as (b & Eb). exists b, [], []. split; [exact Eb|].
    assert (NS : ~ setIn [] (b_attr b)). { unfold setIn, zget. destruct (b_attr b - 1 <? 0); [discriminate|]. destruct (Z.to_nat (b_attr b - 1)); discriminate. }
    split; [split; [intros H; contradiction|reflexivity]|]. split; [split; [intros H; contradiction|reflexivity]|reflexivity].
  - intros t. symmetry. apply flat_map_nil.
Qed.

(** * One tag *)
Definition isWall (p : sprops) (w : wall) : Prop := exists k msg c, buildWall k p = Ok (w, msg, c).
Lemma tag_inv : forall d2e rs L st st',
  foldM (fun st p => ' (w, _, c) <- buildWall (snd st) p ;; ss <- mapM (newState d2e (stateSize w)) rs ;; Ok (fst (fst st) ++ ss, Some w, c)) L st = Ok st' ->
  exists ws sss, Forall2 isWall L ws /\ Forall2 (fun w ss => mapM (newState d2e (stateSize w)) rs = Ok ss) ws sss /\ fst (fst st') = fst (fst st) ++ concat sss /\
    snd (fst st') = fold_left (fun _ w => Some w) ws (snd (fst st)).
Proof.
  intros d2e rs L. induction L as [|p t IH]; intros st st' E.
  - injection E as <-. exists [], []. cbn [concat fold_left]. rewrite app_nil_r. repeat split; constructor.
  - cbn [foldM] in E. apply bind_ok in E as (st1 & E1 & E). apply bind_ok in E1 as ([[w msg] c] & Ew & E1). apply bind_ok in E1 as (ss & Es & E1). injection E1 as <-.
    destruct (IH _ _ E) as (ws & sss & H1 & H2 & H3 & H4). cbn [fst snd] in H3, H4. exists (w :: ws), (ss :: sss). split; [constructor; [exists (snd st), msg, c; exact Ew|exact H1]|].
    split; [constructor; assumption|]. split; [rewrite H3; cbn [concat]; rewrite app_assoc; reflexivity|exact H4].
Qed.
Lemma last_dflt : forall {A} (l : list A) x a b, last (x :: l) a = last (x :: l) b.
Proof. intros A l. induction l as [|y t IH]; intros x a b; [reflexivity|]. exact (IH y a b). Qed.
Lemma fold_last : forall (ws : list wall) o, fold_left (fun _ w => Some w) ws o = match ws with [] => o | w :: t => Some (last t w) end.
Proof.
  intros ws. induction ws as [|w t IH]; intros o; [reflexivity|]. cbn [fold_left]. rewrite IH. destruct t as [|v r]; [reflexivity|]. f_equal.
  clear. destruct r as [|u r]; [reflexivity|]. exact (last_dflt r u v w).
Qed.

Definition tagOf (d2e : list Z) (rs : list raw) (L : list sprops) (ss : list astate) (w : wall) : Prop :=
  exists ws sss, Forall2 isWall L ws /\ Forall2 (fun w ss => mapM (newState d2e (stateSize w)) rs = Ok ss) ws sss /\ ss = concat sss /\ exists ws', ws = ws' ++ [w].
Lemma attachTag_inv : forall d2e sb t rs c ss w c', attachTag d2e sb t rs c = Ok (ss, w, c') ->
  (listing sb t = [] /\ w = None) \/ (exists w0, w = Some w0 /\ tagOf d2e rs (listing sb t) ss w0).
Proof.
  intros d2e sb t rs c ss w c' E. unfold attachTag in E. apply tag_inv in E as (ws & sss & H1 & H2 & H3 & H4). cbn [fst snd app] in H3, H4. rewrite fold_last in H4.
  destruct ws as [|v r].
  - left. inversion H1. split; [reflexivity|exact H4].
  - right. exists (last r v). split; [exact H4|]. exists (v :: r), sss. split; [exact H1|]. split; [exact H2|]. split; [exact H3|].
    destruct (@exists_last _ (v :: r)) as (l & a & Ea); [discriminate|]. exists l. rewrite Ea. f_equal. f_equal.
    destruct l as [|x l]; injection Ea as -> ->; [reflexivity|]. symmetry. apply last_last.
Qed.
Lemma attachAll_inv : forall d2e sb rp c ats c', attachAll d2e sb c rp = Ok (ats, c') ->
  Forall2 (fun tr g => at_tag g = fst tr /\ tagOf d2e (snd tr) (listing sb (fst tr)) (at_states g) (at_wall g)) (filter (fun tr => negb (List.length (listing sb (fst tr)) =? 0)%nat) rp) ats.
Proof.
  intros d2e sb rp c ats c' E. unfold attachAll in E.
  assert (G : forall rp st st', foldM (fun (st : list attached * bool) tr =>
    ' (ss, w, c) <- attachTag d2e sb (fst tr) (snd tr) (snd st) ;;
    match w with Some w => Ok (fst st ++ [mkAt (fst tr) w ss], c) | None => Ok (fst st, c) end) rp st = Ok st' ->
    exists gs, fst st' = fst st ++ gs /\ Forall2 (fun tr g => at_tag g = fst tr /\ tagOf d2e (snd tr) (listing sb (fst tr)) (at_states g) (at_wall g)) (filter (fun tr => negb (List.length (listing sb (fst tr)) =? 0)%nat) rp) gs).
  { clear. intros rp. induction rp as [|tr rp IH]; intros st st' E.
    - injection E as <-. exists []. split; [symmetry; apply app_nil_r|constructor].
    - cbn [foldM] in E. apply bind_ok in E as (st1 & E1 & E). apply bind_ok in E1 as ([[ss w] c] & Ew & E1). destruct (IH _ _ E) as (gs & E2 & F).
      apply attachTag_inv in Ew as [[L ->]|(w0 & -> & Tg)].
      + injection E1 as <-. cbn [fst] in E2. exists gs. split; [exact E2|]. cbn [filter]. rewrite L. cbn [List.length Nat.eqb negb]. exact F.
      + injection E1 as <-. cbn [fst] in E2. exists (mkAt (fst tr) w0 ss :: gs). split; [rewrite E2, <- app_assoc; reflexivity|]. cbn [filter].
        destruct (listing sb (fst tr)) as [|q Q] eqn:L.
        * destruct Tg as (ws & sss & W & _ & _ & ws' & ->). apply F2_length in W. rewrite app_length in W. cbn [List.length] in W. lia.
        * cbn [List.length Nat.eqb negb]. constructor; [|exact F]. cbn [at_tag at_states at_wall]. split; [reflexivity|]. rewrite L. exact Tg. }
  destruct (G _ _ _ E) as (gs & E2 & F). cbn [fst app] in E2. subst gs. exact F.
Qed.

(** * Listings *)
Lemma listing_named : forall sb t, List.length (listing sb t) = named sb t.
Proof.
  intros sb t. unfold listing. induction sb as [|p r IH]; [reflexivity|]. cbn [flat_map named fold_right]. rewrite app_length, map_length. f_equal; [|exact IH].
  induction (sp_tags p) as [|x l IHl]; [reflexivity|]. cbn [filter count_occ]. destruct (Z.eq_dec x t) as [->|N]; [rewrite Z.eqb_refl; cbn [List.length]; f_equal; exact IHl|].
  destruct (Z.eqb_spec t x); [congruence|exact IHl].
Qed.
Lemma listing_in : forall sb t p, In p (listing sb t) <-> In p sb /\ In t (sp_tags p).
Proof.
  intros sb t p. unfold listing. rewrite in_flat_map. split.
  - intros (q & Iq & I). apply in_map_iff in I as (x & <- & I). apply filter_In in I as [I E]. split; [exact Iq|]. assert (t = x) as -> by lia. exact I.
  - intros [I It]. exists p. split; [exact I|]. apply in_map_iff. exists t. split; [reflexivity|]. apply filter_In. split; [exact It|apply Z.eqb_refl].
Qed.

(** * The tags with states *)
Lemma F2_map : forall {A B C} (P : A -> B -> Prop) (f : A -> C) (g : B -> C) l r, Forall2 P l r -> (forall a b, P a b -> f a = g b) -> map f l = map g r.
Proof. intros A B C P f g l r F H. induction F; [reflexivity|]. cbn [map]. rewrite (H _ _ H0), IHF. reflexivity. Qed.
Lemma asc_sorted : forall {A} (l : list (Z * A)) f, ascending l -> StronglySorted Z.lt (map fst (filter f l)).
Proof.
  intros A l f H. induction H as [|k a r Hk H IH]; [constructor|]. cbn [filter]. destruct (f (k, a)); [|exact IH]. cbn [map fst]. constructor; [exact IH|].
  apply Forall_forall. intros x I. apply in_map_iff in I as ([k' a'] & <- & I). apply filter_In in I as [I _]. exact (Hk _ _ I).
Qed.

Variables (sb : list sprops) (checked : bool) (ats : list attached) (l1 l2 : list Z).
Hypothesis E : attach m order mkI mkB dofs ndofs facePairs faceNodes nodes quad sb checked = Ok (ats, l1, l2).

Lemma attach_inv : exists rp F d2e, goodMap rp /\
  (forall be, 0 <= be < Z.of_nat (List.length (m_bdr m)) -> contrib be (map fst (F be)) /\ Forall (good be) (F be)) /\
  (forall t, entry t rp = flat_map F (withTag m t)) /\ dofToElem dofs ndofs = Ok d2e /\
  Forall2 (fun tr g => at_tag g = fst tr /\ tagOf d2e (snd tr) (listing sb (fst tr)) (at_states g) (at_wall g)) (filter (fun tr => negb (List.length (listing sb (fst tr)) =? 0)%nat) rp) ats /\
  elem1Dofs dofs ats = Ok l1 /\ elem2Dofs dofs ats = Ok l2.
Proof.
  destruct raw_all as (rp & F & Er & G & HF & He). unfold attach in E. rewrite Er in E. cbn [bind] in E. apply bind_ok in E as (d2e & Ed & E').
  apply bind_ok in E' as ([a c] & Ea & E'). apply bind_ok in E' as (l1' & H1 & E'). apply bind_ok in E' as (l2' & H2 & E'). injection E' as -> -> ->.
  exists rp, F, d2e. split; [exact G|]. split; [exact HF|]. split; [exact He|]. split; [exact Ed|]. split; [exact (attachAll_inv _ _ _ _ _ _ Ea)|]. split; assumption.
Qed.

Lemma withTag_in : forall t be, In be (withTag m t) <-> exists b, zget (m_bdr m) be = Ok b /\ b_attr b = t.
Proof.
  intros t be. unfold withTag. rewrite filter_In. split.
  - intros [_ H]. destruct (zget (m_bdr m) be) as [b| |]; [|discriminate|discriminate]. exists b. split; [reflexivity|lia].
  - intros (b & Eb & <-). rewrite Eb. split; [apply in_zseq; exact (zget_len _ _ _ Eb)|apply Z.eqb_refl].
Qed.
Lemma withTag_range : forall t be, In be (withTag m t) -> 0 <= be < Z.of_nat (List.length (m_bdr m)).
Proof. intros t be I. apply withTag_in in I as (b & Eb & _). exact (zget_len _ _ _ Eb). Qed.

(** Contributions are determined. *)
Lemma contrib_fun : forall be p q, contrib be p -> contrib be q -> p = q.
Proof.
  intros be p q (b & p1 & q1 & Eb & I1 & O1 & ->) (b' & p2 & q2 & Eb' & I2 & O2 & ->). rewrite Eb in Eb'. injection Eb' as <-. f_equal.
  - destruct (setIn_dec mkI (b_attr b)) as [X|X].
    + destruct (proj1 I1 X) as (qs & o & A & B & C). destruct (proj1 I2 X) as (qs' & o' & A' & B' & C'). rewrite A in A'. injection A' as <-. rewrite B in B'. injection B' as <-.
      destruct (Rlt_dec o 0); [rewrite (proj1 C r), (proj1 C' r); reflexivity|]. rewrite (proj2 C) by lra. rewrite (proj2 C') by lra. reflexivity.
    + rewrite (proj2 I1 X), (proj2 I2 X). reflexivity.
  - destruct (setIn_dec mkB (b_attr b)) as [X|X].
    + destruct (proj1 O1 X) as (qs & A & C). destruct (proj1 O2 X) as (qs' & A' & C'). rewrite A in A'. injection A' as <-. congruence.
    + rewrite (proj2 O1 X), (proj2 O2 X). reflexivity.
Qed.

Lemma tags_spec : StronglySorted Z.lt (map at_tag ats) /\
  forall t, In t (map at_tag ats) <-> (0 < named sb t)%nat /\ exists be ps, In be (withTag m t) /\ contrib be ps /\ ps <> [].
Proof.
  destruct attach_inv as (rp & F & d2e & G & HF & He & Ed & FA & _).
  assert (M : map fst (filter (fun tr => negb (List.length (listing sb (fst tr)) =? 0)%nat) rp) = map at_tag ats) by (apply (F2_map _ _ _ _ _ FA); intros a b [H _]; symmetry; exact H).
  rewrite <- M. split; [apply asc_sorted; exact (proj1 G)|]. intros t. rewrite in_map_iff. split.
  - intros ([k rs] & <- & I). cbn [fst]. apply filter_In in I as [I L]. cbn [fst] in L. rewrite listing_named in L. split; [lia|].
    assert (Q := entry_in _ _ _ (proj1 G) I). rewrite He in Q. assert (NE : rs <> []) by (destruct G as [_ N]; rewrite Forall_forall in N; exact (N _ I)).
    rewrite <- Q in NE. clear -NE HF. assert (X : exists be, In be (withTag m k) /\ F be <> []).
    { revert NE. induction (withTag m k) as [|be t IH]; intros NE; [destruct (NE eq_refl)|]. destruct (F be) as [|r rs'] eqn:EF.
      - cbn [flat_map] in NE. rewrite EF in NE. destruct (IH NE) as (b' & Ib & Nb). exists b'. split; [right; exact Ib|exact Nb].
      - exists be. split; [left; reflexivity|rewrite EF; discriminate]. }
    destruct X as (be & Ib & Nb). exists be, (map fst (F be)). split; [exact Ib|]. split; [exact (proj1 (HF be (withTag_range _ _ Ib)))|]. destruct (F be); [destruct (Nb eq_refl)|discriminate].
  - intros [N (be & ps & Ib & C & Np)]. exists (t, entry t rp). split; [reflexivity|]. apply filter_In. cbn [fst]. rewrite listing_named. split; [|lia].
    apply entry_key; [exact G|]. rewrite He. intros Z0. assert (Fb : F be = []) by (destruct (F be) as [|r rs] eqn:EF; [reflexivity|]; assert (In r (flat_map F (withTag m t))) by (apply in_flat_map; exists be; rewrite EF; split; [exact Ib|left; reflexivity]); rewrite Z0 in H; destruct H).
    apply Np. rewrite (contrib_fun _ _ _ C (proj1 (HF be (withTag_range _ _ Ib)))), Fb. reflexivity.
Qed.

Lemma group_inv : forall g, In g ats -> exists rs F d2e, rs = flat_map F (withTag m (at_tag g)) /\
  (forall be, 0 <= be < Z.of_nat (List.length (m_bdr m)) -> contrib be (map fst (F be)) /\ Forall (good be) (F be)) /\
  dofToElem dofs ndofs = Ok d2e /\ tagOf d2e rs (listing sb (at_tag g)) (at_states g) (at_wall g).
Proof.
  intros g Ig. destruct attach_inv as (rp & F & d2e & G & HF & He & Ed & FA & _).
  destruct (F2_in_r _ _ _ _ FA Ig) as ([t rs] & I & Et & Tg). cbn [fst snd] in Et, Tg. rewrite Et. apply filter_In in I as [I _].
  exists rs, F, d2e. split; [rewrite <- He; symmetry; exact (entry_in _ _ _ (proj1 G) I)|]. auto.
Qed.
Lemma good_all : forall F t, (forall be, 0 <= be < Z.of_nat (List.length (m_bdr m)) -> contrib be (map fst (F be)) /\ Forall (good be) (F be)) ->
  Forall (fun r => exists be, In be (withTag m t) /\ good be r) (flat_map F (withTag m t)).
Proof.
  intros F t HF. apply Forall_forall. intros r I. apply in_flat_map in I as (be & Ib & I). exists be. split; [exact Ib|].
  destruct (HF be (withTag_range _ _ Ib)) as [_ G]. rewrite Forall_forall in G. exact (G _ I).
Qed.

(** Every state sits on a face of its tag. *)
Lemma states_sit : forall g s, In g ats -> In s (at_states g) -> exists be, In be (withTag m (at_tag g)) /\ sits m dofs nodes quad be s /\ framed s.
Proof.
  intros g s Ig Is. destruct (group_inv g Ig) as (rs & F & d2e & -> & HF & Ed & ws & sss & Hw & Hs & Es & _). rewrite Es in Is.
  apply in_concat in Is as (ss & I & Is). destruct (F2_in_r _ _ _ _ Hs I) as (w & _ & Em). apply mapM_F2 in Em. destruct (F2_in_r _ _ _ _ Em Is) as (r & Ir & Er).
  assert (GA := good_all F (at_tag g) HF). rewrite Forall_forall in GA. destruct (GA r Ir) as (be & Ib & Gr). destruct (Gr d2e (stateSize w) Ed) as (s' & Es' & St & Fr & _).
  rewrite Er in Es'. injection Es' as <-. exists be. auto.
Qed.
(** Tags named once. *)
Lemma states_once : forall g, In g ats -> named sb (at_tag g) = 1%nat -> exists p, In p sb /\ In (at_tag g) (sp_tags p) /\ isWall p (at_wall g) /\
  (exists P, (forall be, In be (withTag m (at_tag g)) -> contrib be (P be)) /\
    map (fun s => (s_gl (as_state s), s_gr (as_state s))) (at_states g) = flat_map P (withTag m (at_tag g))) /\
  Forall (fun s => s_fs (as_state s) = zeros (stateSize (at_wall g))) (at_states g).
Proof.
  intros g Ig N1. destruct (group_inv g Ig) as (rs & F & d2e & Ers & HF & Ed & ws & sss & Hw & Hs & Es & ws' & Ew).
  rewrite <- listing_named in N1. destruct (listing sb (at_tag g)) as [|p [|]] eqn:L; try discriminate N1.
  exists p. assert (Ip : In p (listing sb (at_tag g))) by (rewrite L; left; reflexivity). apply listing_in in Ip as [I1 I2]. split; [exact I1|]. split; [exact I2|].
  rewrite Ew in Hw, Hs. assert (Lw := F2_length _ _ _ Hw). rewrite app_length in Lw. cbn [List.length] in Lw. destruct ws'; [|cbn [List.length] in Lw; lia]. cbn [app] in Hw, Hs.
  inversion Hw as [|? w ? ? W Wn]; subst. split; [exact W|].
  inversion Hs as [|? ss ? ? Hm Hn]; subst. inversion Hn; subst. cbn [concat] in Es. rewrite app_nil_r in Es. rewrite Es. apply mapM_F2 in Hm.
  assert (GA := good_all F (at_tag g) HF). rewrite Forall_forall in GA.
  assert (Q : Forall2 (fun r s => (s_gl (as_state s), s_gr (as_state s)) = fst r /\ s_fs (as_state s) = zeros (stateSize (at_wall g))) (flat_map F (withTag m (at_tag g))) ss).
  { clear -Hm GA Ed. revert Hm GA. generalize (flat_map F (withTag m (at_tag g))). intros rs Hm GA. induction Hm as [|r s rs ss Er Hm IH]; constructor.
    - destruct (GA r (or_introl eq_refl)) as (be & _ & Gr). destruct (Gr d2e (stateSize (at_wall g)) Ed) as (s' & Es' & _ & _ & A & B). rewrite Er in Es'. injection Es' as <-. split; assumption.
    - apply IH. intros r' I. apply GA. right. exact I. }
  split.
  - exists (fun be => map fst (F be)). split; [intros be Ib; exact (proj1 (HF be (withTag_range _ _ Ib)))|].
    rewrite <- (F2_map _ fst _ _ _ Q) by (intros a b [H _]; symmetry; exact H). clear. induction (withTag m (at_tag g)) as [|be t IH]; [reflexivity|]. cbn [flat_map]. rewrite map_app, IH. reflexivity.
  - clear -Q. induction Q as [|r s rs ss [_ H] Q IH]; constructor; assumption.
Qed.
(** In general, once for each time the tag is named, with the wall of the last. *)
Lemma states_length : forall g, In g ats -> exists P, (forall be, In be (withTag m (at_tag g)) -> contrib be (P be)) /\
  List.length (at_states g) = (named sb (at_tag g) * List.length (flat_map P (withTag m (at_tag g))))%nat.
Proof.
  intros g Ig. destruct (group_inv g Ig) as (rs & F & d2e & Ers & HF & Ed & ws & sss & Hw & Hs & Es & _).
  exists (fun be => map fst (F be)). split; [intros be Ib; exact (proj1 (HF be (withTag_range _ _ Ib)))|].
  assert (L : List.length (flat_map (fun be => map fst (F be)) (withTag m (at_tag g))) = List.length rs).
  { rewrite Ers. clear. induction (withTag m (at_tag g)) as [|be t IH]; [reflexivity|]. cbn [flat_map]. rewrite !app_length, map_length, IH. reflexivity. }
  rewrite L, Es, <- listing_named, (F2_length _ _ _ Hw). clear -Hs. induction Hs as [|w ss ws sss Hm Hs IH]; [reflexivity|]. cbn [concat List.length]. rewrite app_length, IH.
  apply mapM_F2 in Hm. rewrite <- (F2_length _ _ _ Hm). reflexivity.
Qed.
Lemma wall_last : forall g, In g ats -> exists p, In p sb /\ In (at_tag g) (sp_tags p) /\ isWall p (at_wall g) /\ exists q, listing sb (at_tag g) = q ++ [p].
Proof.
  intros g Ig. destruct (group_inv g Ig) as (rs & F & d2e & _ & _ & _ & ws & sss & Hw & _ & _ & ws' & Ew). rewrite Ew in Hw.
  apply Forall2_app_inv_r in Hw as (a & b & Ha & Hb & EL). inversion Hb as [|p ? b' ? Wp Hb']; subst. inversion Hb'; subst.
  exists p. assert (I : In p (listing sb (at_tag g))) by (rewrite EL; apply in_or_app; right; left; reflexivity). apply listing_in in I as [I1 I2]. split; [exact I1|]. split; [exact I2|]. split; [exact Wp|exists a; exact EL].
Qed.

(** * Tasks *)
Lemma tasks_spec : NoDup (tasks ats) /\ forall t i, In (t, i) (tasks ats) <-> exists g, In g ats /\ at_tag g = t /\ (i < List.length (at_states g))%nat.
Proof.
  destruct tags_spec as [Sr _]. unfold tasks. split.
  - clear -Sr. induction ats as [|g r IH]; [constructor|]. cbn [map] in Sr. inversion Sr as [|? ? Sr' Hd]; subst. cbn [flat_map]. apply NoDup_app_c.
    + apply FinFun.Injective_map_NoDup; [intros a b X; injection X as ->; reflexivity|apply seq_NoDup].
    + exact (IH Sr').
    + intros [t i] I1 I2. apply in_map_iff in I1 as (j & X & _). injection X as <- _. apply in_flat_map in I2 as (g' & Ig & I2). apply in_map_iff in I2 as (j' & X & _). injection X as X _.
      rewrite Forall_forall in Hd. assert (at_tag g < at_tag g') by (apply Hd; apply in_map; exact Ig). lia.
  - intros t i. rewrite in_flat_map. split.
    + intros (g & Ig & I). apply in_map_iff in I as (j & X & Ij). injection X as <- <-. apply in_seq in Ij. exists g. split; [exact Ig|]. split; [reflexivity|lia].
    + intros (g & Ig & <- & L). exists g. split; [exact Ig|]. apply in_map_iff. exists i. split; [reflexivity|]. apply in_seq. lia.
Qed.

(** * The dofs of the elements beside *)
Lemma collect_spec : forall els ds, collectDofs dofs els = Ok ds -> dofSet dofs (fun e => In e els) ds.
Proof.
  intros els ds C. unfold collectDofs in C. apply bind_ok in C as (ls & Em & C). injection C as <-. apply mapM_F2 in Em.
  set (u := nodup Z.eq_dec (concat ls)). assert (Pm : Permutation (sortBy Z.leb u) u) by (apply sort_perm).
  assert (Iu : forall d, In d u <-> exists e, In e els /\ holds dofs e d).
  { intros d. unfold u. rewrite nodup_In, in_concat. split.
    - intros (l & Il & Id). destruct (F2_in_r _ _ _ _ Em Il) as (e & Ie & El). exists e. split; [exact Ie|]. exists l. auto.
    - intros (e & Ie & l & El & Id). destruct (F2_in_l _ _ _ _ Em Ie) as (l' & Il & El'). rewrite El in El'. injection El' as <-. exists l. auto. }
  split.
  - assert (ND : NoDup (sortBy Z.leb u)) by (apply (Permutation_NoDup (Permutation_sym Pm)); apply NoDup_nodup).
    assert (Ss : StronglySorted (fun a b => Z.leb a b = true) (sortBy Z.leb u)) by (apply sort_sorted; intros; lia).
    apply StronglySorted_Sorted. clear -ND Ss. induction Ss as [|a l Ss IH H]; constructor.
    + apply IH. inversion ND; assumption.
    + inversion ND as [|? ? Na ND']; subst. rewrite Forall_forall in *. intros x I. specialize (H x I). assert (a <> x) by (intros ->; contradiction). lia.
  - intros d. rewrite <- Iu. split; intros I; [exact (Permutation_in _ Pm I)|exact (Permutation_in _ (Permutation_sym Pm) I)].
Qed.
Lemma elem1_spec : dofSet dofs (fun e => exists g s, In g ats /\ In s (at_states g) /\ as_e1 s = e) l1.
Proof.
  destruct attach_inv as (_ & _ & _ & _ & _ & _ & _ & _ & H1 & _). apply collect_spec in H1 as [A B]. split; [exact A|]. intros d. rewrite B.
  split; intros (e & P & H); exists e; (split; [|exact H]).
  - rewrite nodup_In, in_map_iff in P. destruct P as (s & Es & I). apply in_flat_map in I as (g & Ig & Is). exists g, s. auto.
  - destruct P as (g & s & Ig & Is & Es). rewrite nodup_In, in_map_iff. exists s. split; [exact Es|]. apply in_flat_map. exists g. auto.
Qed.
Lemma elem2_spec : dofSet dofs (fun e => e <> -1 /\ exists g s, In g ats /\ In s (at_states g) /\ as_e2 s = e) l2.
Proof.
  destruct attach_inv as (_ & _ & _ & _ & _ & _ & _ & _ & _ & H2). apply collect_spec in H2 as [A B]. split; [exact A|]. intros d. rewrite B.
  split; intros (e & P & H); exists e; (split; [|exact H]).
  - rewrite nodup_In, filter_In, in_map_iff in P. destruct P as [(s & Es & I) Ne]. apply in_flat_map in I as (g & Ig & Is). split; [lia|]. exists g, s. auto.
  - destruct P as (Ne & g & s & Ig & Is & Es). rewrite nodup_In, filter_In, in_map_iff. split; [|lia]. exists s. split; [exact Es|]. apply in_flat_map. exists g. auto.
Qed.
End All.

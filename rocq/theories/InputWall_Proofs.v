From Coq Require Import String List ZArith Reals Lia Lra Bool ZifyBool.
From Flocq Require Import Core.
From Verif Require Import Common Probe_Model Setup_Model Geo_Model Time_Model Input_Model Input_Spec Input_Proofs InputLayer_Proofs.
Import ListNotations.
Open Scope Z_scope.

(** Loops over the positions of a list. *)
Lemma foldM_idx : forall {A} (f : A -> json -> res A) (j : json) (l pre : list json) (a : A),
  j = JArr (pre ++ l) ->
  foldM (fun acc i => x <- jidx j i ;; f acc x) (map (fun k => Z.of_nat (List.length pre) + k) (zseq (List.length l))) a =
  foldM f l a.
Proof.
  intros A f j l; induction l as [|x t IH]; intros pre a E; [reflexivity|].
  cbn [List.length]. assert (Z1 : forall n, zseq (S n) = 0 :: map (fun k => 1 + k) (zseq n)).
  { intros n. unfold zseq. cbn [seq map]. f_equal. rewrite <- seq_shift, !map_map. apply map_ext. intros; lia. }
  rewrite Z1. cbn [map foldM]. rewrite Z.add_0_r.
  assert (G : jidx j (Z.of_nat (List.length pre)) = Ok x).
  { rewrite E. cbn [jidx]. apply zget_ok. rewrite Nat2Z.id, nth_error_app2, Nat.sub_diag by lia. split; [lia|reflexivity]. }
  rewrite G. cbn [bind]. destruct (f a x) as [a'| |]; cbn [bind]; try reflexivity.
  rewrite map_map. specialize (IH (pre ++ [x]) a').
  rewrite <- app_assoc in IH. specialize (IH E). rewrite <- IH. f_equal.
  apply map_ext. intros k. rewrite app_length. cbn [List.length]. lia.
Qed.
Lemma fold_list : forall {A} (f : A -> json -> res A) (j : json) (a : A) (l : list json), listOf j l ->
  foldM (fun acc i => x <- jidx j i ;; f acc x) (zseq (Z.to_nat (jsize j))) a = foldM f l a.
Proof.
  intros A f j a l [->|[-> [->| ->]]]; [|reflexivity|reflexivity]. cbn [jsize]. rewrite Nat2Z.id.
  rewrite <- (foldM_idx f (JArr l) l [] a eq_refl). f_equal.
  cbn [List.length]. rewrite <- (map_id (zseq (List.length l))) at 1. apply map_ext. intros; lia.
Qed.
Lemma fold_list_inv : forall {A} (f : A -> json -> res A) (j : json) (a b : A),
  foldM (fun acc i => x <- jidx j i ;; f acc x) (zseq (Z.to_nat (jsize j))) a = Ok b -> exists l, listOf j l.
Proof.
  intros A f j a b. destruct j; cbn [jsize]; try (cbn; discriminate).
  - intros _. exists []. right. auto.
  - intros _. exists l. left; reflexivity.
  - destruct l as [|p l]; [intros _; exists []; right; auto|].
    rewrite Nat2Z.id. cbn [List.length]. unfold zseq. cbn. discriminate.
Qed.
Lemma fold_list_iff : forall {A} (f : A -> json -> res A) (j : json) (a b : A),
  foldM (fun acc i => x <- jidx j i ;; f acc x) (zseq (Z.to_nat (jsize j))) a = Ok b <-> exists l, listOf j l /\ foldM f l a = Ok b.
Proof.
  intros A f j a b. split.
  - intros H. destruct (fold_list_inv f j a b H) as (l & Hl). exists l. split; [exact Hl|]. rewrite <- (fold_list f j a l Hl). exact H.
  - intros (l & Hl & H). rewrite (fold_list f j a l Hl). exact H.
Qed.
Lemma listOf_fun : forall j l l', listOf j l -> listOf j l' -> l = l'.
Proof. intros j l l' [->|[-> [->| ->]]] [E|[-> [E|E]]]; congruence. Qed.

(** A loop that appends the conversion of each element. *)
Lemma collect_iff : forall {A B} (conv : A -> res B) (l : list A) (acc out : list B),
  foldM (fun acc x => z <- conv x ;; Ok (acc ++ [z])) l acc = Ok out <-> exists r, Forall2 (fun x z => conv x = Ok z) l r /\ out = acc ++ r.
Proof.
  intros A B conv l; induction l as [|x t IH]; intros acc out; cbn [foldM].
  - split.
    + intros [= <-]. exists []. split; [constructor|]. symmetry; apply app_nil_r.
    + intros (r & F & ->). inversion F. rewrite app_nil_r. reflexivity.
  - destruct (conv x) as [z| |] eqn:E; cbn [bind].
    + rewrite IH. split.
      * intros (r & F & ->). exists (z :: r). split; [constructor; assumption|]. rewrite <- app_assoc. reflexivity.
      * intros (r & F & ->). inversion F as [|? z' ? r' Hz Hr]; subst. rewrite E in Hz. injection Hz as <-.
        exists r'. split; [assumption|]. rewrite <- app_assoc. reflexivity.
    + split; [discriminate|]. intros (r & F & _). inversion F as [|? z' ? r' Hz Hr]; congruence.
    + split; [discriminate|]. intros (r & F & _). inversion F as [|? z' ? r' Hz Hr]; congruence.
Qed.
Lemma F2_iff : forall {A B} (P Q : A -> B -> Prop) l r, (forall x y, P x y <-> Q x y) -> Forall2 P l r <-> Forall2 Q l r.
Proof. intros A B P Q l r H. split; induction 1; constructor; try assumption; apply H; assumption. Qed.

Lemma readTags_iff : forall conv spec b tags, (forall j v, conv j = Ok v <-> spec j v) -> readTags conv b = Ok tags <-> tagsIs spec b tags.
Proof.
  intros conv spec b tags Hc. unfold readTags, tagsIs. split.
  - intros H. apply bind_ok in H as (ts & Hts & H).
    apply (fold_list_iff (fun acc v => z <- conv v ;; Ok (acc ++ [z]))) in H as (l & Hl & H).
    apply collect_iff in H as (r & F & ->). cbn [app].
    assert (G : given b "tags" ts).
    { destruct b; cbn [jat] in Hts; try discriminate. destruct (jlookup "tags" l0) eqn:E; [|discriminate].
      injection Hts as <-. apply given_lookup. eauto. }
    exists ts, l. split; [exact G|]. split; [exact Hl|]. apply (F2_iff (fun x z => conv x = Ok z) spec); assumption.
  - intros (x & l & G & Hl & F). apply given_contains in G as [_ ->]. cbn [bind].
    apply (fold_list_iff (fun acc v => z <- conv v ;; Ok (acc ++ [z]))). exists l. split; [exact Hl|].
    apply collect_iff. exists tags. split; [|reflexivity]. apply (F2_iff (fun x z => conv x = Ok z) spec); assumption.
Qed.

Lemma mapM_F2 : forall {A B} (f : A -> res B) l r, mapM f l = Ok r <-> Forall2 (fun x y => f x = Ok y) l r.
Proof.
  intros A B f l; induction l as [|x t IH]; intros r; cbn [mapM].
  - split; [intros [= <-]; constructor|intros H; inversion H; reflexivity].
  - split.
    + intros H. apply bind_ok in H as (y & Hy & H). apply bind_ok in H as (ys & Hys & H). injection H as <-.
      constructor; [exact Hy|]. apply IH. exact Hys.
    + intros H; inversion H as [|? y ? ys Hy Hys]; subst. rewrite Hy. cbn [bind]. apply IH in Hys. rewrite Hys. reflexivity.
Qed.

(** ** Ends of a wall *)
Lemma endName_ok : forall s c, (x <- jstring s ;; assignBoundaryType x) = Ok c <-> endName s c.
Proof.
  intros s c. split.
  - destruct s; cbn [jstring bind]; try discriminate. unfold assignBoundaryType.
    destruct (String.eqb_spec s "PEC") as [->|]; [intros [= <-]; constructor|].
    destruct (String.eqb_spec s "PMC") as [->|]; [intros [= <-]; constructor|].
    destruct (String.eqb_spec s "SMA") as [->|]; [intros [= <-]; constructor|discriminate].
  - intros []; reflexivity.
Qed.
Lemma parseEnd_iff : forall sb k c, parseEnd sb k None = Ok c <->
  match c with Some x => exists s, given sb k s /\ endName s x | None => absent sb k end.
Proof.
  intros sb k c. unfold parseEnd. destruct (contains sb k) eqn:E.
  - apply contains_true in E as (j & G & ->). cbn [bind].
    assert (R : (s <- jstring j ;; c0 <- assignBoundaryType s ;; Ok (Some c0)) = (c0 <- (s <- jstring j ;; assignBoundaryType s) ;; Ok (Some c0))).
    { destruct (jstring j); reflexivity. }
    rewrite R. split.
    + intros H. apply bind_ok in H as (x & Hx & H). injection H as <-. apply endName_ok in Hx. eauto.
    + destruct c as [x|].
      * intros (s & G' & N). rewrite (given_fun _ _ _ _ G G'). apply endName_ok in N. rewrite N. reflexivity.
      * intros Ab. destruct (Ab j G).
  - apply contains_false in E. split.
    + intros [= <-]. exact E.
    + destruct c as [x|]; [|reflexivity]. intros (s & G & _). destruct (E s G).
Qed.
Lemma parseBoundaries_iff : forall src l r, parseBoundaries src (None, None) = Ok (l, r) <-> endAt src "left" l /\ endAt src "right" r.
Proof.
  intros src l r. unfold parseBoundaries. destruct (contains src "sgbc_boundaries") eqn:E.
  - apply contains_true in E as (sb & G & ->). cbn [bind fst snd].
    assert (K : forall k c, endAt src k c <-> parseEnd sb k None = Ok c).
    { intros k c. rewrite parseEnd_iff. unfold endAt. destruct c as [x|].
      - split; [intros (sb' & s & G' & H)|intros (s & H)].
        + rewrite (given_fun _ _ _ _ G G'). eauto.
        + exists sb, s. auto.
      - split; [intros H; apply (H sb G)|intros H sb' G'; rewrite <- (given_fun _ _ _ _ G G'); exact H]. }
    rewrite !K. split.
    + intros H. apply bind_ok in H as (l' & Hl & H). apply bind_ok in H as (r' & Hr & H). injection H as <- <-. auto.
    + intros [-> ->]. reflexivity.
  - apply contains_false in E. split.
    + intros [= <- <-]. split; intros sb G; destruct (E sb G).
    + intros [H1 H2]. destruct l; [destruct H1 as (sb & s & G & _); destruct (E sb G)|].
      destruct r; [destruct H2 as (sb & s & G & _); destruct (E sb G)|]. reflexivity.
Qed.

Lemma ends_iff : forall b l r,
  (lr <- parseBoundaries b (None, None) ;;
   (if negb (isOn (fst lr)) && negb (isOn (snd lr)) && contains b "material"
         then m <- jat b "material" ;; parseBoundaries m lr else Ok lr)) = Ok (l, r) <-> endsOf b l r.
Proof.
  intros b l r. unfold endsOf. split.
  - intros H. apply bind_ok in H as ([l1 r1] & H1 & H). apply parseBoundaries_iff in H1 as [HL HR]. cbn [fst snd] in H.
    destruct l1; cbn [isOn negb andb] in H.
    { injection H as <- <-. left. repeat split; try assumption. left; discriminate. }
    destruct r1; cbn [isOn negb andb] in H.
    { injection H as <- <-. left. repeat split; try assumption. right; left; discriminate. }
    destruct (contains b "material") eqn:E.
    + apply contains_true in E as (m & G & Em). rewrite Em in H. cbn [bind] in H. apply parseBoundaries_iff in H as [A B].
      right. split; [assumption|]. split; [assumption|]. eauto.
    + injection H as <- <-. apply contains_false in E. left. auto.
  - intros [(HL & HR & Hn)|(HL & HR & m & G & A & B)].
    + assert (P : parseBoundaries b (None, None) = Ok (l, r)) by (apply parseBoundaries_iff; auto).
      rewrite P. cbn [bind fst snd]. destruct l; [reflexivity|]. destruct r; [reflexivity|].
      destruct Hn as [C|[C|C]]; [congruence|congruence|]. apply contains_false in C. rewrite C. reflexivity.
    + assert (P : parseBoundaries b (None, None) = Ok (None, None)) by (apply parseBoundaries_iff; auto).
      rewrite P. cbn [bind fst snd isOn negb andb]. destruct (given_contains _ _ _ G) as [-> ->]. cbn [bind].
      apply parseBoundaries_iff; auto.
Qed.

Lemma layers_iff : forall f b ls,
  (if contains b "layers" then x <- jat b "layers" ;; mapM (parseSGBCLayer f) (jelems x)
   else if contains b "material" then m <- jat b "material" ;; l <- parseSGBCLayer f m ;; Ok [l] else Throw) = Ok ls <-> layersOf f b ls.
Proof.
  intros f b ls. unfold layersOf. destruct (contains b "layers") eqn:E.
  - apply contains_true in E as (x & G & ->). cbn [bind]. rewrite mapM_F2. split.
    + intros H; left; eauto.
    + intros [(y & G' & H)|[Ab _]]; [|destruct (Ab x G)]. rewrite (given_fun _ _ _ _ G G'). exact H.
  - apply contains_false in E. destruct (contains b "material") eqn:Em.
    + apply contains_true in Em as (m & G & ->). cbn [bind]. split.
      * intros H. apply bind_ok in H as (L & HL & H). injection H as <-. right. eauto 6.
      * intros [(y & G' & H)|(_ & m' & L & G' & HL & ->)]; [destruct (E y G')|]. rewrite (given_fun _ _ _ _ G G'), HL. reflexivity.
    + apply contains_false in Em. split; [discriminate|].
      intros [(y & G' & H)|(_ & m' & L & G' & HL & ->)]; [destruct (E y G')|destruct (Em m' G')].
Qed.

Theorem wall_iff : forall f b p, parseSGBC f b = Ok p <-> wallOf f b p.
Proof.
  intros f b p. unfold parseSGBC. split.
  - intros H. apply bind_ok in H as (tags & Ht & H). apply bind_ok in H as (ls & Hl & H).
    apply bind_ok in H as ([l1 r1] & H1 & H). apply bind_ok in H as ([l r] & H2 & H). injection H as <-.
    apply (readTags_iff jsizet whole64) in Ht; [|exact jsizet_ok]. apply layers_iff in Hl.
    constructor; cbn [sp_tags sp_layers sp_left sp_right fst snd]; try assumption.
    apply ends_iff. rewrite H1. exact H2.
  - intros [Ht Hl He]. apply (readTags_iff jsizet whole64) in Ht; [|exact jsizet_ok]. rewrite Ht. cbn [bind].
    apply layers_iff in Hl. rewrite Hl. cbn [bind]. apply ends_iff in He. apply bind_ok in He as (lr & -> & E). cbn [bind].
    rewrite E. cbn [bind fst snd]. destruct p; reflexivity.
Qed.

(** ** The list of walls *)
Lemma isSGBC_total : forall b, exists s, isSGBC b = Ok s /\ (s = true <-> sgbcB b).
Proof.
  intros b. unfold isSGBC, sgbcB. destruct (contains b "type") eqn:E.
  - apply contains_true in E as (t & G & ->). cbn [bind]. eexists; split; [reflexivity|]. split.
    + destruct t; cbn [jeqs]; try discriminate. destruct (String.eqb_spec s "SGBC") as [->|]; [intros _; exact G|discriminate].
    + intros G'. rewrite (given_fun _ _ _ _ G G'). reflexivity.
  - apply contains_false in E. exists false. split; [reflexivity|]. split; [discriminate|]. intros G; destruct (E _ G).
Qed.
Lemma select_iff : forall {B} (g : json -> res B) (Q : json -> B -> Prop) (l : list json) (acc out : list B),
  (forall b p, g b = Ok p <-> Q b p) ->
  foldM (fun acc b => s <- isSGBC b ;; if s then p <- g b ;; Ok (acc ++ [p]) else Ok acc) l acc = Ok out <->
  exists r, selected sgbcB Q l r /\ out = acc ++ r.
Proof.
  intros B g Q l acc out HQ; revert acc out; induction l as [|b t IH]; intros acc out; cbn [foldM].
  - split.
    + intros [= <-]. exists []. split; [constructor|]. symmetry; apply app_nil_r.
    + intros (r & S & ->). inversion S. rewrite app_nil_r. reflexivity.
  - destruct (isSGBC_total b) as (s & -> & Hs). cbn [bind]. destruct s.
    + assert (P : sgbcB b) by (apply Hs; reflexivity). split.
      * intros H. apply bind_ok in H as (acc' & Ha & H). apply bind_ok in Ha as (p & Hp & Ha). injection Ha as <-.
        apply IH in H as (r & S & ->). exists (p :: r). split; [constructor; [exact P|apply HQ; exact Hp|exact S]|].
        rewrite <- app_assoc. reflexivity.
      * intros (r & S & ->). inversion S as [|? p ? r' _ Hp S'|? ? ? NP]; subst; [|contradiction].
        apply HQ in Hp. rewrite Hp. cbn [bind]. apply IH. exists r'. split; [exact S'|]. rewrite <- app_assoc. reflexivity.
    + assert (NP : ~ sgbcB b) by (intros P; apply Hs in P; discriminate). cbn [bind]. rewrite IH. split.
      * intros (r & S & ->). exists r. split; [apply sel_out; assumption|reflexivity].
      * intros (r & S & ->). inversion S as [|? p ? r' P Hp S'|? ? ? _ S']; subst; [contradiction|]. exists r. auto.
Qed.

Theorem walls_iff : forall f c ps, parseSGBCs f c = Ok ps <->
  exists m bs l, given c "model" m /\ given m "boundaries" bs /\ listOf bs l /\ selected sgbcB (wallOf f) l ps.
Proof.
  intros f c ps. unfold parseSGBCs.
  assert (J : forall j k v, jat j k = Ok v <-> given j k v).
  { intros j k v; split; [|intros G; apply (given_contains _ _ _ G)].
    destruct j; cbn [jat]; try discriminate. destruct (jlookup k l) eqn:E; [|discriminate]. intros [= <-]. apply given_lookup; eauto. }
  split.
  - intros H. apply bind_ok in H as (m & Hm & H). apply bind_ok in H as (bs & Hb & H).
    apply (fold_list_iff (fun acc b => s <- isSGBC b ;; if s then p <- parseSGBC f b ;; Ok (acc ++ [p]) else Ok acc)) in H as (l & Hl & H).
    apply (select_iff (parseSGBC f) (wallOf f)) in H as (r & S & ->); [|apply wall_iff].
    exists m, bs, l. rewrite <- !J. auto.
  - intros (m & bs & l & Hm & Hb & Hl & S). rewrite <- J in Hm. rewrite <- J in Hb. rewrite Hm. cbn [bind]. rewrite Hb. cbn [bind].
    apply (fold_list_iff (fun acc b => s <- isSGBC b ;; if s then p <- parseSGBC f b ;; Ok (acc ++ [p]) else Ok acc)).
    exists l. split; [exact Hl|]. apply (select_iff (parseSGBC f) (wallOf f)); [apply wall_iff|]. exists ps. auto.
Qed.

From Coq Require Import String List ZArith Reals Lia Lra Bool ZifyBool.
From Verif Require Import Common Probe_Model Setup_Model Geo_Model Time_Model Input_Model Input_Spec Input_Proofs InputLayer_Proofs InputWall_Proofs.
Import ListNotations.
Open Scope Z_scope.

Lemma marks_ext : forall n P Q mk, (forall a, P a <-> Q a) -> marks n P mk -> marks n Q mk.
Proof.
  intros n P Q mk E [H1 H2]. split; [exact H1|]. intros a Ha. destruct (H2 a Ha) as (v & N & B & I).
  exists v. rewrite <- E. auto.
Qed.
Lemma marks_empty : forall n, marks n (fun _ => False) (repeat 0 (Z.to_nat n)).
Proof.
  intros n. split; [apply repeat_length|]. intros a Ha. exists 0. split; [|split; [auto|split; [discriminate|intros []]]].
  rewrite nth_error_repeat by lia. reflexivity.
Qed.
Lemma marks_set : forall n P mk a, 1 <= a <= n -> marks n P mk ->
  exists mk', zset mk (a - 1) 1 = Ok mk' /\ marks n (fun x => P x \/ x = a) mk'.
Proof.
  intros n P mk a Ha [H1 H2]. rewrite zset_in_range by lia. eexists; split; [reflexivity|].
  split; [rewrite upd_length; exact H1|]. intros b Hb.
  destruct (Z.eq_dec b a) as [->|N].
  - exists 1. rewrite nth_error_upd_same by lia. split; [reflexivity|]. split; [auto|]. split; auto.
  - destruct (H2 b Hb) as (v & Nv & B & I). exists v. rewrite nth_error_upd_other by lia.
    split; [exact Nv|]. split; [exact B|]. rewrite I. split; [auto|]. intros [|]; [assumption|contradiction].
Qed.
Lemma inner_marks : forall n t (attrs : list Z) P mk, Forall (fun a => 1 <= a <= n) attrs -> marks n P mk ->
  exists mk', foldM (fun mk a => if a =? t then zset mk (a - 1) 1 else Ok mk) attrs mk = Ok mk' /\
              marks n (fun x => P x \/ (x = t /\ In x attrs)) mk'.
Proof.
  intros n t attrs; induction attrs as [|a r IH]; intros P mk F M; cbn [foldM].
  - exists mk. split; [reflexivity|]. eapply marks_ext; [|exact M]. cbn [In]. tauto.
  - apply Forall_inv in F as Ha. apply Forall_inv_tail in F as Fr. destruct (a =? t) eqn:E.
    + apply Z.eqb_eq in E. subst t. destruct (marks_set n P mk a Ha M) as (mk1 & -> & M1). cbn [bind].
      destruct (IH _ _ Fr M1) as (mk2 & -> & M2). exists mk2. split; [reflexivity|].
      eapply marks_ext; [|exact M2]. intros x. cbn [In]. intuition.
    + apply Z.eqb_neq in E. cbn [bind]. destruct (IH _ _ Fr M) as (mk2 & -> & M2). exists mk2. split; [reflexivity|].
      eapply marks_ext; [|exact M2]. intros x. cbn [In]. intuition congruence.
Qed.
Lemma present_marks : forall pm tags, meshOk pm -> exists mk, presentMarker pm tags = Ok mk /\
  marks (pm_max pm) (fun a => In a (pm_attrs pm) /\ In a tags) mk.
Proof.
  intros pm tags Hm. unfold presentMarker.
  assert (G : forall ts P mk, marks (pm_max pm) P mk -> exists mk',
    foldM (fun mk t => foldM (fun mk a => if a =? t then zset mk (a - 1) 1 else Ok mk) (pm_attrs pm) mk) ts mk = Ok mk' /\
    marks (pm_max pm) (fun a => P a \/ (In a (pm_attrs pm) /\ In a ts)) mk').
  { set (g := fun mk t => foldM (fun mk a => if a =? t then zset mk (a - 1) 1 else Ok mk) (pm_attrs pm) mk).
    induction ts as [|t ts IH]; intros P mk M; cbn [foldM].
    - exists mk. split; [reflexivity|]. eapply marks_ext; [|exact M]. cbn [In]; tauto.
    - destruct (inner_marks _ t _ P mk Hm M) as (mk1 & E1 & M1). unfold g at 1. rewrite E1. cbn [bind].
      destruct (IH _ _ M1) as (mk2 & -> & M2). exists mk2. split; [reflexivity|].
      eapply marks_ext; [|exact M2]. intros a. cbn [In]. intuition; subst; auto. }
  destruct (G tags _ _ (marks_empty (pm_max pm))) as (mk & E & M). exists mk. split; [exact E|].
  eapply marks_ext; [|exact M]. intros a; tauto.
Qed.
Lemma zsum_zero : forall l : list Z, Forall (fun v => v = 0 \/ v = 1) l -> (zsum l = 0 <-> Forall (fun v => v = 0) l) /\ 0 <= zsum l.
Proof.
  induction 1 as [|v l Hv Hl [IH P]]; cbn [zsum fold_right].
  - split; [split; [constructor|reflexivity]|lia].
  - fold (zsum l) in *. split; [|lia]. split.
    + intros E. constructor; [lia|]. apply IH. lia.
    + intros F. inversion F; subst. apply IH in H2. lia.
Qed.
Lemma marks_sum : forall n P mk, marks n P mk -> (zsum mk = 0 <-> forall a, 1 <= a <= n -> ~ P a).
Proof.
  intros n P mk [H1 H2].
  assert (F : Forall (fun v => v = 0 \/ v = 1) mk).
  { apply Forall_forall. intros v I. apply In_nth_error in I as (k & Hk).
    assert (Lk : (k < List.length mk)%nat) by (apply nth_error_Some; congruence).
    destruct (H2 (Z.of_nat k + 1) ltac:(lia)) as (w & Nw & B & _).
    replace (Z.to_nat (Z.of_nat k + 1 - 1)) with k in Nw by lia. assert (w = v) by congruence. subst. exact B. }
  rewrite (proj1 (zsum_zero mk F)). split.
  - intros Z a Ha Pa. destruct (H2 a Ha) as (v & Nv & _ & I). apply I in Pa. subst v.
    apply nth_error_In in Nv. rewrite Forall_forall in Z. specialize (Z _ Nv). discriminate.
  - intros N. apply Forall_forall. intros v Iv. apply In_nth_error in Iv as (k & Hk).
    assert (Lk : (k < List.length mk)%nat) by (apply nth_error_Some; congruence).
    destruct (H2 (Z.of_nat k + 1) ltac:(lia)) as (w & Nw & [B|B] & I);
      replace (Z.to_nat (Z.of_nat k + 1 - 1)) with k in Nw by lia; assert (w = v) by congruence; subst; [reflexivity|].
    exfalso. apply (N (Z.of_nat k + 1)); [lia|]. apply I. reflexivity.
Qed.
Lemma touches_sum : forall pm tags mk, meshOk pm -> marks (pm_max pm) (fun a => In a (pm_attrs pm) /\ In a tags) mk ->
  (zsum mk = 0 <-> ~ touches pm tags).
Proof.
  intros pm tags mk Hm M. rewrite (marks_sum _ _ _ M). unfold touches. split.
  - intros N (a & I1 & I2). assert (B := proj1 (Forall_forall _ _) Hm a I1). apply (N a B). auto.
  - intros N a _ H. apply N. exists a. exact H.
Qed.

Lemma readTags_entry : forall j ty tags, entry j ty tags -> readTags jint j = Ok tags.
Proof.
  intros j ty tags (_ & G & F). apply (readTags_iff jint whole32); [exact jint_ok|].
  exists (JArr (map JInt tags)), (map JInt tags). split; [exact G|]. split; [left; reflexivity|].
  clear G. induction F as [|t ts Ht F IH]; cbn [map]; constructor; [|exact IH].
  constructor; [exists 0; ring|lia].
Qed.
Lemma entry_type : forall j ty tags s, entry j ty tags -> jat j "type" = Ok (JStr ty) /\ (jeqs (JStr ty) s = true <-> ty = s).
Proof.
  intros j ty tags s (G & _). split; [apply (given_contains _ _ _ G)|]. cbn [jeqs]. apply String.eqb_eq.
Qed.

Lemma tf_dec : forall ty, (jeqs (JStr ty) "planewave" || jeqs (JStr ty) "dipole")%bool = true <-> isTotalField ty.
Proof. intros ty. unfold isTotalField. cbn [jeqs]. rewrite orb_true_iff, !String.eqb_eq. reflexivity. Qed.

Lemma tfsf_some : forall pm l es mk, meshOk pm -> Forall2 (fun j e => entry j (fst e) (snd e)) l es ->
  foldM (tfsfStep pm) l (Some mk) = Ok (Some mk).
Proof.
  intros pm l es mk Hm F; induction F as [|j [ty tags] l es E F IH]; [reflexivity|].
  cbn [foldM]. cbn [fst snd] in E. unfold tfsfStep at 1. destruct (entry_type _ _ _ "" E) as [-> _]. cbn [bind].
  destruct (jeqs (JStr ty) "planewave" || jeqs (JStr ty) "dipole")%bool; [|exact IH].
  rewrite (readTags_entry _ _ _ E). cbn [bind]. destruct (present_marks pm tags Hm) as (mk' & -> & _). cbn [bind minsert].
  destruct (zsum mk' =? 0); exact IH.
Qed.
Lemma tfsf_first : forall pm l es, meshOk pm -> Forall2 (fun j e => entry j (fst e) (snd e)) l es ->
  exists m, foldM (tfsfStep pm) l None = Ok m /\ firstOf pm es m.
Proof.
  intros pm l es Hm F; induction F as [|j [ty tags] l es E F IH]; [exists None; split; [reflexivity|constructor]|].
  cbn [foldM]. cbn [fst snd] in E. unfold tfsfStep at 1. destruct (entry_type _ _ _ "" E) as [-> _]. cbn [bind].
  pose proof (tf_dec ty) as D. destruct (jeqs (JStr ty) "planewave" || jeqs (JStr ty) "dipole")%bool.
  - rewrite (readTags_entry _ _ _ E). cbn [bind]. destruct (present_marks pm tags Hm) as (mk' & -> & M). cbn [bind minsert].
    pose proof (touches_sum _ _ _ Hm M) as T. destruct (zsum mk' =? 0) eqn:Z.
    + destruct IH as (m & Em & Fm). exists m. split; [exact Em|]. apply fo_skip; [right; apply T; lia|exact Fm].
    + exists (Some mk'). split; [eapply tfsf_some; eassumption|]. apply fo_here; [apply D; reflexivity| |exact M].
      assert (Dec : touches pm tags \/ ~ touches pm tags).
      { unfold touches. destruct (existsb (fun a => existsb (Z.eqb a) tags) (pm_attrs pm)) eqn:Ex.
        - left. apply existsb_exists in Ex as (a & I & Ex). apply existsb_exists in Ex as (b & I' & Q). apply Z.eqb_eq in Q. subst. eauto.
        - right. intros (a & I & I'). enough (existsb (fun a => existsb (Z.eqb a) tags) (pm_attrs pm) = true) by congruence.
          apply existsb_exists. exists a. split; [exact I|]. apply existsb_exists. exists a. split; [exact I'|apply Z.eqb_refl]. }
      destruct Dec as [Y|N]; [exact Y|]. apply T in N. lia.
  - destruct IH as (m & Em & Fm). exists m. split; [exact Em|]. apply fo_skip; [left|exact Fm]. intros Q. apply D in Q. discriminate.
Qed.

(** The thin layers. *)
Lemma sgbcTags_entries : forall c m bdrs l, given c "model" m -> given m "boundaries" (JArr l) ->
  Forall2 (fun j e => entry j (fst e) (snd e)) l bdrs ->
  getSGBCTags c = Ok (flat_map (fun e => if String.eqb (fst e) "SGBC" then snd e else []) bdrs).
Proof.
  intros c m bdrs l G1 G2 F. unfold getSGBCTags. destruct (given_contains _ _ _ G1) as [-> ->]. cbn [negb bind].
  destruct (given_contains _ _ _ G2) as [-> ->]. cbn [negb bind].
  rewrite (fold_list (fun acc b => s <- isSGBC b ;; if s then ts <- readTags jint b ;; Ok (acc ++ ts) else Ok acc) (JArr l) [] l (or_introl eq_refl)).
  enough (G : forall acc, foldM (fun acc b => s <- isSGBC b ;; if s then ts <- readTags jint b ;; Ok (acc ++ ts) else Ok acc) l acc =
    Ok (acc ++ flat_map (fun e => if String.eqb (fst e) "SGBC" then snd e else []) bdrs)) by apply G.
  clear G2. induction F as [|j [ty tags] l es E F IH]; intros acc; cbn [foldM flat_map fst snd].
  - rewrite app_nil_r. reflexivity.
  - cbn [fst snd] in E. unfold isSGBC at 1. destruct E as (Gt & Gr). destruct (given_contains _ _ _ Gt) as [-> ->]. cbn [bind jeqs].
    destruct (String.eqb ty "SGBC").
    + rewrite (readTags_entry j ty tags (conj Gt Gr)). cbn [bind]. rewrite IH, <- app_assoc. reflexivity.
    + cbn [bind]. apply IH.
Qed.
Lemma sgbcTags_in : forall bdrs a, In a (flat_map (fun e : string * list Z => if String.eqb (fst e) "SGBC" then snd e else []) bdrs) <->
  tagsOfAll (fun ty => ty = "SGBC"%string) bdrs a.
Proof.
  intros bdrs a. rewrite in_flat_map. unfold tagsOfAll. split.
  - intros (e & I & H). exists e. destruct (String.eqb_spec (fst e) "SGBC"); [auto|destruct H].
  - intros (e & I & T & H). exists e. split; [exact I|]. rewrite T. exact H.
Qed.
Lemma sgbc_some : forall c pm l es mk tags, meshOk pm -> getSGBCTags c = Ok tags -> Forall2 (fun j e => entry j (fst e) (snd e)) l es ->
  foldM (sgbcStep c pm) l (Some mk) = Ok (Some mk).
Proof.
  intros c pm l es mk tags Hm Ht F; induction F as [|j [ty tg] l es E F IH]; [reflexivity|].
  cbn [foldM]. cbn [fst snd] in E. unfold sgbcStep at 1. rewrite Ht. cbn [bind]. destruct (entry_type _ _ _ "SGBC" E) as [-> _]. cbn [bind].
  destruct (jeqs (JStr ty) "SGBC"); [|exact IH].
  destruct (present_marks pm tags Hm) as (mk' & -> & _). cbn [bind minsert]. destruct (zsum mk' =? 0); exact IH.
Qed.
Lemma sgbc_all : forall c pm l es tags, meshOk pm -> getSGBCTags c = Ok tags -> Forall2 (fun j e => entry j (fst e) (snd e)) l es ->
  exists m, foldM (sgbcStep c pm) l None = Ok m /\
    match m with Some mk => touches pm tags /\ marks (pm_max pm) (fun a => In a (pm_attrs pm) /\ In a tags) mk
               | None => (exists e, In e es /\ fst e = "SGBC"%string) -> ~ touches pm tags end.
Proof.
  intros c pm l es tags Hm Ht F; induction F as [|j [ty tg] l es E F IH].
  { exists None. split; [reflexivity|]. intros (e & [] & _). }
  cbn [foldM]. cbn [fst snd] in E. unfold sgbcStep at 1. rewrite Ht. cbn [bind]. destruct (entry_type _ _ _ "SGBC" E) as [-> Ty]. cbn [bind].
  destruct (jeqs (JStr ty) "SGBC") eqn:J.
  - destruct (present_marks pm tags Hm) as (mk' & -> & M). cbn [bind minsert]. pose proof (touches_sum _ _ _ Hm M) as T.
    destruct (zsum mk' =? 0) eqn:Z.
    + assert (NT : ~ touches pm tags) by (apply T; lia). destruct IH as (m & Em & Hmm). exists m. split; [exact Em|].
      destruct m; [exact Hmm|auto].
    + exists (Some mk'). split; [eapply sgbc_some; eassumption|]. split; [|exact M].
      destruct (existsb (fun a => existsb (Z.eqb a) tags) (pm_attrs pm)) eqn:Ex.
      * apply existsb_exists in Ex as (a & I & Ex). apply existsb_exists in Ex as (b & I' & Q). apply Z.eqb_eq in Q. subst. exists b; auto.
      * assert (N : ~ touches pm tags).
        { intros (a & I & I'). enough (existsb (fun a => existsb (Z.eqb a) tags) (pm_attrs pm) = true) by congruence.
          apply existsb_exists. exists a. split; [exact I|]. apply existsb_exists. exists a. split; [exact I'|apply Z.eqb_refl]. }
        apply T in N. lia.
  - destruct IH as (m & Em & Hmm). exists m. split; [exact Em|]. destruct m; [exact Hmm|].
    intros (e & [<-|I] & Q); [|apply Hmm; eauto]. cbn [fst] in Q. apply Ty in Q. congruence.
Qed.

(** ** The whole step *)
Lemma post_eq : forall c pm sma o srcs bdrs, meshOk pm -> caseOf c srcs bdrs ->
  exists tf sg, firstOf pm srcs tf /\ surfaceOf pm (tagsOfAll (fun ty => ty = "SGBC"%string) bdrs) sg /\
    postProcessInformation c pm (mkPMd sma None None) o =
    if sma && (if Req_EM_T (so_alpha o) 0 then true else false) && (match so_op o with OpHesthaven => true | _ => false end)
    then Throw else Ok (mkPMd sma tf sg).
Proof.
  intros c pm sma o srcs bdrs Hm ((ls & Gs & Fs) & m & Gm & (lb & Gb & Fb)).
  destruct (tfsf_first pm ls srcs Hm Fs) as (tf & Etf & Ftf).
  pose proof (sgbcTags_entries c m bdrs lb Gm Gb Fb) as Et.
  destruct (sgbc_all c pm lb bdrs _ Hm Et Fb) as (sg & Esg & Hsg).
  exists tf, sg. split; [exact Ftf|]. split.
  - destruct sg as [mk|]; cbn [surfaceOf].
    + destruct Hsg as [(a & I1 & I2) M]. apply sgbcTags_in in I2. split; [exists a; auto|].
      refine (marks_ext _ _ _ _ _ M). intros x. rewrite sgbcTags_in. reflexivity.
    + intros a I T. apply Hsg; [destruct T as (e & Ie & Te & _); exists e; auto|]. exists a. split; [exact I|]. apply sgbcTags_in. exact T.
  - unfold postProcessInformation. destruct (given_contains _ _ _ Gs) as [_ ->]. cbn [bind pd_tfsf pd_sgbc pd_sma].
    rewrite (fold_list (tfsfStep pm) (JArr ls) None ls (or_introl eq_refl)), Etf. cbn [bind].
    destruct (given_contains _ _ _ Gm) as [_ ->]. cbn [bind]. destruct (given_contains _ _ _ Gb) as [_ ->]. cbn [bind].
    rewrite (fold_list (sgbcStep c pm) (JArr lb) None lb (or_introl eq_refl)), Esg. reflexivity.
Qed.

Theorem post_ok : forall c pm sma o srcs bdrs md, meshOk pm -> caseOf c srcs bdrs ->
  postProcessInformation c pm (mkPMd sma None None) o = Ok md ->
  pd_sma md = sma /\ firstOf pm srcs (pd_tfsf md) /\ surfaceOf pm (tagsOfAll (fun ty => ty = "SGBC"%string) bdrs) (pd_sgbc md).
Proof.
  intros c pm sma o srcs bdrs md Hm Hc H. destruct (post_eq c pm sma o srcs bdrs Hm Hc) as (tf & sg & Ht & Hs & E).
  rewrite E in H. destruct (sma && _ && _); [discriminate|]. injection H as <-. cbn. auto.
Qed.
Theorem post_throw : forall c pm sma o srcs bdrs, meshOk pm -> caseOf c srcs bdrs ->
  (postProcessInformation c pm (mkPMd sma None None) o = Throw <-> (sma = true /\ so_alpha o = 0%R /\ so_op o = OpHesthaven)) /\
  postProcessInformation c pm (mkPMd sma None None) o <> UB.
Proof.
  intros c pm sma o srcs bdrs Hm Hc. destruct (post_eq c pm sma o srcs bdrs Hm Hc) as (tf & sg & _ & _ & ->).
  destruct sma; cbn [andb]; [|split; [split; [discriminate|intros (? & _); discriminate]|discriminate]].
  destruct (Req_EM_T (so_alpha o) 0) as [A|A]; cbn [andb]; [|split; [split; [discriminate|intros (_ & ? & _); contradiction]|discriminate]].
  destruct (so_op o); split; try discriminate; split; try discriminate; auto; intros (_ & _ & ?); discriminate.
Qed.

(** One surface: every total field source that touches the partition has the same tags there. *)
Theorem first_surface : forall pm srcs m, firstOf pm srcs m ->
  (forall e1 e2 a, In e1 srcs -> In e2 srcs -> isTotalField (fst e1) -> isTotalField (fst e2) ->
     In a (pm_attrs pm) -> touches pm (snd e1) -> In a (snd e2) -> In a (snd e1)) ->
  surfaceOf pm (tagsOfAll isTotalField srcs) m.
Proof.
  induction 1 as [|ty tags es mk Ht (a & I1 & I2) M|ty tags es m N F IH]; intros Same.
  - intros a _ (e & [] & _).
  - cbn [surfaceOf]. split.
    + exists a. split; [exact I1|]. exists (ty, tags). repeat split; auto. left; reflexivity.
    + eapply marks_ext; [|exact M]. intros x. split.
      * intros [I J]. split; [exact I|]. exists (ty, tags). repeat split; auto. left; reflexivity.
      * intros [I (e & Ie & Te & Je)]. split; [exact I|].
        apply (Same (ty, tags) e x); auto; [left; reflexivity|]. exists a; auto.
  - assert (S : surfaceOf pm (tagsOfAll isTotalField es) m).
    { apply IH. intros e1 e2 a J1 J2. apply Same; right; assumption. }
    assert (Eq : forall a, In a (pm_attrs pm) -> (tagsOfAll isTotalField ((ty, tags) :: es) a <-> tagsOfAll isTotalField es a)).
    { intros a I. split.
      - intros (e & [<-|Ie] & Te & Je).
        + cbn [fst snd] in *. destruct N as [N|N]; [contradiction|]. exfalso; apply N. exists a; auto.
        + exists e; auto.
      - intros (e & Ie & H). exists e. split; [right; exact Ie|exact H]. }
    destruct m as [mk|]; cbn [surfaceOf] in *.
    + destruct S as [(a & I & T) M]. split; [exists a; split; [exact I|]; apply Eq; assumption|].
      eapply marks_ext; [|exact M]. intros x. split; intros [I0 T0]; (split; [exact I0|]); apply Eq; assumption.
    + intros a I T. apply (S a I). apply Eq; assumption.
Qed.

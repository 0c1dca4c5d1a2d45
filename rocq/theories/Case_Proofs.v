(** Proofs about the names of a case. *)
From Coq Require Import String Ascii ZArith List Bool Lia.
From Verif Require Import Common Case_Model Case_Spec.
Import ListNotations.

Lemma streq_iff (a b : str) : streq a b = true <-> a = b.
Proof. unfold streq. destruct (list_eq_dec ascii_dec a b); split; congruence. Qed.
Lemma streq_refl (a : str) : streq a a = true.
Proof. apply streq_iff; reflexivity. Qed.
Lemma streq_false (a b : str) : streq a b = false <-> a <> b.
Proof. unfold streq. destruct (list_eq_dec ascii_dec a b); split; congruence. Qed.

Lemma isSlash_iff a : isSlash a = true <-> a = slash.
Proof. unfold isSlash. apply Ascii.eqb_eq. Qed.
Lemma isDot_iff a : isDot a = true <-> a = dot.
Proof. unfold isDot. apply Ascii.eqb_eq. Qed.

Lemma spanNot_spec f l x y : spanNot f l = (x, y) ->
  l = x ++ y /\ (forall a, In a x -> f a = false) /\
  (y = [] \/ exists a t, y = a :: t /\ f a = true).
Proof.
  revert x y. induction l as [|a t IH]; intros x y; cbn [spanNot].
  - intros [= <- <-]. repeat split; auto. intros a [].
  - destruct (f a) eqn:E.
    + intros [= <- <-]. split; [reflexivity|]. split; [intros b []|].
      right. exists a, t. auto.
    + destruct (spanNot f t) as [x' y'] eqn:S. intros [= <- <-].
      destruct (IH _ _ eq_refl) as (-> & H1 & H2). split; [reflexivity|]. split; [|exact H2].
      intros b [-> | B]; auto.
Qed.

Lemma spanNot_app f x a y : (forall b, In b x -> f b = false) -> f a = true ->
  spanNot f (x ++ a :: y) = (x, a :: y).
Proof.
  intros H A. induction x as [|b t IH]; cbn [app spanNot].
  - now rewrite A.
  - rewrite (H b (or_introl eq_refl)), IH; [reflexivity|].
    intros c C. apply H. now right.
Qed.
Lemma spanNot_all f x : (forall b, In b x -> f b = false) -> spanNot f x = (x, []).
Proof.
  intros H. induction x as [|b t IH]; cbn [spanNot]; [reflexivity|].
  rewrite (H b (or_introl eq_refl)), IH; [reflexivity|].
  intros c C. apply H. now right.
Qed.

Lemma nosl (x : str) : ~ In slash x -> forall b, In b x -> isSlash b = false.
Proof.
  intros N b B. destruct (isSlash b) eqn:E; [|reflexivity].
  apply isSlash_iff in E. subst. contradiction.
Qed.
Lemma nosl_rev (x : str) : ~ In slash x -> forall b, In b (rev x) -> isSlash b = false.
Proof. intros N b B. apply (nosl x N). now apply in_rev. Qed.

Lemma split_last (p : str) :
  (~ In slash p) \/ exists Q n, p = Q ++ slash :: n /\ ~ In slash n.
Proof.
  destruct (spanNot isSlash (rev p)) as [x y] eqn:S.
  destruct (spanNot_spec _ _ _ _ S) as (E & H1 & [-> | (a & t & -> & A)]).
  - left. intros I. apply in_rev in I. rewrite E, app_nil_r in I.
    specialize (H1 _ I). cbn in H1. discriminate H1.
  - right. apply isSlash_iff in A. subst a. exists (rev t), (rev x).
    split.
    + rewrite <- (rev_involutive p), E, rev_app_distr. cbn [rev]. now rewrite <- app_assoc.
    + intros I. apply in_rev in I. specialize (H1 _ I). discriminate H1.
Qed.

Lemma filename_sl Q n : ~ In slash n -> filename (Q ++ slash :: n) = n.
Proof.
  intros N. unfold filename. rewrite rev_app_distr. cbn [rev]. rewrite <- app_assoc. cbn [app].
  rewrite spanNot_app; [cbn [fst]; apply rev_involutive | now apply nosl_rev | reflexivity].
Qed.
Lemma filename_no n : ~ In slash n -> filename n = n.
Proof.
  intros N. unfold filename. rewrite spanNot_all; [apply rev_involutive | now apply nosl_rev].
Qed.
Lemma filename_pre P c : dirPrefix P -> ~ In slash c -> filename (P ++ c) = c.
Proof.
  intros [-> | (Q & ->)] N; [now apply filename_no|].
  rewrite <- app_assoc. cbn [app]. now apply filename_sl.
Qed.

Lemma repeat_rev {A} (a : A) k : rev (repeat a k) = repeat a k.
Proof.
  induction k as [|k IH]; [reflexivity|]. cbn [repeat rev]. rewrite IH.
  clear IH. induction k as [|k IH]; [reflexivity|]. cbn [repeat app]. now rewrite IH.
Qed.

Lemma dropWhile_rep k t : dropWhile isSlash (repeat slash k ++ t) = dropWhile isSlash t.
Proof. induction k as [|k IH]; [reflexivity|]. cbn [repeat app dropWhile]. exact IH. Qed.

Lemma split_trail (Q : str) :
  (exists k, Q = repeat slash k) \/
  exists R a k, Q = R ++ a :: repeat slash k /\ a <> slash.
Proof.
  rewrite <- (rev_involutive Q). induction (rev Q) as [|a t IH]; cbn [rev].
  - left. now exists O.
  - destruct (ascii_dec a slash) as [-> | N].
    + destruct IH as [(k & ->) | (R & b & k & -> & B)].
      * left. exists (S k). cbn [repeat]. now rewrite repeat_cons.
      * right. exists R, b, (S k). split; [|exact B].
        rewrite <- app_assoc. cbn [app]. f_equal. f_equal. cbn [repeat].
        now rewrite repeat_cons.
    + right. exists (rev t), a, O. split; [reflexivity|exact N].
Qed.

Lemma parent_no n : ~ In slash n -> parent_path n = [].
Proof.
  intros N. unfold parent_path. rewrite spanNot_all by now apply nosl_rev. reflexivity.
Qed.
Lemma parent_sl_root k n : ~ In slash n -> parent_path (repeat slash k ++ slash :: n) = [slash].
Proof.
  intros N. unfold parent_path. rewrite rev_app_distr. cbn [rev]. rewrite <- app_assoc. cbn [app].
  rewrite spanNot_app; [|now apply nosl_rev | reflexivity].
  cbn [snd]. rewrite repeat_rev. cbn [dropWhile].
  replace (isSlash slash) with true by reflexivity.
  rewrite <- (app_nil_r (repeat slash k)), dropWhile_rep. reflexivity.
Qed.
Lemma parent_sl R a k n : a <> slash -> ~ In slash n ->
  parent_path (R ++ a :: repeat slash k ++ slash :: n) = R ++ [a].
Proof.
  intros A N. unfold parent_path.
  replace (R ++ a :: repeat slash k ++ slash :: n)
    with ((R ++ a :: repeat slash k) ++ slash :: n) by now rewrite <- app_assoc.
  rewrite rev_app_distr. cbn [rev]. rewrite <- (app_assoc (rev n)). cbn [app].
  rewrite spanNot_app; [|now apply nosl_rev | reflexivity].
  cbn [snd]. rewrite rev_app_distr. cbn [rev]. rewrite repeat_rev, <- app_assoc. cbn [app dropWhile].
  replace (isSlash slash) with true by reflexivity.
  rewrite dropWhile_rep. cbn [dropWhile].
  destruct (isSlash a) eqn:E; [apply isSlash_iff in E; contradiction|].
  cbn [rev]. now rewrite rev_involutive.
Qed.

(** The shape of a file name by its extension. *)
Lemma nodot_ext (s : str) : ~ In dot s -> forall n, n = s -> spanNot isDot (rev n) = (rev s, []).
Proof.
  intros N n ->. apply spanNot_all. intros b B. destruct (isDot b) eqn:E; [|reflexivity].
  apply isDot_iff in E. subst. apply in_rev in B. contradiction.
Qed.
Lemma splitExt_app s e : s <> [] -> e <> [] -> ~ In dot e -> splitExt (s ++ dot :: e) = (s, dot :: e).
Proof.
  intros S E N. unfold splitExt.
  assert (D : streq (s ++ dot :: e) [dot; dot] = false).
  { apply streq_false. intros H. destruct s as [|a s]; [now apply S|].
    destruct e as [|b e]; [now apply E|]. apply (f_equal (@length ascii)) in H.
    rewrite app_length in H. cbn [length] in H. lia. }
  rewrite D. rewrite rev_app_distr. cbn [rev]. rewrite <- app_assoc. cbn [app].
  rewrite spanNot_app; [| |reflexivity].
  - rewrite rev_involutive. destruct (rev s) as [|b r] eqn:R.
    + apply (f_equal (@rev ascii)) in R. rewrite rev_involutive in R. contradiction.
    + apply (f_equal (@rev ascii)) in R. rewrite rev_involutive in R.
      rewrite R. cbn [rev]. now rewrite rev_involutive.
  - intros b B. destruct (isDot b) eqn:Q; [|reflexivity].
    apply isDot_iff in Q. subst. apply in_rev in B. contradiction.
Qed.
Lemma splitExt_inv n s e : splitExt n = (s, e) -> e <> [] -> n = s ++ e /\ s <> [].
Proof.
  unfold splitExt. destruct (streq n [dot; dot]); [intros [= <- <-] H; contradiction|].
  destruct (spanNot isDot (rev n)) as [x y] eqn:S.
  destruct (spanNot_spec _ _ _ _ S) as (E & H1 & H2).
  destruct y as [|a [|b r]].
  - intros [= <- <-] H; contradiction.
  - intros [= <- <-] H; contradiction.
  - intros [= <- <-] _. destruct H2 as [H2 | (a' & t & [= <- <-] & A)]; [discriminate|].
    apply isDot_iff in A. subst a. split.
    + rewrite <- (rev_involutive n), E, rev_app_distr. cbn [rev].
      now rewrite <- !app_assoc.
    + cbn [rev]. destruct (rev r); discriminate.
Qed.

Definition jext : str := lit ".json".
Definition mext : str := lit ".msh".
Definition meext : str := lit ".mesh".

Lemma json_shape : jext = dot :: lit "json". Proof. reflexivity. Qed.
Lemma notin_lit (a : ascii) (l : str) : existsb (Ascii.eqb a) l = false -> ~ In a l.
Proof.
  intros H I. assert (X : existsb (Ascii.eqb a) l = true); [|congruence].
  apply existsb_exists. exists a. split; [exact I | apply Ascii.eqb_refl].
Qed.

(** A path whose extension is .json. *)
Lemma ext_json path : extension path = jext ->
  filename path = stem path ++ jext /\ stem path <> [].
Proof.
  unfold extension, stem. destruct (splitExt (filename path)) as [s e] eqn:S. cbn [fst snd].
  intros ->. apply (splitExt_inv _ _ _ S). discriminate.
Qed.

Lemma nosl_app (a b : str) : ~ In slash a -> ~ In slash b -> ~ In slash (a ++ b).
Proof. intros A B I. apply in_app_or in I. tauto. Qed.
Lemma nosl_jext : ~ In slash jext. Proof. apply notin_lit. reflexivity. Qed.
Lemma nosl_mext : ~ In slash mext. Proof. apply notin_lit. reflexivity. Qed.

Lemma stem_json Q c : ~ In slash c -> c <> [] -> stem (Q ++ slash :: c ++ jext) = c.
Proof.
  intros N C. unfold stem. rewrite filename_sl by (apply nosl_app; [exact N | exact nosl_jext]).
  rewrite json_shape, splitExt_app; [reflexivity | exact C | discriminate |].
  apply notin_lit. reflexivity.
Qed.
Lemma ext_json' Q c : ~ In slash c -> c <> [] -> extension (Q ++ slash :: c ++ jext) = jext.
Proof.
  intros N C. unfold extension.
  rewrite filename_sl by (apply nosl_app; [exact N | exact nosl_jext]).
  rewrite json_shape, splitExt_app; [reflexivity | exact C | discriminate |].
  apply notin_lit. reflexivity.
Qed.

Lemma last_case (c : str) : caseName c -> exists c' a, c = c' ++ [a] /\ a <> slash.
Proof.
  intros [C N]. destruct (exists_last C) as (c' & a & ->). exists c', a. split; [reflexivity|].
  intros ->. apply N. apply in_or_app. right. now left.
Qed.

(** The two directions of the acceptance. *)
Lemma validate_complete ex P c k path : casePath P c k path -> ex (caseMesh P c) = true ->
  validateCaseNamingStyle ex path (Some (c ++ lit ".msh")) = Ok tt.
Proof.
  intros (DP & CN & K & ->) E. destruct (last_case c CN) as (c' & a & EC & A).
  destruct CN as [C N]. destruct k as [|k]; [lia|].
  change (lit ".json") with jext. change (lit ".msh") with mext.
  assert (PE : P ++ c ++ repeat slash (S k) ++ c ++ jext
               = (P ++ c ++ repeat slash k) ++ slash :: c ++ jext).
  { cbn [repeat]. rewrite repeat_cons. rewrite <- !app_assoc. reflexivity. }
  assert (NJ : ~ In slash (c ++ jext)) by (apply nosl_app; [exact N | exact nosl_jext]).
  assert (NM : ~ In slash (c ++ mext)) by (apply nosl_app; [exact N | exact nosl_mext]).
  assert (PP : parent_path (P ++ c ++ repeat slash (S k) ++ c ++ jext) = P ++ c).
  { rewrite PE.
    replace ((P ++ c ++ repeat slash k) ++ slash :: c ++ jext)
      with ((P ++ c') ++ a :: repeat slash k ++ slash :: (c ++ jext)).
    - rewrite parent_sl by assumption. rewrite EC. now rewrite app_assoc.
    - rewrite EC at 2. rewrite <- !app_assoc. reflexivity. }
  unfold validateCaseNamingStyle. rewrite PP, PE.
  rewrite ext_json', stem_json by assumption.
  change (lit ".json") with jext. change (lit ".msh") with mext. rewrite streq_refl. cbn [negb].
  destruct (P ++ c) as [|x y] eqn:PC.
  { apply app_eq_nil in PC. destruct PC; contradiction. }
  rewrite <- PC. rewrite (filename_pre P c DP N), streq_refl. cbn [negb].
  rewrite (filename_no _ NM), streq_refl. cbn [negb].
  rewrite (parent_no _ NM).
  assert (PA : pathAppend (P ++ c) (c ++ mext) = caseMesh P c).
  { unfold pathAppend. rewrite (filename_pre P c DP N).
    destruct c as [|h t]; [contradiction|]. cbn [app].
    replace (isSlash h) with false.
    - unfold caseMesh. rewrite <- app_assoc. reflexivity.
    - symmetry. apply (nosl _ N). now left. }
  now rewrite PA, E.
Qed.

Lemma dirPrefix_split R : (~ In slash R) \/ exists P c, R = P ++ c /\ dirPrefix P /\ ~ In slash c.
Proof.
  destruct (split_last R) as [N | (Q & n & -> & N)]; [now left|]. right.
  exists (Q ++ [slash]), n. rewrite <- app_assoc. repeat split; auto. right. now exists Q.
Qed.

Lemma validate_sound ex path mf : validateCaseNamingStyle ex path mf = Ok tt ->
  exists P c k, casePath P c k path /\ mf = Some (c ++ lit ".msh") /\ ex (caseMesh P c) = true.
Proof.
  unfold validateCaseNamingStyle. change (lit ".json") with jext. change (lit ".msh") with mext.
  destruct (streq (extension path) jext) eqn:E1; cbn [negb]; [|discriminate].
  apply streq_iff in E1. destruct (ext_json path E1) as [FN SN].
  set (c := stem path) in *.
  destruct (split_last path) as [N | (Q & n & EP & N)].
  { rewrite (parent_no _ N). discriminate. }
  assert (En : n = c ++ jext). { rewrite <- FN, EP. symmetry. now apply filename_sl. }
  destruct (split_trail Q) as [(k & ->) | (R & a & k & -> & A)].
  { (* the directory is the root: its name is empty *)
    rewrite EP, parent_sl_root by exact N.
    destruct mf as [raw|]; [|discriminate].
    change (filename [slash]) with (@nil ascii).
    destruct (streq [] c) eqn:E2; cbn [negb]; [|discriminate].
    apply streq_iff in E2. congruence. }
  assert (PP : parent_path path = R ++ [a]).
  { rewrite EP, <- app_assoc. cbn [app]. now apply parent_sl. }
  rewrite PP. destruct (R ++ [a]) as [|x y] eqn:RA; [discriminate|]. rewrite <- RA.
  destruct mf as [raw|]; [|discriminate].
  destruct (streq (filename (R ++ [a])) c) eqn:E2; cbn [negb]; [|discriminate].
  apply streq_iff in E2.
  destruct (streq (filename raw) (c ++ mext)) eqn:E3; cbn [negb]; [|discriminate].
  apply streq_iff in E3.
  destruct (parent_path raw) as [|q0 qs] eqn:PR; [|discriminate].
  destruct (ex (pathAppend (R ++ [a]) (c ++ mext))) eqn:E4; [|discriminate]. intros _.
  assert (Nc : ~ In slash c).
  { intros I. apply N. rewrite En. apply in_or_app. now left. }
  assert (Er : raw = c ++ mext).
  { destruct (split_last raw) as [Nr | (Qr & nr & -> & Nr)].
    - now rewrite filename_no in E3.
    - exfalso. destruct (split_trail Qr) as [(j & ->) | (Rr & ar & j & -> & Ar)].
      + now rewrite parent_sl_root in PR.
      + rewrite <- app_assoc in PR. cbn [app] in PR. rewrite parent_sl in PR by assumption.
        destruct Rr; discriminate. }
  assert (DR : exists P, R ++ [a] = P ++ c /\ dirPrefix P).
  { destruct (split_last (R ++ [a])) as [Nr | (Qr & nr & Er' & Nr)].
    - rewrite filename_no in E2 by exact Nr. exists []. rewrite E2. split; [reflexivity|now left].
    - rewrite Er', filename_sl in E2 by exact Nr. subst nr.
      exists (Qr ++ [slash]). rewrite Er', <- app_assoc. split; [reflexivity|]. right. now exists Qr. }
  destruct DR as (P & RP & DP).
  exists P, c, (S k).
  assert (CN : caseName c) by (split; assumption).
  split; [|split].
  - split; [exact DP|]. split; [exact CN|]. split; [lia|].
    rewrite EP, En. change (lit ".json") with jext.
    replace ((R ++ a :: repeat slash k) ++ slash :: c ++ jext)
      with ((R ++ [a]) ++ repeat slash k ++ slash :: c ++ jext)
      by (rewrite <- !app_assoc; reflexivity).
    rewrite RP. cbn [repeat]. rewrite repeat_cons. rewrite <- !app_assoc. reflexivity.
  - now rewrite Er.
  - rewrite RP in E4. unfold pathAppend in E4. rewrite (filename_pre P c DP Nc) in E4.
    unfold caseMesh. change (lit ".msh") with mext. clearbody c.
    destruct c as [|h t]; [contradiction|]. cbn [app] in E4.
    replace (isSlash h) with false in E4 by (symmetry; apply (nosl _ Nc); now left).
    rewrite <- app_assoc in E4. exact E4.
Qed.

Lemma accept_iff ex path mf : validateCaseNamingStyle ex path mf = Ok tt <->
  exists P c k, casePath P c k path /\ mf = Some (c ++ lit ".msh") /\ ex (caseMesh P c) = true.
Proof.
  split; [apply validate_sound|]. intros (P & c & k & H & -> & E). now apply (validate_complete ex P c k).
Qed.

Lemma validate_no_ub ex path mf : validateCaseNamingStyle ex path mf <> UB.
Proof.
  unfold validateCaseNamingStyle.
  repeat match goal with |- context [match ?x with _ => _ end] => destruct x end; discriminate.
Qed.

(** A mesh named .mesh is never accepted. *)
Lemma mesh_refused ex path c' : validateCaseNamingStyle ex path (Some (c' ++ lit ".mesh")) = Throw.
Proof.
  destruct (validateCaseNamingStyle ex path (Some (c' ++ lit ".mesh"))) as [[]| |] eqn:E.
  - apply validate_sound in E. destruct E as (P & c & k & _ & E & _). injection E as E.
    exfalso. apply (f_equal (@rev ascii)) in E. rewrite !rev_app_distr in E.
    cbn [lit list_ascii_of_string rev app] in E. discriminate E.
  - reflexivity.
  - now apply validate_no_ub in E.
Qed.

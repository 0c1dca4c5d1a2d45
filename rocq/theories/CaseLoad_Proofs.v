(** Proofs about the mesh file that is opened and about the launcher's arguments. *)
From Coq Require Import String Ascii ZArith List Bool Lia.
From Verif Require Import Common Case_Model Case_Spec Case_Proofs.
Import ListNotations.

(** ** Occurrences *)
Lemma prefixb_iff pat l : prefixb pat l = true <-> exists b, l = pat ++ b.
Proof.
  revert l. induction pat as [|a p IH]; intros l; cbn [prefixb].
  - split; [intros _; now exists l | reflexivity].
  - destruct l as [|b t].
    + split; [discriminate | intros (b & H); discriminate H].
    + rewrite andb_true_iff, Ascii.eqb_eq, IH. split.
      * intros (-> & r & ->). now exists r.
      * intros (r & [= -> ->]). split; [reflexivity | now exists r].
Qed.

Lemma find_some pat l n : find pat l = Some n ->
  exists a b, l = a ++ pat ++ b /\ length a = n /\
              forall a' b', l = a' ++ pat ++ b' -> (n <= length a')%nat.
Proof.
  revert n. induction l as [|x t IH]; intros n; cbn [find].
  - destruct (prefixb pat []) eqn:E; [|discriminate]. intros [= <-].
    apply prefixb_iff in E. destruct E as (b & E). exists [], b. repeat split; auto. intros; lia.
  - destruct (prefixb pat (x :: t)) eqn:E.
    + intros [= <-]. apply prefixb_iff in E. destruct E as (b & E). exists [], b.
      repeat split; auto. intros; lia.
    + destruct (find pat t) as [m|]; [|discriminate]. intros [= <-].
      destruct (IH m eq_refl) as (a & b & -> & L & Min). exists (x :: a), b.
      split; [reflexivity|]. split; [cbn [length]; lia|]. intros a' b' H.
      destruct a' as [|y a'].
      * exfalso. assert (X : prefixb pat (x :: a ++ pat ++ b) = true); [|congruence].
        apply prefixb_iff. now exists b'.
      * cbn [app] in H. injection H as _ H. apply Min in H. cbn [length]. lia.
Qed.
Lemma find_none pat l : find pat l = None -> ~ occurs pat l.
Proof.
  induction l as [|x t IH]; cbn [find].
  - destruct (prefixb pat []) eqn:E; [discriminate|]. intros _ (a & b & H).
    destruct a; [|discriminate]. assert (X : prefixb pat [] = true); [|congruence].
    apply prefixb_iff. now exists b.
  - destruct (prefixb pat (x :: t)) eqn:E; [discriminate|].
    destruct (find pat t) as [m|]; [discriminate|]. intros _ (a & b & H).
    destruct a as [|y a].
    + assert (X : prefixb pat (x :: t) = true); [|congruence]. apply prefixb_iff. now exists b.
    + cbn [app] in H. injection H as _ H. apply (IH eq_refl). now exists a, b.
Qed.
Lemma find_occurs pat l : occurs pat l -> exists n, find pat l = Some n.
Proof.
  intros O. destruct (find pat l) as [n|] eqn:E; [now exists n|].
  now apply find_none in E.
Qed.
Lemma find_not pat l : ~ occurs pat l -> find pat l = None.
Proof.
  intros O. destruct (find pat l) as [n|] eqn:E; [|reflexivity].
  apply find_some in E. destruct E as (a & b & -> & _). exfalso. apply O. now exists a, b.
Qed.
Lemma occurs_dec pat l : occurs pat l \/ ~ occurs pat l.
Proof.
  destruct (find pat l) as [n|] eqn:E.
  - left. apply find_some in E. destruct E as (a & b & -> & _). now exists a, b.
  - right. now apply find_none.
Qed.

Lemma erase_at a pat b n : length pat = n -> erase (a ++ pat ++ b) (Some (length a)) n = Ok (a ++ b).
Proof.
  intros <-. unfold erase.
  replace (Nat.leb (length a) (length (a ++ pat ++ b))) with true.
  - rewrite firstn_app, Nat.sub_diag, firstn_all, firstn_O, app_nil_r.
    rewrite app_assoc, skipn_app.
    rewrite skipn_all2 by (rewrite app_length; lia).
    rewrite app_length, Nat.sub_diag. reflexivity.
  - symmetry. apply Nat.leb_le. rewrite app_length. lia.
Qed.

(** A pattern without the character [s] does not cross it. *)
Lemma occurs_cut s pat a b : pat <> [] -> ~ In s pat -> occurs pat (a ++ s :: b) ->
  occurs pat a \/ occurs pat b.
Proof.
  intros NE N (a1 & b1 & E). apply app_eq_app in E. destruct E as (l & [[-> E] | [-> E]]).
  - apply app_eq_app in E. destruct E as (l2 & [[-> E] | [-> E]]).
    + destruct l2 as [|x l2].
      * left. exists a1, []. now rewrite !app_nil_r.
      * cbn [app] in E. injection E as <- _. exfalso. apply N. apply in_or_app. right. now left.
    + left. exists a1, l2. reflexivity.
  - destruct l as [|x l].
    + exfalso. destruct pat as [|p pat]; [now apply NE|]. cbn [app] in E. injection E as E _.
      apply N. now left.
    + right. cbn [app] in E. injection E as _ ->. now exists l, b1.
Qed.

(** A pattern that begins with a character it does not contain further on. *)
Lemma occurs_cut1 s q a b : ~ In s q -> occurs (s :: q) (a ++ s :: b) ->
  occurs (s :: q) a \/ (exists r, b = q ++ r) \/ occurs (s :: q) b.
Proof.
  intros N (a1 & b1 & E). apply app_eq_app in E. destruct E as (l & [[-> E] | [-> E]]).
  - apply app_eq_app in E. destruct E as (l2 & [[E1 E] | [-> E]]).
    + destruct l2 as [|x l2].
      * left. rewrite app_nil_r in E1. exists a1, []. now rewrite <- E1, app_nil_r.
      * cbn [app] in E. injection E as <- E. destruct l as [|y l].
        -- right. left. cbn [app] in E1. injection E1 as ->. exists b1. exact E.
        -- exfalso. cbn [app] in E1. injection E1 as _ ->. apply N. apply in_or_app. right. now left.
    + left. exists a1, l2. reflexivity.
  - destruct l as [|x l].
    + right. left. cbn [app] in E. injection E as E. now exists b1.
    + right. right. cbn [app] in E. injection E as _ ->. now exists l, b1.
Qed.

Lemma occurs_app_r pat a b : occurs pat b -> occurs pat (a ++ b).
Proof. intros (x & y & ->). exists (a ++ x), y. now rewrite <- app_assoc. Qed.
Lemma occurs_app_l pat a b : occurs pat a -> occurs pat (a ++ b).
Proof. intros (x & y & ->). exists x, (y ++ b). now rewrite <- !app_assoc. Qed.
Lemma occurs_self pat a : occurs pat (a ++ pat).
Proof. exists a, []. now rewrite app_nil_r. Qed.

Lemma occurs_json_dir P c k : (1 <= k)%nat ->
  occurs jext (P ++ c ++ repeat slash k ++ c) -> occurs jext (P ++ c).
Proof.
  intros K. assert (NE : jext <> []) by discriminate.
  rewrite app_assoc. generalize (P ++ c) as X, (occurs_app_r jext P c). intros X HX.
  destruct k as [|k]; [lia|]. clear K. intros O. cbn [repeat app] in O.
  apply occurs_cut in O; [|exact NE | exact nosl_jext]. destruct O as [O | O]; [exact O|].
  induction k as [|k IH]; cbn [repeat app] in O.
  - now apply HX.
  - change (slash :: repeat slash k ++ c) with ([] ++ slash :: (repeat slash k ++ c)) in O.
    apply occurs_cut in O; [|exact NE | exact nosl_jext]. destruct O as [O | O].
    + destruct O as (x & y & O). destruct x; discriminate O.
    + now apply IH.
Qed.

(** With no earlier occurrence, the first .json is the final one. *)
Lemma erase_final H : ~ occurs jext H -> erase (H ++ jext) (find jext (H ++ jext)) 5 = Ok H.
Proof.
  intros N. destruct (find_occurs jext (H ++ jext) (occurs_self jext H)) as (n & F). rewrite F.
  destruct (find_some _ _ _ F) as (a & b & E & L & Min). subst n.
  assert (LE : (length a <= length H)%nat).
  { apply (Min H []). now rewrite app_nil_r. }
  assert (X : H = a /\ b = []).
  { apply app_eq_app in E. destruct E as (l & [[-> E] | [-> E]]).
    - destruct l as [|x l].
      + rewrite app_nil_r. split; [reflexivity|]. cbn [app] in E.
        apply (f_equal (@length ascii)) in E. rewrite app_length in E.
        destruct b; [reflexivity|]. cbn [length] in E. lia.
      + exfalso. rewrite json_shape in E.
        assert (Q : occurs jext (a ++ x :: l)).
        { pose proof E as E'. rewrite <- json_shape in E'.
          symmetry in E'. apply app_eq_app in E'.
          destruct E' as (l2 & [[E1 E2] | [E1 E2]]).
          - rewrite E1. exists a, l2. reflexivity.
          - destruct l2 as [|y l2].
            + rewrite app_nil_r in E1. rewrite <- E1. exists a, []. now rewrite app_nil_r.
            + exfalso. rewrite json_shape in E2. cbn [app] in E2. injection E2 as <- E2.
              rewrite json_shape in E1. cbn [app] in E1. injection E1 as _ E1.
              apply (notin_lit dot ["j"; "s"; "o"; "n"]%char eq_refl). rewrite E1.
              apply in_or_app. right. now left. }
        now apply N.
    - rewrite app_length in LE. destruct l as [|x l]; [|cbn [length] in LE; lia].
      cbn [app] in E. rewrite app_nil_r. split; [reflexivity|].
      apply (f_equal (@length ascii)) in E. rewrite app_length in E.
      destruct b; [reflexivity|]. cbn [length] in E. lia. }
  destruct X as [<- ->]. rewrite <- (app_nil_r jext) at 1. rewrite (erase_at H jext [] 5 eq_refl). now rewrite app_nil_r.
Qed.

(** With an earlier one, the final .json stays. *)
Lemma erase_early X Y : occurs jext X ->
  exists Z, erase (X ++ Y) (find jext (X ++ Y)) 5 = Ok (Z ++ Y).
Proof.
  intros O. destruct (find_occurs jext (X ++ Y) (occurs_app_l _ _ _ O)) as (n & F). rewrite F.
  destruct (find_some _ _ _ F) as (a & b & E & L & Min). subst n.
  destruct O as (a' & b' & ->).
  assert (LE : (length a <= length a')%nat).
  { apply (Min a' (b' ++ Y)). now rewrite <- !app_assoc. }
  assert (S : exists z, a' ++ jext ++ b' = a ++ jext ++ z /\ b = z ++ Y).
  { assert (E' : (a' ++ jext ++ b') ++ Y = (a ++ jext) ++ b) by (rewrite E, <- !app_assoc; reflexivity).
    apply app_eq_app in E'. destruct E' as (l & [[E1 E2] | [E1 E2]]).
    - exists l. rewrite E1. now rewrite <- app_assoc.
    - assert (LL : length l = O).
      { apply (f_equal (@length ascii)) in E1. rewrite !app_length in E1.
        destruct l; [reflexivity|]. cbn [length] in E1. lia. }
      destruct l; [|discriminate]. rewrite app_nil_r in E1. exists [].
      split; [now rewrite <- E1, app_nil_r | cbn [app] in E2; now rewrite E2]. }
  destruct S as (z & E1 & ->). rewrite E1. rewrite <- !app_assoc.
  rewrite (erase_at a jext (z ++ Y) 5 eq_refl). exists (a ++ z). now rewrite <- app_assoc.
Qed.

Lemma occurs_mesh_msh c : occurs meext (c ++ mext) -> occurs meext c.
Proof.
  intros O. change meext with (dot :: lit "mesh") in *. change mext with (dot :: lit "msh") in O.
  apply occurs_cut1 in O; [|apply notin_lit; reflexivity].
  destruct O as [O | [(r & O) | O]]; [exact O | discriminate O |].
  exfalso. assert (F : find (dot :: lit "mesh") (lit "msh") = None) by reflexivity.
  now apply find_none in F.
Qed.
Lemma occurs_msh_mesh c : occurs mext (c ++ meext) -> occurs mext c.
Proof.
  intros O. change mext with (dot :: lit "msh") in *. change meext with (dot :: lit "mesh") in O.
  apply occurs_cut1 in O; [|apply notin_lit; reflexivity].
  destruct O as [O | [(r & O) | O]]; [exact O | discriminate O |].
  exfalso. assert (F : find (dot :: lit "msh") (lit "mesh") = None) by reflexivity.
  now apply find_none in F.
Qed.

(** ** The same file *)
Lemma sameFile_name p q : sameFile p q -> filename p = filename q.
Proof.
  intros S. induction S as [p | p q _ IH | p q r _ IH1 _ IH2 | a b]; try congruence.
  destruct (split_last b) as [N | (Q & n & -> & N)].
  - rewrite (filename_sl a b N).
    replace (a ++ slash :: slash :: b) with ((a ++ [slash]) ++ slash :: b) by (rewrite <- app_assoc; reflexivity).
    now apply filename_sl.
  - replace (a ++ slash :: slash :: Q ++ slash :: n) with ((a ++ slash :: slash :: Q) ++ slash :: n)
      by (rewrite <- app_assoc; reflexivity).
    replace (a ++ slash :: Q ++ slash :: n) with ((a ++ slash :: Q) ++ slash :: n)
      by (rewrite <- app_assoc; reflexivity).
    rewrite !filename_sl by exact N. reflexivity.
Qed.
Lemma sameFile_rep a k b : (1 <= k)%nat -> sameFile (a ++ repeat slash k ++ b) (a ++ slash :: b).
Proof.
  destruct k as [|k]; [lia|]. intros _. induction k as [|k IH]; [apply sf_refl|].
  apply (sf_trans _ (a ++ repeat slash (S k) ++ b)); [|exact IH].
  cbn [repeat app]. apply sf_rep.
Qed.

Lemma launcher_mesh P c k path : casePath P c k path ->
  (exists q, assembleLauncherMeshString (c ++ lit ".msh") path = Ok q /\ sameFile q (caseMesh P c)) <->
  (~ occurs (lit ".json") (P ++ c) /\ ~ occurs (lit ".mesh") c).
Proof.
  intros (DP & [C N] & K & ->). change (lit ".json") with jext. change (lit ".mesh") with meext.
  change (lit ".msh") with mext.
  assert (FM : exists n, find mext (c ++ mext) = Some n) by (apply find_occurs, occurs_self).
  destruct FM as (nm & FM).
  assert (FC : filename (caseMesh P c) = c ++ mext).
  { unfold caseMesh. rewrite app_assoc. apply filename_sl. apply nosl_app; [exact N | exact nosl_mext]. }
  unfold assembleLauncherMeshString. change (lit ".json") with jext.
  change (lit ".msh") with mext. change (lit ".mesh") with meext. rewrite FM.
  destruct (occurs_dec jext (P ++ c)) as [O | O].
  - split; [|tauto]. intros (q & E & SF). exfalso.
    assert (EA : P ++ c ++ repeat slash k ++ c ++ jext = (P ++ c) ++ (repeat slash k ++ c ++ jext))
      by now rewrite <- app_assoc.
    rewrite EA in E. destruct (erase_early (P ++ c) (repeat slash k ++ c ++ jext) O) as (Z & EZ).
    rewrite EZ in E. cbn [bind] in E. clear EZ EA.
    apply sameFile_name in SF. rewrite FC in SF.
    assert (TL : exists t, ~ In slash t /\ q = (Z ++ repeat slash k ++ c ++ jext ++ mext) ++ t).
    { destruct (find meext (c ++ mext)); injection E as <-.
      - exists meext. split; [apply notin_lit; reflexivity | now rewrite <- !app_assoc].
      - exists []. split; [intros [] | rewrite app_nil_r; now rewrite <- !app_assoc]. }
    destruct TL as (t & NT & ->). destruct k as [|k]; [lia|].
    assert (FQ : filename ((Z ++ repeat slash (S k) ++ c ++ jext ++ mext) ++ t) = c ++ jext ++ mext ++ t).
    { cbn [repeat]. rewrite repeat_cons. rewrite <- !app_assoc. cbn [app].
      rewrite app_assoc. apply filename_sl. apply nosl_app; [exact N|].
      apply nosl_app; [exact nosl_jext|]. apply nosl_app; [exact nosl_mext | exact NT]. }
    rewrite FQ in SF. apply app_inv_head in SF. apply (f_equal (@length ascii)) in SF.
    rewrite !app_length in SF. cbn in SF. lia.
  - assert (O' : ~ occurs jext (P ++ c ++ repeat slash k ++ c)).
    { intros X. apply O. now apply (occurs_json_dir P c k). }
    pose proof (erase_final _ O') as EF. rewrite <- !app_assoc in EF. rewrite EF. cbn [bind].
    destruct (occurs_dec meext c) as [M | M].
    + split; [|tauto]. intros (q & E & SF). exfalso.
      destruct (find_occurs meext (c ++ mext) (occurs_app_l _ _ _ M)) as (n & ->) in E.
      injection E as <-. apply sameFile_name in SF. rewrite FC in SF.
      destruct k as [|k]; [lia|].
      assert (FQ : filename (((P ++ c ++ repeat slash (S k) ++ c) ++ mext) ++ meext) = c ++ mext ++ meext).
      { cbn [repeat]. rewrite repeat_cons. rewrite <- !app_assoc. cbn [app].
        rewrite !app_assoc. rewrite <- (app_assoc _ c), <- (app_assoc _ mext).
        rewrite <- !app_assoc. cbn [app].
        rewrite (app_assoc P), (app_assoc (P ++ c)). apply filename_sl. apply nosl_app; [exact N|].
        apply nosl_app; [exact nosl_mext | apply notin_lit; reflexivity]. }
      rewrite FQ in SF. apply app_inv_head in SF. discriminate SF.
    + split; [tauto|]. intros _. rewrite find_not by (intros X; apply M; now apply occurs_mesh_msh).
      eexists. split; [reflexivity|]. rewrite <- !app_assoc. unfold caseMesh.
      change (lit ".msh") with mext. rewrite (app_assoc P), (app_assoc P).
      apply sameFile_rep. exact K.
Qed.

(** ** The folder of the tests *)
Lemma find_end pat0 q c : pat0 = dot :: q -> ~ In dot q -> ~ occurs pat0 c ->
  find pat0 (c ++ pat0) = Some (length c).
Proof.
  intros -> N O. destruct (find_occurs (dot :: q) (c ++ dot :: q) (occurs_self _ c)) as (n & F).
  rewrite F. f_equal. destruct (find_some _ _ _ F) as (a & b & E & L & Min). subst n.
  assert (LE : (length a <= length c)%nat) by (apply (Min c []); now rewrite app_nil_r).
  destruct (Nat.eq_dec (length a) (length c)) as [->|NE]; [reflexivity|]. exfalso.
  apply app_eq_app in E. destruct E as (l & [[-> E] | [-> E]]).
  - destruct l as [|x l]; [rewrite app_nil_r in NE; congruence|].
    cbn [app] in E. injection E as <- E.
    symmetry in E. apply app_eq_app in E. destruct E as (l2 & [[E1 E2] | [E1 E2]]).
    + apply O. exists a, l2. now rewrite E1.
    + destruct l2 as [|y l2].
      * rewrite app_nil_r in E1. apply O. exists a, []. now rewrite E1, app_nil_r.
      * cbn [app] in E2. injection E2 as <- _. apply N. rewrite E1. apply in_or_app. right. now left.
  - rewrite app_length in LE. destruct l; [rewrite app_nil_r in NE; congruence | cbn [length] in LE; lia].
Qed.

Lemma erase_end c pat n : length pat = n -> erase (c ++ pat) (Some (length c)) n = Ok c.
Proof.
  intros L. rewrite <- (app_nil_r pat). rewrite (erase_at c pat [] n L). now rewrite app_nil_r.
Qed.

Lemma test_mesh c : ~ occurs (lit ".msh") c -> ~ occurs (lit ".mesh") c ->
  assembleMeshString (c ++ lit ".msh") = Ok (caseMesh maxwellInputsFolder c) /\
  assembleMeshString (c ++ lit ".mesh") = Ok (maxwellInputsFolder ++ c ++ slash :: c ++ lit ".mesh").
Proof.
  change (lit ".msh") with mext. change (lit ".mesh") with meext. intros O1 O2.
  assert (N1 : find meext (c ++ mext) = None).
  { apply find_not. intros X. apply O2. now apply occurs_mesh_msh. }
  assert (N2 : find mext (c ++ meext) = None).
  { apply find_not. intros X. apply O1. now apply occurs_msh_mesh. }
  assert (F1 : find mext (c ++ mext) = Some (length c)).
  { apply (find_end mext (lit "msh")); [reflexivity | apply notin_lit; reflexivity | exact O1]. }
  assert (F2 : find meext (c ++ meext) = Some (length c)).
  { apply (find_end meext (lit "mesh")); [reflexivity | apply notin_lit; reflexivity | exact O2]. }
  unfold assembleMeshString. change (lit ".msh") with mext. change (lit ".mesh") with meext.
  rewrite N1, N2, F1, F2. rewrite (erase_end c mext 4 eq_refl). cbn [bind].
  rewrite (erase_end c meext 5 eq_refl). cbn [bind]. split; reflexivity.
Qed.

(** ** The name of the model *)
Lemma ends_with_iff s suf : ends_with s suf = true <-> exists c, s = c ++ suf.
Proof.
  unfold ends_with. rewrite andb_true_iff, Nat.leb_le, streq_iff. split.
  - intros [L E]. exists (firstn (length s - length suf) s). rewrite <- E at 2.
    symmetry. apply firstn_skipn.
  - intros (c & ->). rewrite app_length. split; [lia|].
    replace (length c + length suf - length suf)%nat with (length c) by lia.
    rewrite skipn_app, Nat.sub_diag, skipn_all. reflexivity.
Qed.
Lemma firstn_pre (c s : str) n : length s = n -> firstn (length (c ++ s) - n) (c ++ s) = c.
Proof.
  intros <-. rewrite app_length. replace (length c + length s - length s)%nat with (length c) by lia.
  rewrite firstn_app, Nat.sub_diag, firstn_all, firstn_O. apply app_nil_r.
Qed.
Lemma msh_not_mesh (a b : str) : a ++ lit ".msh" <> b ++ lit ".mesh".
Proof.
  intros E. apply (f_equal (@rev ascii)) in E. rewrite !rev_app_distr in E.
  cbn [lit list_ascii_of_string rev app] in E. discriminate E.
Qed.
Lemma meshName_iff fn n : meshName fn = Ok n <-> fn = n ++ lit ".msh" \/ fn = n ++ lit ".mesh".
Proof.
  unfold meshName. destruct (ends_with fn (lit ".msh")) eqn:E1.
  - apply ends_with_iff in E1. destruct E1 as (c & ->).
    rewrite (firstn_pre c (lit ".msh") 4 eq_refl). split.
    + intros [= ->]. now left.
    + intros [H | H]; [apply app_inv_tail in H; now subst | now apply msh_not_mesh in H].
  - destruct (ends_with fn (lit ".mesh")) eqn:E2.
    + apply ends_with_iff in E2. destruct E2 as (c & ->).
      rewrite (firstn_pre c (lit ".mesh") 5 eq_refl). split.
      * intros [= ->]. now right.
      * intros [H | H]; [symmetry in H; now apply msh_not_mesh in H | apply app_inv_tail in H; now subst].
    + split; [discriminate|]. intros [-> | ->].
      * assert (X : ends_with (n ++ lit ".msh") (lit ".msh") = true) by (apply ends_with_iff; now exists n). congruence.
      * assert (X : ends_with (n ++ lit ".mesh") (lit ".mesh") = true) by (apply ends_with_iff; now exists n). congruence.
Qed.

(** ** From the path to the opened mesh *)
Lemma built ex parse path m n : buildNames ex parse path false = Ok (m, n) ->
  exists P c k, casePath P c k path /\ parse path = Some (Some (c ++ lit ".msh")) /\
    ex (caseMesh P c) = true /\ n = c /\
    (sameFile m (caseMesh P c) <-> ~ occurs (lit ".json") (P ++ c) /\ ~ occurs (lit ".mesh") c).
Proof.
  unfold buildNames. destruct (parse path) as [mf|]; [|discriminate].
  destruct (validateCaseNamingStyle ex path mf) as [[]| |] eqn:V; cbn [bind]; try discriminate.
  apply validate_sound in V. destruct V as (P & c & k & H & -> & E).
  destruct (assembleLauncherMeshString (c ++ lit ".msh") path) as [q| |] eqn:A; cbn [bind]; try discriminate.
  assert (M : meshName (c ++ lit ".msh") = Ok c) by (apply meshName_iff; now left).
  rewrite M. cbn [bind]. intros [= <- <-].
  exists P, c, k. split; [exact H|]. split; [reflexivity|]. split; [exact E|]. split; [reflexivity|].
  rewrite <- (launcher_mesh P c k path H), A. split.
  - intros S. now exists q.
  - intros (q' & [= <-] & S). exact S.
Qed.

Lemma built_complete ex parse P c k path : casePath P c k path ->
  parse path = Some (Some (c ++ lit ".msh")) -> ex (caseMesh P c) = true ->
  exists m, buildNames ex parse path false = Ok (m, c).
Proof.
  intros H PA E. unfold buildNames. rewrite PA.
  rewrite (validate_complete ex P c k path H E). cbn [bind].
  assert (M : meshName (c ++ lit ".msh") = Ok c) by (apply meshName_iff; now left). rewrite M.
  destruct H as (DP & CN & K & ->).
  assert (A : exists q, assembleLauncherMeshString (c ++ lit ".msh") (P ++ c ++ repeat slash k ++ c ++ lit ".json") = Ok q).
  { unfold assembleLauncherMeshString.
    assert (O : occurs jext (P ++ c ++ repeat slash k ++ c ++ jext)).
    { rewrite !app_assoc. apply occurs_self. }
    destruct (find_occurs _ _ O) as (n & F). change (lit ".json") with jext. rewrite F.
    destruct (find_some _ _ _ F) as (a & b & EQ & <- & _). rewrite EQ.
    rewrite (erase_at a jext b 5 eq_refl). cbn [bind]. eexists. reflexivity. }
  destruct A as (q & ->). cbn [bind]. now exists q.
Qed.

Lemma built_test ex parse c : caseName c -> ~ occurs (lit ".msh") c -> ~ occurs (lit ".mesh") c ->
  parse (maxwellInputsFolder ++ c ++ slash :: c ++ lit ".json") = Some (Some (c ++ lit ".msh")) ->
  ex (caseMesh maxwellInputsFolder c) = true ->
  buildNames ex parse (maxwellInputsFolder ++ c ++ slash :: c ++ lit ".json") true
    = Ok (caseMesh maxwellInputsFolder c, c).
Proof.
  intros CN O1 O2 PA E. unfold buildNames. rewrite PA.
  rewrite (validate_complete ex maxwellInputsFolder c 1 _); [| |exact E].
  - cbn [bind]. destruct (test_mesh c O1 O2) as [-> _]. cbn [bind].
    assert (M : meshName (c ++ lit ".msh") = Ok c) by (apply meshName_iff; now left).
    rewrite M. reflexivity.
  - split; [|split; [exact CN | split; [lia | reflexivity]]].
    right. exists (lit "./testData/maxwellInputs"). reflexivity.
Qed.

(** Names are read without undefined behaviour, and an unreadable case is an error. *)
Lemma erase_no_ub l p n : erase l p n <> UB.
Proof. unfold erase. destruct p as [i|]; [destruct (Nat.leb i (length l))|]; discriminate. Qed.
Lemma names_defined ex parse path t : buildNames ex parse path t <> UB /\
  (parse path = None -> buildNames ex parse path t = Throw) /\ (parse path = Some None -> buildNames ex parse path t = Throw).
Proof.
  assert (V : forall mf, validateCaseNamingStyle ex path mf <> UB).
  { intros mf. unfold validateCaseNamingStyle.
    repeat match goal with |- context [match ?x with _ => _ end] => destruct x; try discriminate end. }
  assert (M : forall fn, meshName fn <> UB).
  { intros fn. unfold meshName. destruct (ends_with fn (lit ".msh")); [discriminate|]. destruct (ends_with fn (lit ".mesh")); discriminate. }
  assert (A : forall fn, assembleMeshString fn <> UB).
  { intros fn. unfold assembleMeshString. destruct (find (lit ".msh") fn) as [i|]; destruct (find (lit ".mesh") fn) as [k|]; cbn [bind]; try discriminate.
    - destruct (erase fn (Some i) 4) as [f1| |] eqn:E; cbn [bind]; [|discriminate|destruct (erase_no_ub _ _ _ E)].
      destruct (erase f1 (Some k) 5) as [f2| |] eqn:E2; cbn [bind]; [discriminate|discriminate|destruct (erase_no_ub _ _ _ E2)].
    - destruct (erase fn (Some i) 4) as [f1| |] eqn:E; cbn [bind]; [discriminate|discriminate|destruct (erase_no_ub _ _ _ E)].
    - destruct (erase fn (Some k) 5) as [f1| |] eqn:E; cbn [bind]; [discriminate|discriminate|destruct (erase_no_ub _ _ _ E)]. }
  assert (B : forall fn, assembleLauncherMeshString fn path <> UB).
  { intros fn. unfold assembleLauncherMeshString.
    destruct (erase path (find (lit ".json") path) 5) as [f1| |] eqn:E; cbn [bind]; [discriminate|discriminate|destruct (erase_no_ub _ _ _ E)]. }
  unfold buildNames. split; [|split].
  - destruct (parse path) as [mf|]; [|discriminate]. specialize (V mf). destruct (validateCaseNamingStyle ex path mf); cbn [bind]; try congruence; try discriminate.
    destruct mf as [fn|]; [|discriminate]. specialize (A fn). specialize (B fn). specialize (M fn).
    destruct t; [destruct (assembleMeshString fn)|destruct (assembleLauncherMeshString fn path)]; cbn [bind]; try congruence;
      destruct (meshName fn); cbn [bind]; congruence.
  - intros ->. reflexivity.
  - intros ->. specialize (V None). destruct (validateCaseNamingStyle ex path None); cbn [bind]; congruence.
Qed.

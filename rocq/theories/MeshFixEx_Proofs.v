From Coq Require Import ZArith List Bool String Ascii Lia.
From Verif Require Import Common MeshFix_Model MeshFix_Spec MeshFix_Proofs.
Import ListNotations.
Local Open Scope string_scope.

(** ** A tetrahedral mesh with a point, a line, a blank line and a triangle *)
Definition exHead : list string := ["$MeshFormat"; "2.2 0 8"; "$EndMeshFormat"; "$Nodes"; "1"; "1 0 0 0.5"; "$EndNodes"].
Definition exElems : list string :=
  ["11 15 2 0 7 1"; "12 1 2 0 8 1 2"; ""; "13  2 2 3 4 1 2 3 "; "14 4 2 0 1 1 2 3 4"].
Definition exFoot : list string := ["$EndElements"; "$Periodic"].
Definition exLines : list string := (exHead ++ "$Elements" :: "4" :: exElems ++ exFoot)%list.
Definition exEls : list element :=
  [mkEl "11" "15" 15 "2" "0" "7" ["1"]; mkEl "12" "1" 1 "2" "0" "8" ["1"; "2"];
   mkEl "13" "2" 2 "2" "3" "4" ["1"; "2"; "3"]; mkEl "14" "4" 4 "2" "0" "1" ["1"; "2"; "3"; "4"]].
Definition exClean : list string :=
  (exHead ++ "$Elements" :: "2" :: ["1 2 2 4 4 1 2 3"; "2 4 2 1 1 1 2 3 4"] ++ exFoot)%list.

Lemma not_occurs_by : forall m s, contains m s = false -> ~ occurs m s.
Proof. intros m s H K. apply contains_occurs in K. congruence. Qed.
Lemma decimal_small : forall s n, s = decimal n -> (Z.of_nat n <= 2147483647)%Z -> exists z, numeral s z /\ small z.
Proof. intros s n -> H. exists (Z.of_nat n). split; [apply decimal_numeral|exact H]. Qed.
Lemma numeral_by : forall s n, s = decimal n -> numeral s (Z.of_nat n).
Proof. intros s n ->. apply decimal_numeral. Qed.

(** Words of a concrete line: one word and its following text at a time. *)
Lemma words_step : forall a w b ts l, l = a ++ w ++ b -> every blank a -> w <> "" -> every (fun c => ~ blank c) w ->
  (b = "" \/ exists c r, b = String c r /\ blank c) -> words b ts -> words l (w :: ts).
Proof. intros a w b ts l -> *. intros. apply words_cons; assumption. Qed.
Lemma tokens_words : forall s acc, every (fun c => ~ blank c) acc -> words (acc ++ s) (tokensFrom acc s).
Proof.
  induction s as [|c s IH]; intros acc Ha.
  - cbn [tokensFrom]. rewrite sapp_nil_r. destruct acc as [|x acc]; [apply words_nil; exact I|].
    rewrite <- (sapp_nil_r (String x acc)) at 1. apply (words_cons "" (String x acc) "" []); [exact I|discriminate|exact Ha|left; reflexivity|apply words_nil; exact I].
  - cbn [tokensFrom]. destruct (isspace c) eqn:Ec.
    + assert (Hc := proj1 (isspace_blank c) Ec). assert (K := IH "" I). cbn [append] in K.
      destruct acc as [|x acc]; [cbn [append]; apply words_space; assumption|].
      apply (words_cons "" (String x acc) (String c s)); [exact I|discriminate|exact Ha|right; eauto|].
      apply words_space; assumption.
    + assert (Hc := proj1 (isspace_solid c) Ec). specialize (IH (acc ++ String c "")).
      rewrite sapp_assoc in IH. cbn [append] in IH. apply IH. apply every_app. split; [exact Ha|split; [exact Hc|exact I]].
Qed.
Lemma words_by : forall l ts, tokens l = ts -> words l ts.
Proof. intros l ts <-. apply (tokens_words l "" I). Qed.

Lemma every_by : forall ls, forallb (fun l => negb (contains nl l)) ls = true -> Forall (every (fun c => c <> eol)) ls.
Proof.
  intros ls H. rewrite forallb_forall in H. apply Forall_forall. intros l Hl. specialize (H l Hl).
  apply negb_true_iff in H. clear Hl. induction l as [|c l IH]; [exact I|].
  cbn [contains] in H. apply orb_false_iff in H. destruct H as [H1 H2]. split; [|apply IH; exact H2].
  intros ->. destruct l; discriminate H1.
Qed.

Lemma ex_isFile : isFile exLines (textOf exLines).
Proof. split; [apply every_by; vm_compute; reflexivity|left; reflexivity]. Qed.
Lemma laid_by : forall H mark cnt E stop F,
  forallb (fun l => negb (contains "$Elements" l) && negb (contains "$EndElements" l)) H = true ->
  contains "$Elements" mark = true -> contains nl cnt = false ->
  forallb (fun l => negb (contains "$EndElements" l)) E = true -> contains "$EndElements" stop = true ->
  laidOut H mark cnt E (stop :: F).
Proof.
  intros H mark cnt E stop F H1 H2 H3 H4 H5. rewrite forallb_forall in H1, H4. repeat split.
  - specialize (H1 l H0). apply andb_true_iff in H1. destruct H1 as [H1 _]. apply not_occurs_by. apply negb_true_iff. exact H1.
  - specialize (H1 l H0). apply andb_true_iff in H1. destruct H1 as [_ H1]. apply not_occurs_by. apply negb_true_iff. exact H1.
  - apply contains_occurs. exact H2.
  - assert (K := every_by [cnt]). cbn [forallb] in K. rewrite H3 in K. specialize (K eq_refl). inversion K; assumption.
  - intros l Hl. apply not_occurs_by. apply negb_true_iff. auto.
  - right. exists stop, F. split; [reflexivity|]. apply contains_occurs. exact H5.
Qed.
Lemma ex_laid : laidOut exHead "$Elements" "4" exElems exFoot.
Proof. apply laid_by; vm_compute; reflexivity. Qed.

Lemma record_by : forall l e i t, tokens l = e_id e :: e_type e :: e_nt e :: e_phys e :: e_geom e :: e_tail e ->
  e_id e = decimal i -> (Z.of_nat i <= 2147483647)%Z -> e_type e = decimal t -> e_ty e = Z.of_nat t -> (Z.of_nat t <= 2147483647)%Z -> record l e.
Proof.
  intros l e i t H1 H2 H3 H4 H5 H6. split; [apply words_by; exact H1|]. split; [eapply decimal_small; eassumption|].
  rewrite H5. split; [apply numeral_by; exact H4|exact H6].
Qed.
Lemma ex_section : section exElems exEls.
Proof.
  unfold exElems, exEls.
  apply sec_rec; [apply (record_by _ _ 11 15); reflexivity || (cbn; lia)|].
  apply sec_rec; [apply (record_by _ _ 12 1); reflexivity || (cbn; lia)|].
  apply sec_blank; [apply words_nil; exact I|].
  apply sec_rec; [apply (record_by _ _ 13 2); reflexivity || (cbn; lia)|].
  apply sec_rec; [apply (record_by _ _ 14 4); reflexivity || (cbn; lia)|].
  constructor.
Qed.
Lemma ex_met : isFile exLines (textOf exLines) /\ laidOut exHead "$Elements" "4" exElems exFoot /\
  section exElems exEls /\ Forall simplex exEls /\
  fixGmshMesh "case.msh" (Some (textOf exLines)) = Ok (Some (textOf exClean)).
Proof.
  split; [exact ex_isFile|]. split; [exact ex_laid|]. split; [exact ex_section|].
  split; [repeat constructor; cbn; tauto|]. vm_compute. reflexivity.
Qed.

(** ** Quadrangles are not recognised: the point is kept in a mesh of dimension 2 *)
Definition quadElems : list string := ["1 15 2 0 7 1"; "2 3 2 0 1 1 2 3 4"].
Definition quadEls : list element := [mkEl "1" "15" 15 "2" "0" "7" ["1"]; mkEl "2" "3" 3 "2" "0" "1" ["1"; "2"; "3"; "4"]].
Lemma quad_refuted : exists text H mark cnt E es rest,
  isFile (H ++ mark :: cnt :: E ++ rest) text /\ laidOut H mark cnt E rest /\ section E es /\
  let kept := filter (needed (meshDim es)) es in
  fixGmshMesh "case.msh" (Some text) <> Ok (Some (textOf (H ++ mark :: decimal (List.length kept) :: renumber 1 kept ++ rest))).
Proof.
  exists (textOf ("$Elements" :: "2" :: quadElems ++ ["$EndElements"])), [], "$Elements", "2", quadElems, quadEls, ["$EndElements"].
  split; [split; [apply every_by; vm_compute; reflexivity|left; reflexivity]|].
  split; [apply laid_by; vm_compute; reflexivity|].
  split.
  - apply sec_rec; [apply (record_by _ _ 1 15); reflexivity || (cbn; lia)|].
    apply sec_rec; [apply (record_by _ _ 2 3); reflexivity || (cbn; lia)|]. constructor.
  - vm_compute. discriminate.
Qed.

(** ** An element number that is not an int hides the type the first time only *)
Definition oddLines : list string :=
  ["$Elements"; "2"; "1 15 2 0 7 1"; "99999999999 4 2 0 1 1 2 3 4"; "$EndElements"].
Lemma odd_refuted : exists text text1 text2,
  fixGmshMesh "case.msh" (Some text) = Ok (Some text1) /\
  fixGmshMesh "case.msh" (Some text1) = Ok (Some text2) /\ text1 <> text2.
Proof.
  exists (textOf oddLines),
    (textOf ["$Elements"; "2"; "1 15 2 7 7 1"; "2 4 2 1 1 1 2 3 4"; "$EndElements"]),
    (textOf ["$Elements"; "1"; "1 4 2 1 1 1 2 3 4"; "$EndElements"]).
  split; [vm_compute; reflexivity|]. split; [vm_compute; reflexivity|discriminate].
Qed.

(** ** One tag only: the fifth word is a node, and it becomes the physical tag *)
Lemma one_tag : fixText (textOf ["$Elements"; "1"; "1 2 1 7 4 5 6"; "$EndElements"]) =
  Ok (Some (textOf ["$Elements"; "1"; "1 2 1 4 4 5 6"; "$EndElements"])).
Proof. vm_compute. reflexivity. Qed.

(** ** Interruption *)
Lemma crash_prefix : forall content d, crashStates content d ->
  d = content \/ exists c' r, fixText content = Ok (Some c') /\ c' = (d ++ r)%string.
Proof.
  intros content d. unfold crashStates. destruct (fixText content) as [[c'|]| |]; intros H; auto.
  destruct H as [|p r E]; [auto|]. right. exists c', r. auto.
Qed.
Lemma crash_refuted : exists content d, crashStates content d /\ d <> content /\ fixText content <> Ok (Some d).
Proof.
  exists (textOf exLines), "". split.
  - unfold crashStates. replace (fixText (textOf exLines)) with (Ok (Some (textOf exClean))) by (vm_compute; reflexivity).
    apply (disk_during _ _ "" (textOf exClean)). reflexivity.
  - split; [discriminate|]. vm_compute. discriminate.
Qed.
(** A call that does not write leaves the file alone. *)
Lemma crash_none : forall content, fixText content = Ok None \/ fixText content = Throw ->
  forall d, crashStates content d -> d = content.
Proof. intros content [H|H] d; unfold crashStates; rewrite H; auto. Qed.
Lemma crash_none_ex : fixText (textOf ["$Elements"; "1"; "1 tri 2 0 1 1 2 3"; "$EndElements"]) = Throw.
Proof. vm_compute. reflexivity. Qed.
Lemma numbers_ex : number "  -42 7" = Num (-42)%Z " 7" /\ number "+3000000000" = TooBig /\ numeral "42" 42%Z.
Proof.
  split; [reflexivity|split; [reflexivity|]]. apply (num_more "4" 4 "2"%char 2).
  - apply (num_one "4"%char 4). split; [reflexivity|lia].
  - split; [reflexivity|lia].
Qed.

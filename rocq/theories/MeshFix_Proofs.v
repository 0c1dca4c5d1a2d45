From Coq Require Import ZArith List Bool String Ascii Lia Decimal DecimalString DecimalNat.
From Verif Require Import Common MeshFix_Model MeshFix_Spec.
Import ListNotations.
Local Open Scope string_scope.

(** ** Strings *)
Lemma sapp_nil_r : forall s : string, s ++ "" = s.
Proof. induction s; cbn; congruence. Qed.
Lemma sapp_assoc : forall a b c : string, (a ++ b) ++ c = a ++ b ++ c.
Proof. induction a; intros; cbn; congruence. Qed.
Lemma snoc_not_empty : forall a c, a ++ String c "" <> "".
Proof. destruct a; discriminate. Qed.

Lemma every_app : forall P a b, every P (a ++ b) <-> every P a /\ every P b.
Proof. induction a; intros; cbn; [tauto|]. rewrite IHa. tauto. Qed.
Lemma every_impl : forall (P Q : ascii -> Prop) s, (forall c, P c -> Q c) -> every P s -> every Q s.
Proof. induction s; cbn; intuition. Qed.

Lemma isspace_blank : forall c, isspace c = true <-> blank c.
Proof.
  intros c. unfold isspace, blank. rewrite orb_true_iff, andb_true_iff, Nat.eqb_eq, !Nat.leb_le.
  split.
  - intros [H|H]; [left|right; cbn; lia].
    rewrite <- (ascii_nat_embedding c), H. reflexivity.
  - intros [->|H]; [left; reflexivity|right]. cbn in H. lia.
Qed.
Lemma isspace_solid : forall c, isspace c = false <-> ~ blank c.
Proof. intros c. rewrite <- isspace_blank. destruct (isspace c); split; intuition congruence. Qed.

(** ** Lines *)
Lemma unlines_textOf : forall ls, unlines ls = textOf ls.
Proof. induction ls as [|l ls IH]; [reflexivity|]. cbn [textOf]. rewrite <- IH. reflexivity. Qed.

Lemma lines_step : forall s acc rest, every (fun c => c <> eol) s ->
  linesFrom acc (s ++ String eol rest) = (acc ++ s) :: linesFrom "" rest.
Proof.
  induction s; intros acc rest H; cbn [append linesFrom].
  - rewrite sapp_nil_r. reflexivity.
  - destruct H as [H1 H2]. rewrite (proj2 (Ascii.eqb_neq a newline)) by exact H1.
    rewrite IHs by assumption. rewrite sapp_assoc. reflexivity.
Qed.
Lemma lines_last : forall s acc, every (fun c => c <> eol) s ->
  linesFrom acc s = match acc ++ s with "" => [] | x => [x] end.
Proof.
  induction s; intros acc H; cbn [linesFrom].
  - rewrite sapp_nil_r. destruct acc; reflexivity.
  - destruct H as [H1 H2]. rewrite (proj2 (Ascii.eqb_neq a newline)) by exact H1.
    rewrite IHs by assumption. rewrite sapp_assoc. reflexivity.
Qed.
Lemma lines_textOf : forall ls t, Forall (every (fun c => c <> eol)) ls -> lines (textOf ls ++ t) = (ls ++ lines t)%list.
Proof.
  unfold lines. induction ls; intros t H; cbn [textOf append app]; [reflexivity|].
  inversion H; subst. rewrite sapp_assoc. cbn [append].
  rewrite lines_step by assumption. rewrite IHls by assumption. reflexivity.
Qed.
Lemma isFile_lines : forall ls text, isFile ls text -> lines text = ls.
Proof.
  intros ls text [Hn [->|(i & l & -> & Hl & ->)]].
  - rewrite <- (sapp_nil_r (textOf ls)). rewrite lines_textOf by assumption. apply List.app_nil_r.
  - apply Forall_app in Hn. destruct Hn as [Hi Hl']. inversion Hl'; subst.
    rewrite lines_textOf by assumption. f_equal. unfold lines. rewrite lines_last by assumption. cbn.
    destruct l; [congruence|reflexivity].
Qed.

(** ** Words *)
Definition solid (w : string) : Prop := w <> "" /\ every (fun c => ~ blank c) w.

Lemma tok_solid : forall w acc b, every (fun c => ~ blank c) w -> tokensFrom acc (w ++ b) = tokensFrom (acc ++ w) b.
Proof.
  induction w; intros acc b H; cbn [append tokensFrom]; [rewrite sapp_nil_r; reflexivity|].
  destruct H as [H1 H2]. rewrite (proj2 (isspace_solid a)) by assumption.
  rewrite IHw by assumption. rewrite sapp_assoc. reflexivity.
Qed.
Lemma tok_blank : forall a s, every blank a -> tokensFrom "" (a ++ s) = tokensFrom "" s.
Proof.
  induction a; intros s H; cbn [append tokensFrom]; [reflexivity|].
  destruct H as [H1 H2]. rewrite (proj2 (isspace_blank a)) by assumption. auto.
Qed.
Lemma tok_end : forall acc b, acc <> "" -> ends b -> tokensFrom acc b = acc :: tokensFrom "" b.
Proof.
  intros acc b Ha [->|(c & r & -> & Hc)]; cbn [tokensFrom].
  - destruct acc; [congruence|reflexivity].
  - rewrite (proj2 (isspace_blank c)) by assumption. destruct acc; [congruence|reflexivity].
Qed.
Lemma words_tokens : forall l ts, words l ts -> tokens l = ts.
Proof.
  unfold tokens. induction 1 as [s Hs|a w b ts Ha Hw Hs He Hb IH].
  - rewrite <- (sapp_nil_r s). rewrite tok_blank by assumption. reflexivity.
  - rewrite tok_blank, tok_solid, tok_end by assumption. cbn [append]. rewrite IH. reflexivity.
Qed.
Lemma words_solid : forall l ts, words l ts -> Forall solid ts.
Proof. induction 1; constructor; auto. split; assumption. Qed.
Lemma words_space : forall c x ts, blank c -> words x ts -> words (String c x) ts.
Proof.
  intros c x ts Hc H. destruct H as [s Hs|a w b ts Ha Hw Hs He Hb].
  - apply words_nil. split; assumption.
  - change (String c (a ++ w ++ b)) with (String c a ++ w ++ b). apply words_cons; auto. split; assumption.
Qed.
Lemma words_concat : forall ts, Forall solid ts -> words (String.concat " " ts) ts.
Proof.
  induction ts as [|w ts IH]; intros H; [apply words_nil; exact I|].
  inversion H; subst. destruct H2 as [Hw Hs]. cbn [String.concat].
  destruct ts as [|w' ts'].
  - rewrite <- (sapp_nil_r w) at 1. change (w ++ "") with ("" ++ w ++ "").
    apply words_cons; [exact I|exact Hw|exact Hs|left; reflexivity|apply words_nil; exact I].
  - change (w ++ " " ++ String.concat " " (w' :: ts')) with ("" ++ w ++ String " " (String.concat " " (w' :: ts'))).
    apply words_cons; [exact I|exact Hw|exact Hs| |].
    + right. exists " "%char, (String.concat " " (w' :: ts')). split; [reflexivity|left; reflexivity].
    + apply words_space; [left; reflexivity|]. apply IH. assumption.
Qed.
Lemma joinsp_concat : forall ts, joinsp ts = String.concat " " ts.
Proof. induction ts as [|w [|w' ts] IH]; [reflexivity|reflexivity|]. cbn [joinsp String.concat] in *. rewrite IH. reflexivity. Qed.

(** ** Numbers *)
Lemma digit_is : forall c d, isDigit c d -> digit c = Some d.
Proof.
  intros c d [H1 H2]. unfold digit. rewrite H1.
  destruct (Z.leb_spec 48 (48 + d)); [|lia]. destruct (Z.leb_spec (48 + d) 57); [|lia]. cbn [andb]. f_equal. lia.
Qed.
Lemma digit_not_blank : forall c d, isDigit c d -> ~ blank c.
Proof.
  intros c d [H1 H2] [->|H]; [change (Z.of_nat (nat_of_ascii " ")) with 32%Z in H1; lia|]. cbn in H. lia.
Qed.
Lemma blank_not_digit : forall c, blank c -> digit c = None.
Proof.
  intros c H. unfold digit. destruct (Z.leb_spec 48 (Z.of_nat (nat_of_ascii c))); [|reflexivity].
  destruct H as [->|H]; [change (Z.of_nat (nat_of_ascii " ")) with 32%Z in *; lia|cbn in H; lia].
Qed.
Lemma numeral_digits : forall s z, numeral s z -> forall r, digits 0 (s ++ r) = digits z r.
Proof.
  induction 1 as [c d Hd|s z c d Hs IH Hd]; intros r.
  - cbn [append digits]. rewrite (digit_is _ _ Hd). f_equal.
  - rewrite sapp_assoc, IH. cbn [append digits]. rewrite (digit_is _ _ Hd). reflexivity.
Qed.
Lemma numeral_head : forall s z, numeral s z -> exists c r d, s = String c r /\ isDigit c d.
Proof.
  induction 1 as [c d Hd|s z c d Hs IH Hd]; [exists c, "", d; auto|].
  destruct IH as (c' & r & d' & -> & H). exists c', (r ++ String c ""), d'. auto.
Qed.
Lemma numeral_pos : forall s z, numeral s z -> (0 <= z)%Z.
Proof. induction 1 as [c d [_ Hd]|s z c d Hs IH [_ Hd]]; lia. Qed.
Lemma numeral_solid : forall s z, numeral s z -> solid s.
Proof.
  intros s z H. split.
  - destruct (numeral_head _ _ H) as (c & r & d & -> & _). discriminate.
  - induction H as [c d Hd|s z c d Hs IH Hd]; [split; [eapply digit_not_blank; eauto|exact I]|].
    apply every_app. split; [assumption|]. split; [eapply digit_not_blank; eauto|exact I].
Qed.
Lemma digits_end : forall z b, ends b -> digits z b = (z, b).
Proof.
  intros z b [->|(c & r & -> & Hc)]; cbn; [reflexivity|]. rewrite blank_not_digit by assumption. reflexivity.
Qed.
Lemma skipws_blank : forall a s, every blank a -> skipws (a ++ s) = skipws s.
Proof.
  induction a; intros s H; cbn; [reflexivity|]. destruct H as [H1 H2].
  rewrite (proj2 (isspace_blank a)) by assumption. auto.
Qed.
Lemma number_numeral : forall a s z b, every blank a -> numeral s z -> small z -> ends b -> number (a ++ s ++ b) = Num z b.
Proof.
  intros a s z b Ha Hs Hz Hb. unfold number. rewrite skipws_blank by assumption.
  destruct (numeral_head _ _ Hs) as (c & r & d & E & Hd).
  assert (Hz0 := numeral_pos _ _ Hs). unfold small in Hz.
  assert (D := numeral_digits _ _ Hs b). rewrite (digits_end z b Hb) in D.
  rewrite E in *. cbn [append] in *.
  cbn [skipws]. rewrite (proj2 (isspace_solid c)) by (eapply digit_not_blank; eauto).
  rewrite (proj2 (Ascii.eqb_neq c "-")) by (intros ->; destruct Hd as [Hd1 Hd2]; change (Z.of_nat (nat_of_ascii "-")) with 45%Z in Hd1; lia).
  rewrite (proj2 (Ascii.eqb_neq c "+")) by (intros ->; destruct Hd as [Hd1 Hd2]; change (Z.of_nat (nat_of_ascii "+")) with 43%Z in Hd1; lia).
  rewrite (digit_is _ _ Hd). rewrite D.
  unfold inInt. destruct (Z.leb_spec (-2147483648) z); [|lia]. destruct (Z.leb_spec z 2147483647); [|lia]. reflexivity.
Qed.
Lemma number_blank : forall s, every blank s -> number s = NoNumber.
Proof. intros s H. unfold number. rewrite <- (sapp_nil_r s), skipws_blank by assumption. reflexivity. Qed.
Lemma stoi_numeral : forall s z, numeral s z -> small z -> stoi s = Ok z.
Proof.
  intros s z Hs Hz. unfold stoi. rewrite <- (sapp_nil_r s). change (s ++ "") with ("" ++ s ++ "").
  rewrite (number_numeral "" s z ""); auto; [exact I|left; reflexivity].
Qed.

(** The numeral of a natural number. *)
Lemma uint_numeral : forall u s z, numeral s z ->
  numeral (s ++ NilEmpty.string_of_uint u) (Z.of_nat (Nat.of_uint_acc u (Z.to_nat z))).
Proof.
  assert (step : forall s z c d u, numeral s z -> isDigit c (Z.of_nat d) ->
    (forall s z, numeral s z -> numeral (s ++ NilEmpty.string_of_uint u) (Z.of_nat (Nat.of_uint_acc u (Z.to_nat z)))) ->
    numeral (s ++ String c (NilEmpty.string_of_uint u)) (Z.of_nat (Nat.of_uint_acc u (d + 10 * Z.to_nat z)))).
  { intros s z c d u Hs Hc IH. assert (H0 := numeral_pos _ _ Hs).
    replace (s ++ String c (NilEmpty.string_of_uint u)) with ((s ++ String c "") ++ NilEmpty.string_of_uint u) by (rewrite sapp_assoc; reflexivity).
    replace (d + 10 * Z.to_nat z)%nat with (Z.to_nat (10 * z + Z.of_nat d)) by lia.
    apply IH. apply num_more; assumption. }
  induction u; intros s z Hs; cbn [NilEmpty.string_of_uint Nat.of_uint_acc].
  1: { rewrite sapp_nil_r. assert (H0 := numeral_pos _ _ Hs). rewrite Z2Nat.id by assumption. assumption. }
  all: rewrite Nat.tail_mul_spec.
  - apply (step s z "0"%char 0%nat u); auto. split; [reflexivity|lia].
  - apply (step s z "1"%char 1%nat u); auto. split; [reflexivity|lia].
  - apply (step s z "2"%char 2%nat u); auto. split; [reflexivity|lia].
  - apply (step s z "3"%char 3%nat u); auto. split; [reflexivity|lia].
  - apply (step s z "4"%char 4%nat u); auto. split; [reflexivity|lia].
  - apply (step s z "5"%char 5%nat u); auto. split; [reflexivity|lia].
  - apply (step s z "6"%char 6%nat u); auto. split; [reflexivity|lia].
  - apply (step s z "7"%char 7%nat u); auto. split; [reflexivity|lia].
  - apply (step s z "8"%char 8%nat u); auto. split; [reflexivity|lia].
  - apply (step s z "9"%char 9%nat u); auto. split; [reflexivity|lia].
Qed.
Lemma nilzero_numeral : forall u, numeral (NilZero.string_of_uint u) (Z.of_nat (Nat.of_uint u)).
Proof.
  assert (one : forall c d u, isDigit c (Z.of_nat d) ->
    numeral (String c (NilEmpty.string_of_uint u)) (Z.of_nat (Nat.of_uint_acc u d))).
  { intros c d u H. assert (K := uint_numeral u (String c "") (Z.of_nat d) (num_one _ _ H)).
    rewrite Nat2Z.id in K. exact K. }
  intros u. unfold Nat.of_uint, NilZero.string_of_uint.
  destruct u; cbn [NilEmpty.string_of_uint Nat.of_uint_acc].
  1: { apply (num_one "0"%char 0%Z). split; [reflexivity|lia]. }
  all: rewrite Nat.tail_mul_spec, Nat.mul_0_r.
  - apply (one "0"%char 0%nat). split; [reflexivity|lia].
  - apply (one "1"%char 1%nat). split; [reflexivity|lia].
  - apply (one "2"%char 2%nat). split; [reflexivity|lia].
  - apply (one "3"%char 3%nat). split; [reflexivity|lia].
  - apply (one "4"%char 4%nat). split; [reflexivity|lia].
  - apply (one "5"%char 5%nat). split; [reflexivity|lia].
  - apply (one "6"%char 6%nat). split; [reflexivity|lia].
  - apply (one "7"%char 7%nat). split; [reflexivity|lia].
  - apply (one "8"%char 8%nat). split; [reflexivity|lia].
  - apply (one "9"%char 9%nat). split; [reflexivity|lia].
Qed.
Lemma decimal_numeral : forall n, numeral (decimal n) (Z.of_nat n).
Proof. intros n. unfold decimal. rewrite <- (Unsigned.of_to n) at 2. apply nilzero_numeral. Qed.

(** ** Occurrence *)
Lemma prefix_app : forall m s, prefix m s = true <-> exists b, s = m ++ b.
Proof.
  induction m as [|c m IH]; intros s.
  - split; [intros _; exists s; reflexivity|destruct s; reflexivity].
  - destruct s as [|d s]; cbn [prefix]; [split; [discriminate|intros (b & H); discriminate]|].
    destruct (ascii_dec c d) as [->|N].
    + rewrite IH. split; intros (b & H); exists b; cbn in *; congruence.
    + split; [discriminate|intros (b & H)]. cbn in H. congruence.
Qed.
Lemma contains_occurs : forall m s, contains m s = true <-> occurs m s.
Proof.
  intros m. induction s as [|c s IH].
  - cbn [contains]. rewrite orb_false_r, prefix_app. split.
    + intros (b & H). exists "", b. exact H.
    + intros (a & b & H). destruct a; [exists b; exact H|discriminate].
  - cbn [contains]. rewrite orb_true_iff, prefix_app, IH. split.
    + intros [(b & H)|(a & b & H)]; [exists "", b; exact H|]. exists (String c a), b. cbn. congruence.
    + intros (a & b & H). destruct a as [|a1 a]; [left; exists b; exact H|right]. exists a, b. cbn in H. congruence.
Qed.
Lemma contains_not : forall m s, ~ occurs m s -> contains m s = false.
Proof. intros m s H. destruct (contains m s) eqn:E; [|reflexivity]. apply contains_occurs in E. contradiction. Qed.

Lemma solid_prefix : forall m b x c y, every (fun c => ~ blank c) m -> blank c -> m ++ b = x ++ String c y -> exists b', x = m ++ b'.
Proof.
  induction m as [|d m IH]; intros b x c y Hm Hc H; [exists x; reflexivity|].
  destruct Hm as [H1 H2]. destruct x as [|e x]; cbn in H.
  - injection H as -> _. contradiction.
  - injection H as -> H. destruct (IH _ _ _ _ H2 Hc H) as (b' & ->). exists b'. reflexivity.
Qed.
Lemma occurs_split : forall m, solid m -> forall x c y, blank c -> occurs m (x ++ String c y) -> occurs m x \/ occurs m y.
Proof.
  intros m [Hm0 Hm]. induction x as [|d x IH]; intros c y Hc (a & b & H).
  - cbn in H. destruct a as [|a0 a].
    + cbn in H. destruct m as [|m0 m]; [congruence|]. injection H as -> _. destruct Hm. contradiction.
    + injection H as _ H. right. exists a, b. assumption.
  - destruct a as [|a0 a].
    + left. destruct (solid_prefix m b (String d x) c y Hm Hc) as (b' & E); [symmetry; exact H|].
      exists "", b'. exact E.
    + injection H as _ H. destruct (IH c y Hc) as [(p & q & E)|K]; [exists a, b; exact H| |auto].
      left. exists (String d p), q. cbn. congruence.
Qed.
Lemma occurs_concat : forall m ts, solid m -> occurs m (String.concat " " ts) -> exists w, In w ts /\ occurs m w.
Proof.
  intros m ts Hm. induction ts as [|w [|w' ts] IH]; intros H.
  - destruct H as (a & b & E). exfalso. destruct Hm as [H0 _]. destruct a; [|discriminate]. destruct m; [congruence|discriminate].
  - exists w. split; [left; reflexivity|exact H].
  - cbn [String.concat append] in H. destruct (occurs_split m Hm w " "%char (String.concat " " (w' :: ts))) as [K|K].
    + left; reflexivity.
    + exact H.
    + exists w. split; [left; reflexivity|exact K].
    + destruct (IH K) as (v & H1 & H2). exists v. split; [right; exact H1|exact H2].
Qed.
Lemma words_occurs : forall l ts w m, words l ts -> In w ts -> occurs m w -> occurs m l.
Proof.
  intros l ts w m H. induction H as [s Hs|a v b ts Ha Hv Hs He Hb IH]; intros Hi Ho; [contradiction|].
  destruct Hi as [->|Hi].
  - destruct Ho as (p & q & ->). exists (a ++ p), (q ++ b). rewrite !sapp_assoc. reflexivity.
  - destruct (IH Hi Ho) as (p & q & ->). exists (a ++ v ++ p), q. rewrite !sapp_assoc. reflexivity.
Qed.
Lemma words_eol : forall l ts, words l ts -> Forall (every (fun c => c <> eol)) ts.
Proof.
  intros l ts H. apply words_solid in H. eapply Forall_impl; [|exact H]. intros w [_ Hw].
  eapply every_impl; [|exact Hw]. cbn. intros c Hc ->. apply Hc. right. cbn. tauto.
Qed.
Lemma concat_eol : forall ts, Forall (every (fun c => c <> eol)) ts -> every (fun c => c <> eol) (String.concat " " ts).
Proof.
  induction ts as [|w [|w' ts] IH]; intros H; [exact I| |]; inversion H; subst; [assumption|].
  cbn [String.concat]. apply every_app. split; [assumption|]. apply every_app. split; [split; [discriminate|exact I]|].
  apply IH. assumption.
Qed.

(** ** The dimension *)
Fixpoint detectT (dim : Z) (l : list Z) : Z :=
  match l with
  | [] => dim
  | t :: r => if has kTetTypes t then 3 else detectT (if has kTriTypes t then Z.max dim 2 else dim) r
  end.
Lemma second_record : forall l e, record l e -> secondInt l = Some (e_ty e).
Proof.
  intros l e (Hw & (z & Hz & Sz) & Ht & St).
  inversion Hw as [|a w b ts Ha _ _ He Hb E1 E2]; subst. inversion Hb as [|a' w' b' ts' Ha' _ _ He' _ E1 E2]; subst.
  unfold secondInt. rewrite (number_numeral a (e_id e) z (a' ++ e_type e ++ b')) by assumption.
  rewrite (number_numeral a' (e_type e) (e_ty e) b') by assumption. reflexivity.
Qed.
Lemma second_blank : forall l, words l [] -> secondInt l = None.
Proof. intros l H. inversion H; subst. unfold secondInt. rewrite number_blank by assumption. reflexivity. Qed.
Lemma detect_section : forall E es, section E es -> forall d, detectFrom d E = detectT d (map e_ty es).
Proof.
  induction 1 as [|l r es Hl Hr IH|l e r es Hl Hr IH]; intros d; cbn [detectFrom map detectT]; [reflexivity| |].
  - rewrite second_blank by assumption. apply IH.
  - rewrite (second_record _ _ Hl). destruct (has kTetTypes (e_ty e)); [reflexivity|]. apply IH.
Qed.

(** ** The loop over the elements *)
Definition keep (dim : Z) (e : element) : bool := negb (shouldDeleteElement (e_ty e) dim).
Lemma fix_section : forall E es, section E es -> forall dim k,
  (Z.of_nat k + Z.of_nat (List.length (filter (keep dim) es)) <= 2147483647)%Z ->
  fixLoop dim k E = Ok (renumber k (filter (keep dim) es)).
Proof.
  induction 1 as [|l r es Hl Hr IH|l e r es Hl Hr IH]; intros dim k Hk; cbn [fixLoop filter renumber]; [reflexivity| |].
  - rewrite (words_tokens _ _ Hl). cbn. apply IH. assumption.
  - destruct Hl as (Hw & _ & Ht & St). rewrite (words_tokens _ _ Hw). cbn [List.length Nat.ltb Nat.leb nth].
    rewrite (stoi_numeral _ _ Ht St). cbn [bind]. cbn [filter] in Hk. unfold keep at 1. unfold keep at 1 in Hk.
    destruct (shouldDeleteElement (e_ty e) dim); cbn [negb] in *.
    + apply IH. assumption.
    + cbn [List.length] in Hk. destruct (Z.leb_spec 2147483647 (Z.of_nat k)); [lia|].
      rewrite IH by lia. cbn [bind renumber]. rewrite joinsp_concat. reflexivity.
Qed.

(** ** Splitting the file *)
Lemma split_head : forall H, (forall l, In l H -> ~ occurs "$Elements" l /\ ~ occurs "$EndElements" l) -> forall t h,
  splitLoop (H ++ t) (mkSplit h [] [] false false) = splitLoop t (mkSplit (h ++ H) [] [] false false).
Proof.
  induction H as [|l H IH]; intros HH t h; [rewrite List.app_nil_r; reflexivity|].
  cbn [List.app splitLoop sp_in sp_reading sp_foot sp_head sp_elem].
  destruct (HH l (or_introl eq_refl)) as [H1 H2]. rewrite (contains_not _ _ H1), (contains_not _ _ H2). cbn [andb].
  rewrite IH by (intros; apply HH; right; assumption). rewrite <- List.app_assoc. reflexivity.
Qed.
Lemma split_elems : forall E, (forall l, In l E -> ~ occurs "$EndElements" l) -> forall t h el,
  splitLoop (E ++ t) (mkSplit h el [] true true) = splitLoop t (mkSplit h (el ++ E) [] true true).
Proof.
  induction E as [|l E IH]; intros HE t h el; [rewrite List.app_nil_r; reflexivity|].
  cbn [List.app splitLoop sp_in sp_reading sp_foot sp_head sp_elem].
  rewrite (contains_not _ _ (HE l (or_introl eq_refl))). rewrite andb_false_r.
  rewrite IH by (intros; apply HE; right; assumption). rewrite <- List.app_assoc. reflexivity.
Qed.
Lemma split_foot : forall F h el f0 f,
  splitLoop F (mkSplit h el (f0 :: f) true false) = mkSplit h el (f0 :: f ++ F) true false.
Proof.
  induction F as [|l F IH]; intros h el f0 f; [rewrite List.app_nil_r; reflexivity|].
  cbn [splitLoop sp_in sp_reading sp_foot sp_head sp_elem negb]. rewrite andb_false_r.
  destruct (contains "$EndElements" l); cbn [List.app]; rewrite IH, <- List.app_assoc; reflexivity.
Qed.
Lemma split_file : forall H mark cnt E rest, laidOut H mark cnt E rest ->
  exists b, splitLoop (H ++ mark :: cnt :: E ++ rest) (mkSplit [] [] [] false false) =
    mkSplit (H ++ [mark; cnt]) E rest true b.
Proof.
  intros H mark cnt E rest (HH & Hm & _ & HE & Hr). rewrite (split_head H HH). cbn [List.app splitLoop sp_in sp_elem sp_foot sp_head].
  rewrite (proj2 (contains_occurs _ _) Hm). cbn [andb negb]. rewrite (split_elems E HE).
  destruct Hr as [->|(stop & F & -> & Hs)]; [exists true; reflexivity|].
  exists false. cbn [splitLoop sp_in sp_elem sp_foot sp_head]. rewrite andb_false_r.
  rewrite (proj2 (contains_occurs _ _) Hs). cbn [List.app]. rewrite split_foot. reflexivity.
Qed.

Lemma msh_suffix : forall base, isMsh (base ++ ".msh") = true.
Proof.
  intros base. unfold isMsh. replace (fromLastDot (base ++ ".msh")) with (Some ".msh"); [reflexivity|].
  induction base as [|c b IH]; [reflexivity|]. cbn [append fromLastDot]. rewrite <- IH. reflexivity.
Qed.

Definition keptBy (es : list element) : list element := filter (keep (detectT 1 (map e_ty es))) es.
Definition cleaned (H : list string) (mark : string) (es : list element) (rest : list string) : string :=
  textOf (H ++ mark :: decimal (List.length (keptBy es)) :: renumber 1 (keptBy es) ++ rest).

Lemma renumber_length : forall es k, List.length (renumber k es) = List.length es.
Proof. induction es; intros; cbn; auto. Qed.

Lemma clean_general : forall path text H mark cnt E es rest, isMsh path = true ->
  isFile (H ++ mark :: cnt :: E ++ rest) text -> laidOut H mark cnt E rest -> section E es -> E <> [] ->
  (Z.of_nat (List.length es) < 2147483647)%Z ->
  fixGmshMesh path (Some text) = Ok (Some (cleaned H mark es rest)).
Proof.
  intros path text H mark cnt E es rest Hp Hf HL HS HE Hn.
  unfold fixGmshMesh. rewrite Hp. cbn [negb]. unfold fixText. rewrite (isFile_lines _ _ Hf).
  destruct (split_file _ _ _ _ _ HL) as (b & ->). cbn [sp_elem sp_head sp_foot].
  destruct E as [|l0 E0]; [congruence|]. set (E := l0 :: E0) in *.
  unfold detectMeshDimension. rewrite (detect_section _ _ HS).
  assert (Hlen : (List.length (filter (keep (detectT 1 (map e_ty es))) es) <= List.length es)%nat).
  { clear. generalize (keep (detectT 1 (map e_ty es))). intros f. induction es; cbn; [lia|]. destruct (f a); cbn; lia. }
  rewrite (fix_section _ _ HS) by lia. cbn [bind].
  unfold setLast. destruct (H ++ [mark; cnt])%list as [|x y] eqn:E1; [destruct H; discriminate|]. rewrite <- E1.
  cbn [bind]. unfold cleaned. rewrite unlines_textOf, renumber_length. do 3 f_equal.
  replace (H ++ [mark; cnt])%list with ((H ++ [mark]) ++ [cnt])%list by (rewrite <- List.app_assoc; reflexivity).
  rewrite removelast_last. rewrite <- !List.app_assoc. reflexivity.
Qed.

(** ** Agreement with the dimension of the mesh *)
Lemma simplex_cases : forall t, In t [15; 1; 8; 26; 27; 28; 2; 9; 20; 21; 4; 11; 29]%Z ->
  (has kTetTypes t = true /\ gmshDim t = 3%nat) \/ (has kTetTypes t = false /\ has kTriTypes t = true /\ gmshDim t = 2%nat) \/
  (has kTetTypes t = false /\ has kTriTypes t = false /\ (gmshDim t <= 1)%nat).
Proof. intros t H. cbn in H. repeat (destruct H as [<-|H]; [cbv; auto 8|]). contradiction. Qed.
Lemma gmshDim_le : forall t, (gmshDim t <= 3)%nat.
Proof. intros t. unfold gmshDim. repeat destruct existsb; lia. Qed.
Lemma meshDim_le : forall es, (meshDim es <= 3)%nat.
Proof. induction es; cbn; [lia|]. assert (K := gmshDim_le (e_ty a)). unfold meshDim in IHes. lia. Qed.
Lemma detect_dim : forall es, Forall simplex es -> forall d, (1 <= d <= 2)%Z ->
  detectT d (map e_ty es) = Z.max d (Z.of_nat (meshDim es)).
Proof.
  induction 1 as [|e es He Hes IH]; intros d Hd; cbn [map detectT meshDim fold_right]; [cbn; lia|].
  fold (meshDim es). assert (K := meshDim_le es).
  destruct (simplex_cases _ He) as [(-> & G)|[(-> & -> & G)|(-> & -> & G)]].
  - rewrite G. lia.
  - rewrite IH by lia. rewrite G. lia.
  - rewrite IH by lia. lia.
Qed.
Lemma keep_needed : forall es, Forall simplex es -> keptBy es = filter (needed (meshDim es)) es.
Proof.
  intros es Hs. unfold keptBy. rewrite (detect_dim es Hs 1) by lia.
  assert (K := meshDim_le es). set (m := meshDim es) in *. clearbody m.
  induction Hs as [|e es He Hes IH]; cbn [filter]; [reflexivity|].
  replace (keep (Z.max 1 (Z.of_nat m)) e) with (needed m e); [rewrite IH; reflexivity|].
  unfold keep, needed, shouldDeleteElement.
  assert (Hm : m = 0%nat \/ m = 1%nat \/ m = 2%nat \/ m = 3%nat) by lia.
  red in He. cbn in He.
  repeat (destruct He as [<-|He]; [destruct Hm as [->|[->|[->| ->]]]; reflexivity|]). contradiction.
Qed.

Lemma clean_simplex : forall base text H mark cnt E es rest,
  isFile (H ++ mark :: cnt :: E ++ rest) text -> laidOut H mark cnt E rest -> section E es -> E <> [] ->
  (Z.of_nat (List.length es) < 2147483647)%Z -> Forall simplex es ->
  let kept := filter (needed (meshDim es)) es in
  fixGmshMesh (base ++ ".msh") (Some text) =
    Ok (Some (textOf (H ++ mark :: decimal (List.length kept) :: renumber 1 kept ++ rest))).
Proof.
  intros base text H mark cnt E es rest Hf HL HS HE Hn Hs kept.
  rewrite (clean_general _ _ _ _ _ _ _ _ (msh_suffix base) Hf HL HS HE Hn).
  unfold cleaned. rewrite keep_needed by assumption. reflexivity.
Qed.

(** ** Running it again *)
Definition relabel (k : nat) (e : element) : element := mkEl (decimal k) (e_type e) (e_ty e) (e_nt e) (e_geom e) (e_geom e) (e_tail e).
Fixpoint relabels (k : nat) (es : list element) : list element :=
  match es with [] => [] | e :: r => relabel k e :: relabels (S k) r end.

Definition good (e : element) : Prop := (exists l, record l e /\ ~ occurs "$EndElements" l).
Lemma section_good : forall E es, section E es -> (forall l, In l E -> ~ occurs "$EndElements" l) -> Forall good es.
Proof.
  induction 1 as [|l r es Hl Hr IH|l e r es Hl Hr IH]; intros H; [constructor|apply IH; intros; apply H; right; assumption|].
  constructor; [exists l; split; [assumption|apply H; left; reflexivity]|]. apply IH. intros; apply H; right; assumption.
Qed.
Lemma new_words : forall k e, good e -> words (newLine k e) (decimal k :: e_type e :: e_nt e :: e_geom e :: e_geom e :: e_tail e).
Proof.
  intros k e (l & (Hw & _) & _). apply words_concat. apply words_solid in Hw.
  inversion Hw as [|? ? _ H1]; subst. inversion H1 as [|? ? Hty H2]; subst. inversion H2 as [|? ? Hnt H3]; subst.
  inversion H3 as [|? ? _ H4]; subst. inversion H4 as [|? ? Hg H5]; subst.
  constructor; [eapply numeral_solid; apply decimal_numeral|]. repeat (constructor; [assumption|]). assumption.
Qed.
Lemma new_record : forall k e, good e -> (Z.of_nat k <= 2147483647)%Z -> record (newLine k e) (relabel k e).
Proof.
  intros k e He Hk. split; [exact (new_words k e He)|]. destruct He as (l & (_ & _ & Ht & St) & _).
  cbn. split; [|auto]. exists (Z.of_nat k). split; [apply decimal_numeral|exact Hk].
Qed.
Lemma new_section : forall es, Forall good es -> forall k, (Z.of_nat k + Z.of_nat (List.length es) <= 2147483648)%Z ->
  section (renumber k es) (relabels k es).
Proof.
  induction 1 as [|e es He Hes IH]; intros k Hk; cbn [renumber relabels]; [constructor|]. cbn [List.length] in Hk.
  apply sec_rec; [apply new_record; [assumption|lia]|]. apply IH. lia.
Qed.
Lemma digits_no_dollar : forall s z, numeral s z -> ~ occurs "$EndElements" s.
Proof.
  intros s z H. assert (K : every (fun c => c <> "$"%char) s).
  { induction H as [c d Hd|s z c d Hs IH Hd]; [split; [|exact I]|apply every_app; split; [assumption|split; [|exact I]]];
      intros ->; destruct Hd as [Hd1 Hd2]; change (Z.of_nat (nat_of_ascii "$")) with 36%Z in Hd1; lia. }
  intros (a & b & ->). apply every_app in K. destruct K as [_ K]. cbn in K. destruct K as [K _]. congruence.
Qed.
Lemma end_solid : solid "$EndElements".
Proof. split; [discriminate|]. cbn. repeat split; intros [H|H]; try discriminate; cbn in H; lia. Qed.
Lemma new_no_end : forall k e, good e -> ~ occurs "$EndElements" (newLine k e).
Proof.
  intros k e (l & (Hw & _) & Hl) H. destruct (occurs_concat _ _ end_solid H) as (w & Hi & Ho).
  destruct Hi as [<-|Hi]; [eapply digits_no_dollar; [apply decimal_numeral|exact Ho]|].
  apply Hl. eapply words_occurs; [exact Hw| |exact Ho]. cbn in *. tauto.
Qed.
Lemma renumber_in : forall es, Forall good es -> forall k l, In l (renumber k es) -> exists j e, good e /\ l = newLine j e.
Proof.
  induction 1 as [|e es He Hes IH]; intros k l H; [contradiction|]. destruct H as [<-|H]; [eauto|]. eapply IH; eauto.
Qed.
Lemma new_eol : forall k e, good e -> every (fun c => c <> eol) (newLine k e).
Proof. intros k e He. apply concat_eol. eapply words_eol. apply new_words. assumption. Qed.

Lemma relabels_same : forall es j k, renumber k (relabels j es) = renumber k es.
Proof. induction es; intros; cbn; [reflexivity|]. f_equal. apply IHes. Qed.
Lemma relabels_ty : forall es j, map e_ty (relabels j es) = map e_ty es.
Proof. induction es; intros; cbn; [reflexivity|]. f_equal. apply IHes. Qed.
Lemma relabels_length : forall es j, List.length (relabels j es) = List.length es.
Proof. induction es; intros; cbn; auto. Qed.

Lemma detectT_range : forall l d, (1 <= d <= 2)%Z -> (1 <= detectT d l <= 3)%Z.
Proof.
  induction l as [|t l IH]; intros d Hd; cbn [detectT]; [lia|]. destruct (has kTetTypes t); [lia|]. apply IH.
  destruct (has kTriTypes t); lia.
Qed.
Lemma detectT_mono : forall l d d', (1 <= d <= d')%Z -> (d' <= 2)%Z -> (detectT d l <= detectT d' l)%Z.
Proof.
  induction l as [|t l IH]; intros d d' H1 H2; cbn [detectT]; [lia|]. destruct (has kTetTypes t); [lia|].
  destruct (has kTriTypes t); apply IH; lia.
Qed.
Lemma detectT_filter : forall f es d, (1 <= d <= 2)%Z -> (detectT d (map e_ty (filter f es)) <= detectT d (map e_ty es))%Z.
Proof.
  intros f es. induction es as [|e es IH]; intros d Hd; [cbn; lia|]. cbn [filter]. destruct (f e); cbn [map detectT].
  - destruct (has kTetTypes (e_ty e)); [lia|]. apply IH. destruct (has kTriTypes (e_ty e)); lia.
  - destruct (has kTetTypes (e_ty e)).
    + apply detectT_range. assumption.
    + eapply Z.le_trans; [apply IH; assumption|]. apply detectT_mono; [|destruct (has kTriTypes (e_ty e)); lia].
      destruct (has kTriTypes (e_ty e)); lia.
Qed.
Lemma delete_mono : forall t d d', (1 <= d' <= d)%Z -> (d <= 3)%Z -> shouldDeleteElement t d' = true -> shouldDeleteElement t d = true.
Proof.
  intros t d d' H1 H2. unfold shouldDeleteElement.
  destruct (Z.eqb_spec d' 3); [replace d with 3%Z by lia; auto|].
  destruct (Z.eqb_spec d' 2); [|discriminate]. intros K.
  destruct (Z.eqb_spec d 3); [rewrite K; reflexivity|]. destruct (Z.eqb_spec d 2); [exact K|lia].
Qed.
Lemma filter_all : forall (A : Type) (f : A -> bool) l, (forall x, In x l -> f x = true) -> filter f l = l.
Proof. induction l; intros H; cbn; [reflexivity|]. rewrite H by (left; reflexivity). f_equal. apply IHl. intros; apply H; right; assumption. Qed.
Lemma relabels_in : forall es k x, In x (relabels k es) -> exists e, In e es /\ e_ty x = e_ty e.
Proof. induction es; intros k x H; [contradiction|]. destruct H as [<-|H]; [exists a; split; [left|]; reflexivity|]. destruct (IHes _ _ H) as (e & H1 & H2). exists e. split; [right|]; assumption. Qed.

Lemma kept_again : forall es k, keptBy (relabels k (keptBy es)) = relabels k (keptBy es).
Proof.
  intros es k. unfold keptBy at 1. apply filter_all. intros x Hx.
  destruct (relabels_in _ _ _ Hx) as (e & He & Et). rewrite relabels_ty. unfold keep. rewrite Et.
  unfold keptBy in He. apply filter_In in He. destruct He as [_ He]. unfold keep in He.
  apply negb_true_iff in He. apply negb_true_iff.
  destruct (shouldDeleteElement (e_ty e) (detectT 1 (map e_ty (keptBy es)))) eqn:K; [|reflexivity].
  rewrite <- He. symmetry. eapply delete_mono; [| |exact K].
  - split; [apply detectT_range; lia|]. apply detectT_filter. lia.
  - apply detectT_range. lia.
Qed.

Lemma laid_new : forall H mark cnt E rest es k, laidOut H mark cnt E rest -> Forall good es -> forall n,
  laidOut H mark (decimal n) (renumber k es) rest.
Proof.
  intros H mark cnt E rest es k (H1 & H2 & H3 & H4 & H5) Hg n. repeat split; auto; try (apply H1; assumption).
  - destruct (numeral_solid _ _ (decimal_numeral n)) as [_ K]. eapply every_impl; [|exact K].
    cbn. intros c Hc ->. apply Hc. right. cbn. tauto.
  - intros l Hl. destruct (renumber_in _ Hg _ _ Hl) as (j & e & He & ->). apply new_no_end. assumption.
Qed.

Lemma clean_idempotent : forall path text text' H mark cnt E es rest,
  isFile (H ++ mark :: cnt :: E ++ rest) text -> laidOut H mark cnt E rest -> section E es ->
  (Z.of_nat (List.length es) < 2147483647)%Z ->
  fixGmshMesh path (Some text) = Ok (Some text') -> fixGmshMesh path (Some text') = Ok (Some text').
Proof.
  intros path text text' H mark cnt E es rest Hf HL HS Hn HR.
  destruct (isMsh path) eqn:Hp; [|unfold fixGmshMesh in *; rewrite Hp in *; cbn in *; congruence].
  destruct E as [|l0 E0] eqn:EE.
  { unfold fixGmshMesh in *. rewrite Hp in *. cbn [negb] in *. unfold fixText in *.
    rewrite (isFile_lines _ _ Hf) in HR. destruct (split_file _ _ _ _ _ HL) as (b & E1). rewrite E1 in HR.
    cbn in HR. injection HR as <-. rewrite (isFile_lines _ _ Hf), E1. reflexivity. }
  rewrite <- EE in *. assert (HE : E <> []) by (rewrite EE; discriminate). clear EE l0 E0.
  rewrite (clean_general _ _ _ _ _ _ _ _ Hp Hf HL HS HE Hn) in HR. injection HR as <-.
  assert (Hg : Forall good (keptBy es)).
  { assert (G : Forall good es) by (eapply section_good; [exact HS|apply HL]).
    rewrite Forall_forall in *. intros e He. apply G. unfold keptBy in He. apply filter_In in He. tauto. }
  assert (Hl : (List.length (keptBy es) <= List.length es)%nat).
  { unfold keptBy. generalize (keep (detectT 1 (map e_ty es))). intros f. clear. induction es; cbn; [lia|]. destruct (f a); cbn; lia. }
  assert (Hf' : isFile (H ++ mark :: decimal (List.length (keptBy es)) :: renumber 1 (keptBy es) ++ rest) (cleaned H mark es rest)).
  { split; [|left; reflexivity]. destruct Hf as [Hf _].
    apply Forall_app in Hf. destruct Hf as [F1 F2]. inversion F2 as [|? ? F3 F4]; subst. inversion F4 as [|? ? F5 F6]; subst.
    apply Forall_app in F6. destruct F6 as [_ F7].
    apply Forall_app. split; [assumption|]. constructor; [assumption|]. constructor; [apply (laid_new _ _ _ _ _ _ 1 HL Hg)|].
    apply Forall_app. split; [|assumption]. apply Forall_forall. intros l Hl1.
    destruct (renumber_in _ Hg _ _ Hl1) as (j & e & He & ->). apply new_eol. assumption. }
  assert (HL' := laid_new _ _ _ _ _ _ 1 HL Hg (List.length (keptBy es))).
  assert (HS' : section (renumber 1 (keptBy es)) (relabels 1 (keptBy es))) by (apply new_section; [assumption|lia]).
  destruct (renumber 1 (keptBy es)) as [|x y] eqn:ER.
  - unfold fixGmshMesh. rewrite Hp. cbn [negb]. unfold fixText. rewrite (isFile_lines _ _ Hf').
    destruct (split_file _ _ _ _ _ HL') as (b & E1). rewrite E1. reflexivity.
  - rewrite <- ER in *.
    assert (HE' : renumber 1 (keptBy es) <> []) by (rewrite ER; discriminate).
    rewrite (clean_general _ _ _ _ _ _ _ _ Hp Hf' HL' HS' HE'); [|rewrite relabels_length; lia].
    unfold cleaned at 1. rewrite kept_again, relabels_same, relabels_length. reflexivity.
Qed.

Lemma number_signed : forall a (neg : bool) s z b, every blank a -> numeral s z -> ends b ->
  let v := if neg then (- z)%Z else z in
  number (a ++ (if neg then "-" else "+") ++ s ++ b) = if (-2147483648 <=? v)%Z && (v <=? 2147483647)%Z then Num v b else TooBig.
Proof.
  intros a neg s z b Ha Hs Hb v. unfold number. rewrite skipws_blank by assumption.
  destruct (numeral_head _ _ Hs) as (c & r & d & E & Hd).
  assert (D := numeral_digits _ _ Hs b). rewrite (digits_end z b Hb) in D. rewrite E in *. cbn [append] in *.
  destruct neg; cbn [append skipws]; change (isspace "-") with false; change (isspace "+") with false; cbv iota;
    [change (Ascii.eqb "-" "-") with true|change (Ascii.eqb "+" "-") with false; change (Ascii.eqb "+" "+") with true]; cbv iota; rewrite (digit_is _ _ Hd), D; reflexivity.
Qed.

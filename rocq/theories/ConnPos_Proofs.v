(** Positions of the blocks, and the search for the nodes of a face. *)
From Coq Require Import ZArith List Bool Lia Reals Lra Sorted Permutation.
From Verif Require Import Common Face_Model Face_Spec Nodal_Model Nodal_Spec Nodal_Proofs Conn_Model Conn_Spec ConnFlux_Proofs Conn_Proofs.
Import ListNotations.
Local Open Scope Z_scope.

Lemma flat_global : forall m n nodes g, isGlobal m n nodes g ->
  exists Bs, g = concat Bs /\ Forall2 (fun k b => isBlock m n nodes (fst k) (snd k) b) (keys m) Bs.
Proof.
  intros m n nodes g [blocks [-> H]]. exists (concat blocks). split.
  - rewrite <- flat_map_concat_map. clear H. induction blocks as [|b t IH]; [reflexivity|]. cbn [flat_map concat]. rewrite concat_app, IH. reflexivity.
  - unfold keys. revert H. generalize (zseq (cm_ne m)). intros l H. induction H as [|e bs l bss H1 H2 IH]; [constructor|].
    cbn [flat_map concat]. apply Forall2_app; [|exact IH]. clear -H1. induction H1; [constructor|]. cbn [map]. constructor; [assumption|exact IHForall2].
Qed.

Lemma block_length : forall m n nodes e f l, NoDup (map fst (nodes f)) -> NoDup (map snd (nodes f)) -> isBlock m n nodes e f l -> length l = length (nodes f).
Proof.
  intros m n nodes e f l N1 N2 [S I].
  assert (NDl : NoDup l).
  { clear I. induction S as [|p t S IH F]; [constructor|]. constructor; [|exact IH]. intros H. rewrite Forall_forall in F. specialize (F p H). lia. }
  assert (NDm : NoDup (map (seenFrom m n e f) (nodes f))).
  { assert (inj : forall x y, In x (nodes f) -> In y (nodes f) -> seenFrom m n e f x = seenFrom m n e f y -> fst x = fst y \/ snd x = snd y).
    { intros x y _ _ E. unfold seenFrom, gdof in E. destruct (0 <=? cf_e2 (faceAt m f)); [destruct (e =? cf_e1 (faceAt m f))|];
      injection E as E1 E2; left; lia. }
    clear -N1 N2 inj. induction (nodes f) as [|a t IH]; [constructor|]. cbn [map] in *. inversion N1; inversion N2; subst.
    constructor; [|apply IH; auto; intros; apply inj; auto; right; assumption].
    intros H. apply in_map_iff in H as [b [E Hb]]. destruct (inj b a) as [E'|E']; [right; exact Hb|left; reflexivity|exact E| |].
    - apply H1. rewrite <- E'. apply in_map, Hb.
    - apply H5. rewrite <- E'. apply in_map, Hb. }
  assert (P : Permutation l (map (seenFrom m n e f) (nodes f))).
  { apply NoDup_Permutation; auto. intros p. rewrite I, in_map_iff. split; intros [ij H]; exists ij; intuition congruence. }
  rewrite (Permutation_length P), map_length. reflexivity.
Qed.

Lemma Forall2_length : forall {A B} (R : A -> B -> Prop) l l', Forall2 R l l' -> length l = length l'.
Proof. intros A B R l l' H. induction H; cbn [length]; congruence. Qed.

(** ** Windows *)
Lemma firstn_skipn_in : forall {A} (l : list A) p k x, In x (firstn k (skipn p l)) -> In x l.
Proof.
  intros A l p k x H. rewrite <- (firstn_skipn p l). apply in_or_app. right. rewrite <- (firstn_skipn k (skipn p l)). apply in_or_app. left. exact H.
Qed.
Lemma split_at : forall {A} (Bs : list (list A)) p, (p < length (concat Bs))%nat ->
  exists B1 B B2 o, Bs = B1 ++ B :: B2 /\ p = (length (concat B1) + o)%nat /\ (o < length B)%nat.
Proof.
  intros A Bs. induction Bs as [|B t IH]; intros p H; cbn [concat] in H; [cbn in H; lia|]. rewrite app_length in H.
  destruct (Nat.lt_ge_cases p (length B)) as [L|L].
  - exists [], B, t, p. cbn [concat length]. split; [reflexivity|]. split; [lia|exact L].
  - destruct (IH (p - length B)%nat) as [B1 [B' [B2 [o [E1 [E2 E3]]]]]]; [lia|].
    exists (B :: B1), B', B2, o. rewrite E1. cbn [Datatypes.app concat]. rewrite app_length. split; [reflexivity|]. split; [lia|exact E3].
Qed.

(** A window without a break between two blocks lies in one block. *)
Lemma window_inside : forall {A} (lt : A -> A -> Prop) (Bs : list (list A)) p k,
  (0 < k)%nat -> (p + k <= length (concat Bs))%nat ->
  Forall (fun B => B <> []) Bs ->
  StronglySorted lt (firstn k (skipn p (concat Bs))) ->
  (forall B1 B B' B2 b t s x, Bs = B1 ++ B :: B' :: B2 -> B' = b :: t -> B = s ++ [x] -> lt x b ->
     In x (firstn k (skipn p (concat Bs))) -> In b (firstn k (skipn p (concat Bs))) -> False) ->
  exists B1 B B2 o, Bs = B1 ++ B :: B2 /\ p = (length (concat B1) + o)%nat /\ (o + k <= length B)%nat /\
    firstn k (skipn p (concat Bs)) = firstn k (skipn o B).
Proof.
  intros A lt Bs p k Hk Hp NE S Br. destruct (split_at Bs p) as [B1 [B [B2 [o [E1 [E2 E3]]]]]]; [lia|].
  exists B1, B, B2, o. split; [exact E1|]. split; [exact E2|].
  assert (W : skipn p (concat Bs) = skipn o B ++ concat B2).
  { rewrite E1, concat_app. cbn [concat]. rewrite skipn_app, E2. rewrite skipn_all2 by lia. cbn [Datatypes.app].
    replace (length (concat B1) + o - length (concat B1))%nat with o by lia. rewrite skipn_app.
    replace (o - length B)%nat with 0%nat by lia. reflexivity. }
  destruct (Nat.le_gt_cases (o + k) (length B)) as [L|L].
  - split; [exact L|]. rewrite W, firstn_app, skipn_length. replace (k - (length B - o))%nat with 0%nat by lia. cbn [firstn]. apply app_nil_r.
  - exfalso.
    assert (LB : (length (concat B2) >= k - (length B - o))%nat).
    { assert (length (skipn p (concat Bs)) >= k)%nat by (rewrite skipn_length; lia). rewrite W, app_length, skipn_length in H. lia. }
    destruct B2 as [|B' B2']; [cbn in LB; lia|].
    assert (NB' : B' <> []) by (rewrite Forall_forall in NE; apply NE; rewrite E1; apply in_or_app; right; right; left; reflexivity).
    destruct B' as [|b t]; [congruence|].
    assert (exists s x, B = s ++ [x]) as [s [x EB]].
    { destruct (exists_last (l := B)) as [s [x E]]; [intros ->; cbn in E3; lia|]. exists s, x. exact E. }
    assert (EW : firstn k (skipn p (concat Bs)) = skipn o B ++ firstn (k - (length B - o)) ((b :: t) ++ concat B2')).
    { rewrite W, firstn_app, skipn_length. rewrite (firstn_all2 (skipn o B)) by (rewrite skipn_length; lia). reflexivity. }
    assert (Hx : In x (skipn o B)).
    { rewrite EB. rewrite EB, app_length in E3. cbn [length] in E3. rewrite skipn_app. apply in_or_app. right. replace (o - length s)%nat with 0%nat by lia. left. reflexivity. }
    assert (Hb : In b (firstn (k - (length B - o)) ((b :: t) ++ concat B2'))).
    { remember (k - (length B - o))%nat as d eqn:Ed. destruct d as [|d]; [lia|]. cbn [Datatypes.app firstn]. left. reflexivity. }
    apply (Br B1 B (b :: t) B2' b t s x); auto.
    + rewrite EW in S. clear -S Hx Hb. revert Hx Hb S. generalize (firstn (k - (length B - o)) ((b :: t) ++ concat B2')). generalize (skipn o B).
      intros l1 l2 H1 H2 S. induction l1 as [|a l IH]; [destruct H1|]. cbn [Datatypes.app] in S. inversion S as [|? ? S' F]; subst.
      destruct H1 as [->|H1]; [|apply IH; auto]. rewrite Forall_forall in F. apply F, in_or_app. right. exact H2.
    + rewrite EW. apply in_or_app. left. exact Hx.
    + rewrite EW. apply in_or_app. right. exact Hb.
Qed.

(** ** findMapBIDForFaceNodes *)
Lemma eqbZs_ok : forall a b, eqbZs a b = true <-> a = b.
Proof.
  induction a as [|x a IH]; intros [|y b]; cbn [eqbZs]; split; intros H; try discriminate; try reflexivity.
  - apply andb_prop in H as [H1 H2]. apply Z.eqb_eq in H1. apply IH in H2. congruence.
  - inversion H; subst. rewrite Z.eqb_refl. cbn [andb]. apply IH. reflexivity.
Qed.
(** The search returns the first window with the nodes. *)
Lemma window_found : forall nodes g k0, nodes <> [] ->
  (exists p, (p + length nodes <= length g)%nat /\ map fst (firstn (length nodes) (skipn p g)) = nodes) ->
  exists p, findWindow nodes g k0 = Ok (map (fun i => k0 + Z.of_nat p + i) (zseq (length nodes))) /\
    (p + length nodes <= length g)%nat /\ map fst (firstn (length nodes) (skipn p g)) = nodes.
Proof.
  intros nodes g. induction g as [|a t IH]; intros k0 NE [p [Hp Ep]].
  - exfalso. destruct nodes as [|v vs]; [congruence|]. cbn [length] in Hp. lia.
  - cbn [findWindow]. destruct nodes as [|v vs] eqn:EN; [congruence|]. rewrite <- EN in *.
    destruct ((v =? fst a) && (length nodes <=? length (a :: t))%nat && eqbZs nodes (map fst (firstn (length nodes) (a :: t)))) eqn:C.
    + apply andb_prop in C as [C1 C2]. apply andb_prop in C1 as [_ C1]. apply eqbZs_ok in C2. apply Nat.leb_le in C1.
      exists 0%nat. cbn [skipn plus]. split; [|split; [exact C1|auto]]. f_equal. apply map_ext. intros i. lia.
    + destruct p as [|p].
      * exfalso. cbn [skipn plus] in *. assert (Q : eqbZs nodes nodes = true) by (apply eqbZs_ok; reflexivity).
        rewrite Ep, Q in C.
        assert (v = fst a) as ->. { rewrite EN in Ep. cbn [length firstn map] in Ep. congruence. }
        rewrite Z.eqb_refl in C. cbn [andb] in C. rewrite andb_true_r in C. apply Nat.leb_gt in C. lia.
      * destruct (IH (k0 + 1) NE) as [p' [E1 [E2 E3]]].
        { exists p. cbn [length] in Hp. split; [lia|exact Ep]. }
        exists (S p'). rewrite E1. cbn [skipn length]. split; [|split; [lia|exact E3]]. f_equal. apply map_ext. intros i. lia.
Qed.

(** ** Keys *)
Lemma filter_keys : forall (h : Z -> list Z) e es, NoDup es -> In e es ->
  filter (fun k => fst k =? e) (flat_map (fun a => map (fun f => (a, f)) (h a)) es) = map (fun f => (e, f)) (h e).
Proof.
  intros h e es.
  assert (Z0 : forall l a, a <> e -> filter (fun k : Z * Z => fst k =? e) (map (fun f : Z => (a, f)) l) = []).
  { intros l a Ha. induction l as [|x t IH]; [reflexivity|]. cbn [map filter fst]. replace (a =? e) with false by (symmetry; apply Z.eqb_neq; exact Ha). exact IH. }
  assert (Z1 : forall l, filter (fun k : Z * Z => fst k =? e) (map (fun f : Z => (e, f)) l) = map (fun f => (e, f)) l).
  { intros l. induction l as [|x t IH]; [reflexivity|]. cbn [map filter fst]. rewrite Z.eqb_refl, IH. reflexivity. }
  assert (Z2 : forall es, ~ In e es -> filter (fun k => fst k =? e) (flat_map (fun a => map (fun f => (a, f)) (h a)) es) = []).
  { intros l. induction l as [|a t IH]; intros H; [reflexivity|]. cbn [flat_map]. rewrite filter_app, Z0, IH; [reflexivity| |]; intros E; apply H; [right; exact E|left; exact E]. }
  induction es as [|a t IH]; intros ND H; [destruct H|]. inversion ND as [|? ? N ND']; subst. cbn [flat_map]. rewrite filter_app.
  destruct (Z.eq_dec a e) as [->|Na].
  - rewrite Z1, Z2 by exact N. apply app_nil_r.
  - rewrite Z0 by exact Na. apply IH; [exact ND'|]. destruct H; [congruence|assumption].
Qed.
Lemma sorted_nodup : forall l, StronglySorted Z.lt l -> NoDup l.
Proof. intros l S. induction S as [|a t S IH F]; constructor; auto. intros H. rewrite Forall_forall in F. specialize (F a H). lia. Qed.

Section Pos.
  Variables (m : cmesh) (n : nat) (nodes : Z -> list (nat * nat)) (g : list (Z * Z)).
  Hypothesis G : conforming m n nodes.
  Hypothesis O : faceOrder m n nodes.
  Hypothesis HG : isGlobal m n nodes g.
  Let ne := Z.of_nat (cm_ne m).
  Definition isKey (e f : Z) : Prop := inR e ne /\ In f (nth (Z.to_nat e) (cm_elface m) []).

  Lemma key_in : forall e f, In (e, f) (keys m) <-> isKey e f.
  Proof.
    intros e f. unfold keys, isKey. rewrite in_flat_map. split.
    - intros [a [Ha Hf]]. apply in_zseq in Ha. apply in_map_iff in Hf as [x [E Hx]]. inversion E; subst. split; [exact Ha|exact Hx].
    - intros [He Hf]. exists e. split; [apply in_zseq; exact He|]. apply in_map_iff. exists f. auto.
  Qed.
  Lemma keys_nodup : NoDup (keys m).
  Proof.
    unfold keys. pose proof (sorted_nodup _ (sorted_zseq (cm_ne m))) as ND.
    assert (H : forall e, In e (zseq (cm_ne m)) -> NoDup (nth (Z.to_nat e) (cm_elface m) [])).
    { intros e He. apply (o_nodup _ _ _ O). apply in_zseq in He. exact He. }
    revert ND H. generalize (zseq (cm_ne m)). induction l as [|a t IH]; intros ND H; [constructor|]. inversion ND as [|? ? N ND']; subst.
    cbn [flat_map]. assert (A1 : NoDup (map (fun f => (a, f)) (nth (Z.to_nat a) (cm_elface m) []))).
    { apply FinFun.Injective_map_NoDup; [intros x y E; congruence|]. apply H. left; reflexivity. }
    assert (A2 : NoDup (flat_map (fun e => map (fun f => (e, f)) (nth (Z.to_nat e) (cm_elface m) [])) t)) by (apply IH; [exact ND'|intros; apply H; right; assumption]).
    assert (A3 : forall x, In x (map (fun f => (a, f)) (nth (Z.to_nat a) (cm_elface m) [])) -> ~ In x (flat_map (fun e => map (fun f => (e, f)) (nth (Z.to_nat e) (cm_elface m) [])) t)).
    { intros x Hx Hy. apply in_map_iff in Hx as [f [<- _]]. apply in_flat_map in Hy as [e [He Hy]]. apply in_map_iff in Hy as [f' [E _]]. inversion E; subst. contradiction. }
    clear -A1 A2 A3. induction (map _ _) as [|x l IH]; [exact A2|]. cbn [Datatypes.app]. inversion A1; subst. constructor.
    - intros Hin. apply in_app_iff in Hin as [Hin|Hin]; [contradiction|]. apply (A3 x); [left; reflexivity|exact Hin].
    - apply IH; [assumption|]. intros y Hy. apply A3. right. exact Hy.
  Qed.
  Lemma consecutive : forall k1 e f f' k2, keys m = k1 ++ (e, f) :: (e, f') :: k2 ->
    exists l r, nth (Z.to_nat e) (cm_elface m) [] = l ++ f :: f' :: r.
  Proof.
    intros k1 e f f' k2 E.
    assert (He : In e (zseq (cm_ne m))).
    { assert (In (e, f) (keys m)) as H by (rewrite E; apply in_or_app; right; left; reflexivity).
      apply key_in in H as [H _]. apply in_zseq. exact H. }
    pose proof (filter_keys (fun e => nth (Z.to_nat e) (cm_elface m) []) e _ (sorted_nodup _ (sorted_zseq (cm_ne m))) He) as P.
    change (flat_map _ _) with (keys m) in P. rewrite E, filter_app in P. cbn [filter fst] in P. rewrite Z.eqb_refl in P.
    apply (f_equal (map snd)) in P. rewrite map_map in P. cbn [snd] in P. rewrite map_id, map_app in P. cbn [map snd] in P.
    eexists _, _. symmetry. exact P.
  Qed.

  Lemma key_face : forall e f, isKey e f -> inF m f /\ (cf_e1 (faceAt m f) = e \/ cf_e2 (faceAt m f) = e).
  Proof. intros e f [He Hf]. apply (g_faces _ _ _ G e f He Hf). Qed.
  Lemma own_dof : forall e f ij, isKey e f -> In ij (nodes f) ->
    fst (seenFrom m n e f ij) = gdof n e (ownLocal m e f ij) /\ (ownLocal m e f ij < n)%nat.
  Proof.
    intros e f ij K Hij. destruct (key_face e f K) as [Hf Ht]. unfold seenFrom, ownLocal.
    destruct (Z.leb_spec 0 (cf_e2 (faceAt m f))) as [Hi|Hi]; cbn [andb].
    - destruct (g_int _ _ _ G f Hf Hi) as [_ [[_ [_ [_ [_ [_ [R _]]]]]] _]]. rewrite Forall_forall in R. destruct (R ij Hij) as [R1 R2].
      destruct (Z.eqb_spec e (cf_e1 (faceAt m f))) as [E|E]; cbn [negb fst].
      + rewrite <- E. auto.
      + destruct Ht as [Ht|Ht]; [congruence|]. rewrite Ht. auto.
    - assert (HI : ~ interior m f) by (unfold interior; lia). destruct (g_bdr _ _ _ G f Hf HI) as [_ [_ [_ [_ [_ [R _]]]]]].
      rewrite Forall_forall in R. destruct (R ij Hij) as [R1 _]. cbn [fst]. auto.
  Qed.
  Lemma gdof_inj : forall e e' i j, (i < n)%nat -> (j < n)%nat -> gdof n e i = gdof n e' j -> e = e' /\ i = j.
  Proof.
    intros e e' i j Hi Hj E. unfold gdof in E.
    assert (e = e') as -> by nia. split; [reflexivity|]. lia.
  Qed.
  Lemma nodes_nodup : forall f, inF m f -> NoDup (map fst (nodes f)) /\ NoDup (map snd (nodes f)).
  Proof.
    intros f Hf. destruct (Z_le_gt_dec 0 (cf_e2 (faceAt m f))) as [Hi|Hi].
    - destruct (g_int _ _ _ G f Hf Hi) as [_ [[_ [_ [_ [N1 [N2 _]]]]] _]]. auto.
    - assert (HI : ~ interior m f) by (unfold interior; lia). destruct (g_bdr _ _ _ G f Hf HI) as [_ [_ [_ [_ [N1 [R _]]]]]]. split; [exact N1|].
      replace (map snd (nodes f)) with (map fst (nodes f)); [exact N1|]. apply map_ext_in. intros ij Hij. rewrite Forall_forall in R. symmetry. apply R, Hij.
  Qed.
  Lemma len_block : forall e f B, isKey e f -> isBlock m n nodes e f B -> length B = length (nodes f).
  Proof. intros e f B K H. destruct (key_face e f K) as [Hf _]. destruct (nodes_nodup f Hf). eapply block_length; eauto. Qed.

  Lemma start_sum : forall (ks : list (Z * Z)) e f k1 k2 (B1 : list (list (Z * Z))), ks = k1 ++ (e, f) :: k2 -> ~ In (e, f) k1 ->
    Forall2 (fun k b => length b = length (nodes (snd k))) k1 B1 -> startIn nodes ks e f = Z.of_nat (length (concat B1)).
  Proof.
    intros ks e f k1 k2 B1 -> N H. revert N. induction H as [|[e' f'] b k1 B1 H1 H2 IH]; intros N.
    - cbn [Datatypes.app startIn]. rewrite !Z.eqb_refl. reflexivity.
    - cbn [Datatypes.app startIn concat]. rewrite app_length. cbn [snd] in H1.
      destruct (Z.eqb_spec e e') as [E|E]; [destruct (Z.eqb_spec f f') as [E'|E']|]; cbn [andb];
        [exfalso; apply N; left; congruence| |]; rewrite IH by (intros X; apply N; right; exact X); lia.
  Qed.

  Lemma key_split : forall e f, isKey e f -> exists Bs B1 B B2, g = concat Bs /\ Bs = B1 ++ B :: B2 /\ isBlock m n nodes e f B /\
    start m nodes e f = Z.of_nat (length (concat B1)).
  Proof.
    intros e f K. destruct (flat_global _ _ _ _ HG) as [Bs [Eg F2]]. apply key_in in K as K'. apply in_split in K' as [k1 [k2 Ek]].
    assert (Fl : Forall2 (fun k b => length b = length (nodes (snd k))) (keys m) Bs).
    { assert (forall k, In k (keys m) -> isKey (fst k) (snd k)) as Hk by (intros [a b] H; apply key_in, H).
      revert Hk F2. generalize (keys m). clear -G. intros l Hk F2. induction F2 as [|k b l Bs H1 H2 IH]; constructor.
      - apply (len_block (fst k) (snd k)); [apply Hk; left; reflexivity|exact H1].
      - apply IH. intros; apply Hk; right; assumption. }
    rewrite Ek in F2. apply Forall2_app_inv_l in F2 as [B1 [R [H1 [H2 E]]]]. inversion H2 as [|? B ? B2 HB H2']; subst R. subst Bs.
    exists (B1 ++ B :: B2), B1, B, B2. split; [exact Eg|]. split; [reflexivity|]. split; [exact HB|].
    unfold start. rewrite Ek in Fl. apply Forall2_app_inv_l in Fl as [B1' [R' [L1 [L2 E']]]].
    assert (B1' = B1).
    { pose proof (Forall2_length _ _ _ H1) as A1. pose proof (Forall2_length _ _ _ L1) as A2. clear -E' A1 A2. rewrite A1 in A2. clear A1. revert B1' A2 E'.
      induction B1 as [|x t IH]; intros [|y u] A E; cbn in *; try discriminate; [reflexivity|]. injection E as -> E. f_equal. apply IH; [lia|exact E]. }
    subst B1'. eapply start_sum; [exact Ek| |exact L1].
    pose proof keys_nodup as ND. rewrite Ek in ND. apply NoDup_remove_2 in ND. intros X. apply ND, in_or_app. left. exact X.
  Qed.

  Lemma key_window : forall e f, isKey e f -> exists B, isBlock m n nodes e f B /\ 0 <= start m nodes e f /\
    (Z.to_nat (start m nodes e f) + length (nodes f) <= length g)%nat /\
    firstn (length (nodes f)) (skipn (Z.to_nat (start m nodes e f)) g) = B.
  Proof.
    intros e f K. destruct (key_split e f K) as [Bs [B1 [B [B2 [Eg [EB [HB ES]]]]]]]. exists B. split; [exact HB|].
    rewrite ES, Nat2Z.id. pose proof (len_block e f B K HB) as L. rewrite Eg, EB, concat_app. cbn [concat]. split; [lia|]. split.
    - rewrite !app_length. lia.
    - rewrite skipn_app. rewrite skipn_all2 by lia. cbn [Datatypes.app]. rewrite Nat.sub_diag. cbn [skipn]. rewrite firstn_app, <- L, Nat.sub_diag, firstn_all. cbn [firstn]. apply app_nil_r.
  Qed.

  (** The nodes of a face of an element occur as a window only where they should. *)
  Lemma window_unique : forall e f B p, isKey e f -> isBlock m n nodes e f B ->
    (p + length B <= length g)%nat -> map fst (firstn (length B) (skipn p g)) = map fst B -> Z.of_nat p = start m nodes e f.
  Proof.
    intros e f B p K HB Hp Ew. destruct (flat_global _ _ _ _ HG) as [Bs [Eg F2]].
    pose proof (key_face e f K) as [Hf _]. pose proof (len_block e f B K HB) as LB.
    assert (Hpos : (0 < length B)%nat).
    { rewrite LB. pose proof (o_some _ _ _ O f Hf). destruct (nodes f); [congruence|cbn; lia]. }
    assert (InW : forall x, In x (firstn (length B) (skipn p g)) -> exists ij, In ij (nodes f) /\ fst x = gdof n e (ownLocal m e f ij) /\ (ownLocal m e f ij < n)%nat).
    { intros x Hx. assert (In (fst x) (map fst B)) as H by (rewrite <- Ew; apply in_map, Hx). apply in_map_iff in H as [y [Ey Hy]].
      destruct HB as [_ I]. apply I in Hy as [ij [Hij ->]]. destruct (own_dof e f ij K Hij) as [D1 D2]. exists ij. rewrite <- Ey. auto. }
    assert (SW : StronglySorted (fun x y : Z * Z => fst x < fst y) (firstn (length B) (skipn p g))).
    { destruct HB as [S _]. assert (SZ : StronglySorted Z.lt (map fst (firstn (length B) (skipn p g)))).
      { rewrite Ew. apply (sorted_map _ (fun x y : Z * Z => fst x < fst y)); auto. }
      clear -SZ. induction (firstn (length B) (skipn p g)) as [|x t IH]; [constructor|]. cbn [map] in SZ. inversion SZ as [|? ? S F]; subst.
      constructor; [apply IH, S|]. rewrite Forall_forall in *. intros y Hy. apply F, in_map, Hy. }
    assert (KB : forall B1 B' B2, Bs = B1 ++ B' :: B2 -> exists k1 e' f' k2, keys m = k1 ++ (e', f') :: k2 /\ length k1 = length B1 /\ isBlock m n nodes e' f' B' /\ isKey e' f' /\
        Forall2 (fun k b => isBlock m n nodes (fst k) (snd k) b) k1 B1 /\ Forall2 (fun k b => isBlock m n nodes (fst k) (snd k) b) k2 B2).
    { intros B1 B' B2 EB. rewrite EB in F2. apply Forall2_app_inv_r in F2 as [k1 [R [H1 [H2 E]]]]. inversion H2 as [|[e' f'] ? k2 ? HB' H2']; subst R.
      exists k1, e', f', k2. split; [exact E|]. split; [apply (Forall2_length _ _ _ H1)|]. split; [exact HB'|]. split; [|split; assumption].
      apply key_in. rewrite E. apply in_or_app. right. left. reflexivity. }
    assert (NE : Forall (fun B' : list (Z * Z) => B' <> []) Bs).
    { apply Forall_forall. intros B' H. apply in_split in H as [B1 [B2 EB]]. destruct (KB _ _ _ EB) as [k1 [e' [f' [k2 [_ [_ [HB' [K' _]]]]]]]].
      pose proof (len_block _ _ _ K' HB') as L. pose proof (key_face _ _ K') as [Hf' _]. pose proof (o_some _ _ _ O f' Hf').
      intros ->. cbn in L. destruct (nodes f'); [congruence|discriminate]. }
    rewrite Eg in *.
    destruct (window_inside (fun x y : Z * Z => fst x < fst y) Bs p (length B) Hpos Hp NE SW) as [B1 [B' [B2 [o [EB [Ep [Ho EW]]]]]]].
    { intros B1 C C' B2 b t s x EB EC' EC Lt Hx Hb.
      destruct (KB _ _ _ EB) as [k1 [e1 [f1 [k2 [Ek [_ [HC [K1 [_ F2']]]]]]]]]. inversion F2' as [|[e2 f2] ? k2' ? HC' F2'']; subst k2. cbn [fst snd] in HC'.
      assert (K2 : isKey e2 f2) by (apply key_in; rewrite Ek; apply in_or_app; right; right; left; reflexivity).
      destruct (InW x Hx) as [ijx [_ [Dx Lx]]]. destruct (InW b Hb) as [ijb [_ [Db Lb]]].
      assert (Xc : In x C) by (rewrite EC; apply in_or_app; right; left; reflexivity).
      assert (Bc : In b C') by (rewrite EC'; left; reflexivity).
      destruct HC as [SC IC], HC' as [SC' IC']. apply IC in Xc as [ij1 [Hij1 E1]]. apply IC' in Bc as [ij2 [Hij2 E2]].
      destruct (own_dof _ _ _ K1 Hij1) as [D1 M1]. destruct (own_dof _ _ _ K2 Hij2) as [D2 M2].
      rewrite E1 in Dx. rewrite D1 in Dx. apply gdof_inj in Dx as [-> _]; auto.
      rewrite E2 in Db. rewrite D2 in Db. apply gdof_inj in Db as [-> _]; auto.
      destruct (consecutive _ _ _ _ _ Ek) as [l [r El]]. destruct K as [He _].
      destruct (o_descend _ _ _ O e l f1 f2 r He El) as [ij [kl [Hij [Hkl Hle]]]].
      assert (P1 : In (seenFrom m n e f1 ij) C) by (apply IC; exists ij; auto).
      assert (P2 : In (seenFrom m n e f2 kl) C') by (apply IC'; exists kl; auto).
      destruct (own_dof _ _ _ K1 Hij) as [D3 _]. destruct (own_dof _ _ _ K2 Hkl) as [D4 _].
      assert (Q1 : fst (seenFrom m n e f1 ij) <= fst x).
      { rewrite EC in SC, P1. apply in_app_iff in P1 as [P1|[<-|[]]]; [|lia]. clear -SC P1. revert P1 SC. generalize (seenFrom m n e f1 ij). intros z P1 SC.
        induction s as [|a s IH]; [destruct P1|]. cbn [Datatypes.app] in SC. inversion SC as [|? ? S F]; subst. destruct P1 as [->|P1]; [|apply IH; auto].
        rewrite Forall_forall in F. assert (fst z < fst x) by (apply F, in_or_app; right; left; reflexivity). lia. }
      assert (Q2 : fst b <= fst (seenFrom m n e f2 kl)).
      { rewrite EC' in SC', P2. inversion SC' as [|? ? S F]; subst. destruct P2 as [<-|P2]; [lia|]. rewrite Forall_forall in F. specialize (F _ P2). lia. }
      rewrite D3 in Q1. rewrite D4 in Q2. unfold gdof in Q1, Q2. lia. }
    destruct (KB _ _ _ EB) as [k1 [e' [f' [k2 [Ek [Lk [HB' [K' [Fk1 _]]]]]]]]].
    assert (Sub : forall x, In x (firstn (length B) (skipn o B')) -> In x B') by (intros; eapply firstn_skipn_in; eauto).
    assert (e' = e) as ->.
    { destruct (firstn (length B) (skipn o B')) as [|x t] eqn:Ex.
      - exfalso. assert (length (firstn (length B) (skipn o B')) = length B) by (rewrite firstn_length, skipn_length; lia). rewrite Ex in H. cbn in H. lia.
      - destruct (InW x) as [ij [_ [D L]]]; [rewrite EW; left; reflexivity|]. assert (Hx : In x B') by (apply Sub; left; reflexivity).
        destruct HB' as [_ I']. apply I' in Hx as [kl [Hkl E]]. destruct (own_dof _ _ _ K' Hkl) as [D' L']. rewrite E, D' in D. apply gdof_inj in D as [D _]; auto. }
    assert (f' = f) as ->.
    { destruct (Z.eq_dec f' f) as [E|Nf]; [exact E|]. exfalso. destruct K as [He HfE]. destruct K' as [_ HfE'].
      destruct (o_distinct _ _ _ O e f f' He HfE HfE') as [ij [Hij Hnot]]; [congruence|]. apply Hnot.
      assert (Hs : In (seenFrom m n e f ij) B) by (apply HB; exists ij; auto).
      apply (in_map fst) in Hs. rewrite <- Ew, EW in Hs. apply in_map_iff in Hs as [x [Ex Hx]]. apply Sub in Hx.
      destruct HB' as [_ I']. apply I' in Hx as [kl [Hkl ->]].
      destruct (own_dof e f ij (conj He HfE) Hij) as [D L]. destruct (own_dof e f' kl (conj He HfE') Hkl) as [D' L'].
      rewrite D, D' in Ex. apply gdof_inj in Ex as [_ Ei]; auto. rewrite <- Ei. apply in_map, Hkl. }
    pose proof (len_block _ _ _ K' HB') as L'. assert (o = 0%nat) as -> by lia.
    rewrite Ep, Nat.add_0_r. symmetry. unfold start. eapply start_sum; [exact Ek| |].
    - pose proof keys_nodup as ND. rewrite Ek in ND. apply NoDup_remove_2 in ND. intros X. apply ND, in_or_app. left. exact X.
    - assert (Hk : forall k, In k k1 -> isKey (fst k) (snd k)) by (intros [a b] H; apply key_in; rewrite Ek; apply in_or_app; left; exact H).
      clear -Hk Fk1 G. induction Fk1 as [|k b l Bs H1 H2 IH]; constructor.
      + apply (len_block (fst k) (snd k)); [apply Hk; left; reflexivity|exact H1].
      + apply IH. intros; apply Hk; right; assumption.
  Qed.
End Pos.

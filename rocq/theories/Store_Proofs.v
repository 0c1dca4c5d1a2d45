(** The order on matrices and the store. *)
From Coq Require Import ZArith List Bool Lia Reals Lra Sorted.
From Flocq Require Import Core IEEE754.BinarySingleNaN IEEE754.Binary IEEE754.Bits.
From Verif Require Import Common Store_Model Store_Spec.
Import ListNotations.

(** ** Numbers *)
Definition big : R := bpow radix2 1024.
Definition rank (x : binary64) : R := match x with B754_infinity _ _ s => if s then (- big)%R else big | _ => B2R 53 1024 x end.
Lemma big_pos : (0 < big)%R.
Proof. apply bpow_gt_0. Qed.
Lemma rank_bound : forall x : binary64, is_finite 53 1024 x = true -> (- big < rank x < big)%R.
Proof.
  intros x F. assert (E : rank x = B2R 53 1024 x) by (destruct x; try discriminate; reflexivity). rewrite E.
  pose proof (abs_B2R_lt_emax 53 1024 x) as H. apply Rabs_def2 in H. unfold big. lra.
Qed.
Lemma compare_rank : forall x y : binary64, is_nan 53 1024 x = false -> is_nan 53 1024 y = false -> b64_compare x y = Some (Rcompare (rank x) (rank y)).
Proof.
  intros x y Hx Hy. unfold b64_compare. pose proof big_pos as BP.
  destruct (is_finite 53 1024 x) eqn:Fx; destruct (is_finite 53 1024 y) eqn:Fy.
  - rewrite Bcompare_correct by assumption. f_equal. destruct x, y; try discriminate; reflexivity.
  - destruct y as [|s| |]; try discriminate. pose proof (rank_bound x Fx) as B. destruct s; cbn [rank].
    + rewrite Rcompare_Gt by lra. destruct x as [ [|] | [|] | | [|] ]; try discriminate; reflexivity.
    + rewrite Rcompare_Lt by lra. destruct x as [ [|] | [|] | | [|] ]; try discriminate; reflexivity.
  - destruct x as [|s| |]; try discriminate. pose proof (rank_bound y Fy) as B. destruct s; cbn [rank].
    + rewrite Rcompare_Lt by lra. destruct y as [ [|] | [|] | | [|] ]; try discriminate; reflexivity.
    + rewrite Rcompare_Gt by lra. destruct y as [ [|] | [|] | | [|] ]; try discriminate; reflexivity.
  - destruct x as [|s| |]; try discriminate. destruct y as [|s'| |]; try discriminate.
    destruct s, s'; cbn [rank]; first [rewrite Rcompare_Eq by reflexivity|rewrite Rcompare_Lt by lra|rewrite Rcompare_Gt by lra]; reflexivity.
Qed.
Lemma same_rank : forall x y : binary64, is_nan 53 1024 x = false -> is_nan 53 1024 y = false -> (sameVal x y <-> rank x = rank y).
Proof.
  intros x y Hx Hy. pose proof big_pos as BP.
  destruct (is_finite 53 1024 x) eqn:Fx; destruct (is_finite 53 1024 y) eqn:Fy.
  - destruct x, y; try discriminate; cbn [sameVal rank]; tauto.
  - pose proof (rank_bound x Fx) as B. destruct y as [|s| |]; try discriminate. split; [destruct x; try discriminate; intros []|]. intros E. exfalso.
    destruct s; cbn [rank] in E; lra.
  - pose proof (rank_bound y Fy) as B. destruct x as [|s| |]; try discriminate. split; [destruct y; try discriminate; intros []|]. intros E. exfalso.
    destruct s; cbn [rank] in E; lra.
  - destruct x as [|s| |]; try discriminate. destruct y as [|s'| |]; try discriminate. cbn [sameVal rank].
    destruct s, s'; split; intros E; try reflexivity; try discriminate; exfalso; lra.
Qed.
Lemma fne_rank : forall x y, is_nan 53 1024 x = false -> is_nan 53 1024 y = false -> (fne x y = true <-> rank x <> rank y).
Proof.
  intros x y Hx Hy. unfold fne. rewrite compare_rank by assumption. destruct (Rcompare_spec (rank x) (rank y)); split; intros; try reflexivity; try discriminate; try lra; contradiction.
Qed.
Lemma flt_rank : forall x y, is_nan 53 1024 x = false -> is_nan 53 1024 y = false -> (flt x y = true <-> (rank x < rank y)%R).
Proof.
  intros x y Hx Hy. unfold flt. rewrite compare_rank by assumption. destruct (Rcompare_spec (rank x) (rank y)); split; intros; try reflexivity; try discriminate; lra.
Qed.

(** ** Matrices *)
Definition val (a : dmat) (p : nat * nat) : binary64 := d_at a (fst p) (snd p).
Definition good (a : dmat) (ps : list (nat * nat)) : Prop := forall p, In p ps -> is_nan 53 1024 (val a p) = false.
Lemma positions_in : forall r c i j, In (i, j) (positions r c) <-> (i < r)%nat /\ (j < c)%nat.
Proof.
  intros r c i j. unfold positions. rewrite in_flat_map. split.
  - intros [x [Hx H]]. apply in_map_iff in H as [y [E Hy]]. inversion E; subst. apply in_seq in Hx, Hy. lia.
  - intros [H1 H2]. exists i. split; [apply in_seq; lia|]. apply in_map_iff. exists j. split; [reflexivity|]. apply in_seq. lia.
Qed.
Lemma good_positions : forall a, noNan a -> good a (positions (d_rows a) (d_cols a)).
Proof. intros a H [i j] Hp. apply positions_in in Hp. apply H; tauto. Qed.

Definition less (a b : dmat) (ps : list (nat * nat)) : Prop :=
  exists l p r, ps = l ++ p :: r /\ (forall q, In q l -> rank (val a q) = rank (val b q)) /\ (rank (val a p) < rank (val b p))%R.
Lemma entries_less : forall a b ps, good a ps -> good b ps -> (entriesLess a b ps = true <-> less a b ps).
Proof.
  intros a b ps. induction ps as [|[i j] t IH]; intros Ga Gb.
  - split; [discriminate|]. intros [l [p [r [E _]]]]. destruct l; discriminate.
  - cbn [entriesLess]. pose proof (Ga (i, j) (or_introl eq_refl)) as Na. pose proof (Gb (i, j) (or_introl eq_refl)) as Nb. unfold val in Na, Nb. cbn [fst snd] in Na, Nb.
    assert (IH' := IH (fun p H => Ga p (or_intror H)) (fun p H => Gb p (or_intror H))). clear IH.
    destruct (fne (d_at a i j) (d_at b i j)) eqn:E.
    + apply fne_rank in E; [|assumption..]. rewrite flt_rank by assumption. split.
      * intros H. exists [], (i, j), t. split; [reflexivity|]. split; [intros q []|exact H].
      * intros [l [p [r [El [Hl Hp]]]]]. destruct l as [|q l]; cbn [Datatypes.app] in El; inversion El; subst; [exact Hp|]. exfalso. apply E. apply (Hl (i, j)). left. reflexivity.
    + assert (Er : rank (d_at a i j) = rank (d_at b i j)).
      { destruct (Req_dec (rank (d_at a i j)) (rank (d_at b i j))) as [H|H]; [exact H|]. apply fne_rank in H; [congruence|assumption..]. }
      rewrite IH'. split.
      * intros [l [p [r [-> [Hl Hp]]]]]. exists ((i, j) :: l), p, r. split; [reflexivity|]. split; [|exact Hp]. intros q [<-|Hq]; [exact Er|apply Hl, Hq].
      * intros [l [p [r [El [Hl Hp]]]]]. destruct l as [|q l]; cbn [Datatypes.app] in El; inversion El; subst; [unfold val in Hp; cbn [fst snd] in Hp; lra|].
        exists l, p, r. split; [reflexivity|]. split; [intros q Hq; apply Hl; right; exact Hq|exact Hp].
Qed.
Lemma less_irrefl : forall a ps, ~ less a a ps.
Proof. intros a ps [l [p [r [_ [_ H]]]]]. lra. Qed.
Lemma less_cons : forall a b p ps, less a b (p :: ps) <-> (rank (val a p) < rank (val b p))%R \/ (rank (val a p) = rank (val b p) /\ less a b ps).
Proof.
  intros a b p ps. split.
  - intros [l [q [r [E [Hl Hq]]]]]. destruct l as [|x l]; cbn [Datatypes.app] in E; inversion E; subst; [left; exact Hq|]. right. split; [apply Hl; left; reflexivity|].
    exists l, q, r. split; [reflexivity|]. split; [intros y Hy; apply Hl; right; exact Hy|exact Hq].
  - intros [H|[H [l [q [r [-> [Hl Hq]]]]]]]; [exists [], p, ps; split; [reflexivity|split; [intros y []|exact H]]|].
    exists (p :: l), q, r. split; [reflexivity|]. split; [intros y [<-|Hy]; [exact H|apply Hl, Hy]|exact Hq].
Qed.
Lemma less_nil : forall a b, ~ less a b [].
Proof. intros a b [l [p [r [E _]]]]. destruct l; discriminate. Qed.
Lemma less_trans : forall a b c ps, less a b ps -> less b c ps -> less a c ps.
Proof.
  intros a b c ps. induction ps as [|p t IH]; intros H1 H2; [destruct (less_nil _ _ H1)|]. apply less_cons in H1, H2. apply less_cons.
  destruct H1 as [H1|[E1 H1]], H2 as [H2|[E2 H2]]; [left; lra|left; lra|left; lra|right; split; [congruence|apply IH; assumption]].
Qed.
Lemma less_equal : forall a b ps, ~ less a b ps -> ~ less b a ps -> forall p, In p ps -> rank (val a p) = rank (val b p).
Proof.
  intros a b ps. induction ps as [|q t IH]; intros H1 H2 p Hp; [destruct Hp|].
  assert (E : rank (val a q) = rank (val b q)).
  { destruct (Rtotal_order (rank (val a q)) (rank (val b q))) as [H|[H|H]]; [|exact H|]; exfalso; [apply H1|apply H2]; apply less_cons; left; lra. }
  destruct Hp as [<-|Hp]; [exact E|]. apply IH; [intros H; apply H1|intros H; apply H2|exact Hp]; apply less_cons; right; auto.
Qed.

Definition lessM (a b : dmat) : Prop :=
  (d_rows a < d_rows b)%nat \/ (d_rows a = d_rows b /\ ((d_cols a < d_cols b)%nat \/ (d_cols a = d_cols b /\ less a b (positions (d_rows a) (d_cols a))))).
Lemma less_than : forall a b, noNan a -> noNan b -> (lessThan a b = true <-> lessM a b).
Proof.
  intros a b Na Nb. unfold lessThan, lessM. destruct (Nat.ltb_spec (d_rows a) (d_rows b)) as [H|H]; [split; auto|].
  destruct (Nat.ltb_spec (d_rows b) (d_rows a)) as [H'|H']; [split; [discriminate|lia]|]. assert (Er : d_rows a = d_rows b) by lia.
  destruct (Nat.ltb_spec (d_cols a) (d_cols b)) as [K|K]; [split; auto|].
  destruct (Nat.ltb_spec (d_cols b) (d_cols a)) as [K'|K']; [split; [discriminate|intros [?|[_ [?|[? _]]]]; lia]|]. assert (Ec : d_cols a = d_cols b) by lia.
  rewrite entries_less; [|apply good_positions, Na|rewrite Er, Ec; apply good_positions, Nb]. split; [auto|]. intros [?|[_ [?|[_ L]]]]; [lia|lia|exact L].
Qed.
Lemma lessM_irrefl : forall a, ~ lessM a a.
Proof. intros a [H|[_ [H|[_ H]]]]; [lia|lia|]. apply (less_irrefl _ _ H). Qed.
Lemma lessM_trans : forall a b c, lessM a b -> lessM b c -> lessM a c.
Proof.
  intros a b c [H|[E [H|[F H]]]] [H'|[E' [H'|[F' H']]]]; unfold lessM; try (left; lia); right; (split; [lia|]); try (left; lia). right. split; [lia|].
  rewrite <- E, <- F in H'. apply (less_trans _ b); assumption.
Qed.
Lemma lessM_same : forall a b, noNan a -> noNan b -> (~ lessM a b /\ ~ lessM b a) <-> sameMat a b.
Proof.
  intros a b Na Nb. split.
  - intros [H1 H2]. unfold lessM in *. assert (Er : d_rows a = d_rows b) by lia. assert (Ec : d_cols a = d_cols b) by (destruct (lt_eq_lt_dec (d_cols a) (d_cols b)) as [[?|?]|?]; auto; exfalso; [apply H1|apply H2]; auto).
    split; [exact Er|]. split; [exact Ec|]. intros i j Hi Hj. apply same_rank; [apply Na; assumption|apply Nb; lia|].
    apply (less_equal a b (positions (d_rows a) (d_cols a))) with (p := (i, j)).
    + intros L. apply H1. auto 10.
    + intros L. apply H2. right. split; [auto|]. right. split; [auto|]. rewrite <- Er, <- Ec. exact L.
    + apply positions_in. auto.
  - intros [Er [Ec S]].
    assert (Eq : forall p, In p (positions (d_rows a) (d_cols a)) -> rank (val a p) = rank (val b p)).
    { intros [i j] Hp. apply positions_in in Hp as [Hi Hj]. apply same_rank; [apply Na; assumption|apply Nb; cbn [fst snd]; lia|apply S; assumption]. }
    assert (NL : forall x y, (forall p, In p (positions (d_rows a) (d_cols a)) -> rank (val x p) = rank (val y p)) -> ~ less x y (positions (d_rows a) (d_cols a))).
    { intros x y H [l [p [r [E [_ Hp]]]]]. rewrite E in H. specialize (H p). rewrite H in Hp by (apply in_or_app; right; left; reflexivity). lra. }
    split; intros [H|[_ [H|[_ H]]]]; try lia; [apply (NL a b Eq H)|]. rewrite <- Er, <- Ec in H. apply (NL b a); [intros; symmetry; apply Eq; assumption|exact H].
Qed.

Lemma not_less : forall a b, noNan a -> noNan b -> (lessThan a b = false <-> ~ lessM a b).
Proof. intros a b Na Nb. rewrite <- (less_than a b Na Nb). destruct (lessThan a b); split; intros; try congruence; try tauto; discriminate. Qed.
Lemma order_equiv : forall a b, noNan a -> noNan b -> (lessThan a b = false /\ lessThan b a = false <-> sameMat a b).
Proof. intros a b Na Nb. rewrite !not_less by assumption. apply lessM_same; assumption. Qed.
Lemma sameVal_refl : forall x, is_nan 53 1024 x = false -> sameVal x x.
Proof. intros x H. apply same_rank; auto. Qed.
Lemma same_sym : forall a b, noNan a -> noNan b -> sameMat a b -> sameMat b a.
Proof. intros a b Na Nb H. apply lessM_same; auto. apply lessM_same in H; tauto. Qed.
Lemma same_trans : forall a b c, noNan a -> noNan b -> noNan c -> sameMat a b -> sameMat b c -> sameMat a c.
Proof.
  intros a b c Na Nb Nc [E1 [E2 S]] [E3 [E4 S']]. split; [congruence|]. split; [congruence|]. intros i j Hi Hj.
  assert (N1 := Na i j Hi Hj). assert (N2 : is_nan 53 1024 (d_at b i j) = false) by (apply Nb; lia). assert (N3 : is_nan 53 1024 (d_at c i j) = false) by (apply Nc; lia).
  apply same_rank; auto. specialize (S i j Hi Hj). assert (S2 : sameVal (d_at b i j) (d_at c i j)) by (apply S'; lia). apply same_rank in S, S2; auto. congruence.
Qed.
Lemma order_strict : strictWeak noNan lessThan.
Proof.
  split; [|split].
  - intros a Na. apply not_less; auto. apply lessM_irrefl.
  - intros a b c Na Nb Nc H1 H2. apply less_than in H1, H2; auto. apply less_than; auto. eapply lessM_trans; eassumption.
  - intros a b c Na Nb Nc H1 H2 H3 H4. apply order_equiv; auto. apply (same_trans a b c); auto; apply order_equiv; auto.
Qed.

(** ** The store *)
Definition bst (l : list dmat) : Prop := StronglySorted lessM l /\ Forall noNan l.
Lemma less_same_l : forall a b c, noNan a -> noNan b -> noNan c -> lessM a b -> sameMat b c -> lessM a c.
Proof.
  intros a b c Na Nb Nc H S. assert (Q := proj2 (lessM_same b c Nb Nc) S).
  destruct (lessThan a c) eqn:E; [apply less_than in E; auto|]. exfalso. apply not_less in E; auto.
  assert (~ lessM c a) by (intros X; apply (proj2 Q); apply (lessM_trans _ a); assumption).
  assert (SA : sameMat a c) by (apply lessM_same; auto). assert (sameMat a b) by (apply (same_trans a c b); auto; apply same_sym; auto).
  apply lessM_same in H1; auto. tauto.
Qed.

Lemma sorted_mid : forall (l : list dmat) k r, StronglySorted lessM (l ++ k :: r) ->
  (forall x, In x l -> lessM x k) /\ (forall x, In x r -> lessM k x) /\ StronglySorted lessM l /\ StronglySorted lessM r /\ (forall x y, In x l -> In y r -> lessM x y).
Proof.
  induction l as [|x t IH]; intros k r S; cbn [Datatypes.app] in S; inversion S; subst.
  - rewrite Forall_forall in H2. split; [intros ? []|]. split; [exact H2|]. split; [constructor|]. split; [exact H1|]. intros ? ? [].
  - destruct (IH k r H1) as [A [B [C [D E]]]]. rewrite Forall_forall in H2. split; [|split; [exact B|split; [|split; [exact D|]]]].
    + intros y [<-|Hy]; [apply H2; apply in_or_app; right; left; reflexivity|apply A, Hy].
    + constructor; [exact C|]. apply Forall_forall. intros y Hy. apply H2, in_or_app. left. exact Hy.
    + intros y z [<-|Hy] Hz; [apply H2; apply in_or_app; right; right; exact Hz|apply E; assumption].
Qed.
Lemma sorted_join : forall (l : list dmat) k r, StronglySorted lessM l -> StronglySorted lessM r -> (forall x, In x l -> lessM x k) -> (forall x, In x r -> lessM k x) ->
  StronglySorted lessM (l ++ k :: r).
Proof.
  induction l as [|x t IH]; intros k r Sl Sr Hl Hr; cbn [Datatypes.app].
  - constructor; [exact Sr|]. apply Forall_forall, Hr.
  - inversion Sl; subst. constructor; [apply IH; auto; intros; apply Hl; right; assumption|]. rewrite Forall_forall in *. intros y Hy. apply in_app_or in Hy as [Hy|[<-|Hy]]; [apply H2, Hy|apply Hl; left; reflexivity|].
    apply (lessM_trans _ k); [apply Hl; left; reflexivity|apply Hr, Hy].
Qed.

(** Lower bound: the first key that is not less. *)
Lemma lower_bound : forall k t y, noNan k -> bst (inorder t) ->
  match lowerBound k t y with
  | Some v => (In v (inorder t) /\ ~ lessM v k /\ forall x, In x (inorder t) -> ~ lessM x k -> x = v \/ lessM v x) \/
              (Some v = y /\ forall x, In x (inorder t) -> lessM x k)
  | None => y = None /\ forall x, In x (inorder t) -> lessM x k
  end.
Proof.
  intros k t. induction t as [|l IHl v r IHr]; intros y Nk [S F]; cbn [lowerBound inorder].
  - destruct y; [right; split; [reflexivity|intros ? []]|split; [reflexivity|intros ? []]].
  - cbn [inorder] in S, F. destruct (sorted_mid _ _ _ S) as [A [B [C [D E]]]]. apply Forall_app in F as [Fl Fr]. inversion Fr as [|? ? Nv Fr']; subst.
    destruct (lessThan v k) eqn:L.
    + apply less_than in L; auto. specialize (IHr y Nk (conj D Fr')). destruct (lowerBound k r y) as [w|].
      * destruct IHr as [[I1 [I2 I3]]|[I1 I2]]; [left|right].
        -- split; [apply in_or_app; right; right; exact I1|]. split; [exact I2|]. intros x Hx Hk. apply in_app_or in Hx as [Hx|[<-|Hx]]; [|contradiction|apply I3; assumption].
           exfalso. apply Hk. apply (lessM_trans _ v); auto.
        -- split; [exact I1|]. intros x Hx. apply in_app_or in Hx as [Hx|[<-|Hx]]; [apply (lessM_trans _ v); auto|exact L|apply I2, Hx].
      * destruct IHr as [I1 I2]. split; [exact I1|]. intros x Hx. apply in_app_or in Hx as [Hx|[<-|Hx]]; [apply (lessM_trans _ v); auto|exact L|apply I2, Hx].
    + apply not_less in L; auto. specialize (IHl (Some v) Nk (conj C Fl)). destruct (lowerBound k l (Some v)) as [w|].
      * destruct IHl as [[I1 [I2 I3]]|[I1 I2]]; left.
        -- split; [apply in_or_app; left; exact I1|]. split; [exact I2|]. intros x Hx Hk. apply in_app_or in Hx as [Hx|[<-|Hx]]; [apply I3; assumption|right; apply A, I1|right; apply E; assumption].
        -- inversion I1; subst w. split; [apply in_or_app; right; left; reflexivity|]. split; [exact L|]. intros x Hx Hk. apply in_app_or in Hx as [Hx|[<-|Hx]]; [exfalso; apply Hk, I2, Hx|left; reflexivity|right; apply B, Hx].
      * destruct IHl as [I1 _]. discriminate.
Qed.
Lemma find_right : forall k t, noNan k -> bst (inorder t) ->
  match find k t with
  | Some v => In v (inorder t) /\ sameMat k v
  | None => forall x, In x (inorder t) -> ~ sameMat k x
  end.
Proof.
  intros k t Nk HB. pose proof HB as [S F]. rewrite Forall_forall in F. unfold find. pose proof (lower_bound k t None Nk HB) as H. destruct (lowerBound k t None) as [v|].
  - destruct H as [[I1 [I2 I3]]|[H _]]; [|discriminate]. pose proof (F v I1) as Nv. destruct (lessThan k v) eqn:L.
    + apply less_than in L; auto. intros x Hx Sx. apply lessM_same in Sx as [Q1 Q2]; auto. destruct (I3 x Hx Q2) as [-> |Hlt]; [contradiction|]. apply Q1. apply (lessM_trans _ v); assumption.
    + apply not_less in L; auto. split; [exact I1|]. apply lessM_same; auto.
  - destruct H as [_ H]. intros x Hx Sx. apply lessM_same in Sx; auto. destruct Sx as [_ Q]. apply Q, H, Hx.
Qed.

Lemma insert_right : forall k t pred, noNan k -> bst (inorder t) -> (forall x, In x (inorder t) -> ~ sameMat k x) ->
  match pred with None => True | Some p => noNan p /\ lessM p k /\ forall x, In x (inorder t) -> lessM p x end ->
  exists t', insertAt k t pred = Some t' /\ bst (inorder t') /\ forall x, In x (inorder t') <-> x = k \/ In x (inorder t).
Proof.
  intros k t. induction t as [|l IHl v r IHr]; intros pred Nk [S F] NS HP; cbn [insertAt].
  - assert (E : bst (inorder (Node Leaf k Leaf)) /\ forall x, In x (inorder (Node Leaf k Leaf)) <-> x = k \/ In x (inorder Leaf)).
    { split; [split; [repeat constructor|constructor; [exact Nk|constructor]]|]. intros x. cbn. intuition. }
    destruct pred as [p|]; [|exists (Node Leaf k Leaf); split; [reflexivity|exact E]]. destruct HP as [Np [HP _]]. rewrite (proj2 (less_than p k Np Nk) HP).
    exists (Node Leaf k Leaf). split; [reflexivity|exact E].
  - cbn [inorder] in S, F, NS, HP. destruct (sorted_mid _ _ _ S) as [A [B [C [D E]]]]. apply Forall_app in F as [Fl Fr]. inversion Fr as [|? ? Nv Fr']; subst.
    destruct (lessThan k v) eqn:L.
    + apply less_than in L; auto. destruct (IHl pred Nk (conj C Fl)) as [l' [El [[Sl Nl] Il]]].
      * intros x Hx. apply NS, in_or_app. left. exact Hx.
      * destruct pred as [p|]; [|exact I]. destruct HP as [Np [H1 H2]]. split; [exact Np|]. split; [exact H1|]. intros x Hx. apply H2, in_or_app. left. exact Hx.
      * exists (Node l' v r). rewrite El. split; [reflexivity|]. cbn [inorder]. split.
        -- split; [apply sorted_join; auto; intros x Hx; apply Il in Hx as [-> |Hx]; auto|]. apply Forall_app. split; [exact Nl|constructor; assumption].
        -- intros x. rewrite !in_app_iff, Il. cbn [In]. tauto.
    + apply not_less in L; auto. assert (Lv : lessM v k).
      { destruct (lessThan v k) eqn:L'; [apply less_than in L'; auto|]. apply not_less in L'; auto. exfalso. apply (NS v); [apply in_or_app; right; left; reflexivity|]. apply lessM_same; auto. }
      destruct (IHr (Some v) Nk (conj D Fr')) as [r' [Er [[Sr Nr] Ir]]].
      * intros x Hx. apply NS, in_or_app. right. right. exact Hx.
      * split; [exact Nv|]. split; [exact Lv|exact B].
      * exists (Node l v r'). rewrite Er. split; [reflexivity|]. cbn [inorder]. split.
        -- split; [apply sorted_join; auto; intros x Hx; apply Ir in Hx as [-> |Hx]; auto|]. apply Forall_app. split; [exact Fl|constructor; assumption].
        -- intros x. rewrite !in_app_iff. cbn [In]. rewrite Ir. intuition.
Qed.

Lemma store_right : forall t k, noNan k -> bst (inorder t) -> exists t' v, store t k = Ok (t', v) /\ bst (inorder t') /\ In v (inorder t') /\ sameMat k v /\
  (forall x, In x (inorder t) -> In x (inorder t')).
Proof.
  intros t k Nk HB. unfold store. pose proof (find_right k t Nk HB) as H. destruct (find k t) as [v|].
  - exists t, v. destruct H. auto.
  - destruct (insert_right k t None Nk HB H I) as [t' [E [HB' I']]]. unfold insert. rewrite E. pose proof (find_right k t' Nk HB') as H'. destruct (find k t') as [v|].
    + exists t', v. destruct H' as [H1 H2]. split; [reflexivity|]. split; [exact HB'|]. split; [exact H1|]. split; [exact H2|]. intros x Hx. apply I'. right. exact Hx.
    + exfalso. apply (H' k); [apply I'; left; reflexivity|]. apply lessM_same; auto. split; apply lessM_irrefl.
Qed.
Lemma unique_in : forall l x y, bst l -> In x l -> In y l -> sameMat x y -> x = y.
Proof.
  intros l x y [S F] Hx Hy E. rewrite Forall_forall in F. assert (Q := proj2 (lessM_same x y (F x Hx) (F y Hy)) E). clear F E.
  induction S as [|a t S IH Fa]; [destruct Hx|]. rewrite Forall_forall in Fa. destruct Hx as [<-|Hx], Hy as [<-|Hy]; auto; exfalso; [apply (proj1 Q), Fa, Hy|apply (proj2 Q), Fa, Hx].
Qed.

Lemma stores_right : forall t ks vs t', stores t ks vs t' -> Forall noNan ks -> bst (inorder t) ->
  Forall2 sameMat ks vs /\ Forall (fun v => In v (inorder t')) vs /\ bst (inorder t') /\ (forall x, In x (inorder t) -> In x (inorder t')).
Proof.
  intros t ks vs t' H. induction H as [t|t k ks t1 v t2 vs t3 E Er H IH]; intros F HB.
  - split; [constructor|]. split; [constructor|]. auto.
  - inversion F; subst. destruct (store_right t k H2 HB) as [t1' [v' [E' [HB' [I1 [S1 M1]]]]]]. rewrite E in E'. inversion E'; subst t1' v'.
    rewrite <- Er in HB'. destruct (IH H3 HB') as [A [B [C D]]]. split; [constructor; assumption|]. split; [constructor; [|exact B]|split; [exact C|]].
    + apply D. rewrite Er. exact I1.
    + intros x Hx. apply D. rewrite Er. apply M1, Hx.
Qed.
Lemma stores_total : forall ks t, Forall noNan ks -> bst (inorder t) -> exists vs t', stores t ks vs t'.
Proof.
  induction ks as [|k ks IH]; intros t F HB; [exists [], t; constructor|]. inversion F; subst. destruct (store_right t k H1 HB) as [t1 [v [E [HB1 _]]]].
  destruct (IH t1 H2 HB1) as [vs [t' S]]. exists (v :: vs), t'. econstructor; [exact E|reflexivity|exact S].
Qed.
Lemma bst_empty : bst (inorder Leaf).
Proof. split; constructor. Qed.
Lemma sharing : forall ks, Forall noNan ks -> (exists vs t, stores Leaf ks vs t) /\
  forall vs t, stores Leaf ks vs t -> Forall2 sameMat ks vs /\ Forall (fun v => In v (inorder t)) vs /\
    (forall i j a b, nth_error ks i = Some a -> nth_error ks j = Some b -> sameMat a b -> nth_error vs i = nth_error vs j).
Proof.
  intros ks F. split; [apply stores_total; [exact F|apply bst_empty]|]. intros vs t S. destruct (stores_right _ _ _ _ S F bst_empty) as [A [B [C _]]]. split; [exact A|]. split; [exact B|].
  assert (P : forall i a, nth_error ks i = Some a -> exists v, nth_error vs i = Some v /\ sameMat a v /\ noNan a /\ In v (inorder t)).
  { clear S C. revert F B. induction A as [|x y l l' H A IH]; intros F B [|i] a E; cbn in E; try discriminate; inversion F; inversion B; subst.
    - inversion E; subst. exists y. auto.
    - apply IH; auto. }
  intros i j a b Ei Ej Sab. destruct (P i a Ei) as [v [Ev [Sv [Na Iv]]]]. destruct (P j b Ej) as [w [Ew [Sw [Nb Iw]]]]. rewrite Ev, Ew. f_equal.
  destruct C as [C1 C2]. rewrite Forall_forall in C2. pose proof (C2 v Iv). pose proof (C2 w Iw).
  apply (unique_in (inorder t)); [split; [exact C1|apply Forall_forall; exact C2]|exact Iv|exact Iw|].
  apply (same_trans v a w); auto; [apply same_sym; auto|apply (same_trans a b w); auto].
Qed.

(** ** NaN *)
Definition nan1 : binary64 := B754_nan 53 1024 false 1 eq_refl.
Definition one1 : binary64 := B754_finite 53 1024 false 4503599627370496 (-52) eq_refl.
Definition two1 : binary64 := B754_finite 53 1024 false 4503599627370496 (-51) eq_refl.
Definition mat1 (x : binary64) : dmat := mkD 1 1 (fun _ _ => x).
Lemma one_two : ~ sameMat (mat1 one1) (mat1 two1).
Proof.
  intros [_ [_ S]]. specialize (S 0%nat 0%nat). unfold mat1 in S. cbn [d_rows d_cols d_at] in S. specialize (S (Nat.lt_0_1) (Nat.lt_0_1)).
  unfold sameVal, one1, two1, B2R, F2R in S. cbn in S. lra.
Qed.
(** Once a matrix with NaN is stored, another element is given it instead of its own; and an
    element whose matrix has NaN is given the matrix of another. *)
Lemma nan_refuted : exists ks vs t, stores Leaf ks vs t /\ exists k v, nth_error ks 1 = Some k /\ nth_error vs 1 = Some v /\ noNan k /\ ~ noNan v.
Proof.
  exists [mat1 nan1; mat1 one1], [mat1 nan1; mat1 nan1], (Node Leaf (mat1 nan1) Leaf). split.
  - econstructor; [reflexivity|reflexivity|]. econstructor; [reflexivity|reflexivity|]. constructor.
  - exists (mat1 one1), (mat1 nan1). split; [reflexivity|]. split; [reflexivity|]. split; [intros i j _ _; reflexivity|].
    intros H. specialize (H 0%nat 0%nat Nat.lt_0_1 Nat.lt_0_1). discriminate.
Qed.
Lemma nan_hidden : exists ks vs t, stores Leaf ks vs t /\ exists k v, nth_error ks 1 = Some k /\ nth_error vs 1 = Some v /\ ~ noNan k /\ noNan v.
Proof.
  exists [mat1 one1; mat1 nan1], [mat1 one1; mat1 one1], (Node Leaf (mat1 one1) Leaf). split.
  - econstructor; [reflexivity|reflexivity|]. econstructor; [reflexivity|reflexivity|]. constructor.
  - exists (mat1 nan1), (mat1 one1). split; [reflexivity|]. split; [reflexivity|]. split; [|intros i j _ _; reflexivity].
    intros H. specialize (H 0%nat 0%nat Nat.lt_0_1 Nat.lt_0_1). discriminate.
Qed.
(** With NaN the order is not a strict weak ordering. *)
Lemma order_nan : ~ strictWeak (fun _ => True) lessThan.
Proof.
  intros [_ [_ T]]. specialize (T (mat1 one1) (mat1 nan1) (mat1 two1) I I I eq_refl eq_refl eq_refl eq_refl). destruct T as [T _]. discriminate.
Qed.
Lemma sharing_ex : exists vs t, stores Leaf [mat1 one1; mat1 two1; mat1 one1] vs t /\ vs = [mat1 one1; mat1 two1; mat1 one1] /\ length (inorder t) = 2%nat /\ Forall noNan [mat1 one1; mat1 two1; mat1 one1].
Proof.
  eexists. eexists. split; [|split; [reflexivity|split]].
  - econstructor; [reflexivity|reflexivity|]. econstructor; [reflexivity|reflexivity|]. econstructor; [reflexivity|reflexivity|]. constructor.
  - reflexivity.
  - repeat (constructor; [intros i j _ _; reflexivity|]). constructor.
Qed.

(** Proofs about the partition adjustment. *)
From Coq Require Import ZArith List Bool Lia Relations Permutation.
From Verif Require Import Common Partition_Model Partition_Spec.
Import ListNotations.
Local Open Scope Z_scope.

Lemma zget_range : forall {A} (l : list A) i a, zget l i = Ok a -> 0 <= i < Z.of_nat (length l).
Proof.
  intros A l i a Hz. apply zget_ok in Hz. destruct Hz as [H0 Hn].
  assert (Z.to_nat i < length l)%nat by (apply nth_error_Some; congruence). lia.
Qed.

Lemma zget_upd : forall {A} (l : list A) i j v,
  0 <= i < Z.of_nat (length l) ->
  zget (upd l (Z.to_nat i) v) j = if j =? i then Ok v else zget l j.
Proof.
  intros A l i j v Hi. destruct (Z.eqb_spec j i) as [->|Hne].
  - apply zget_ok. split; [lia|]. apply nth_error_upd_same. lia.
  - unfold zget. destruct (Z.ltb_spec j 0); auto. rewrite nth_error_upd_other by lia. reflexivity.
Qed.

Lemma zget_zseq : forall n i, 0 <= i < Z.of_nat n -> zget (zseq n) i = Ok i.
Proof.
  intros n i Hi. apply zget_ok. split; [lia|]. unfold zseq.
  rewrite nth_error_map. rewrite (nth_error_nth' _ 0%nat) by (rewrite seq_length; lia).
  rewrite seq_nth by lia. simpl. f_equal; lia.
Qed.

(** ** The union-find forest *)
Inductive rootn (p : list Z) : Z -> Z -> nat -> Prop :=
| rootn_0 : forall x, zget p x = Ok x -> rootn p x x 0
| rootn_S : forall x y r n, zget p x = Ok y -> y <> x -> rootn p y r n -> rootn p x r (S n).

Definition root p x r := exists n, rootn p x r n.

Lemma rootn_det : forall p x r n, rootn p x r n -> forall r' n', rootn p x r' n' -> r = r' /\ n = n'.
Proof.
  intros p x r n Hr; induction Hr as [x Hx|x y r n Hx Hne Hr IH]; intros r' n' Hr'.
  - inversion Hr'; subst; [auto|congruence].
  - inversion Hr'; subst; [congruence|].
    rewrite Hx in H. injection H as <-. apply IH in H1. intuition congruence.
Qed.

Lemma root_det : forall p x r r', root p x r -> root p x r' -> r = r'.
Proof. intros p x r r' [n Hn] [n' Hn']. eapply rootn_det; eauto. Qed.

Lemma rootn_root : forall p x r n, rootn p x r n -> zget p r = Ok r.
Proof. intros p x r n Hr; induction Hr; auto. Qed.

Lemma rootn_range : forall p x r n, rootn p x r n -> 0 <= x < Z.of_nat (length p).
Proof. intros p x r n Hr; inversion Hr; subst; eapply zget_range; eauto. Qed.

Lemma rootn_nodes : forall p x r n, rootn p x r n ->
  exists l, length l = S n /\ NoDup l /\
    forall y, In y l -> exists k, (k <= n)%nat /\ rootn p y r k.
Proof.
  intros p x r n Hr; induction Hr as [x Hx|x y r n Hx Hne Hr IH].
  - exists [x]. repeat split; auto. repeat constructor; auto.
    intros y [<-|[]]. exists 0%nat; split; auto. now constructor.
  - destruct IH as (l & Hl & Hnd & Hall).
    assert (Hx' : rootn p x r (S n)) by (econstructor; eauto).
    exists (x :: l). repeat split; simpl; auto.
    + constructor; auto. intros Hin. destruct (Hall x Hin) as (k & Hk & Hrk).
      destruct (rootn_det _ _ _ _ Hx' _ _ Hrk). lia.
    + intros z [<-|Hz]; [exists (S n); auto|].
      destruct (Hall z Hz) as (k & Hk & Hrk). exists k; split; [lia|auto].
Qed.

Lemma rootn_bound : forall p x r n, rootn p x r n -> (n < length p)%nat.
Proof.
  intros p x r n Hr. destruct (rootn_nodes _ _ _ _ Hr) as (l & Hl & Hnd & Hall).
  assert (Hincl : incl l (zseq (length p))).
  { intros y Hy. destruct (Hall y Hy) as (k & _ & Hk). apply in_zseq. eapply rootn_range; eauto. }
  pose proof (NoDup_incl_length Hnd Hincl) as Hlen. rewrite zseq_length in Hlen. lia.
Qed.

Lemma halve_rootn : forall p x px ppx, zget p x = Ok px -> px <> x -> zget p px = Ok ppx ->
  forall n y r, rootn p y r n -> exists n', (n' <= n)%nat /\ rootn (upd p (Z.to_nat x) ppx) y r n'.
Proof.
  intros p x px ppx Hx Hne Hpx. pose proof (zget_range _ _ _ Hx) as Hrx.
  pose proof (fun j => zget_upd p x j ppx Hrx) as Hup.
  induction n as [n IH] using lt_wf_ind. intros y r Hr.
  destruct (Z.eq_dec y x) as [->|Hyx].
  - inversion Hr; subst; [congruence|]. rewrite Hx in H. injection H as <-.
    inversion H1; subst.
    + rewrite Hpx in H. injection H as ->.
      exists 1%nat; split; [lia|]. econstructor.
      * rewrite Hup, Z.eqb_refl; reflexivity.
      * auto.
      * constructor. rewrite Hup. destruct (Z.eqb_spec r x); congruence.
    + rewrite Hpx in H. injection H as <-.
      assert (ppx <> x).
      { intros ->. destruct (rootn_det _ _ _ _ Hr _ _ H3). lia. }
      destruct (IH n ltac:(lia) _ _ H3) as (n' & Hn' & Hr').
      exists (S n'); split; [lia|]. econstructor; eauto.
      rewrite Hup, Z.eqb_refl; reflexivity.
  - inversion Hr; subst.
    + exists 0%nat; split; [lia|]. constructor. rewrite Hup. destruct (Z.eqb_spec r x); congruence.
    + destruct (IH n0 ltac:(lia) _ _ H1) as (n' & Hn' & Hr').
      exists (S n'); split; [lia|]. econstructor; eauto. rewrite Hup. destruct (Z.eqb_spec y x); congruence.
Qed.

(** [p'] has the same length and the same roots as [p]. *)
Definition pres (p p' : list Z) : Prop :=
  length p' = length p /\ forall y s, root p y s -> root p' y s.

Lemma pres_refl : forall p, pres p p.
Proof. split; auto. Qed.

Lemma pres_trans : forall p q s, pres p q -> pres q s -> pres p s.
Proof. intros p q s [H1 H2] [H3 H4]; split; [congruence|auto]. Qed.

Lemma find_loop_spec : forall fuel p x r n, rootn p x r n -> (n <= fuel)%nat ->
  exists p', find_loop fuel p x = Ok (p', r) /\ pres p p'.
Proof.
  induction fuel as [|fuel IH]; intros p x r n Hr Hf.
  - inversion Hr; subst; [|lia]. simpl. rewrite H; simpl. rewrite Z.eqb_refl. eauto using pres_refl.
  - inversion Hr; subst.
    + simpl. rewrite H; simpl. rewrite Z.eqb_refl. eauto using pres_refl.
    + simpl. rewrite H; simpl. destruct (Z.eqb_spec y x); [congruence|].
      assert (Hy : exists ppx, zget p y = Ok ppx) by (inversion H1; subst; eauto).
      destruct Hy as [ppx Hpp]. rewrite Hpp; simpl.
      pose proof (zget_range _ _ _ H) as Hrx.
      rewrite zset_in_range by auto. simpl. rewrite zget_upd by auto. rewrite Z.eqb_refl. simpl.
      assert (Hpres : pres p (upd p (Z.to_nat x) ppx)).
      { split; [now rewrite upd_length|]. intros z s [k Hk].
        destruct (halve_rootn p x y ppx H H0 Hpp k z s Hk) as (k' & _ & Hk'). exists k'; auto. }
      assert (Hsub : exists m, (m <= fuel)%nat /\ rootn (upd p (Z.to_nat x) ppx) ppx r m).
      { inversion H1; subst.
        - rewrite Hpp in H2. injection H2 as ->.
          destruct (halve_rootn p x r r H H0 Hpp 0%nat r r H1) as (k' & Hk & Hk').
          exists k'; split; [lia|auto].
        - rewrite Hpp in H2. injection H2 as <-.
          destruct (halve_rootn p x y ppx H H0 Hpp _ _ _ H4) as (k' & Hk & Hk').
          exists k'; split; [lia|auto]. }
      destruct Hsub as (m & Hm & Hrm). destruct (IH _ _ _ _ Hrm Hm) as (p' & E & Hp').
      exists p'; split; auto. eapply pres_trans; eauto.
Qed.

Lemma find_spec : forall p x r, root p x r -> exists p', find p x = Ok (p', r) /\ pres p p'.
Proof.
  intros p x r [n Hn]. unfold find. eapply find_loop_spec; eauto.
  pose proof (rootn_bound _ _ _ _ Hn); lia.
Qed.

Definition forest (NE : Z) (p : list Z) : Prop :=
  length p = Z.to_nat NE /\ forall x, 0 <= x < NE -> exists r, root p x r.

Lemma forest_pres : forall NE p p', forest NE p -> pres p p' -> forest NE p'.
Proof.
  intros NE p p' [Hl Ht] [Hl' Hr]. split; [congruence|].
  intros x Hx. destruct (Ht x Hx) as [r Hr']. eauto.
Qed.

Lemma pres_back : forall NE p p' y s, forest NE p -> pres p p' -> root p' y s -> root p y s.
Proof.
  intros NE p p' y s [Hl Ht] [Hl' Hr] Hs.
  assert (0 <= y < NE).
  { destruct Hs as [n Hn]. pose proof (rootn_range _ _ _ _ Hn). lia. }
  destruct (Ht y H) as [r Hyr]. rewrite (root_det _ _ _ _ Hs (Hr _ _ Hyr)). auto.
Qed.

Lemma link_root : forall p a b, zget p a = Ok a -> zget p b = Ok b -> a <> b ->
  forall y s, root p y s -> root (upd p (Z.to_nat b) a) y (if s =? b then a else s).
Proof.
  intros p a b Ha Hb Hne y s [n Hn]. pose proof (zget_range _ _ _ Hb) as Hrb.
  pose proof (fun j => zget_upd p b j a Hrb) as Hup.
  induction Hn as [x Hx|x y r n Hx Hxy Hr IH].
  - destruct (Z.eqb_spec x b) as [->|Hxb].
    + exists 1%nat. econstructor; eauto.
      * rewrite Hup, Z.eqb_refl; reflexivity.
      * constructor. rewrite Hup. destruct (Z.eqb_spec a b); congruence.
    + exists 0%nat. constructor. rewrite Hup. destruct (Z.eqb_spec x b); congruence.
  - destruct IH as [m Hm]. exists (S m). econstructor; eauto. rewrite Hup.
    destruct (Z.eqb_spec x b); congruence.
Qed.

Definition same p x y := exists r, root p x r /\ root p y r.

Lemma same_trans : forall p x y z, same p x y -> same p y z -> same p x z.
Proof.
  intros p x y z (r & H1 & H2) (s & H3 & H4). rewrite (root_det _ _ _ _ H3 H2) in H4. exists r; auto.
Qed.
Lemma same_sym : forall p x y, same p x y -> same p y x.
Proof. intros p x y (r & ? & ?); exists r; auto. Qed.

(** State after uniting the pairs in [done]. *)
Definition dsu_inv (NE : Z) (done : list (Z * Z)) (st : list Z * list Z) : Prop :=
  forest NE (fst st) /\ length (snd st) = Z.to_nat NE /\
  (forall x y, same (fst st) x y -> linked NE done x y) /\
  (forall x y, coupled NE done x y -> same (fst st) x y).

Lemma linked_mono : forall NE d d' x y, incl d d' -> linked NE d x y -> linked NE d' x y.
Proof.
  intros NE d d' x y Hi Hl; induction Hl.
  - apply rst_step. destruct H as (H1 & H2). split; auto.
  - apply rst_refl.
  - now apply rst_sym.
  - eapply rst_trans; eauto.
Qed.

Lemma same_pres : forall p p' x y, pres p p' -> same p x y -> same p' x y.
Proof. intros p p' x y [_ Hp] (r & ? & ?); exists r; auto. Qed.

Lemma same_back : forall NE p p' x y, forest NE p -> pres p p' -> same p' x y -> same p x y.
Proof. intros NE p p' x y Hf Hp (r & ? & ?); exists r; split; eapply pres_back; eauto. Qed.

(** The array update of [unite], whichever way round the roots are linked. *)
Lemma link_inv : forall NE done p a b a' b' x0 y0,
  forest NE p ->
  (forall x y, same p x y -> linked NE done x y) ->
  (forall x y, coupled NE done x y -> same p x y) ->
  root p x0 a -> root p y0 b -> 0 <= x0 < NE -> 0 <= y0 < NE ->
  a <> b -> (a' = a /\ b' = b \/ a' = b /\ b' = a) ->
  let p' := upd p (Z.to_nat b') a' in
  forest NE p' /\
  (forall x y, same p' x y -> linked NE (done ++ [(x0, y0)]) x y) /\
  (forall x y, coupled NE (done ++ [(x0, y0)]) x y -> same p' x y).
Proof.
  intros NE done p a b a' b' x0 y0 Hf Hs Hc Ha Hb Hx0 Hy0 Hne Hab p'.
  assert (Hra : zget p a = Ok a) by (destruct Ha as [? Ha]; eapply rootn_root; eauto).
  assert (Hrb : zget p b = Ok b) by (destruct Hb as [? Hb]; eapply rootn_root; eauto).
  assert (Hra' : zget p a' = Ok a') by (destruct Hab as [[-> ->]|[-> ->]]; auto).
  assert (Hrb' : zget p b' = Ok b') by (destruct Hab as [[-> ->]|[-> ->]]; auto).
  assert (Hne' : a' <> b') by (destruct Hab as [[-> ->]|[-> ->]]; auto).
  pose proof (link_root p a' b' Hra' Hrb' Hne') as Hlink. fold p' in Hlink.
  assert (Hf' : forest NE p').
  { destruct Hf as [Hl Ht]. split; [unfold p'; now rewrite upd_length|].
    intros x Hx. destruct (Ht x Hx) as [r Hr]. eauto. }
  assert (Hinc : incl done (done ++ [(x0, y0)])) by (apply incl_appl, incl_refl).
  assert (Hxy : linked NE (done ++ [(x0, y0)]) x0 y0).
  { apply rst_step. split; [apply in_or_app; right; left; reflexivity|auto]. }
  split; [auto|split].
  - intros x y (r & Hx & Hy).
    assert (HX : exists rx, root p x rx /\ r = (if rx =? b' then a' else rx)).
    { destruct Hx as [n Hn]. pose proof (rootn_range _ _ _ _ Hn) as Hrg.
      unfold p' in Hrg; rewrite upd_length in Hrg. destruct Hf as [Hl Ht].
      destruct (Ht x ltac:(lia)) as [rx Hrx]. exists rx; split; auto.
      eapply root_det; [exists n; eassumption|]. auto. }
    assert (HY : exists ry, root p y ry /\ r = (if ry =? b' then a' else ry)).
    { destruct Hy as [n Hn]. pose proof (rootn_range _ _ _ _ Hn) as Hrg.
      unfold p' in Hrg; rewrite upd_length in Hrg. destruct Hf as [Hl Ht].
      destruct (Ht y ltac:(lia)) as [ry Hry]. exists ry; split; auto.
      eapply root_det; [exists n; eassumption|]. auto. }
    destruct HX as (rx & Hrx & Erx). destruct HY as (ry & Hry & Ery).
    destruct (Z.eq_dec rx ry) as [->|Hd].
    + eapply linked_mono; eauto. apply Hs. exists ry; auto.
    + assert (Hcase : (rx = a /\ ry = b) \/ (rx = b /\ ry = a)).
      { destruct (Z.eqb_spec rx b'); destruct (Z.eqb_spec ry b'); subst; try congruence;
        destruct Hab as [[-> ->]|[-> ->]]; auto. }
      assert (La : forall z, root p z a -> linked NE (done ++ [(x0, y0)]) z x0).
      { intros z Hz. eapply linked_mono; eauto. apply Hs. exists a; auto. }
      assert (Lb : forall z, root p z b -> linked NE (done ++ [(x0, y0)]) z y0).
      { intros z Hz. eapply linked_mono; eauto. apply Hs. exists b; auto. }
      destruct Hcase as [[-> ->]|[-> ->]].
      * eapply rst_trans; [apply La; auto|]. eapply rst_trans; [exact Hxy|]. apply rst_sym; auto. now apply Lb.
      * eapply rst_trans; [apply Lb; auto|]. eapply rst_trans; [apply rst_sym; exact Hxy|]. apply rst_sym; auto. now apply La.
  - intros x y (Hin & Hrx & Hry). apply in_app_or in Hin. destruct Hin as [Hin|[Heq|[]]].
    + destruct (Hc x y (conj Hin (conj Hrx Hry))) as (r & H1 & H2).
      exists (if r =? b' then a' else r); auto.
    + injection Heq as <- <-. exists a'; split.
      * pose proof (Hlink _ _ Ha). destruct (Z.eqb_spec a b'); auto. destruct Hab as [[-> ->]|[-> ->]]; congruence.
      * pose proof (Hlink _ _ Hb). destruct (Z.eqb_spec b b'); auto. destruct Hab as [[-> ->]|[-> ->]]; congruence.
Qed.

Lemma unite_inv : forall NE done st a b,
  dsu_inv NE done st -> 0 <= a < NE -> 0 <= b < NE ->
  exists st', unite st a b = Ok st' /\ dsu_inv NE (done ++ [(a, b)]) st'.
Proof.
  intros NE done [p rk] a b (Hf & Hrk & Hs & Hc) Ha Hb. cbn [fst snd] in *.
  unfold unite.
  destruct (proj2 Hf a Ha) as [ra Hra].
  destruct (find_spec _ _ _ Hra) as (p1 & E1 & Hp1). rewrite E1; cbn [bind].
  pose proof (forest_pres _ _ _ Hf Hp1) as Hf1.
  destruct (proj2 Hf1 b Hb) as [rb Hrb].
  destruct (find_spec _ _ _ Hrb) as (p2 & E2 & Hp2). rewrite E2; cbn [bind].
  pose proof (forest_pres _ _ _ Hf1 Hp2) as Hf2.
  pose proof (pres_trans _ _ _ Hp1 Hp2) as Hp.
  assert (Hra2 : root p2 a ra) by (apply Hp; auto).
  assert (Hrb2 : root p2 b rb) by (apply Hp2; auto).
  assert (Hs2 : forall x y, same p2 x y -> linked NE done x y) by (intros; eapply Hs, same_back; eauto).
  assert (Hc2 : forall x y, coupled NE done x y -> same p2 x y) by (intros; eapply same_pres; eauto).
  assert (Hrra : 0 <= ra < Z.of_nat (length rk)).
  { destruct Hra2 as [? Hn]. apply rootn_root in Hn. apply zget_range in Hn.
    destruct Hf2 as [Hl _]. lia. }
  assert (Hrrb : 0 <= rb < Z.of_nat (length rk)).
  { destruct Hrb2 as [? Hn]. apply rootn_root in Hn. apply zget_range in Hn.
    destruct Hf2 as [Hl _]. lia. }
  destruct (Z.eqb_spec ra rb) as [Heq|Hne].
  - subst rb. eexists; split; [reflexivity|]. split; [auto|]. split; [auto|]. cbn [fst snd]. split.
    + intros x y Hxy. eapply linked_mono; [|apply Hs2; eauto]. apply incl_appl, incl_refl.
    + intros x y (Hin & Hx & Hy). apply in_app_or in Hin. destruct Hin as [Hin|[Heq|[]]].
      * apply Hc2; split; auto.
      * injection Heq as <- <-. exists ra; auto.
  - destruct (zget_in_range rk ra Hrra) as (ka & Eka & _).
    destruct (zget_in_range rk rb Hrrb) as (kb & Ekb & _).
    rewrite Eka, Ekb; cbn [bind].
    assert (Hlen2 : length p2 = length rk) by (destruct Hf2; lia).
    set (ab := if ka <? kb then (rb, ra) else (ra, rb)).
    assert (Hab : fst ab = ra /\ snd ab = rb \/ fst ab = rb /\ snd ab = ra)
      by (unfold ab; destruct (ka <? kb); auto).
    destruct ab as [a' b']. cbn [fst snd] in Hab.
    rewrite zset_in_range by (destruct Hab as [[-> ->]|[-> ->]]; lia). cbn [bind].
    assert (Hka' : exists k, zget rk a' = Ok k) by (destruct Hab as [[-> ->]|[-> ->]]; eauto).
    assert (Hkb' : exists k, zget rk b' = Ok k) by (destruct Hab as [[-> ->]|[-> ->]]; eauto).
    destruct Hka' as [ka' Eka']. destruct Hkb' as [kb' Ekb']. rewrite Eka', Ekb'; cbn [bind].
    destruct (link_inv NE done p2 ra rb a' b' a b Hf2 Hs2 Hc2 Hra2 Hrb2 Ha Hb Hne Hab) as (G1 & G2 & G3).
    destruct (ka' =? kb').
    + rewrite zset_in_range by (eapply zget_range; eauto). cbn [bind].
      eexists; split; [reflexivity|]. split; [|split]; cbn [fst snd]; auto. now rewrite upd_length.
    + eexists; split; [reflexivity|]. split; [|split]; cbn [fst snd]; auto.
Qed.

Lemma uniteAll_inv : forall NE pairs, 0 <= NE ->
  exists st, uniteAll NE pairs (zseq (Z.to_nat NE), repeat 0 (Z.to_nat NE)) = Ok st /\ dsu_inv NE pairs st.
Proof.
  intros NE pairs HNE. unfold uniteAll. apply foldM_inv with (I := dsu_inv NE).
  - split; [|split; [|split]]; cbn [fst snd].
    + split; [apply zseq_length|]. intros x Hx. exists x, 0%nat. constructor. apply zget_zseq. lia.
    + apply repeat_length.
    + intros x y (r & [n Hx] & [m Hy]).
      assert (G : forall z s k, rootn (zseq (Z.to_nat NE)) z s k -> z = s).
      { intros z s k Hk. inversion Hk; subst; auto.
        pose proof (zget_range _ _ _ H) as Hr. rewrite zseq_length in Hr.
        rewrite zget_zseq in H by auto. congruence. }
      apply G in Hx. apply G in Hy. subst. apply rst_refl.
    + intros x y ([] & _).
  - intros done [a b] rest st Epairs Hinv. cbn [fst snd].
    destruct ((a <? 0) || (NE <=? a) || (b <? 0) || (NE <=? b)) eqn:Eg.
    + exists st; split; [reflexivity|]. destruct Hinv as (Hf & Hrk & Hs & Hc).
      split; [|split; [|split]]; auto.
      * intros x y Hxy. eapply linked_mono; [|apply Hs; eauto]. apply incl_appl, incl_refl.
      * intros x y (Hin & Hx & Hy). apply in_app_or in Hin. destruct Hin as [Hin|[Heq|[]]].
        -- apply Hc; split; auto.
        -- injection Heq as <- <-.
           rewrite !orb_true_iff, !Z.ltb_lt, !Z.leb_le in Eg. lia.
    + rewrite !orb_false_iff, !Z.ltb_ge, !Z.leb_gt in Eg. apply unite_inv; auto; lia.
Qed.

Lemma linked_same : forall NE pairs st x y, dsu_inv NE pairs st -> linked NE pairs x y ->
  x = y \/ same (fst st) x y.
Proof.
  intros NE pairs st x y (Hf & Hrk & Hs & Hc) Hl. induction Hl as [x y H|x|x y H IH|x y z H1 IH1 H2 IH2].
  - right; auto.
  - left; auto.
  - destruct IH as [->|IH]; auto. right; now apply same_sym.
  - destruct IH1 as [->|IH1]; destruct IH2 as [->|IH2]; auto. right; eapply same_trans; eauto.
Qed.

(** ** Collecting the components *)
Lemma inb_spec : forall e n, inb e n = true <-> 0 <= e < n.
Proof. intros; unfold inb. rewrite andb_true_iff, Z.leb_le, Z.ltb_lt. reflexivity. Qed.

Lemma touch_keys : forall m k, NoDup (map fst m) ->
  NoDup (map fst (amap_touch m k)) /\ forall k', In k' (map fst (amap_touch m k)) <-> k' = k \/ In k' (map fst m).
Proof.
  induction m as [|[k0 v0] t IH]; intros k Hnd; simpl.
  - split; [repeat constructor; auto|]. intros k'; intuition.
  - inversion Hnd; subst. destruct (Z.eqb_spec k0 k) as [->|Hne]; simpl.
    + split; auto. intros k'; intuition.
    + destruct (IH k H2) as [G1 G2]. split.
      * constructor; auto. rewrite G2. intros [->|Hin]; auto.
      * intros k'. rewrite G2. intuition.
Qed.

Lemma touchAll_inv : forall NE p0 es m0, forest NE p0 -> NoDup (map fst m0) ->
  exists p m, touchAll NE es (p0, m0) = Ok (p, m) /\ pres p0 p /\ NoDup (map fst m).
Proof.
  intros NE p0 es m0 Hf Hnd.
  destruct (foldM_inv (fun (st : list Z * amap) e =>
           let '(parent, m) := st in
           if inb e NE then
             '(parent', r) <- find parent e ;; Ok (parent', amap_touch m r)
           else Ok st) (fun _ st => pres p0 (fst st) /\ NoDup (map fst (snd st))) es (p0, m0))
    as ([p m] & E & Hp & Hm).
  - split; [apply pres_refl|auto].
  - intros done e rest [p m] _ [Hp Hm]. cbn [fst snd] in *.
    destruct (inb e NE) eqn:Eb.
    + apply inb_spec in Eb. pose proof (forest_pres _ _ _ Hf Hp) as Hf'.
      destruct (proj2 Hf' e Eb) as [r Hr]. destruct (find_spec _ _ _ Hr) as (p' & E & Hp').
      rewrite E; cbn [bind]. eexists; split; [reflexivity|]. cbn [fst snd]. split.
      * eapply pres_trans; eauto.
      * now apply touch_keys.
    + eexists; split; [reflexivity|]. auto.
  - exists p, m. auto.
Qed.

Lemma push_in : forall v e x, In x (push_unless_last v e) <-> In x v \/ x = e.
Proof.
  intros v e x. unfold push_unless_last. destruct (rev v) as [|b t] eqn:Er.
  - rewrite in_app_iff. simpl. intuition.
  - destruct (Z.eqb_spec b e) as [->|Hne].
    + split; auto. intros [Hi| ->]; auto. apply in_rev. rewrite Er. left; reflexivity.
    + rewrite in_app_iff. simpl. intuition.
Qed.

Lemma push_map : forall m k e, NoDup (map fst m) ->
  NoDup (map fst (amap_push m k e)) /\
  (forall k', In k' (map fst (amap_push m k e)) <-> k' = k \/ In k' (map fst m)) /\
  (forall k' v', In (k', v') (amap_push m k e) ->
      (k' <> k /\ In (k', v') m) \/
      (k' = k /\ ((~ In k (map fst m) /\ v' = push_unless_last [] e) \/
                  exists v, In (k, v) m /\ v' = push_unless_last v e))).
Proof.
  induction m as [|[k0 v0] t IH]; intros k e Hnd.
  - simpl. split; [repeat constructor; auto|]. split; [intuition|].
    intros k' v' [Heq|[]]. injection Heq as <- <-. right; split; auto.
  - inversion Hnd as [|? ? Hni Hnd']; subst. simpl. destruct (Z.eqb_spec k0 k) as [->|Hne]; simpl.
    + split; [auto|]. split; [intuition|].
      intros k' v' [Heq|Hin].
      * injection Heq as <- <-. right; split; auto. right. exists v0; auto.
      * left. split; auto. intros ->. apply Hni. apply in_map_iff. exists (k, v'); auto.
    + destruct (IH k e Hnd') as (G1 & G2 & G3). split; [|split].
      * constructor; auto. rewrite G2. intros [->|Hin]; auto.
      * intros k'. rewrite G2. intuition.
      * intros k' v' [Heq|Hin].
        -- injection Heq as <- <-. left; auto.
        -- apply G3 in Hin. destruct Hin as [[H1 H2]|[-> [[H1 H2]|(v & H1 & H2)]]].
           ++ left; auto.
           ++ right; split; auto. left; split; auto. intuition.
           ++ right; split; auto. right. exists v; auto.
Qed.

Definition comp_inv (NE : Z) (p0 : list Z) (done : list Z) (m : amap) : Prop :=
  NoDup (map fst m) /\
  (forall k v, In (k, v) m -> forall e, In e v <-> In e done /\ 0 <= e < NE /\ root p0 e k) /\
  (forall e k, In e done -> 0 <= e < NE -> root p0 e k -> In k (map fst m)).

Lemma pushAll_inv : forall NE p0 es p1 m0, forest NE p0 -> pres p0 p1 ->
  comp_inv NE p0 [] m0 ->
  exists p m, pushAll NE es (p1, m0) = Ok (p, m) /\ pres p0 p /\ comp_inv NE p0 es m.
Proof.
  intros NE p0 es p1 m0 Hf Hp1 Hm0.
  destruct (foldM_inv (fun (st : list Z * amap) e =>
           let '(parent, m) := st in
           if inb e NE then
             '(parent', r) <- find parent e ;; Ok (parent', amap_push m r e)
           else Ok st) (fun done st => pres p0 (fst st) /\ comp_inv NE p0 done (snd st)) es (p1, m0))
    as ([p m] & E & Hp & Hm).
  - split; auto.
  - intros done e rest [p m] _ [Hp (Hnd & Hel & Hk)]. cbn [fst snd] in *.
    destruct (inb e NE) eqn:Eb.
    + apply inb_spec in Eb. pose proof (forest_pres _ _ _ Hf Hp) as Hf'.
      destruct (proj2 Hf e Eb) as [r Hr0]. assert (Hr : root p e r) by (apply Hp; auto).
      destruct (find_spec _ _ _ Hr) as (p' & E & Hp').
      rewrite E; cbn [bind]. eexists; split; [reflexivity|]. cbn [fst snd]. split.
      * eapply pres_trans; eauto.
      * destruct (push_map m r e Hnd) as (G1 & G2 & G3). split; [auto|split].
        -- intros k v Hin x. apply G3 in Hin.
           destruct Hin as [[H1 H2]|[-> [[H1 H2]|(v0 & H1 & H2)]]].
           ++ rewrite (Hel k v H2 x). rewrite in_app_iff. simpl. split; [intuition|].
              intros ([Hi|[<-|[]]] & Hx & Hxr); auto.
              exfalso. apply H1. eapply root_det; eauto.
           ++ subst v. rewrite push_in. rewrite in_app_iff. simpl. split.
              ** intros [[]| ->]; auto.
              ** intros ([Hi|[<-|[]]] & Hx & Hxr); auto. exfalso. apply H1. eapply Hk; eauto.
           ++ subst v. rewrite push_in, (Hel _ _ H1 x), in_app_iff. simpl. split.
              ** intros [(Hi & Hx & Hxr)| ->]; auto.
              ** intros ([Hi|[<-|[]]] & Hx & Hxr); auto.
        -- intros x k Hin Hx Hxr. apply G2. apply in_app_or in Hin. destruct Hin as [Hin|[<-|[]]].
           ++ right; eauto.
           ++ left; eapply root_det; eauto.
    + eexists; split; [reflexivity|]. cbn [fst snd]. split; [auto|]. 
      assert (Hnr : ~ (0 <= e < NE)) by (intros C; apply inb_spec in C; congruence).
      split; [auto|split].
      * intros k v Hin x. rewrite (Hel k v Hin x), in_app_iff. simpl. split; [intuition|].
        intros ([Hi|[<-|[]]] & Hx & Hxr); auto. contradiction.
      * intros x k Hin Hx Hxr. apply in_app_or in Hin. destruct Hin as [Hin|[<-|[]]]; eauto. contradiction.
  - exists p, m. auto.
Qed.

Lemma clear_inv : forall NE p0 m, NoDup (map fst m) -> comp_inv NE p0 [] (clearAll m).
Proof.
  intros NE p0 m Hnd. unfold clearAll. split; [|split].
  - rewrite map_map. simpl. auto.
  - intros k v Hin e. apply in_map_iff in Hin. destruct Hin as ([k' v'] & Heq & _). injection Heq as <- <-.
    simpl. intuition.
  - intros e k [].
Qed.

Lemma insertZ_in : forall x l y, In y (insertZ x l) <-> y = x \/ In y l.
Proof.
  induction l as [|z t IH]; intros y; simpl; [intuition|].
  destruct (x <=? z); simpl; [intuition|]. rewrite IH. intuition.
Qed.

Lemma sortZ_in : forall l y, In y (sortZ l) <-> In y l.
Proof.
  induction l as [|z t IH]; intros y; simpl; [intuition|]. rewrite insertZ_in, IH. intuition.
Qed.

Inductive sortedZ : list Z -> Prop :=
| sorted_nil : sortedZ []
| sorted_cons : forall x l, (forall y, In y l -> x <= y) -> sortedZ l -> sortedZ (x :: l).

Lemma insertZ_sorted : forall x l, sortedZ l -> sortedZ (insertZ x l).
Proof.
  intros x l Hs; induction Hs as [|y l Hy Hs IH]; simpl.
  - constructor; [intros ? []|constructor].
  - destruct (Z.leb_spec x y).
    + constructor; [|constructor; auto]. intros z [<-|Hz]; auto. specialize (Hy z Hz). lia.
    + constructor; auto. intros z Hz. apply insertZ_in in Hz. destruct Hz as [->|Hz]; auto. lia.
Qed.

Lemma sortZ_sorted : forall l, sortedZ (sortZ l).
Proof. induction l; simpl; [constructor|now apply insertZ_sorted]. Qed.

Lemma uniqueZ_in : forall l y, In y (uniqueZ l) <-> In y l.
Proof.
  induction l as [|x t IH]; intros y; [reflexivity|].
  destruct t as [|z t']; [reflexivity|].
  change (uniqueZ (x :: z :: t')) with (if x =? z then uniqueZ (z :: t') else x :: uniqueZ (z :: t')).
  destruct (Z.eqb_spec x z) as [->|Hne].
  - rewrite IH. simpl. intuition.
  - simpl In at 1. rewrite IH. simpl. intuition.
Qed.

Lemma uniqueZ_nodup : forall l, sortedZ l -> NoDup (uniqueZ l).
Proof.
  intros l Hs; induction Hs as [|x l Hx Hs IH]; [constructor|].
  destruct l as [|z t]; [repeat constructor; auto|].
  change (uniqueZ (x :: z :: t)) with (if x =? z then uniqueZ (z :: t) else x :: uniqueZ (z :: t)).
  destruct (Z.eqb_spec x z) as [->|Hne]; auto.
  constructor; auto. rewrite uniqueZ_in. intros [->|Hin]; [congruence|].
  inversion Hs; subst. specialize (H1 x Hin). specialize (Hx z (or_introl eq_refl)). lia.
Qed.

Lemma nodup_concat : forall (m : amap),
  NoDup (map fst m) ->
  (forall k v, In (k, v) m -> NoDup v) ->
  (forall k v k' v' e, In (k, v) m -> In (k', v') m -> In e v -> In e v' -> k = k') ->
  NoDup (concat (map snd m)).
Proof.
  induction m as [|[k v] t IH]; intros Hnd Hv Hdis; simpl; [constructor|].
  inversion Hnd; subst.
  assert (NoDup (concat (map snd t))).
  { apply IH; auto.
    - intros; eapply Hv; right; eauto.
    - intros k1 v1 k2 v2 e ? ? ? ?. eapply Hdis; try (right; eassumption); eauto. }
  assert (NoDup v) by (eapply Hv; left; eauto).
  clear IH Hv.
  assert (Hd : forall e, In e v -> ~ In e (concat (map snd t))).
  { intros e He Hc. apply in_concat in Hc. destruct Hc as (v' & Hv' & He').
    apply in_map_iff in Hv'. destruct Hv' as ([k' v''] & Heq & Hin). simpl in Heq; subst.
    assert (k = k') by (eapply Hdis; [left; reflexivity|right; eauto|eauto|eauto]). subst.
    apply H1. apply in_map_iff. exists (k', v'); auto. }
  clear Hdis Hnd H1 H2. induction v as [|x v IHv]; simpl; auto.
  inversion H0; subst. constructor.
  - rewrite in_app_iff. intros [Hi|Hi]; auto. eapply Hd; eauto. left; auto.
  - apply IHv; auto. intros e He. apply Hd. right; auto.
Qed.

Lemma endpoints_occurs : forall pairs e, In e (endpoints pairs) <-> occurs pairs e.
Proof.
  intros pairs e. unfold endpoints, occurs. rewrite in_flat_map. split.
  - intros (p & Hp & Hin). exists p; split; auto. simpl in Hin. intuition.
  - intros (p & Hp & Hor). exists p; split; auto. simpl. intuition.
Qed.

Lemma buildComps_ok : forall weight m,
  (forall k v, In (k, v) m -> forall e, In e v -> 0 <= e < Z.of_nat (length weight)) ->
  exists comps, buildComps weight m = Ok comps /\ map fst comps = map snd m.
Proof.
  intros weight m Hr. unfold buildComps.
  destruct (foldM_inv (fun (acc : list (list Z * Z)) kv => c <- componentCost weight (snd kv) ;; Ok (acc ++ [(snd kv, c)]))
     (fun done acc => map fst acc = map snd done) m []) as (comps & E & Hc).
  - reflexivity.
  - intros done [k v] rest acc Em Hacc. cbn [snd].
    assert (Hv : exists c, componentCost weight v = Ok c).
    { unfold componentCost.
      destruct (foldM_inv (fun c e => w <- zget weight e ;; Ok (c + w)) (fun _ _ => True) v 0) as (c & Ec & _); auto.
      - intros d e rst c Ev _.
        destruct (zget_in_range weight e) as (w & Ew & _).
        { eapply (Hr k v); [subst m; apply in_or_app; right; left; reflexivity|].
          subst v. apply in_or_app; right; left; reflexivity. }
        rewrite Ew; cbn [bind]. eauto.
      - eauto. }
    destruct Hv as [c Ec]. rewrite Ec; cbn [bind]. eexists; split; [reflexivity|].
    rewrite !map_app. simpl. congruence.
  - eauto.
Qed.

Section Group.
Variable hash_order : amap -> amap.
Variable sort_desc : list (list Z * Z) -> list (list Z * Z).
Hypothesis Hhash : forall m, Permutation (hash_order m) m.
Hypothesis Hsort : forall l, Permutation (sort_desc l) l.

Lemma groupComponents_spec : forall NE pairs weight,
  0 <= NE -> length weight = Z.to_nat NE ->
  exists comps, groupComponents hash_order sort_desc NE pairs weight = Ok comps /\
    NoDup (concat (map fst comps)) /\
    (forall e, In e (concat (map fst comps)) <-> occurs pairs e /\ 0 <= e < NE) /\
    (forall c a b, In c (map fst comps) -> In a c ->
        (In b c <-> linked NE pairs a b /\ occurs pairs b /\ 0 <= b < NE)).
Proof.
  intros NE pairs weight HNE Hw. unfold groupComponents.
  destruct (uniteAll_inv NE pairs HNE) as ([p0 rk] & E0 & Hinv). rewrite E0; cbn [bind].
  pose proof Hinv as (Hf & _ & Hs & _). cbn [fst] in *.
  destruct (touchAll_inv NE p0 (endpoints pairs) [] Hf) as (p1 & m1 & E1 & Hp1 & Hnd1); [constructor|].
  rewrite E1; cbn [bind].
  destruct (pushAll_inv NE p0 (endpoints pairs) p1 (clearAll m1) Hf Hp1 (clear_inv NE p0 m1 Hnd1))
    as (p2 & m2 & E2 & Hp2 & (Hnd & Hel & Hk)).
  rewrite E2; cbn [bind].
  set (m3 := map (fun kv => (fst kv, uniqueZ (sortZ (snd kv)))) m2).
  assert (Hm3 : forall k v, In (k, v) m3 -> NoDup v /\ forall e, In e v <-> occurs pairs e /\ 0 <= e < NE /\ root p0 e k).
  { intros k v Hin. apply in_map_iff in Hin. destruct Hin as ([k' v'] & Heq & Hin).
    injection Heq as <- <-. split.
    - apply uniqueZ_nodup, sortZ_sorted.
    - intros e. cbn [fst snd]. rewrite uniqueZ_in, sortZ_in, (Hel _ _ Hin e), endpoints_occurs. reflexivity. }
  assert (Hk3 : map fst m3 = map fst m2) by (unfold m3; rewrite map_map; reflexivity).
  assert (Hh : forall k v, In (k, v) (hash_order m3) <-> In (k, v) m3).
  { intros k v. split; apply Permutation_in; [|apply Permutation_sym]; apply Hhash. }
  assert (Hndh : NoDup (map fst (hash_order m3))).
  { eapply Permutation_NoDup; [apply Permutation_sym, Permutation_map, Hhash|]. rewrite Hk3. auto. }
  destruct (buildComps_ok weight (hash_order m3)) as (comps & E3 & Hc).
  { intros k v Hin e He. apply Hh in Hin. apply (proj2 (Hm3 k v Hin)) in He. lia. }
  rewrite E3; cbn [bind].
  exists (sort_desc comps). split; [reflexivity|].
  assert (Hperm : Permutation (map fst (sort_desc comps)) (map snd (hash_order m3))).
  { rewrite <- Hc. apply Permutation_map, Hsort. }
  assert (Hpc : Permutation (concat (map fst (sort_desc comps))) (concat (map snd (hash_order m3)))).
  { clear -Hperm. induction Hperm; simpl.
    - constructor.
    - now apply Permutation_app_head.
    - rewrite !app_assoc. apply Permutation_app_tail, Permutation_app_comm.
    - eapply Permutation_trans; eauto. }
  split; [|split].
  - eapply Permutation_NoDup; [apply Permutation_sym, Hpc|]. apply nodup_concat; auto.
    + intros k v Hin. apply Hh in Hin. now apply Hm3 in Hin.
    + intros k v k' v' e H1 H2 H3 H4. apply Hh in H1. apply Hh in H2.
      apply (proj2 (Hm3 _ _ H1)) in H3. apply (proj2 (Hm3 _ _ H2)) in H4.
      eapply root_det; [apply H3|apply H4].
  - intros e. split.
    + intros Hin. eapply Permutation_in in Hin; [|exact Hpc].
      apply in_concat in Hin. destruct Hin as (v & Hv & He). apply in_map_iff in Hv.
      destruct Hv as ([k v'] & Heq & Hin). simpl in Heq; subst. apply Hh in Hin.
      apply (proj2 (Hm3 _ _ Hin)) in He. intuition.
    + intros (Hoc & Hr). eapply Permutation_in; [apply Permutation_sym, Hpc|].
      destruct (proj2 Hf e Hr) as [k Hrk].
      assert (Hin : In k (map fst m3)).
      { rewrite Hk3. eapply Hk; eauto. now apply endpoints_occurs. }
      apply in_map_iff in Hin. destruct Hin as ([k' v] & Heq & Hin). simpl in Heq; subst.
      apply in_concat. exists v. split.
      * apply in_map_iff. exists (k, v). split; auto. now apply Hh.
      * apply (proj2 (Hm3 _ _ Hin)). auto.
  - intros c a b Hc0 Ha. eapply Permutation_in in Hc0; [|exact Hperm].
    apply in_map_iff in Hc0. destruct Hc0 as ([k v] & Heq & Hin). simpl in Heq; subst.
    apply Hh in Hin. destruct (Hm3 _ _ Hin) as [_ Hm]. rewrite Hm in Ha |- *.
    destruct Ha as (Hoa & Hra & Hrta). split.
    + intros (Hob & Hrb & Hrtb). split; auto. apply Hs. exists k; auto.
    + intros (Hl & Hob & Hrb). split; auto. split; auto.
      destruct (linked_same _ _ _ _ _ Hinv Hl) as [<-|(r & H1 & H2)]; auto.
      cbn [fst] in *. rewrite <- (root_det _ _ _ _ H1 Hrta). auto.
Qed.
End Group.

(** ** Weights and loads *)
Lemma buildElementWeights_spec : forall NE pairs, 0 <= NE ->
  exists w, buildElementWeights NE pairs = Ok w /\ length w = Z.to_nat NE /\
   forall e, 0 <= e < NE ->
     (occurs pairs e -> nth_error w (Z.to_nat e) = Some 5) /\
     (~ occurs pairs e -> nth_error w (Z.to_nat e) = Some 1).
Proof.
  intros NE pairs HNE. unfold buildElementWeights.
  apply foldM_inv with (I := fun done w => length w = Z.to_nat NE /\
    forall e, 0 <= e < NE ->
     (occurs done e -> nth_error w (Z.to_nat e) = Some 5) /\
     (~ occurs done e -> nth_error w (Z.to_nat e) = Some 1)).
  - split; [apply repeat_length|]. intros e He. split.
    + intros (p & [] & _).
    + intros _. apply nth_error_repeat. lia.
  - intros done [a b] rest w Ep (Hl & Hw). cbn [fst snd].
    assert (G : forall w0 x, length w0 = Z.to_nat NE ->
       exists w1, (if inb x NE then zset w0 x BOUNDARY_ELEM_WEIGHT else Ok w0) = Ok w1 /\ length w1 = Z.to_nat NE /\
         (forall e, 0 <= e < NE -> nth_error w1 (Z.to_nat e) = if e =? x then Some 5 else nth_error w0 (Z.to_nat e))).
    { intros w0 x Hl0. destruct (inb x NE) eqn:Eb.
      - apply inb_spec in Eb. rewrite zset_in_range by lia. eexists; split; [reflexivity|].
        rewrite upd_length; split; auto. intros e He. destruct (Z.eqb_spec e x) as [->|Hne].
        + rewrite nth_error_upd_same by lia. reflexivity.
        + apply nth_error_upd_other. lia.
      - eexists; split; [reflexivity|]. split; auto. intros e He. destruct (Z.eqb_spec e x) as [->|Hne]; auto.
        apply inb_spec in He. congruence. }
    destruct (G w a Hl) as (w1 & E1 & Hl1 & Hw1). rewrite E1; cbn [bind].
    destruct (G w1 b Hl1) as (w2 & E2 & Hl2 & Hw2). rewrite E2.
    exists w2; split; auto. split; auto. intros e He. rewrite Hw2, Hw1 by auto.
    assert (Hocc : occurs (done ++ [(a, b)]) e <-> occurs done e \/ e = a \/ e = b).
    { unfold occurs. split.
      - intros (p & Hin & Hor). apply in_app_or in Hin. destruct Hin as [Hin|[<-|[]]].
        + left; exists p; auto.
        + simpl in Hor. intuition.
      - intros [(p & Hin & Hor)|Hor].
        + exists p; split; auto. apply in_or_app; auto.
        + exists (a, b); split; [apply in_or_app; right; left; auto|]. simpl. intuition. }
    rewrite Hocc. destruct (Hw e He) as [H5 H1].
    destruct (Z.eqb_spec e b); [split; intros; auto; exfalso; intuition|].
    destruct (Z.eqb_spec e a); [split; intros; auto; exfalso; intuition|].
    split; intros; [apply H5|apply H1]; intuition.
Qed.

Lemma true_load_app : forall p1 p2 w1 w2 r, length p1 = length w1 ->
  true_load (p1 ++ p2) (w1 ++ w2) r = true_load p1 w1 r + true_load p2 w2 r.
Proof.
  induction p1 as [|q p1 IH]; intros p2 [|w w1] w2 r Hl; simpl in *; try lia.
  rewrite IH by lia. lia.
Qed.

Lemma load_add_spec : forall load r w, 0 <= r < Z.of_nat (length load) ->
  exists old, nth_error load (Z.to_nat r) = Some old /\ load_add load r w = Ok (upd load (Z.to_nat r) (old + w)).
Proof.
  intros load r w Hr. destruct (zget_in_range load r Hr) as (old & E & Hn).
  exists old. split; auto. unfold load_add. rewrite E; cbn [bind]. now apply zset_in_range.
Qed.

Lemma computeWeightedLoad_spec : forall P NE part weight, 0 <= P -> 0 <= NE ->
  length part = Z.to_nat NE -> length weight = Z.to_nat NE ->
  exists load, computeWeightedLoad P NE part weight = Ok load /\ loads_right P part weight load.
Proof.
  intros P NE part weight HP HNE Hp Hw. unfold computeWeightedLoad.
  destruct (foldM_inv (fun load e =>
           r <- zget part e ;;
           if inb r P then w <- zget weight e ;; load_add load r w else Ok load)
     (fun done load => loads_right P (firstn (length done) part) (firstn (length done) weight) load)
     (zseq (Z.to_nat NE)) (repeat 0 (Z.to_nat P))) as (load & E & Hl).
  - split; [apply repeat_length|]. intros r Hr. simpl. apply nth_error_repeat. lia.
  - intros done e rest load Ez (Hlen & Hl).
    assert (He : e = Z.of_nat (length done)).
    { assert (nth_error (zseq (Z.to_nat NE)) (length done) = Some e).
      { rewrite Ez. rewrite nth_error_app2 by lia. now rewrite Nat.sub_diag. }
      assert (Hlt : (length done < Z.to_nat NE)%nat).
      { rewrite <- (zseq_length (Z.to_nat NE)). apply nth_error_Some. congruence. }
      assert (zget (zseq (Z.to_nat NE)) (Z.of_nat (length done)) = Ok e).
      { apply zget_ok. split; [lia|]. now rewrite Nat2Z.id. }
      rewrite zget_zseq in H0 by lia. congruence. }
    assert (Hlt : 0 <= e < NE).
    { assert (In e (zseq (Z.to_nat NE))) by (rewrite Ez; apply in_or_app; right; left; auto).
      apply in_zseq in H. lia. }
    destruct (zget_in_range part e) as (q & Eq & Nq); [lia|].
    destruct (zget_in_range weight e) as (w & Ew & Nw); [lia|].
    rewrite Eq; cbn [bind]. 
    assert (Hf : forall (l : list Z) v, nth_error l (Z.to_nat e) = Some v ->
       firstn (length (done ++ [e])) l = firstn (length done) l ++ [v]).
    { intros l v Hv. rewrite app_length. simpl. rewrite Nat.add_1_r.
      rewrite He, Nat2Z.id in Hv. clear -Hv. revert l Hv.
      induction (length done) as [|k IHk]; intros [|x l] Hv; simpl in *; try discriminate.
      - congruence.
      - f_equal. auto. }
    rewrite (Hf part q Nq), (Hf weight w Nw).
    assert (Hlf : length (firstn (length done) part) = length (firstn (length done) weight)).
    { rewrite !firstn_length. lia. }
    destruct (inb q P) eqn:Eb.
    + apply inb_spec in Eb. rewrite Ew; cbn [bind].
      destruct (load_add_spec load q w) as (old & Hold & E); [lia|]. rewrite E.
      eexists; split; [reflexivity|]. split; [now rewrite upd_length|].
      intros r Hr. rewrite true_load_app by auto. simpl.
      destruct (Z.eqb_spec q r) as [->|Hne].
      * rewrite nth_error_upd_same by lia. rewrite (Hl r Hr) in Hold. injection Hold as <-. f_equal; lia.
      * rewrite nth_error_upd_other by lia. rewrite (Hl r Hr). f_equal; lia.
    + eexists; split; [reflexivity|]. split; [auto|]. intros r Hr. rewrite true_load_app by auto. simpl.
      destruct (Z.eqb_spec q r) as [->|Hne].
      * apply inb_spec in Hr. congruence.
      * rewrite (Hl r Hr). f_equal; lia.
  - exists load. split; auto. rewrite zseq_length in Hl.
    rewrite !firstn_all2 in Hl by lia. auto.
Qed.

Lemma leastLoadedRank_spec : forall load, load <> [] ->
  exists b lb, leastLoadedRank load = Ok b /\ 0 <= b < Z.of_nat (length load) /\
    nth_error load (Z.to_nat b) = Some lb /\
    forall r lr, 0 <= r -> nth_error load (Z.to_nat r) = Some lr -> lb <= lr /\ (lr = lb -> b <= r).
Proof.
  intros load Hne. unfold leastLoadedRank. rewrite foldM_map.
  assert (Hlen : (0 < length load)%nat) by (destruct load; simpl; [congruence|lia]).
  destruct (foldM_inv (fun best a => lr <- zget load (a + 1) ;; lb <- zget load best ;;
              Ok (if lr <? lb then a + 1 else best))
     (fun done b => 0 <= b <= Z.of_nat (length done) /\
        exists lb, nth_error load (Z.to_nat b) = Some lb /\
          forall r lr, 0 <= r <= Z.of_nat (length done) -> nth_error load (Z.to_nat r) = Some lr -> lb <= lr /\ (lr = lb -> b <= r))
     (zseq (length load - 1)) 0) as (b & E & Hb & lb & Hlb & Hmin).
  - split; [simpl; lia|]. destruct load as [|l0 t]; [congruence|]. exists l0; split; auto.
    intros r lr Hr Hn. simpl in Hr. replace r with 0 in * by lia. simpl in Hn. injection Hn as <-. lia.
  - intros done a rest b Ez (Hb & lb & Hlb & Hmin).
    assert (Hlt : (length done < length load - 1)%nat).
    { assert (length (zseq (length load - 1)) = length (done ++ a :: rest)) by congruence.
      rewrite zseq_length, app_length in H. simpl in H. lia. }
    assert (Ha : a = Z.of_nat (length done)).
    { assert (nth_error (zseq (length load - 1)) (length done) = Some a).
      { rewrite Ez. rewrite nth_error_app2 by lia. now rewrite Nat.sub_diag. }
      assert (zget (zseq (length load - 1)) (Z.of_nat (length done)) = Ok a).
      { apply zget_ok. split; [lia|]. now rewrite Nat2Z.id. }
      rewrite zget_zseq in H0 by lia. congruence. }
    destruct (zget_in_range load (a + 1)) as (lr & Elr & Nlr); [lia|].
    assert (Elb : zget load b = Ok lb) by (apply zget_ok; split; [lia|auto]).
    rewrite Elr; cbn [bind]. rewrite Elb; cbn [bind].
    eexists; split; [reflexivity|]. rewrite app_length. simpl (length [a]).
    destruct (Z.ltb_spec lr lb).
    + split; [lia|]. exists lr. split; auto. intros r l0 Hr Hn.
      destruct (Z.eq_dec r (a + 1)) as [->|Hrne].
      * assert (l0 = lr) by congruence. lia.
      * destruct (Hmin r l0) as [H1 H2]; auto; lia.
    + split; [lia|]. exists lb. split; auto. intros r l0 Hr Hn.
      destruct (Z.eq_dec r (a + 1)) as [->|Hrne].
      * assert (l0 = lr) by congruence. subst l0. lia.
      * destruct (Hmin r l0) as [H1 H2]; auto; lia.
  - rewrite zseq_length in *. exists b, lb. split; [exact E|]. split; [lia|]. split; auto.
    intros r lr Hr Hn. apply Hmin; auto.
    assert (Z.to_nat r < length load)%nat by (apply nth_error_Some; congruence). lia.
Qed.

Lemma true_load_upd : forall part weight e old w rank r,
  nth_error part e = Some old -> nth_error weight e = Some w ->
  true_load (upd part e rank) weight r =
    true_load part weight r - (if old =? r then w else 0) + (if rank =? r then w else 0).
Proof.
  induction part as [|q part IH]; intros [|w0 weight] [|e] old w rank r Hp Hw; simpl in *; try discriminate.
  - injection Hp as ->. injection Hw as ->. lia.
  - rewrite (IH weight e old w rank r Hp Hw). lia.
Qed.

Lemma rank_of_upd : forall part e rank x, 0 <= e < Z.of_nat (length part) ->
  rank_of (upd part (Z.to_nat e) rank) x = if x =? e then Some rank else rank_of part x.
Proof.
  intros part e rank x He. unfold rank_of. destruct (Z.eqb_spec x e) as [->|Hne].
  - destruct (Z.ltb_spec e 0); [lia|]. apply nth_error_upd_same. lia.
  - destruct (Z.ltb_spec x 0); auto. apply nth_error_upd_other. lia.
Qed.

Section Assign.
Variable P NE : Z.
Variable weight : list Z.
Hypothesis HP : 0 < P.
Hypothesis HNE : 0 <= NE.
Hypothesis Hw : length weight = Z.to_nat NE.

Definition st_ok (st : list Z * list Z) : Prop :=
  length (fst st) = Z.to_nat NE /\ loads_right P (fst st) weight (snd st).

Lemma assignComponent_spec : forall elems rank st, st_ok st -> 0 <= rank < P ->
  (forall e, In e elems -> 0 <= e < NE) ->
  exists st', assignComponent weight elems rank st = Ok st' /\ st_ok st' /\
    (forall e, In e elems -> rank_of (fst st') e = Some rank) /\
    (forall e, ~ In e elems -> rank_of (fst st') e = rank_of (fst st) e).
Proof.
  intros elems rank st Hst Hrank Hel. unfold assignComponent.
  apply foldM_inv with (I := fun done st' => st_ok st' /\
    (forall e, In e done -> rank_of (fst st') e = Some rank) /\
    (forall e, ~ In e done -> rank_of (fst st') e = rank_of (fst st) e)).
  - split; [auto|]. split; [intros e []|auto].
  - intros done e rest [part load] Eel ((Hlp & Hll & Hl) & Hin & Hout). cbn [fst snd] in *.
    assert (He : 0 <= e < NE) by (apply Hel; subst elems; apply in_or_app; right; left; auto).
    unfold assignElem.
    destruct (zget_in_range part e) as (old & Eo & No); [lia|].
    destruct (zget_in_range weight e) as (w & Ew & Nw); [lia|].
    rewrite Eo; cbn [bind]. rewrite Ew; cbn [bind].
    assert (G : exists load1, (if inb old (Z.of_nat (length load)) then load_add load old (- w) else Ok load) = Ok load1 /\
       length load1 = Z.to_nat P /\
       forall r, 0 <= r < P -> nth_error load1 (Z.to_nat r) = Some (true_load part weight r - (if old =? r then w else 0))).
    { destruct (inb old (Z.of_nat (length load))) eqn:Eb.
      - apply inb_spec in Eb. destruct (load_add_spec load old (- w) Eb) as (o & Ho & E). rewrite E.
        eexists; split; [reflexivity|]. split; [now rewrite upd_length|]. intros r Hr.
        destruct (Z.eqb_spec old r) as [->|Hne].
        + rewrite nth_error_upd_same by lia. rewrite (Hl r Hr) in Ho. injection Ho as <-. f_equal; lia.
        + rewrite nth_error_upd_other by lia. rewrite (Hl r Hr). f_equal; lia.
      - eexists; split; [reflexivity|]. split; auto. intros r Hr. rewrite (Hl r Hr).
        destruct (Z.eqb_spec old r) as [->|Hne]; [|f_equal; lia].
        assert (inb r (Z.of_nat (length load)) = true) by (apply inb_spec; lia). congruence. }
    destruct G as (load1 & E1 & Hl1 & Hv1). rewrite E1; cbn [bind].
    rewrite zset_in_range by lia. cbn [bind].
    destruct (load_add_spec load1 rank w) as (o & Ho & E2); [lia|]. rewrite E2; cbn [bind].
    eexists; split; [reflexivity|]. cbn [fst snd]. split; [|split].
    + split; cbn [fst snd]; [now rewrite upd_length|]. split; [now rewrite upd_length|]. intros r Hr.
      rewrite (true_load_upd _ _ _ _ _ _ _ No Nw).
      destruct (Z.eqb_spec rank r) as [->|Hne].
      * rewrite nth_error_upd_same by lia. rewrite (Hv1 r Hr) in Ho. injection Ho as <-. f_equal; lia.
      * rewrite nth_error_upd_other by lia. rewrite (Hv1 r Hr). f_equal; lia.
    + intros x Hx. rewrite rank_of_upd by lia. destruct (Z.eqb_spec x e); auto.
      apply in_app_or in Hx. destruct Hx as [Hx|[<-|[]]]; auto. congruence.
    + intros x Hx. rewrite rank_of_upd by lia. destruct (Z.eqb_spec x e) as [->|Hne].
      * exfalso. apply Hx. apply in_or_app; right; left; auto.
      * apply Hout. intros C. apply Hx. apply in_or_app; auto.
Qed.

Definition minimal_rank (part : list Z) (r : Z) : Prop :=
  0 <= r < P /\ forall q, 0 <= q < P -> true_load part weight r <= true_load part weight q.

Lemma leastLoaded_true : forall st, st_ok st ->
  exists r, leastLoadedRank (snd st) = Ok r /\ minimal_rank (fst st) r.
Proof.
  intros [part load] (Hlp & Hll & Hl). cbn [fst snd] in *.
  destruct (leastLoadedRank_spec load) as (b & lb & E & Hb & Hlb & Hmin).
  { intros ->. simpl in Hll. lia. }
  exists b; split; auto. split; [lia|]. intros q Hq.
  rewrite (Hl b) in Hlb by lia. injection Hlb as <-.
  apply (Hmin q); [lia|]. apply Hl; lia.
Qed.

Lemma assignAll_spec : forall comps st, st_ok st ->
  NoDup (concat (map fst comps)) ->
  (forall e, In e (concat (map fst comps)) -> 0 <= e < NE) ->
  exists st', assignAll weight comps st = Ok st' /\ st_ok st' /\
    (forall c, In c (map fst comps) -> exists r, 0 <= r < P /\ forall e, In e c -> rank_of (fst st') e = Some r) /\
    (forall e, ~ In e (concat (map fst comps)) -> rank_of (fst st') e = rank_of (fst st) e).
Proof.
  induction comps as [|[c cost] comps IH]; intros st Hst Hnd Hr; unfold assignAll in *; simpl in *.
  - exists st. split; [reflexivity|]. repeat split; auto; try apply Hst. intros c [].
  - unfold assignStep at 1. destruct (leastLoaded_true st Hst) as (r & E & Hr0 & _). rewrite E; cbn [bind fst].
    destruct (assignComponent_spec c r st Hst Hr0) as (st1 & E1 & Hst1 & Hin1 & Hout1).
    { intros e He. apply Hr. apply in_or_app; auto. }
    rewrite E1; cbn [bind].
    assert (Hnd2 : NoDup (concat (map fst comps)) /\ forall e, In e c -> ~ In e (concat (map fst comps))).
    { clear -Hnd. induction c as [|x c IH]; simpl in *; [split; auto|]. inversion Hnd; subst.
      destruct (IH H2) as [G1 G2]. split; auto. intros e [<-|He]; auto.
      intros C; apply H1. apply in_or_app; auto. }
    destruct Hnd2 as [Hnd2 Hdis].
    destruct (IH st1 Hst1 Hnd2) as (st2 & E2 & Hst2 & Hin2 & Hout2).
    { intros e He. apply Hr. apply in_or_app; auto. }
    exists st2. split; auto. split; auto. split.
    + intros c' [<-|Hc']; auto. exists r; split; auto. intros e He. rewrite Hout2 by auto. auto.
    + intros e He. rewrite Hout2, Hout1; auto; intros C; apply He; apply in_or_app; auto.
Qed.

(** Every intermediate state of the greedy loop has correct loads. *)
Lemma assignAll_prefix : forall comps k st, st_ok st ->
  (forall e, In e (concat (map fst comps)) -> 0 <= e < NE) ->
  exists st', assignAll weight (firstn k comps) st = Ok st' /\ st_ok st'.
Proof.
  intros comps k st Hst Hr. unfold assignAll.
  apply foldM_inv with (I := fun _ st' => st_ok st'); auto.
  intros done [c cost] rest st1 Ef Hst1.
  destruct (leastLoaded_true st1 Hst1) as (r & E & Hr0 & _).
  destruct (assignComponent_spec c r st1 Hst1 Hr0) as (st2 & E2 & Hst2 & _).
  - intros e He. apply Hr. apply in_concat. exists c. split; auto.
    apply in_map_iff. exists (c, cost). split; auto.
    assert (In (c, cost) (firstn k comps)) by (rewrite Ef; apply in_or_app; right; left; auto).
    clear -H. revert k H. induction comps as [|x t IH]; intros [|k] H; simpl in *; auto; try contradiction.
    destruct H as [H|H]; eauto.
  - unfold assignStep. rewrite E; cbn [bind fst]. eauto.
Qed.
End Assign.

(** ** The whole function *)
Section Whole.
Variable hash_order : amap -> amap.
Variable sort_desc : list (list Z * Z) -> list (list Z * Z).
Hypothesis Hhash : forall m, Permutation (hash_order m) m.
Hypothesis Hsort : forall l, Permutation (sort_desc l) l.

Lemma count_ok : forall P NE part pairs, 0 <= P -> length part = Z.to_nat NE ->
  (forall p, In p pairs -> 0 <= fst p < NE) ->
  exists c, countBoundaryPairsPerRank P part pairs = Ok c.
Proof.
  intros P NE part pairs HP Hl Hp. unfold countBoundaryPairsPerRank.
  destruct (foldM_inv (fun cnt pr => r <- zget part (fst pr) ;; if inb r P then load_add cnt r 1 else Ok cnt)
    (fun _ cnt => length cnt = Z.to_nat P) pairs (repeat 0 (Z.to_nat P))) as (c & E & _).
  - apply repeat_length.
  - intros done pr rest cnt Ep Hc.
    assert (Hpr : 0 <= fst pr < NE) by (apply Hp; subst pairs; apply in_or_app; right; left; auto).
    destruct (zget_in_range part (fst pr)) as (r & E & _); [lia|]. rewrite E; cbn [bind].
    destruct (inb r P) eqn:Eb; [|eauto]. apply inb_spec in Eb.
    destruct (load_add_spec cnt r 1) as (o & _ & E2); [lia|]. rewrite E2. eexists; split; [reflexivity|].
    now rewrite upd_length.
  - eauto.
Qed.

Lemma applyPairs_spec : forall NE P rank0 part pairs,
  0 <= NE -> 1 < P -> length part = Z.to_nat NE ->
  (rank0 = true -> forall p, In p pairs -> 0 <= fst p < NE) ->
  exists part', applyPairs hash_order sort_desc NE P rank0 part pairs = Ok part' /\
    length part' = length part /\
    (forall a b, linked NE pairs a b -> rank_of part' a = rank_of part' b) /\
    (forall e, occurs pairs e -> 0 <= e < NE -> exists r, 0 <= r < P /\ rank_of part' e = Some r) /\
    (forall e, ~ occurs pairs e -> rank_of part' e = rank_of part e).
Proof.
  intros NE P rank0 part pairs HNE HP Hl Hr0. unfold applyPairs.
  assert (Hlk : forall a b, linked NE pairs a b -> a = b \/ (occurs pairs a /\ 0 <= a < NE) /\ (occurs pairs b /\ 0 <= b < NE)).
  { intros a b Hab. induction Hab as [a b (Hin & Ha & Hb)|a|a b H IH|a b c H1 IH1 H2 IH2].
    - right. repeat split; try lia; exists (a, b); simpl; auto.
    - auto.
    - intuition.
    - destruct IH1 as [->|IH1]; destruct IH2 as [->|IH2]; intuition. }
  destruct ((NE =? 0) || (P <=? 1)) eqn:Eg.
  - apply orb_true_iff in Eg. rewrite Z.eqb_eq, Z.leb_le in Eg. destruct Eg as [->|Eg]; [|lia].
    exists part. repeat split; auto.
    + intros a b Hab. destruct (Hlk a b Hab) as [->|[[_ C] _]]; auto; lia.
    + intros; lia.
  - assert (Hnil : pairs = [] \/ pairs <> []) by (destruct pairs; [left|right]; congruence).
    destruct Hnil as [->|Hnn].
    + exists part. repeat split; auto.
      * intros a b Hab. destruct (Hlk a b Hab) as [->|[[(p & [] & _) _] _]]; auto.
      * intros e (p & [] & _).
    + assert (G : exists part',
        (weight <- buildElementWeights NE pairs ;;
         load <- computeWeightedLoad P NE part weight ;;
         comps <- groupComponents hash_order sort_desc NE pairs weight ;;
         '(part', load') <- assignAll weight comps (part, load) ;;
         _ <- (if rank0 then countBoundaryPairsPerRank P part' pairs else Ok []) ;;
         Ok part') = Ok part' /\ length part' = length part /\
        (forall a b, linked NE pairs a b -> rank_of part' a = rank_of part' b) /\
        (forall e, occurs pairs e -> 0 <= e < NE -> exists r, 0 <= r < P /\ rank_of part' e = Some r) /\
        (forall e, ~ occurs pairs e -> rank_of part' e = rank_of part e)).
      { destruct (buildElementWeights_spec NE pairs HNE) as (weight & E1 & Hw & _). rewrite E1; cbn [bind].
        destruct (computeWeightedLoad_spec P NE part weight ltac:(lia) HNE Hl Hw) as (load & E2 & Hload).
        rewrite E2; cbn [bind].
        destruct (groupComponents_spec hash_order sort_desc Hhash Hsort NE pairs weight HNE Hw) as (comps & E3 & Hnd & Hall & Hcl).
        rewrite E3; cbn [bind].
        destruct (assignAll_spec P NE weight ltac:(lia) Hw comps (part, load)) as ([part' load'] & E4 & Hst & Hin & Hout).
        { split; auto. }
        { auto. }
        { intros e He. apply Hall in He. tauto. }
        rewrite E4; cbn [bind]. cbn [fst snd] in *.
        exists part'. split.
        - destruct rank0; cbn [bind]; auto.
          destruct (count_ok P NE part' pairs ltac:(lia) (proj1 Hst) (Hr0 eq_refl)) as (c & Ec). rewrite Ec. reflexivity.
        - split; [rewrite Hl; apply Hst|]. split; [|split].
          + intros a b Hab. destruct (Hlk a b Hab) as [->|[Ha Hb]]; auto.
            apply Hall in Ha. apply in_concat in Ha. destruct Ha as (c & Hc & Hac).
            assert (Hbc : In b c) by (apply (Hcl c a b Hc Hac); tauto).
            destruct (Hin c Hc) as (r & _ & Hrr). rewrite !Hrr; auto.
          + intros e Ho He. assert (Hc : In e (concat (map fst comps))) by (apply Hall; auto).
            apply in_concat in Hc. destruct Hc as (c & Hc & Hec).
            destruct (Hin c Hc) as (r & Hr & Hrr). exists r; auto.
          + intros e Hno. apply Hout. rewrite Hall. tauto. }
      destruct pairs; [congruence|exact G].
Qed.
End Whole.

Lemma gather_in : forall mesh tf sg a b,
  In (a, b) (gatherConstraintPairs mesh tf sg) <->
  exists t, In t (tf ++ sg) /\ In (mkBdr t (Some (a, b))) mesh.
Proof.
  intros mesh tf sg a b.
  assert (G : forall tags, In (a, b) (buildTwoElementPairsByTagToSort mesh tags) <->
     exists t, In t tags /\ In (mkBdr t (Some (a, b))) mesh).
  { intros tags. unfold buildTwoElementPairsByTagToSort. rewrite in_flat_map. split.
    - intros (t & Ht & Hin). apply in_flat_map in Hin. destruct Hin as ([at_ el] & Hb & Hin).
      simpl in Hin. destruct (Z.eqb_spec at_ t) as [->|]; [|destruct Hin].
      destruct el as [pr|]; [|destruct Hin]. destruct Hin as [->|[]]. eauto.
    - intros (t & Ht & Hin). exists t; split; auto. apply in_flat_map.
      exists (mkBdr t (Some (a, b))). split; auto. simpl. rewrite Z.eqb_refl. left; auto. }
  unfold gatherConstraintPairs. rewrite in_app_iff.
  assert (G2 : forall tags, In (a, b) (if 0 <? Z.of_nat (length tags) then buildTwoElementPairsByTagToSort mesh tags else []) <->
     exists t, In t tags /\ In (mkBdr t (Some (a, b))) mesh).
  { intros tags. destruct tags; [simpl; split; [intros []|intros (t & [] & _)]|]. apply G. }
  rewrite !G2. split.
  - intros [(t & H1 & H2)|(t & H1 & H2)]; exists t; split; auto; apply in_or_app; auto.
  - intros (t & H1 & H2). apply in_app_or in H1. destruct H1; [left|right]; eauto.
Qed.

Section Final.
Variable hash_order : amap -> amap.
Variable sort_desc : list (list Z * Z) -> list (list Z * Z).
Hypothesis Hhash : forall m, Permutation (hash_order m) m.
Hypothesis Hsort : forall l, Permutation (sort_desc l) l.

Lemma partition_main : forall NE P rank0 mesh part tf sg,
  0 <= NE -> length part = Z.to_nat NE ->
  (forall t a b, In (mkBdr t (Some (a, b))) mesh -> 0 <= a < NE /\ 0 <= b < NE) ->
  (P <= 1 -> forall e r, rank_of part e = Some r -> 0 <= r < P) ->
  exists part', applyPairwiseConstraintsPartitioning hash_order sort_desc NE P rank0 mesh part tf sg = Ok part' /\
    length part' = length part /\
    (forall a b, linked NE (gatherConstraintPairs mesh tf sg) a b -> 0 <= a < NE -> rank_of part' a = rank_of part' b) /\
    (forall t a b, In t (tf ++ sg) -> In (mkBdr t (Some (a, b))) mesh ->
       exists r, 0 <= r < P /\ rank_of part' a = Some r /\ rank_of part' b = Some r) /\
    (forall e, (forall t a b, In t (tf ++ sg) -> In (mkBdr t (Some (a, b))) mesh -> e <> a /\ e <> b) ->
       rank_of part' e = rank_of part e).
Proof.
  intros NE P rank0 mesh part tf sg HNE Hl Hm HP1.
  set (pairs := gatherConstraintPairs mesh tf sg).
  assert (Hp : forall p, In p pairs -> 0 <= fst p < NE /\ 0 <= snd p < NE).
  { intros [a b] Hin. apply gather_in in Hin. destruct Hin as (t & _ & Hin). simpl. eauto. }
  unfold applyPairwiseConstraintsPartitioning. fold pairs.
  destruct (Z.le_gt_cases P 1) as [HP|HP].
  - exists part. split.
    { unfold applyPairs. replace (P <=? 1) with true by (symmetry; apply Z.leb_le; lia).
      rewrite orb_true_r. reflexivity. }
    assert (H0 : forall e, 0 <= e < NE -> rank_of part e = Some 0 /\ P = 1).
    { intros e He. unfold rank_of in *. specialize (HP1 HP e).
      destruct (Z.ltb_spec e 0); [lia|]. destruct (nth_error part (Z.to_nat e)) as [r|] eqn:En.
      - specialize (HP1 r eq_refl). split; [f_equal|]; lia.
      - apply nth_error_None in En. lia. }
    split; auto. split; [|split; auto].
    + intros a b Hab Ha.
      assert (Hb : a = b \/ (0 <= a < NE /\ 0 <= b < NE)).
      { clear Ha. induction Hab as [x y (Hin & Hx & Hy)|x|x y H IH|x y z H1 IH1 H2 IH2]; auto.
        - intuition.
        - destruct IH1 as [->|IH1]; destruct IH2 as [->|IH2]; intuition. }
      destruct Hb as [->|[_ Hb]]; auto. rewrite (proj1 (H0 a Ha)), (proj1 (H0 b Hb)). reflexivity.
    + intros t a b Ht Hin. destruct (Hm t a b Hin) as [Ha Hb].
      exists 0. destruct (H0 a Ha) as [Ea EP]. destruct (H0 b Hb) as [Eb _]. repeat split; auto; lia.
  - destruct (applyPairs_spec hash_order sort_desc Hhash Hsort NE P rank0 part pairs HNE HP Hl)
      as (part' & E & Hl' & Hlk & Hr & Hout).
    { intros _ p Hin. now apply Hp. }
    exists part'. split; auto. split; auto. split; [auto|]. split.
    + intros t a b Ht Hin. destruct (Hm t a b Hin) as [Ha Hb].
      assert (Hpin : In (a, b) pairs) by (apply gather_in; eauto).
      assert (Hoa : occurs pairs a) by (exists (a, b); auto).
      destruct (Hr a Hoa Ha) as (r & Hrr & Ea). exists r; split; auto. split; auto.
      rewrite <- Ea. symmetry. apply Hlk. apply rst_step. split; auto.
    + intros e He. apply Hout. intros ([a b] & Hin & Hor). apply gather_in in Hin.
      destruct Hin as (t & Ht & Hin). destruct (He t a b Ht Hin). simpl in Hor. intuition.
Qed.

(** Loads stay right after any number of component assignments, and the rank
    chosen next has the minimum true load. *)
Lemma partition_loads : forall NE P part pairs k,
  0 <= NE -> 1 < P -> length part = Z.to_nat NE ->
  exists weight load comps part' load' r,
    buildElementWeights NE pairs = Ok weight /\
    (forall e, 0 <= e < NE -> (occurs pairs e -> nth_error weight (Z.to_nat e) = Some 5) /\
                              (~ occurs pairs e -> nth_error weight (Z.to_nat e) = Some 1)) /\
    computeWeightedLoad P NE part weight = Ok load /\
    groupComponents hash_order sort_desc NE pairs weight = Ok comps /\
    assignAll weight (firstn k comps) (part, load) = Ok (part', load') /\
    loads_right P part' weight load' /\
    leastLoadedRank load' = Ok r /\ 0 <= r < P /\
    forall q, 0 <= q < P -> true_load part' weight r <= true_load part' weight q.
Proof.
  intros NE P part pairs k HNE HP Hl.
  destruct (buildElementWeights_spec NE pairs HNE) as (weight & E1 & Hw & Hwv).
  destruct (computeWeightedLoad_spec P NE part weight ltac:(lia) HNE Hl Hw) as (load & E2 & Hload).
  destruct (groupComponents_spec hash_order sort_desc Hhash Hsort NE pairs weight HNE Hw) as (comps & E3 & Hnd & Hall & Hcl).
  destruct (assignAll_prefix P NE weight ltac:(lia) Hw comps k (part, load)) as ([part' load'] & E4 & Hst).
  { split; auto. }
  { intros e He. apply Hall in He. tauto. }
  destruct (leastLoaded_true P NE weight ltac:(lia) Hw (part', load') Hst) as (r & E5 & Hr & Hmin).
  exists weight, load, comps, part', load', r. repeat split; auto; try apply Hst; try lia; try (apply Hwv; auto).
Qed.

End Final.

Lemma partition_oob : forall hash_order sort_desc,
  (forall m, Permutation (hash_order m) m) -> (forall l, Permutation (sort_desc l) l) ->
  exists NE P part pairs, 0 < NE /\ 1 < P /\ length part = Z.to_nat NE /\
    applyPairs hash_order sort_desc NE P true part pairs = UB.
Proof.
  intros h s Hh Hs. exists 2, 2, [0; 1], [(-1, 0)]. repeat split; try lia.
  unfold applyPairs. cbn [orb Z.eqb Z.leb Z.compare Pos.compare Pos.compare_cont].
  destruct (buildElementWeights_spec 2 [(-1, 0)] ltac:(lia)) as (weight & E1 & Hw & _). rewrite E1; cbn [bind].
  destruct (computeWeightedLoad_spec 2 2 [0; 1] weight ltac:(lia) ltac:(lia) eq_refl Hw) as (load & E2 & Hload).
  rewrite E2; cbn [bind].
  destruct (groupComponents_spec h s Hh Hs 2 [(-1, 0)] weight ltac:(lia) Hw) as (comps & E3 & Hnd & Hall & _).
  rewrite E3; cbn [bind].
  destruct (assignAll_spec 2 2 weight ltac:(lia) Hw comps ([0; 1], load)) as ([part' load'] & E4 & Hst & _).
  { split; auto. }
  { auto. }
  { intros e He. apply Hall in He. tauto. }
  rewrite E4; cbn [bind]. unfold countBoundaryPairsPerRank. cbn [foldM fst]. 
  unfold zget at 1. reflexivity.
Qed.

(** ** Concrete run: a chain 0-1-2 and a pair 4-5 on two ranks. *)
Definition ex_mesh : list bdr :=
  [mkBdr 3 (Some (0, 1)); mkBdr 9 None; mkBdr 4 (Some (2, 1)); mkBdr 3 (Some (4, 5)); mkBdr 8 (Some (3, 5))].
Lemma ex_partition :
  applyPairwiseConstraintsPartitioning (fun m => m) (fun l => l) 6 2 true ex_mesh [0; 1; 0; 1; 0; 1] [3] [4]
  = Ok [1; 1; 1; 1; 0; 0].
Proof. reflexivity. Qed.
Lemma ex_partition_hyp : forall t a b, In (mkBdr t (Some (a, b))) ex_mesh -> 0 <= a < 6 /\ 0 <= b < 6.
Proof.
  intros t a b Hin. simpl in Hin.
  repeat (destruct Hin as [E|Hin]; [injection E; intros; subst; lia || discriminate E|]).
  destruct Hin.
Qed.

Definition ex_pairs : list (Z * Z) := gatherConstraintPairs ex_mesh [3] [4].
Lemma ex_partition_loads : buildElementWeights 6 ex_pairs = Ok [5; 5; 5; 1; 5; 5] /\
  computeWeightedLoad 2 6 [0; 1; 0; 1; 0; 1] [5; 5; 5; 1; 5; 5] = Ok [15; 11] /\
  groupComponents (fun m => m) (fun l => l) 6 ex_pairs [5; 5; 5; 1; 5; 5] = Ok [([0; 1; 2], 15); ([4; 5], 10)] /\
  assignAll [5; 5; 5; 1; 5; 5] [([0; 1; 2], 15)] ([0; 1; 0; 1; 0; 1], [15; 11]) = Ok ([1; 1; 1; 1; 0; 1], [5; 21]) /\
  leastLoadedRank [5; 21] = Ok 0.
Proof. repeat split; reflexivity. Qed.

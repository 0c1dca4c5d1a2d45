(** The connectivity map consists of the blocks of the faces. *)
From Coq Require Import ZArith List Bool Lia Reals Lra Sorted Permutation.
From Verif Require Import Common Face_Model Face_Spec Nodal_Model Nodal_Spec Nodal_Proofs Conn_Model Conn_Spec ConnFlux_Proofs.
Import ListNotations.
Local Open Scope Z_scope.

(** ** Attributes *)
Lemma sorted_zseq : forall n, StronglySorted Z.lt (zseq n).
Proof.
  induction n as [|n IH]; [constructor|]. rewrite zseq_S. apply sorted_app; [exact IH|constructor; constructor|].
  intros x y Hx [<-|[]]. apply in_zseq in Hx. lia.
Qed.
Lemma zget_some : forall {A} (l : list A) i a, zget l i = Ok a -> In a l.
Proof. intros A l i a H. apply zget_ok in H as [_ H]. eapply nth_error_In, H. Qed.
Lemma zget_upd : forall {A} (l : list A) i j a, 0 <= i < Z.of_nat (length l) ->
  zget (upd l (Z.to_nat i) a) j = if j =? i then Ok a else zget l j.
Proof.
  intros A l i j a H. unfold zget. destruct (Z.ltb_spec j 0).
  - replace (j =? i) with false; [reflexivity|]. symmetry. apply Z.eqb_neq. lia.
  - destruct (Z.eqb_spec j i) as [->|N].
    + rewrite nth_error_upd_same by lia. reflexivity.
    + rewrite nth_error_upd_other by lia. reflexivity.
Qed.
Lemma upd_upd_back : forall {A} (l : list A) n a b, nth_error l n = Some b -> upd (upd l n a) n b = l.
Proof.
  intros A l. induction l as [|x t IH]; intros [|n] a b H; cbn in *; try discriminate; [congruence|]. rewrite IH; auto.
Qed.
Lemma upd_comm : forall {A} (l : list A) i j a b, i <> j -> upd (upd l i a) j b = upd (upd l j b) i a.
Proof.
  intros A l. induction l as [|x t IH]; intros [|i] [|j] a b H; cbn; try reflexivity; try congruence.
  f_equal. apply IH. congruence.
Qed.

Lemma sub_two : forall attrs e1 e2, ~ In meshingTag attrs -> 0 <= e1 < e2 -> e2 < Z.of_nat (length attrs) ->
  subElements (upd (upd attrs (Z.to_nat e1) meshingTag) (Z.to_nat e2) meshingTag) = [e1; e2].
Proof.
  intros attrs e1 e2 N H1 H2. apply (sorted_ext Z.lt); try (intros; lia).
  - apply sorted_filter, sorted_zseq.
  - repeat constructor; lia.
  - intros x. unfold subElements. rewrite filter_In, in_zseq, !upd_length.
    assert (L : Z.of_nat (length (upd attrs (Z.to_nat e1) meshingTag)) = Z.of_nat (length attrs)) by (rewrite upd_length; reflexivity).
    rewrite zget_upd by lia. rewrite zget_upd by lia. split.
    + intros [Hx H]. destruct (Z.eqb_spec x e2); [subst; right; left; reflexivity|]. destruct (Z.eqb_spec x e1); [subst; left; reflexivity|].
      destruct (zget attrs x) as [a| |] eqn:E; try discriminate. apply Z.eqb_eq in H. subst. exfalso. apply N. eapply zget_some, E.
    + intros [<-|[<-|[]]].
      * split; [lia|]. rewrite Z.eqb_refl. destruct (e1 =? e2); reflexivity.
      * split; [lia|]. rewrite Z.eqb_refl. reflexivity.
Qed.
Lemma sub_one : forall attrs e, ~ In meshingTag attrs -> 0 <= e < Z.of_nat (length attrs) ->
  subElements (upd attrs (Z.to_nat e) meshingTag) = [e].
Proof.
  intros attrs e N H. apply (sorted_ext Z.lt); try (intros; lia).
  - apply sorted_filter, sorted_zseq.
  - repeat constructor.
  - intros x. unfold subElements. rewrite filter_In, in_zseq, upd_length, zget_upd by lia. split.
    + intros [Hx H0]. destruct (Z.eqb_spec x e); [subst; left; reflexivity|].
      destruct (zget attrs x) as [a| |] eqn:E; try discriminate. apply Z.eqb_eq in H0. subst. exfalso. apply N. eapply zget_some, E.
    + intros [<-|[]]. split; [lia|]. rewrite Z.eqb_refl. reflexivity.
Qed.
Lemma restore_same : forall orig e, 0 <= e < Z.of_nat (length orig) -> restore1 orig e orig = Ok orig.
Proof.
  intros orig e H. unfold restore1. destruct (zget_in_range orig e H) as [a [E Ha]]. rewrite E. cbn [bind].
  rewrite zset_in_range by exact H. rewrite upd_same_noop by exact Ha. reflexivity.
Qed.
Lemma submesh_two : forall orig F, ~ In meshingTag orig -> 0 <= cf_e1 F < cf_e2 F -> cf_e2 F < Z.of_nat (length orig) ->
  interiorFaceSubMesh orig orig F = Ok ([cf_e1 F; cf_e2 F], orig).
Proof.
  intros orig F N H1 H2. unfold interiorFaceSubMesh. rewrite zset_in_range by lia. cbn [bind].
  rewrite zset_in_range by (rewrite upd_length; lia). cbn [bind]. rewrite sub_two by assumption.
  unfold restore1. destruct (zget_in_range orig (cf_e1 F)) as [a [Ea Ha]]; [lia|]. destruct (zget_in_range orig (cf_e2 F)) as [b [Eb Hb]]; [lia|].
  rewrite Ea, Eb. cbn [bind]. rewrite zset_in_range by (rewrite !upd_length; lia). cbn [bind].
  rewrite zset_in_range by (rewrite !upd_length; lia). cbn [bind].
  rewrite (upd_comm _ (Z.to_nat (cf_e2 F)) (Z.to_nat (cf_e1 F))) by lia. rewrite (upd_upd_back orig _ _ a Ha).
  rewrite (upd_upd_back orig _ _ b Hb). reflexivity.
Qed.
Lemma submesh_one : forall orig e, ~ In meshingTag orig -> 0 <= e < Z.of_nat (length orig) ->
  oneElementSubMesh orig orig e = Ok ([e], orig).
Proof.
  intros orig e N H. unfold oneElementSubMesh. rewrite zset_in_range by lia. cbn [bind]. rewrite sub_one by assumption.
  unfold restore1. destruct (zget_in_range orig e H) as [a [Ea Ha]]. rewrite Ea. cbn [bind]. rewrite zset_in_range by (rewrite upd_length; lia).
  cbn [bind]. rewrite (upd_upd_back orig _ _ a Ha). reflexivity.
Qed.

(** ** Sorting *)
Section Sort.
  Context {A : Type} (le : A -> A -> bool).
  Hypothesis total : forall x y, le x y = false -> le y x = true.
  Hypothesis trans : forall x y z, le x y = true -> le y z = true -> le x z = true.
  Lemma insert_perm : forall x l, Permutation (insertBy le x l) (x :: l).
  Proof.
    intros x l. induction l as [|y t IH]; cbn [insertBy]; [reflexivity|]. destruct (le x y); [reflexivity|].
    rewrite IH. apply perm_swap.
  Qed.
  Lemma sort_perm : forall l, Permutation (sortBy le l) l.
  Proof.
    induction l as [|x t IH]; [reflexivity|]. unfold sortBy in *. cbn [fold_right]. rewrite insert_perm. rewrite IH. reflexivity.
  Qed.
  Lemma insert_sorted : forall x l, StronglySorted (fun a b => le a b = true) l -> StronglySorted (fun a b => le a b = true) (insertBy le x l).
  Proof.
    intros x l S. induction S as [|y t S IH F]; cbn [insertBy]; [constructor; constructor|].
    destruct (le x y) eqn:E.
    - constructor; [constructor; assumption|]. constructor; [exact E|]. rewrite Forall_forall in *. intros z Hz. eapply trans; [exact E|apply F, Hz].
    - constructor; [exact IH|]. rewrite Forall_forall in *. intros z Hz.
      apply (Permutation_in _ (insert_perm x t)) in Hz as [<-|Hz]; [apply total, E|apply F, Hz].
  Qed.
  Lemma sort_sorted : forall l, StronglySorted (fun a b => le a b = true) (sortBy le l).
  Proof. induction l as [|x t IH]; [constructor|]. unfold sortBy in *. cbn [fold_right]. apply insert_sorted, IH. Qed.
End Sort.
Lemma pairLe_total : forall x y, pairLe x y = false -> pairLe y x = true.
Proof. intros [a b] [c d]. unfold pairLe. cbn [fst snd]. intros H. lia. Qed.
Lemma pairLe_trans : forall x y z, pairLe x y = true -> pairLe y z = true -> pairLe x z = true.
Proof. intros [a b] [c d] [e f]. unfold pairLe. cbn [fst snd]. intros H1 H2. lia. Qed.
Lemma sort_pairs : forall l, NoDup (map fst l) -> StronglySorted (fun p q => fst p < fst q) (sortBy pairLe l) /\ (forall p, In p (sortBy pairLe l) <-> In p l).
Proof.
  intros l ND. assert (P := sort_perm pairLe l). split.
  - assert (ND' : NoDup (map fst (sortBy pairLe l))).
    { eapply Permutation_NoDup; [|exact ND]. apply Permutation_map. symmetry. exact P. }
    pose proof (sort_sorted pairLe pairLe_total pairLe_trans l) as S. revert S ND'. generalize (sortBy pairLe l). clear.
    intros l S. induction S as [|p t S IH F]; intros ND; [constructor|]. cbn [map] in ND. inversion ND as [|? ? N ND']; subst.
    constructor; [apply IH, ND'|]. rewrite Forall_forall in *. intros q Hq. specialize (F q Hq). unfold pairLe in F.
    assert (fst p <> fst q) by (intros E; apply N; rewrite E; apply in_map, Hq). lia.
  - intros p. split; apply Permutation_in; [exact P|symmetry; exact P].
Qed.

(** ** The matrix of two elements *)
Lemma filter_one : forall {A} (P : A -> bool) (l : list A) k x, nth_error l k = Some x -> P x = true ->
  (forall j y, nth_error l j = Some y -> P y = true -> j = k) -> filter P l = [x].
Proof.
  intros A P l. induction l as [|a t IH]; intros [|k] x E Px H; cbn in E; try discriminate.
  - inversion E; subst. cbn [filter]. rewrite Px. f_equal.
    assert (G : forall y, In y t -> P y = false).
    { intros y Hy. apply In_nth_error in Hy as [j Hj]. destruct (P y) eqn:Ey; [|reflexivity]. specialize (H (S j) y Hj Ey). discriminate. }
    clear -G. induction t as [|b t IH]; [reflexivity|]. cbn [filter]. rewrite (G b) by (left; reflexivity). apply IH. intros; apply G; right; assumption.
  - cbn [filter]. destruct (P a) eqn:Ea; [specialize (H 0%nat a eq_refl Ea); discriminate|].
    apply (IH k); auto. intros j y Hj Hy. specialize (H (S j) y Hj Hy). congruence.
Qed.

Section Mesh.
  Variables (m : cmesh) (n : nat) (nodes : Z -> list (nat * nat)).
  Hypothesis G : conforming m n nodes.
  Let ne := Z.of_nat (cm_ne m).

  Lemma dofs_at : forall e, inR e ne -> zget (cm_dofs m) e = Ok (map (fun k => e * Z.of_nat n + k) (zseq n)).
  Proof.
    intros e He. pose proof (g_dofs _ _ _ G e He) as E. unfold inR, ne, cm_ne in He. rewrite <- E. apply zget_nth. exact He.
  Qed.
  Lemma ndof_at : forall e, inR e ne -> ndofOf m e = n.
  Proof. intros e He. unfold ndofOf. rewrite (dofs_at e He), map_length, zseq_length. reflexivity. Qed.
  Lemma face_at : forall f, inF m f -> zget (cm_face m) f = Ok (faceAt m f).
  Proof. intros f Hf. apply zget_nth. exact Hf. Qed.

  Lemma locate_two : forall a b r, inR a ne -> inR b ne ->
    locate m [a; b] r = if (r <? n)%nat then Some (a, r) else if (r - n <? n)%nat then Some (b, (r - n)%nat) else None.
  Proof. intros a b r Ha Hb. cbn [locate]. rewrite !ndof_at by assumption. reflexivity. Qed.

  Section Face.
    Variable f : Z.
    Hypothesis Hf : inF m f.
    Hypothesis Hi : interior m f.
    Let F := faceAt m f.
    Lemma ends : inR (cf_e1 F) ne /\ inR (cf_e2 F) ne /\ cf_e1 F < cf_e2 F.
    Proof.
      pose proof (g_el1 _ _ _ G f Hf) as H1. pose proof (g_int _ _ _ G f Hf Hi) as [H2 _]. unfold interior in Hi. subst F. fold ne in H1, H2.
      unfold inR in *. repeat split; lia.
    Qed.
    Lemma only_face : filter (fun F' => memZ (cf_e1 F') [cf_e1 F; cf_e2 F] && memZ (cf_e2 F') [cf_e1 F; cf_e2 F]) (cm_face m) = [F].
    Proof.
      destruct ends as [E1 [E2 E3]].
      apply (filter_one _ _ (Z.to_nat f)).
      - unfold F, faceAt. apply nth_error_nth'. unfold inF in Hf. lia.
      - unfold memZ. cbn [existsb]. rewrite !Z.eqb_refl. rewrite !orb_true_r. reflexivity.
      - intros j F' Hj HP.
        assert (Hj' : inF m (Z.of_nat j)).
        { unfold inF. assert (j < length (cm_face m))%nat by (apply nth_error_Some; congruence). lia. }
        assert (EF : faceAt m (Z.of_nat j) = F').
        { unfold faceAt. rewrite Nat2Z.id. apply nth_error_nth, Hj. }
        apply andb_prop in HP as [P1 P2]. unfold memZ in P1, P2. cbn [existsb] in P1, P2. rewrite orb_false_r in P1, P2.
        apply orb_prop in P1. apply orb_prop in P2. rewrite !Z.eqb_eq in P1, P2.
        assert (HI : interior m (Z.of_nat j)) by (unfold interior; rewrite EF; unfold inR in *; destruct P2 as [-> | ->]; lia).
        pose proof (g_int _ _ _ G _ Hj' HI) as [[L1 L2] _]. rewrite EF in L1.
        assert (f = Z.of_nat j) by (apply (g_one _ _ _ G); rewrite ?EF; auto; fold F; lia). lia.
    Qed.
    Lemma flux_two : exists A, interiorFluxMatrix m [cf_e1 F; cf_e2 F] = Ok A /\
      forall r c, (r < n + n)%nat -> (c < n + n)%nat ->
        A r c = suml (fun q => q_w q * 2 * (shape (cf_geo F) q r * shape (cf_geo F) q c))%R (f_pts (cf_geo F)).
    Proof.
      destruct ends as [E1 [E2 E3]]. pose proof (g_int _ _ _ G f Hf Hi) as [_ [C _]]. fold F in C.
      destruct C as [W [C1 [C2 _]]]. destruct (flux_entry (cf_geo F) W) as [M [EM HM]].
      assert (S2 : faceSize (cf_geo F) = (n + n)%nat) by (unfold faceSize; rewrite C1, C2; reflexivity).
      unfold interiorFluxMatrix. rewrite only_face. cbn [mapM]. rewrite EM. cbn [bind].
      eexists. split; [reflexivity|]. intros r c Hr Hc. cbv beta. rewrite !locate_two by assumption.
      assert (Q : (cf_e2 F =? cf_e1 F) = false) by (apply Z.eqb_neq; lia).
      rewrite <- (HM r c) by (rewrite S2; assumption).
      destruct (Nat.ltb_spec r n) as [Lr|Lr].
      - destruct (Nat.ltb_spec c n) as [Lc|Lc].
        + cbn [map fold_right fst snd]. unfold faceEntry. rewrite !Z.eqb_refl. ring.
        + replace (c - n <? n)%nat with true by (symmetry; apply Nat.ltb_lt; lia).
          cbn [map fold_right fst snd]. unfold faceEntry. rewrite !Z.eqb_refl, Q, C1. replace (n + (c - n))%nat with c by lia. ring.
      - replace (r - n <? n)%nat with true by (symmetry; apply Nat.ltb_lt; lia).
        destruct (Nat.ltb_spec c n) as [Lc|Lc].
        + cbn [map fold_right fst snd]. unfold faceEntry. rewrite !Z.eqb_refl, Q, C1. replace (n + (r - n))%nat with r by lia. ring.
        + replace (c - n <? n)%nat with true by (symmetry; apply Nat.ltb_lt; lia).
          cbn [map fold_right fst snd]. unfold faceEntry. rewrite !Z.eqb_refl, Q, C1. replace (n + (r - n))%nat with r by lia. replace (n + (c - n))%nat with c by lia. ring.
    Qed.
    Lemma node_pairs : exists ps, nodePairs m F [cf_e1 F; cf_e2 F] = Ok ps /\ NoDup (map fst ps) /\ NoDup (map snd ps) /\
      StronglySorted (fun p q => fst p < fst q) ps /\
      forall p, In p ps <-> exists ij, In ij (nodes f) /\ p = (gdof n (cf_e1 F) (fst ij), gdof n (cf_e2 F) (snd ij)).
    Proof.
      destruct ends as [E1 [E2 E3]]. pose proof (g_int _ _ _ G f Hf Hi) as [_ [C S]]. fold F in C, S.
      destruct flux_two as [A [EA HA]]. destruct (map_conn (cf_geo F) n (nodes f) A C S HA) as [l [El [Sl Hl]]].
      unfold nodePairs. rewrite EA. cbn [bind]. replace (subDofs m [cf_e1 F; cf_e2 F]) with (n + n)%nat
        by (unfold subDofs; cbn [fold_right]; rewrite !ndof_at by assumption; lia).
      rewrite El. cbn [bind]. rewrite !dofs_at by assumption. cbn [bind]. rewrite map_length, zseq_length.
      pose proof C as [_ [_ [_ [N1 [N2 [R _]]]]]]. rewrite Forall_forall in R.
      assert (D : forall e (k : nat), (k < n)%nat -> zget (map (fun k => e * Z.of_nat n + k) (zseq n)) (Z.of_nat k) = Ok (gdof n e k)).
      { intros e k Hk. rewrite (zget_nth _ _ 0) by (rewrite map_length, zseq_length; lia). f_equal. unfold gdof.
        rewrite Nat2Z.id. rewrite (nth_indep _ 0 (e * Z.of_nat n + 0)) by (rewrite map_length, zseq_length; lia).
        rewrite (map_nth (fun k => e * Z.of_nat n + k)). f_equal. unfold zseq. rewrite (nth_indep _ 0 (Z.of_nat 0)) by (rewrite map_length, seq_length; lia).
        rewrite map_nth. rewrite seq_nth by lia. reflexivity. }
      rewrite (mapM_in _ (fun rc => (gdof n (cf_e1 F) (fst rc), gdof n (cf_e2 F) (snd rc - n)))).
      2:{ intros rc Hrc. apply Hl in Hrc as [ij [Hij ->]]. cbn [fst snd]. destruct (R ij Hij) as [R1 R2].
          rewrite D by exact R1. cbn [bind]. replace (Z.of_nat (n + snd ij) - Z.of_nat n) with (Z.of_nat (snd ij)) by lia.
          rewrite D by exact R2. cbn [bind]. repeat f_equal. lia. }
      eexists. split; [reflexivity|].
      assert (SS : StronglySorted (fun p q => fst p < fst q) (map (fun rc => (gdof n (cf_e1 F) (fst rc), gdof n (cf_e2 F) (snd rc - n))) l)).
      { apply (sorted_map _ (fun p q : nat * nat => (fst p < fst q)%nat)); [|exact Sl]. intros x y _ _ L. cbn [fst]. unfold gdof. lia. }
      assert (IN : forall p, In p (map (fun rc => (gdof n (cf_e1 F) (fst rc), gdof n (cf_e2 F) (snd rc - n))) l) <->
        exists ij, In ij (nodes f) /\ p = (gdof n (cf_e1 F) (fst ij), gdof n (cf_e2 F) (snd ij))).
      { intros p. rewrite in_map_iff. split.
        - intros [rc [<- Hrc]]. apply Hl in Hrc as [ij [Hij ->]]. exists ij. split; [exact Hij|]. cbn [fst snd]. repeat f_equal. lia.
        - intros [ij [Hij ->]]. exists (fst ij, (n + snd ij)%nat). split; [cbn [fst snd]; repeat f_equal; lia|]. apply Hl. exists ij. auto. }
      split; [|split; [|split; [exact SS|exact IN]]].
      - clear -SS. induction SS as [|p t S IH Fo]; [constructor|]. cbn [map]. constructor; [|exact IH].
        intros H. apply in_map_iff in H as [q [E Hq]]. rewrite Forall_forall in Fo. specialize (Fo q Hq). lia.
      - rewrite map_map. cbn [snd]. clear -Sl Hl N2 C.
        assert (Hl' : forall p, In p l -> exists ij, In ij (nodes f) /\ p = (fst ij, (n + snd ij)%nat)) by (intros p Hp; apply Hl, Hp).
        clear Hl. induction Sl as [|p t S IH Fo]; [constructor|]. cbn [map]. constructor; [|apply IH; intros; apply Hl'; right; assumption].
        intros H. apply in_map_iff in H as [q [E Hq]]. destruct (Hl' p (or_introl eq_refl)) as [ij [Hij ->]]. destruct (Hl' q (or_intror Hq)) as [kl [Hkl ->]].
        cbn [snd] in E. unfold gdof in E. assert (snd kl = snd ij) by lia.
        rewrite Forall_forall in Fo. specialize (Fo _ Hq). cbn [fst] in Fo.
        assert (ij = kl); [|subst; lia].
        revert N2 Hij Hkl H. generalize (nodes f). clear. induction l as [|a t IH]; intros ND H1 H2 E; [destruct H1|].
        cbn [map] in ND. inversion ND as [|? ? N ND']; subst. destruct H1 as [<-|H1], H2 as [<-|H2]; try reflexivity.
        + exfalso. apply N. rewrite <- E. apply in_map, H2.
        + exfalso. apply N. rewrite E. apply in_map, H1.
        + apply IH; assumption.
    Qed.
    Lemma interior_block : forall e, e = cf_e1 F \/ e = cf_e2 F ->
      exists l, interiorBlock m F [cf_e1 F; cf_e2 F] e = Ok l /\ isBlock m n nodes e f l.
    Proof.
      intros e He. destruct node_pairs as [ps [Ep [N1 [N2 [_ Hp]]]]]. destruct ends as [E1 [E2 E3]].
      unfold interiorBlock. rewrite Ep. cbn [bind].
      assert (Ic : (0 <=? cf_e2 (faceAt m f)) = true) by (apply Z.leb_le; exact Hi).
      destruct (Z.eqb_spec (cf_e1 F) e) as [H1|H1].
      - destruct (sort_pairs ps N1) as [S I]. eexists. split; [reflexivity|]. split; [exact S|]. intros p. rewrite I, Hp.
        unfold seenFrom. rewrite Ic. fold F. rewrite <- H1, Z.eqb_refl. reflexivity.
      - destruct He as [-> |He]; [congruence|]. rewrite <- He, Z.eqb_refl.
        assert (NS : NoDup (map fst (map swapP ps))) by (rewrite map_map; exact N2).
        destruct (sort_pairs _ NS) as [S I]. eexists. split; [reflexivity|]. split; [exact S|]. intros p. rewrite I, in_map_iff.
        unfold seenFrom. rewrite Ic. fold F. replace (e =? cf_e1 F) with false by (symmetry; apply Z.eqb_neq; congruence).
        split.
        + intros [q [<- Hq]]. apply Hp in Hq as [ij [Hij ->]]. exists ij. split; [exact Hij|]. reflexivity.
        + intros [ij [Hij ->]]. exists (gdof n (cf_e1 F) (fst ij), gdof n (cf_e2 F) (snd ij)). split; [reflexivity|]. apply Hp. exists ij. auto.
    Qed.
  End Face.

  Lemma diag_boundary : forall f, inF m f -> ~ interior m f -> exists M, hesthavenFlux (cf_geo (faceAt m f)) = Ok M /\
    (forall r, (r < n)%nat -> (In r (map fst (nodes f)) -> connTol < M r r)%R /\ (~ In r (map fst (nodes f)) -> M r r = 0%R)).
  Proof.
    intros f Hf Hi. destruct (g_bdr _ _ _ G f Hf Hi) as [_ [W [C1 [C2 [ND [R [Z1 P]]]]]]].
    destruct (flux_entry _ W) as [M [EM HM]]. exists M. split; [exact EM|]. intros r Hr.
    assert (S : faceSize (cf_geo (faceAt m f)) = n) by (unfold faceSize; rewrite C1, C2; lia).
    rewrite HM by (rewrite S; exact Hr).
    assert (Sh : forall q, shape (cf_geo (faceAt m f)) q r = sh1 q r).
    { intros q. unfold shape. rewrite C1. replace (r <? n)%nat with true; [reflexivity|symmetry; apply Nat.ltb_lt; exact Hr]. }
    split; intros Hn.
    - apply in_map_iff in Hn as [ij [<- Hij]]. replace (suml _ _) with (overlap (cf_geo (faceAt m f)) (fst ij) (fst ij)); [apply P, Hij|].
      unfold overlap. apply suml_ext. intros q Hq. rewrite !Sh. reflexivity.
    - rewrite (suml_ext _ (fun _ => 0%R)); [unfold suml; clear; induction (f_pts _); cbn [map fold_right]; [reflexivity|rewrite IHl; apply Rplus_0_l]|].
      intros q Hq. rewrite Sh, (Z1 q r Hq Hr Hn). ring.
  Qed.

  Lemma boundary_block : forall f, inF m f -> ~ interior m f -> forall e, e = cf_e1 (faceAt m f) ->
    exists l, boundaryBlock m (faceAt m f) [e] e = Ok l /\ isBlock m n nodes e f l.
  Proof.
    intros f Hf Hi e He. pose proof (g_el1 _ _ _ G f Hf) as H1. fold ne in H1. rewrite <- He in H1.
    destruct (g_bdr _ _ _ G f Hf Hi) as [_ [_ [_ [_ [ND [R _]]]]]]. rewrite Forall_forall in R.
    destruct (diag_boundary f Hf Hi) as [M [EM HM]].
    unfold boundaryBlock. rewrite Z.eqb_refl. rewrite dofs_at by exact H1. cbn [bind]. rewrite EM. cbn [bind].
    rewrite map_length, zseq_length.
    set (L := filter _ (seq 0 n)).
    assert (HL : forall r, In r L <-> In r (map fst (nodes f))).
    { intros r. unfold L. rewrite filter_In, in_seq. split.
      - intros [Hr Hd]. destruct (HM r) as [_ Z0]; [lia|]. destruct (in_dec Nat.eq_dec r (map fst (nodes f))) as [H|H]; [exact H|].
        rewrite (Z0 H), Rabs_R0 in Hd. unfold surfaceTol in Hd. destruct (Rlt_dec (1 / 100000000) 0); [lra|discriminate].
      - intros H. assert (Hr : (r < n)%nat) by (apply in_map_iff in H as [ij [<- Hij]]; apply R, Hij). split; [lia|].
        destruct (HM r Hr) as [P _]. specialize (P H). unfold surfaceTol, connTol in *.
        destruct (Rlt_dec (1 / 100000000) (Rabs (M r r))) as [_|N]; [reflexivity|]. exfalso. apply N. rewrite Rabs_pos_eq; lra. }
    rewrite (mapM_in _ (fun r => (gdof n e r, gdof n e r))).
    2:{ intros r Hr. unfold L in Hr. apply filter_In in Hr as [Hr _]. apply in_seq in Hr.
        rewrite (zget_nth _ _ 0) by (rewrite map_length, zseq_length; lia). cbn [bind]. unfold gdof. rewrite Nat2Z.id.
        rewrite (nth_indep _ 0 (e * Z.of_nat n + 0)) by (rewrite map_length, zseq_length; lia).
        rewrite (map_nth (fun k => e * Z.of_nat n + k)). unfold zseq. rewrite (nth_indep _ 0 (Z.of_nat 0)) by (rewrite map_length, seq_length; lia).
        rewrite map_nth. rewrite seq_nth by lia. reflexivity. }
    eexists. split; [reflexivity|]. split.
    - apply (sorted_map _ lt); [intros x y _ _ Hxy; cbn [fst]; unfold gdof; lia|]. unfold L. apply sorted_filter, sorted_seq.
    - intros p. rewrite in_map_iff. unfold seenFrom. replace (0 <=? cf_e2 (faceAt m f)) with false by (symmetry; apply Z.leb_gt; unfold interior in Hi; lia).
      split.
      + intros [r [<- Hr]]. apply HL in Hr. apply in_map_iff in Hr as [ij [<- Hij]]. exists ij. auto.
      + intros [ij [Hij ->]]. exists (fst ij). split; [reflexivity|]. apply HL. apply in_map, Hij.
  Qed.

  (** ** One face, and all of them *)
  Lemma face_block : forall e f, inR e ne -> In f (nth (Z.to_nat e) (cm_elface m) []) ->
    exists l, faceBlock m (cm_attr m) e f (cm_attr m) = Ok (l, cm_attr m) /\ isBlock m n nodes e f l.
  Proof.
    intros e f He Hin. destruct (g_faces _ _ _ G e f He Hin) as [Hf Ht].
    assert (La : Z.of_nat (length (cm_attr m)) = ne) by (unfold ne; rewrite (g_attr _ _ _ G); reflexivity).
    unfold faceBlock, faceIsInterior. rewrite (face_at f Hf). cbn [bind].
    destruct (Z.leb_spec 0 (cf_e2 (faceAt m f))) as [Hi|Hi]; cbn [negb].
    - assert (HI : interior m f) by exact Hi. destruct (ends f Hf HI) as [E1 [E2 E3]]. unfold inR in E1, E2.
      rewrite submesh_two; [|apply (g_tag _ _ _ G)|lia|lia]. cbn [bind].
      unfold restore2. rewrite restore_same by lia. cbn [bind].
      assert (ER : (if cf_e2 (faceAt m f) =? 0 then Ok (cm_attr m) else restore1 (cm_attr m) (cf_e2 (faceAt m f)) (cm_attr m)) = Ok (cm_attr m)).
      { destruct (cf_e2 (faceAt m f) =? 0); [reflexivity|apply restore_same; lia]. }
      rewrite ER. cbn [bind]. destruct (interior_block f Hf HI e) as [l [El Bl]]; [destruct Ht; auto|].
      rewrite El. cbn [bind]. exists l. auto.
    - assert (HI : ~ interior m f) by (unfold interior; lia). destruct (g_bdr _ _ _ G f Hf HI) as [Em1 _].
      assert (He1 : e = cf_e1 (faceAt m f)) by (unfold inR in He; destruct Ht; lia).
      rewrite submesh_one; [|apply (g_tag _ _ _ G)|unfold inR in He; lia]. cbn [bind].
      destruct (boundary_block f Hf HI e He1) as [l [El Bl]]. rewrite El. cbn [bind]. exists l. auto.
  Qed.

  Lemma element_blocks : forall e, inR e ne -> forall fs g, (forall f, In f fs -> In f (nth (Z.to_nat e) (cm_elface m) [])) ->
    exists bs, foldM (fun st f => ' (blk, attrs') <- faceBlock m (cm_attr m) e f (snd st) ;; Ok (fst st ++ blk, attrs')) fs (g, cm_attr m)
      = Ok (g ++ concat bs, cm_attr m) /\ Forall2 (isBlock m n nodes e) fs bs.
  Proof.
    intros e He fs. induction fs as [|f t IH]; intros g H.
    - exists []. cbn [foldM concat]. rewrite app_nil_r. split; [reflexivity|constructor].
    - destruct (face_block e f He (H f (or_introl eq_refl))) as [l [El Bl]].
      destruct (IH (g ++ l)) as [bs [Eb Fb]]; [intros; apply H; right; assumption|].
      exists (l :: bs). cbn [foldM fst snd]. rewrite El. cbn [bind]. rewrite Eb. cbn [concat]. rewrite app_assoc.
      split; [reflexivity|constructor; assumption].
  Qed.

  Lemma global_map : exists g, globalConnectivity m = Ok g /\ isGlobal m n nodes g.
  Proof.
    unfold globalConnectivity, isGlobal.
    assert (H : forall l g, (forall e, In e l -> inR e ne) -> exists blocks,
      foldM (fun st e => fs <- zget (cm_elface m) e ;;
        foldM (fun st f => ' (blk, attrs') <- faceBlock m (cm_attr m) e f (snd st) ;; Ok (fst st ++ blk, attrs')) fs st) l (g, cm_attr m)
      = Ok (g ++ concat (map (@concat _) blocks), cm_attr m) /\
      Forall2 (fun e bs => Forall2 (isBlock m n nodes e) (nth (Z.to_nat e) (cm_elface m) []) bs) l blocks).
    { intros l. induction l as [|e t IH]; intros g Hl.
      - exists []. cbn [foldM map concat]. rewrite app_nil_r. split; [reflexivity|constructor].
      - assert (He : inR e ne) by (apply Hl; left; reflexivity).
        destruct (element_blocks e He (nth (Z.to_nat e) (cm_elface m) []) g) as [bs [Eb Fb]]; [auto|].
        destruct (IH (g ++ concat bs)) as [blocks [EB FB]]; [intros; apply Hl; right; assumption|].
        exists (bs :: blocks). cbn [foldM]. rewrite (zget_nth (cm_elface m) e []) by (rewrite (g_elface _ _ _ G); exact He).
        cbn [bind]. rewrite Eb. cbn [bind]. rewrite EB. cbn [map concat]. rewrite app_assoc. split; [reflexivity|constructor; assumption]. }
    destruct (H (zseq (cm_ne m)) []) as [blocks [E F2]].
    { intros e He. apply in_zseq in He. exact He. }
    rewrite E. cbn [bind]. eexists. split; [reflexivity|]. exists blocks. auto.
  Qed.
End Mesh.

(** The maps of the boundary conditions. *)
From Coq Require Import ZArith List Bool Lia Reals Lra Sorted Permutation.
From Verif Require Import Common Face_Model Face_Spec Face_Proofs Nodal_Model Nodal_Spec NodalMult_Proofs Nodal_Proofs Setup_Model Conn_Model Conn_Spec ConnFlux_Proofs Conn_Proofs ConnPos_Proofs.
Import ListNotations.
Local Open Scope Z_scope.

Lemma find_from : forall (l : list Z) x j k, (j < length l)%nat -> nth j l 0 = x ->
  (forall i, (i < length l)%nat -> nth i l 0 = x -> i = j) -> findFrom k x l = k + Z.of_nat j.
Proof.
  induction l as [|y t IH]; intros x j k Hj Ex U; [cbn in Hj; lia|]. cbn [findFrom]. destruct (Z.eqb_spec x y) as [E|E].
  - assert (0%nat = j) as <- by (apply U; [cbn; lia|cbn; congruence]). lia.
  - destruct j as [|j]; [cbn in Ex; congruence|]. rewrite (IH x j (k + 1)).
    + lia.
    + cbn in Hj. lia.
    + exact Ex.
    + intros i Hi Ei. assert (S i = S j); [|congruence]. apply U; [cbn; lia|exact Ei].
Qed.
Lemma nth_upd : forall {A} (l : list A) i j a d, (i < length l)%nat -> nth j (upd l i a) d = if (j =? i)%nat then a else nth j l d.
Proof.
  intros A l. induction l as [|x t IH]; intros i j a d H; [cbn in H; lia|]. destruct i as [|i], j as [|j]; cbn; try reflexivity.
  apply IH. cbn in H. lia.
Qed.

Lemma firstn_last : forall {A} (l : list A) k d, (k < length l)%nat -> firstn (S k) l = firstn k l ++ [nth k l d].
Proof.
  intros A l. induction l as [|x t IH]; intros [|k] d H; cbn in *; try lia; [reflexivity|]. f_equal. apply IH. lia.
Qed.

Section Bdr.
  Variables (m : cmesh) (n : nat) (nodes : Z -> list (nat * nat)).
  Hypothesis G : conforming m n nodes.
  Variable mks : list (cond * list Z).
  Hypothesis W : wfBdrs m mks.

  Lemma bdr_at : forall b, inB m b -> zget (cm_bdr m) b = Ok (bdrFace m b, bdrAttr m b).
  Proof. intros b Hb. rewrite (zget_nth _ _ (0, 0)) by exact Hb. unfold bdrFace, bdrAttr. rewrite <- surjective_pairing. reflexivity. Qed.
  Lemma bdr_inj : forall b b', inB m b -> inB m b' -> bdrFace m b = bdrFace m b' -> b = b'.
  Proof.
    intros b b' Hb Hb' E. destruct W as [ND _]. unfold inB, bdrFace in *.
    pose proof (proj1 (NoDup_nth (map fst (cm_bdr m)) 0) ND (Z.to_nat b) (Z.to_nat b')) as H. rewrite map_length in H.
    assert (Z.to_nat b = Z.to_nat b'); [|lia]. apply H; [lia|lia|]. change 0 with (fst (0, 0)). rewrite !map_nth. exact E.
  Qed.
  Lemma face_to_bdr : exists l, faceToBdr m = Ok l /\ length l = length (cm_face m) /\
    (forall b, inB m b -> nth (Z.to_nat (bdrFace m b)) l 0 = b) /\
    (forall j, (j < length l)%nat -> nth j l 0 = -1 \/ (inB m (nth j l 0) /\ bdrFace m (nth j l 0) = Z.of_nat j)).
  Proof.
    unfold faceToBdr. destruct W as [_ [HF _]].
    assert (H : forall k, (k <= length (cm_bdr m))%nat -> exists l,
      foldM (fun l b => ' (f, _) <- zget (cm_bdr m) b ;; zset l f b) (zseq k) (repeat (-1) (length (cm_face m))) = Ok l /\
      length l = length (cm_face m) /\
      (forall b, 0 <= b < Z.of_nat k -> nth (Z.to_nat (bdrFace m b)) l 0 = b) /\
      (forall j, (j < length l)%nat -> nth j l 0 = -1 \/ (inB m (nth j l 0) /\ bdrFace m (nth j l 0) = Z.of_nat j))).
    { induction k as [|k IH]; intros Hk.
      - eexists. split; [reflexivity|]. rewrite repeat_length. split; [reflexivity|]. split; [intros; lia|].
        intros j Hj. left. apply nth_repeat with (n := length (cm_face m)) (a := -1) || idtac.
        rewrite (nth_indep _ 0 (-1)) by (rewrite repeat_length; exact Hj). apply nth_repeat.
      - destruct IH as [l [El [Ll [H1 H2]]]]; [lia|]. rewrite zseq_S, foldM_app, El. cbn [bind foldM].
        assert (Hb : inB m (Z.of_nat k)) by (unfold inB; lia). rewrite bdr_at by exact Hb. cbn [bind].
        pose proof (HF _ Hb) as Hf. unfold inF in Hf. rewrite zset_in_range by (rewrite Ll; exact Hf). cbn [bind].
        eexists. split; [reflexivity|]. rewrite upd_length. split; [exact Ll|]. split.
        + intros b Hlt. rewrite nth_upd by lia. destruct (Nat.eqb_spec (Z.to_nat (bdrFace m b)) (Z.to_nat (bdrFace m (Z.of_nat k)))) as [E|E].
          * assert (Hb2 : inB m b) by (unfold inB; lia). pose proof (HF _ Hb2) as Hf2. unfold inF in Hf2. apply bdr_inj; auto. lia.
          * apply H1. assert (b <> Z.of_nat k) by (intros ->; apply E; reflexivity). lia.
        + intros j Hj. rewrite nth_upd by lia. destruct (Nat.eqb_spec j (Z.to_nat (bdrFace m (Z.of_nat k)))) as [E|E].
          * right. split; [exact Hb|]. lia.
          * apply H2. lia. }
    destruct (H (length (cm_bdr m)) (Nat.le_refl _)) as [l [El [Ll [H1 H2]]]]. exists l. auto.
  Qed.
  Lemma true_bdr : trueBdrElements m = Ok (trueB m).
  Proof.
    unfold trueBdrElements. destruct face_to_bdr as [l [El [Ll [H1 H2]]]]. rewrite El. cbn [bind]. destruct W as [_ [HF _]].
    assert (FI : forall b, inB m b -> faceIsInterior m (findFrom 0 b l) = Ok (negb (isTrueB m b))).
    { intros b Hb. pose proof (HF b Hb) as Hf. unfold inF in Hf.
      rewrite (find_from l b (Z.to_nat (bdrFace m b)) 0).
      - rewrite Z2Nat.id, Z.add_0_l by lia. unfold faceIsInterior. rewrite (face_at m) by (apply HF, Hb). cbn [bind]. unfold isTrueB. rewrite negb_involutive. reflexivity.
      - lia.
      - apply H1, Hb.
      - intros i Hi Ei. destruct (H2 i Hi) as [E|[_ E]]; [unfold inB in Hb; lia|]. rewrite Ei in E. lia. }
    unfold trueB.
    assert (Gn : forall bs acc, (forall b, In b bs -> inB m b) ->
      foldM (fun acc b => i <- faceIsInterior m (findFrom 0 b l) ;; Ok (if i : bool then acc else acc ++ [b])) bs acc = Ok (acc ++ filter (isTrueB m) bs)).
    { induction bs as [|b t IH]; intros acc Hbs; cbn [foldM filter]; [rewrite app_nil_r; reflexivity|].
      rewrite FI by (apply Hbs; left; reflexivity). cbn [bind]. destruct (isTrueB m b); cbn [negb]; rewrite IH by (intros; apply Hbs; right; assumption); rewrite <- ?app_assoc; reflexivity. }
    apply (Gn _ []). intros b Hb. apply in_zseq in Hb. exact Hb.
  Qed.

  Lemma bdr_key : forall b, inB m b -> faceOrder m n nodes -> isKey m (cf_e1 (faceAt m (bdrFace m b))) (bdrFace m b).
  Proof.
    intros b Hb O. destruct W as [_ [HF _]]. pose proof (HF b Hb) as Hf. split; [apply (g_el1 _ _ _ G _ Hf)|apply (o_listed _ _ _ O _ Hf)].
  Qed.

  Lemma bdr_nodes : forall b B, inB m b -> isTrueB m b = true -> faceOrder m n nodes ->
    isBlock m n nodes (cf_e1 (faceAt m (bdrFace m b))) (bdrFace m b) B -> nodesOfBdr m b = Ok (map fst B).
  Proof.
    intros b B Hb Ht O HB. unfold nodesOfBdr. rewrite bdr_at by exact Hb. cbn [bind]. destruct W as [_ [HF _]]. pose proof (HF b Hb) as Hf.
    set (f := bdrFace m b) in *. rewrite (face_at m f Hf). cbn [bind]. pose proof (g_el1 _ _ _ G f Hf) as He. set (e := cf_e1 (faceAt m f)) in *.
    rewrite (dofs_at m n nodes G e He). cbn [bind].
    assert (Hi : ~ interior m f) by (unfold isTrueB in Ht; fold f in Ht; unfold interior; destruct (Z.leb_spec 0 (cf_e2 (faceAt m f))); [discriminate|lia]).
    destruct (diag_boundary m n nodes G f Hf Hi) as [M [EM HM]]. rewrite EM. cbn [bind]. f_equal.
    assert (K : isKey m e f) by (apply bdr_key; assumption).
    apply (sorted_ext Z.lt); try (intros; lia).
    - apply sorted_filter, sorted_zseq.
    - apply (sorted_map _ (fun x y : Z * Z => fst x < fst y)); [auto|apply HB].
    - intros r. rewrite filter_In, in_zseq. rewrite map_length, zseq_length.
      assert (Sum : forall i, (i < n)%nat -> fold_right Rplus 0%R (map (fun i0 => if nth i0 (map (fun k => e * Z.of_nat n + k) (zseq n)) (-1) =? gdof n e i then M i0 i0 else 0%R) (seq 0 n)) = M i i).
      { intros i Hin. change (sumN n (fun i0 => if nth i0 (map (fun k => e * Z.of_nat n + k) (zseq n)) (-1) =? gdof n e i then M i0 i0 else 0%R) = M i i).
        rewrite (sumN_ext n _ (fun i0 => if (i0 =? i)%nat then M i0 i0 else 0%R)); [apply (sumN_delta n i (fun i0 => M i0 i0) Hin)|].
        intros i0 Hi0. rewrite (nth_indep _ (-1) (e * Z.of_nat n + 0)) by (rewrite map_length, zseq_length; lia).
        rewrite (map_nth (fun k => e * Z.of_nat n + k)). unfold zseq. rewrite (nth_indep _ 0 (Z.of_nat 0)) by (rewrite map_length, seq_length; lia).
        rewrite map_nth, seq_nth by lia. unfold gdof. destruct (Nat.eqb_spec i0 i) as [->|N]; [rewrite Z.eqb_refl; reflexivity|].
        replace (_ =? _) with false; [reflexivity|]. symmetry. apply Z.eqb_neq. lia. }
      assert (Out : (forall i, (i < n)%nat -> r <> gdof n e i) -> fold_right Rplus 0%R (map (fun i0 => if nth i0 (map (fun k => e * Z.of_nat n + k) (zseq n)) (-1) =? r then M i0 i0 else 0%R) (seq 0 n)) = 0%R).
      { intros Hr. change (sumN n (fun i0 => if nth i0 (map (fun k => e * Z.of_nat n + k) (zseq n)) (-1) =? r then M i0 i0 else 0%R) = 0%R).
        apply sumN_zero. intros i0 Hi0. rewrite (nth_indep _ (-1) (e * Z.of_nat n + 0)) by (rewrite map_length, zseq_length; lia).
        rewrite (map_nth (fun k => e * Z.of_nat n + k)). unfold zseq. rewrite (nth_indep _ 0 (Z.of_nat 0)) by (rewrite map_length, seq_length; lia).
        rewrite map_nth, seq_nth by lia. destruct (Z.eqb_spec (e * Z.of_nat n + Z.of_nat (0 + i0)) r) as [E|E]; [|reflexivity]. exfalso. apply (Hr i0 Hi0). unfold gdof. rewrite <- E. reflexivity. }
      assert (OL : forall ij, ownLocal m e f ij = fst ij) by (intros ij; unfold ownLocal, e; rewrite Z.eqb_refl, andb_false_r; reflexivity).
      split.
      + intros [Hr Hv].
        assert (Dec : (exists i, (i < n)%nat /\ r = gdof n e i) \/ (forall i, (i < n)%nat -> r <> gdof n e i)).
        { destruct (Z_le_gt_dec (e * Z.of_nat n) r) as [A1|A1]; [destruct (Z_lt_ge_dec r (e * Z.of_nat n + Z.of_nat n)) as [A2|A2]|].
          - left. exists (Z.to_nat (r - e * Z.of_nat n)). unfold gdof. split; lia.
          - right. intros i Hi0 ->. unfold gdof in A2. lia.
          - right. intros i Hi0 ->. unfold gdof in A1. lia. }
        destruct Dec as [[i [Hin ->]]|Hno]; [|rewrite (Out Hno), Rabs_R0 in Hv; unfold connTol in Hv; destruct (Rlt_dec (1 / 1000000) 0); [lra|discriminate]].
        rewrite (Sum i Hin) in Hv. destruct (HM i Hin) as [_ Z0].
        destruct (in_dec Nat.eq_dec i (map fst (nodes f))) as [H|H]; [|rewrite (Z0 H), Rabs_R0 in Hv; unfold connTol in Hv; destruct (Rlt_dec (1 / 1000000) 0); [lra|discriminate]].
        apply in_map_iff in H as [ij [<- Hij]]. apply in_map_iff. exists (seenFrom m n e f ij). split; [|apply HB; exists ij; auto].
        destruct (own_dof m n nodes G e f ij K Hij) as [D _]. rewrite D, OL. reflexivity.
      + intros H. apply in_map_iff in H as [p [<- Hp]]. apply HB in Hp as [ij [Hij ->]]. destruct (own_dof m n nodes G e f ij K Hij) as [D L].
        rewrite OL in D, L. rewrite D. split.
        * rewrite (g_N _ _ _ G). unfold gdof, inR in *. rewrite Z2Nat.id by lia. nia.
        * rewrite (Sum _ L). destruct (HM _ L) as [P _]. specialize (P (in_map fst _ _ Hij)).
          destruct (Rlt_dec connTol (Rabs (M (fst ij) (fst ij)))) as [_|N]; [reflexivity|]. exfalso. apply N. unfold connTol in *. rewrite Rabs_pos_eq; lra.
  Qed.
End Bdr.

Lemma sort_idem : forall l, StronglySorted Z.lt l -> sortBy Z.leb l = l.
Proof.
  intros l S. apply (sorted_ext Z.lt); try (intros; lia); [|exact S|].
  - assert (P := sort_perm Z.leb l). assert (ND : NoDup (sortBy Z.leb l)) by (eapply Permutation_NoDup; [symmetry; exact P|apply sorted_nodup, S]).
    assert (SS : StronglySorted (fun a b => Z.leb a b = true) (sortBy Z.leb l)).
    { apply sort_sorted; intros; rewrite ?Z.leb_le, ?Z.leb_gt in *; lia. }
    revert ND SS. generalize (sortBy Z.leb l). clear. intros l ND SS. induction SS as [|a t S IH F]; [constructor|]. inversion ND; subst.
    constructor; [apply IH; assumption|]. rewrite Forall_forall in *. intros x Hx. specialize (F x Hx). apply Z.leb_le in F.
    assert (a <> x) by (intros ->; contradiction). lia.
  - intros x. split; apply Permutation_in; [|symmetry]; apply sort_perm.
Qed.

Section Maps.
  Variables (m : cmesh) (n : nat) (nodes : Z -> list (nat * nat)) (g : list (Z * Z)).
  Hypothesis G : conforming m n nodes.
  Hypothesis O : faceOrder m n nodes.
  Hypothesis HG : isGlobal m n nodes g.

  Lemma find_ids : forall e f B, isKey m e f -> isBlock m n nodes e f B ->
    findMapBID (map fst B) g = Ok (range (start m nodes e f) (length (nodes f))).
  Proof.
    intros e f B K HB. unfold findMapBID. rewrite sort_idem by (apply (sorted_map _ (fun x y : Z * Z => fst x < fst y)); [auto|apply HB]).
    pose proof (len_block m n nodes G e f B K HB) as L. destruct (key_face m n nodes G e f K) as [Hf _].
    destruct (key_window m n nodes g G O HG e f K) as [B' [HB' [S0 [Hle HW]]]].
    assert (B' = B) as ->.
    { apply (sorted_ext (fun x y : Z * Z => fst x < fst y)); try (intros; lia); [apply HB'|apply HB|].
      intros p. destruct HB as [_ I], HB' as [_ I']. rewrite I, I'. reflexivity. }
    destruct (window_found (map fst B) g 0) as [p [E1 [E2 E3]]].
    - pose proof (o_some _ _ _ O f Hf). destruct B; [cbn in L; destruct (nodes f); [congruence|discriminate]|discriminate].
    - exists (Z.to_nat (start m nodes e f)). rewrite map_length, L. split; [exact Hle|]. rewrite HW. reflexivity.
    - rewrite map_length in *. rewrite E1, L. f_equal. unfold range. apply map_ext. intros i.
      rewrite <- (window_unique m n nodes g G O HG e f B p K HB E2 E3). lia.
  Qed.
  Lemma range_in : forall p k x, In x (range p k) <-> p <= x < p + Z.of_nat k.
  Proof.
    intros p k x. unfold range. rewrite in_map_iff. split.
    - intros [i [<- H]]. apply in_zseq in H. lia.
    - intros H. exists (x - p). split; [lia|apply in_zseq; lia].
  Qed.
  Lemma ids_valid : forall e f p, isKey m e f -> In p (range (start m nodes e f) (length (nodes f))) -> 0 <= p < Z.of_nat (length g).
  Proof.
    intros e f p K H. apply range_in in H. destruct (key_window m n nodes g G O HG e f K) as [B' [_ [S0 [Hle _]]]]. lia.
  Qed.
  Lemma ids_values : forall e f, isKey m e f -> mapM (fun i => p <- zget g i ;; Ok (fst p)) (range (start m nodes e f) (length (nodes f)))
    = Ok (map (fun p => fst (valAt g p)) (range (start m nodes e f) (length (nodes f)))).
  Proof.
    intros e f K. apply mapM_in. intros i Hi. apply (ids_valid e f) in Hi; [|exact K]. rewrite (zget_nth g i (0, 0)) by exact Hi. reflexivity.
  Qed.

  Lemma map_b_ok : exists mB vB, initMapB g = Ok mB /\ initVMapB g mB = Ok vB /\
    ((exists v, In (v, v) g) -> vB <> []).
  Proof.
    set (P := fun i => fst (valAt g i) =? snd (valAt g i)).
    assert (E : initMapB g = Ok (filter P (zseq (length g)))).
    { unfold initMapB. assert (H : forall l acc, (forall i, In i l -> 0 <= i < Z.of_nat (length g)) ->
        foldM (fun acc i => p <- zget g i ;; Ok (if fst p =? snd p then acc ++ [i] else acc)) l acc = Ok (acc ++ filter P l)).
      { induction l as [|i t IH]; intros acc Hl; cbn [foldM filter]; [rewrite app_nil_r; reflexivity|].
        rewrite (zget_nth g i (0, 0)) by (apply Hl; left; reflexivity). cbn [bind]. change (nth (Z.to_nat i) g (0, 0)) with (valAt g i).
        unfold P at 1. destruct (fst (valAt g i) =? snd (valAt g i)); rewrite IH by (intros; apply Hl; right; assumption); rewrite <- ?app_assoc; reflexivity. }
      apply (H _ []). intros i Hi. apply in_zseq in Hi. exact Hi. }
    exists (filter P (zseq (length g))), (map (fun i => fst (valAt g i)) (filter P (zseq (length g)))). split; [exact E|]. split.
    - unfold initVMapB. apply mapM_in. intros i Hi. apply filter_In in Hi as [Hi _]. apply in_zseq in Hi. rewrite (zget_nth g i (0, 0)) by exact Hi. reflexivity.
    - intros [v Hv] EN. apply In_nth with (d := (0, 0)) in Hv as [k [Hk Ek]].
      assert (In (Z.of_nat k) (filter P (zseq (length g)))) as H.
      { apply filter_In. split; [apply in_zseq; lia|]. unfold P, valAt. rewrite Nat2Z.id, Ek. cbn [fst snd]. apply Z.eqb_refl. }
      apply (in_map (fun i => fst (valAt g i))) in H. rewrite EN in H. destruct H.
  Qed.

  Section Markers.
    Variable mks : list (cond * list Z).
    Hypothesis W : wfBdrs m mks.
    Definition idsOf (b : Z) : list Z := let f := bdrFace m b in range (start m nodes (cf_e1 (faceAt m f)) f) (length (nodes f)).
    Definition addOne (s : bdrMaps) (bc : Z * cond) : bdrMaps :=
      pushBdr (snd bc) (idsOf (fst bc)) (map (fun p => fst (valAt g p)) (idsOf (fst bc))) s.
    Definition hits (mk0 : list (cond * list Z)) (b : Z) : list (Z * cond) :=
      map (fun mk => (b, fst mk)) (filter (fun mk => isMarked (snd mk) (bdrAttr m b)) mk0).

    Lemma marked_ok : forall b mk, inB m b -> In mk mks -> marked (snd mk) (bdrAttr m b) = Ok (isMarked (snd mk) (bdrAttr m b)).
    Proof.
      intros b mk Hb Hm. destruct W as [_ [_ HA]]. specialize (HA b mk Hb Hm). unfold marked, isMarked.
      rewrite (zget_nth (snd mk) (bdrAttr m b - 1) 0) by lia. reflexivity.
    Qed.

    Lemma bdr_maps_loop : forall s, initBdrMaps m g mks (trueB m) s = Ok (fold_left addOne (flat_map (hits mks) (trueB m)) s).
    Proof.
      intros s. unfold initBdrMaps. destruct map_b_ok as [mB [vB [E1 [E2 E3]]]]. rewrite E1. cbn [bind]. rewrite E2. cbn [bind].
      assert (TB : forall b, In b (trueB m) -> inB m b /\ isTrueB m b = true) by (intros b H; apply filter_In in H as [H1 H2]; apply in_zseq in H1; auto).
      assert (BL : forall b, In b (trueB m) -> exists B, isBlock m n nodes (cf_e1 (faceAt m (bdrFace m b))) (bdrFace m b) B /\ nodesOfBdr m b = Ok (map fst B) /\ isKey m (cf_e1 (faceAt m (bdrFace m b))) (bdrFace m b)
        /\ (forall p, In p B -> In p g)).
      { intros b H. destruct (TB b H) as [Hb Ht]. pose proof (bdr_key m n nodes G mks W b Hb O) as K.
        destruct (key_window m n nodes g G O HG _ _ K) as [B [HB [_ [_ HW]]]]. exists B. split; [exact HB|]. split; [eapply bdr_nodes; eauto|]. split; [exact K|].
        intros p Hp. rewrite <- HW in Hp. eapply firstn_skipn_in, Hp. }
      assert (NM : exists ns, mapM (nodesOfBdr m) (trueB m) = Ok ns /\ length ns = length (trueB m) /\
        forall k, (k < length (trueB m))%nat -> nodesOfBdr m (nth k (trueB m) 0) = Ok (nth k ns [])).
      { clear -BL. induction (trueB m) as [|b t IH]; [exists []; split; [reflexivity|split; [reflexivity|cbn; lia]]|].
        destruct (BL b (or_introl eq_refl)) as [B [_ [E _]]]. destruct IH as [ns [E1 [E2 E3]]]; [intros; apply BL; right; assumption|].
        exists (map fst B :: ns). cbn [mapM]. rewrite E. cbn [bind]. rewrite E1. cbn [bind]. split; [reflexivity|]. split; [cbn; congruence|].
        intros [|k] Hk; [exact E|]. cbn [nth]. apply E3. cbn in Hk. lia. }
      destruct NM as [ns [EN [LN HN]]]. rewrite EN. cbn [bind]. rewrite LN.
      assert (Outer : forall k, (k <= length (trueB m))%nat -> forall s,
        foldM (fun s k => b <- zget (trueB m) k ;;
          foldM (fun s mk => ' (_, a) <- zget (cm_bdr m) b ;; on <- marked (snd mk) a ;;
            if negb on then Ok s else match vB with [] => Ok s | _ :: _ => ns0 <- zget ns k ;; ids <- findMapBID ns0 g ;;
              vs <- mapM (fun i => p <- zget g i ;; Ok (fst p)) ids ;; Ok (pushBdr (fst mk) ids vs s) end) mks s) (zseq k) s
        = Ok (fold_left addOne (flat_map (hits mks) (firstn k (trueB m))) s)).
      { induction k as [|k IH]; intros Hk s0; [reflexivity|]. rewrite zseq_S, foldM_app, IH by lia. cbn [bind foldM].
        rewrite (zget_nth (trueB m) (Z.of_nat k) 0) by lia. cbn [bind]. rewrite Nat2Z.id. set (b := nth k (trueB m) 0).
        assert (Hin : In b (trueB m)) by (apply nth_In; lia). destruct (TB b Hin) as [Hb Ht]. destruct (BL b Hin) as [B [HB [EB [K Bg]]]].
        assert (Enk : zget ns (Z.of_nat k) = Ok (map fst B)).
        { rewrite (zget_nth ns (Z.of_nat k) []) by lia. rewrite Nat2Z.id. f_equal. pose proof (HN k) as H. rewrite <- LN in H. fold b in H. rewrite EB in H. assert (k < length ns)%nat by lia. specialize (H H0). congruence. }
        assert (VB : vB <> []).
        { apply E3. pose proof (len_block m n nodes G _ _ B K HB) as L. destruct (key_face m n nodes G _ _ K) as [Hf _]. pose proof (o_some _ _ _ O _ Hf) as NE.
          destruct (nodes (bdrFace m b)) as [|ij t] eqn:En; [congruence|]. exists (gdof n (cf_e1 (faceAt m (bdrFace m b))) (fst ij)). apply Bg, HB. exists ij. rewrite En. split; [left; reflexivity|].
          unfold seenFrom. unfold isTrueB in Ht. destruct (0 <=? cf_e2 (faceAt m (bdrFace m b))); [discriminate|reflexivity]. }
        assert (Inner : forall mk0, (forall mk, In mk mk0 -> In mk mks) -> forall s,
          foldM (fun s mk => ' (_, a) <- zget (cm_bdr m) b ;; on <- marked (snd mk) a ;;
            if negb on then Ok s else match vB with [] => Ok s | _ :: _ => ns0 <- zget ns (Z.of_nat k) ;; ids <- findMapBID ns0 g ;;
              vs <- mapM (fun i => p <- zget g i ;; Ok (fst p)) ids ;; Ok (pushBdr (fst mk) ids vs s) end) mk0 s
          = Ok (fold_left addOne (hits mk0 b) s)).
        { intros mk0. set (Fb := fun (s : bdrMaps) (mk : cond * list Z) => _).
          assert (St : forall mk s, In mk mks -> Fb s mk = Ok (if isMarked (snd mk) (bdrAttr m b) then addOne s (b, fst mk) else s)).
          { intros mk s1 Hm. unfold Fb. rewrite (bdr_at m b Hb). cbn [bind]. rewrite marked_ok by assumption. cbn [bind].
            destruct (isMarked (snd mk) (bdrAttr m b)); cbn [negb]; [|reflexivity].
            destruct vB as [|v0 vt] eqn:Ev; [congruence|]. rewrite Enk. cbn [bind]. rewrite (find_ids _ _ B K HB). cbn [bind]. rewrite (ids_values _ _ K). cbn [bind]. reflexivity. }
          clearbody Fb. induction mk0 as [|mk t IHm]; intros Hm s1; [reflexivity|]. unfold hits. cbn [foldM filter].
          rewrite St by (apply Hm; left; reflexivity). cbn [bind]. rewrite IHm by (intros; apply Hm; right; assumption).
          destruct (isMarked (snd mk) (bdrAttr m b)); reflexivity. }
        rewrite Inner by auto. cbn [bind].
        assert (Ef : firstn (S k) (trueB m) = firstn k (trueB m) ++ [b]).
        { apply firstn_last. lia. }
        rewrite Ef, flat_map_app, fold_left_app. cbn [flat_map]. rewrite app_nil_r. reflexivity. }
      rewrite Outer by lia. rewrite firstn_all. reflexivity.
    Qed.

    Definition sel (c : cond) (l : list (Z * cond)) : list Z := map fst (filter (fun bc => condEqb (snd bc) c) l).
    Lemma sel_wanted : forall c bs, sel c (flat_map (hits mks) bs) = wanted m mks c bs.
    Proof.
      intros c bs. unfold sel, wanted. induction bs as [|b t IH]; [reflexivity|]. cbn [flat_map]. rewrite filter_app, map_app, IH. f_equal.
      unfold hits. clear. induction mks as [|mk l IH]; [reflexivity|]. cbn [filter]. destruct (isMarked (snd mk) (bdrAttr m b)); cbn [map filter snd].
      - destruct (condEqb (fst mk) c); cbn [andb map fst]; rewrite IH; reflexivity.
      - rewrite andb_false_r. exact IH.
    Qed.
    Lemma add_all : forall l s, fold_left addOne l s =
      let ext (b : bmaps) (bs : list Z) := mkB (mapB b ++ map idsOf bs) (vmapB b ++ map (fun b => map (fun p => fst (valAt g p)) (idsOf b)) bs) in
      mkBdr (ext (bPEC s) (sel PEC l)) (ext (bPMC s) (sel PMC l)) (ext (bSMA s) (sel SMA l)) (iPEC s) (iPMC s) (iSMA s) (bTFSF s).
    Proof.
      induction l as [|[b c] t IH]; intros s; cbv zeta.
      - cbn [fold_left sel filter map]. rewrite !app_nil_r. destruct s as [[? ?] [? ?] [? ?] ? ? ? ?]; reflexivity.
      - cbn [fold_left]. rewrite IH. cbv zeta. unfold sel. unfold addOne. cbn [fst snd].
        destruct c; cbn [pushBdr filter condEqb snd map fst bPEC bPMC bSMA iPEC iPMC iSMA bTFSF pushB mapB vmapB]; rewrite <- ?app_assoc; reflexivity.
    Qed.
    Lemma bdr_maps : exists s, initBdrMaps m g mks (trueB m) noBdr = Ok s /\
      isBMap m nodes g (wanted m mks PEC (trueB m)) (bPEC s) /\ isBMap m nodes g (wanted m mks PMC (trueB m)) (bPMC s) /\
      isBMap m nodes g (wanted m mks SMA (trueB m)) (bSMA s) /\ iPEC s = noIB /\ iPMC s = noIB /\ iSMA s = noIB /\ bTFSF s = noIB.
    Proof.
      eexists. split; [apply bdr_maps_loop|]. rewrite add_all. cbv zeta. rewrite !sel_wanted. cbn [bPEC bPMC bSMA iPEC iPMC iSMA bTFSF noBdr noB mapB vmapB Datatypes.app].
      unfold isBMap. cbn [mapB vmapB]. rewrite !map_map. repeat split.
    Qed.
  End Markers.
End Maps.

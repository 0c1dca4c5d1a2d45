(** The condition of each face node, from the maps of the connectivity. *)
From Coq Require Import ZArith List Bool Reals Lia Lra Sorted Permutation.
From Verif Require Import Common Face_Model Face_Spec Nodal_Model Nodal_Spec NodalEnergy_Spec Setup_Model Conn_Model Conn_Spec.
From Verif Require Import ConnPos_Proofs ConnWf_Proofs Hest_Model Hest_Spec HestBuild_Proofs HestMesh_Proofs HestEnergy_Proofs.
Import ListNotations.
Local Open Scope Z_scope.

Section Kinds.
Variables (m : cmesh) (n : nat) (mnodes : Z -> list (nat * nat)) (NF nf : nat) (conn : list (Z * Z)).
Hypothesis G : conforming m n mnodes.
Hypothesis FO : faceOrder m n mnodes.
Hypothesis HG : isGlobal m n mnodes conn.
Hypothesis U : uniform m mnodes NF nf.
Definition pos (e : Z) (lf b : nat) : Z := (e * Z.of_nat NF + Z.of_nat lf) * Z.of_nat nf + Z.of_nat b.

Lemma startIn_skip : forall k1 ks e f, ~ In (e, f) k1 -> (forall k, In k k1 -> length (mnodes (snd k)) = nf) ->
  startIn mnodes (k1 ++ ks) e f = Z.of_nat (length k1) * Z.of_nat nf + startIn mnodes ks e f.
Proof.
  induction k1 as [|[e' f'] k1 IH]; intros ks e f HN HL; [cbn [Datatypes.app length]; lia|]. cbn [Datatypes.app startIn].
  assert (E : ((e =? e') && (f =? f'))%bool = false).
  { destruct (Z.eqb_spec e e'), (Z.eqb_spec f f'); cbn [andb]; try reflexivity. exfalso. apply HN. left. congruence. }
  rewrite E, IH; [|intros I; apply HN; right; exact I|intros k I; apply HL; right; exact I].
  pose proof (HL (e', f') (or_introl eq_refl)) as Q. cbn [snd] in Q. rewrite Q. cbn [length]. lia.
Qed.
Lemma flat_map_length : forall {A B} (F : A -> list B) l k, (forall a, In a l -> length (F a) = k) -> length (flat_map F l) = (length l * k)%nat.
Proof.
  intros A B F l k. induction l as [|a l IH]; intros H; [reflexivity|]. cbn [flat_map length]. rewrite app_length, IH by (intros; apply H; right; assumption).
  rewrite H by (left; reflexivity). lia.
Qed.
Lemma nth_split' : forall (l : list Z) k, (k < length l)%nat -> l = firstn k l ++ nth k l 0 :: skipn (S k) l.
Proof.
  induction l as [|a l IH]; intros k H; [cbn [length] in H; lia|]. destruct k as [|k]; [reflexivity|]. cbn [length] in H. cbn [firstn nth skipn Datatypes.app]. f_equal. apply IH. lia.
Qed.
Lemma key_len : forall k, In k (keys m) -> length (mnodes (snd k)) = nf.
Proof. intros [e f] I. apply (key_in m) in I. apply (proj2 U). apply (key_face m n mnodes G e f I). Qed.

Lemma start_pos : forall e lf, inR e (Z.of_nat (cm_ne m)) -> (lf < NF)%nat -> start m mnodes e (fAt m e lf) = pos e lf 0.
Proof.
  intros e lf He Hl. pose proof (proj1 U e He) as LN. pose proof (o_nodup _ _ _ FO e He) as ND. unfold inR in He.
  set (l := nth (Z.to_nat e) (cm_elface m) []) in *. unfold fAt. fold l.
  assert (ZS : exists r, zseq (cm_ne m) = zseq (Z.to_nat e) ++ e :: r).
  { unfold zseq. exists (map Z.of_nat (seq (S (Z.to_nat e)) (cm_ne m - S (Z.to_nat e)))).
    replace (cm_ne m) with (Z.to_nat e + S (cm_ne m - S (Z.to_nat e)))%nat at 1 by lia. rewrite seq_app, map_app. cbn [seq map plus]. f_equal. f_equal. lia. }
  destruct ZS as [r ZS]. unfold start.
  set (K := fun e => map (fun f => (e, f)) (nth (Z.to_nat e) (cm_elface m) [])).
  assert (EK : keys m = (flat_map K (zseq (Z.to_nat e)) ++ map (fun f => (e, f)) (firstn lf l)) ++ (e, nth lf l 0) :: (map (fun f => (e, f)) (skipn (S lf) l) ++ flat_map K r)).
  { unfold keys. rewrite ZS, flat_map_app. cbn [flat_map]. rewrite <- !app_assoc. f_equal. fold l.
    rewrite (nth_split' l lf) at 1 by lia. rewrite map_app. cbn [map]. rewrite <- app_assoc. reflexivity. }
  assert (HL : forall k, In k (flat_map K (zseq (Z.to_nat e)) ++ map (fun f => (e, f)) (firstn lf l)) -> length (mnodes (snd k)) = nf).
  { intros k I. apply key_len. rewrite EK. apply in_or_app. left. exact I. }
  rewrite EK, startIn_skip; [|clear HL EK|exact HL].
  - cbn [startIn]. rewrite !Z.eqb_refl. cbn [andb]. rewrite app_length, map_length, firstn_length.
    rewrite (flat_map_length K (zseq (Z.to_nat e)) NF).
    + rewrite zseq_length. unfold pos. replace (Nat.min lf (length l)) with lf by lia. nia.
    + intros a Ia. apply in_zseq in Ia. unfold K. rewrite map_length. apply (proj1 U). unfold inR. lia.
  - intros I. apply in_app_or in I as [I|I].
    + apply in_flat_map in I as [a [Ia I]]. apply in_zseq in Ia. unfold K in I. apply in_map_iff in I as [x [E _]]. injection E as E _. lia.
    + apply in_map_iff in I as [x [E I]]. injection E as E. subst x.
      rewrite (nth_split' l lf) in ND by lia. apply NoDup_remove_2 in ND. apply ND. apply in_or_app. left. exact I.
Qed.

Lemma pos_inj : forall e lf b e' lf' b', (lf < NF)%nat -> (lf' < NF)%nat -> (b < nf)%nat -> (b' < nf)%nat -> pos e lf b = pos e' lf' b' -> e = e' /\ lf = lf' /\ b = b'.
Proof.
  intros e lf b e' lf' b' H1 H2 H3 H4 E. unfold pos in E. assert (E1 : e * Z.of_nat NF + Z.of_nat lf = e' * Z.of_nat NF + Z.of_nat lf') by nia.
  assert (b = b') by (rewrite E1 in E; lia). assert (e = e') by nia. subst e'. split; [reflexivity|]. split; [lia|assumption].
Qed.
(** Faces with a local number. *)
Lemma local_of : forall e f, isKey m e f -> exists lf, (lf < NF)%nat /\ fAt m e lf = f.
Proof.
  intros e f [He I]. apply In_nth with (d := 0) in I as [lf [Hl E]]. rewrite (proj1 U e He) in Hl. exists lf. split; assumption.
Qed.
Lemma in_range : forall p s k, In p (range s k) <-> exists b, (b < k)%nat /\ p = s + Z.of_nat b.
Proof.
  intros p s k. unfold range. rewrite in_map_iff. split.
  - intros [i [<- I]]. apply in_zseq in I. exists (Z.to_nat i). split; lia.
  - intros [b [Hb ->]]. exists (Z.of_nat b). split; [reflexivity|apply in_zseq; lia].
Qed.
Lemma block_positions : forall e f e' lf' b', isKey m e f -> inR e' (Z.of_nat (cm_ne m)) -> (lf' < NF)%nat -> (b' < nf)%nat ->
  (In (pos e' lf' b') (range (start m mnodes e f) nf) <-> e' = e /\ fAt m e' lf' = f).
Proof.
  intros e f e' lf' b' K He' Hl' Hb'. destruct (local_of e f K) as [lf [Hl E]]. rewrite <- E at 1. rewrite start_pos by (apply K || exact Hl). rewrite in_range. split.
  - intros [b [Hb Q]]. assert (Q' : pos e' lf' b' = pos e lf b) by (unfold pos in *; lia). apply pos_inj in Q' as [-> [-> _]]; try assumption. split; [reflexivity|exact E].
  - intros [-> E']. exists b'. split; [exact Hb'|].
    assert (lf' = lf).
    { pose proof (o_nodup _ _ _ FO e (proj1 K)) as ND. pose proof (proj1 U e (proj1 K)) as LN. apply (proj1 (NoDup_nth _ 0) ND); [lia|lia|]. unfold fAt in E, E'. congruence. }
    subst lf'. unfold pos. lia.
Qed.

Lemma mem_iff : forall p ls, mem p ls = true <-> exists l, In l ls /\ In p l.
Proof.
  intros p ls. unfold mem. rewrite existsb_exists. split; intros [l [I H]]; exists l; (split; [exact I|]).
  - apply existsb_exists in H as [x [Ix E]]. apply Z.eqb_eq in E. subst. exact Ix.
  - apply existsb_exists. exists p. split; [exact H|apply Z.eqb_refl].
Qed.

Lemma bmap_mem : forall bs bm, (forall b, In b bs -> inF m (bdrFace m b) /\ ~ interior m (bdrFace m b)) -> isBMap m mnodes conn bs bm ->
  forall e lf b, inR e (Z.of_nat (cm_ne m)) -> (lf < NF)%nat -> (b < nf)%nat ->
  (mem (pos e lf b) (mapB bm) = true <-> exists b', In b' bs /\ bdrFace m b' = fAt m e lf).
Proof.
  intros bs bm Hb [E _] e lf b He Hl Hb'. rewrite mem_iff, E.
  assert (K : forall b', In b' bs -> isKey m (cf_e1 (faceAt m (bdrFace m b'))) (bdrFace m b') /\ length (mnodes (bdrFace m b')) = nf).
  { intros b' I. destruct (Hb b' I) as [Hf _]. split; [split; [apply (g_el1 _ _ _ G); exact Hf|apply (o_listed _ _ _ FO); exact Hf]|apply (proj2 U); exact Hf]. }
  split.
  - intros [l [I J]]. apply in_map_iff in I as [b' [<- Ib]]. destruct (K b' Ib) as [K1 K2]. cbv zeta in J. rewrite K2 in J.
    apply block_positions in J; try assumption. exists b'. split; [exact Ib|]. symmetry. apply J.
  - intros [b' [Ib Ef]]. exists (range (start m mnodes (cf_e1 (faceAt m (bdrFace m b'))) (bdrFace m b')) (length (mnodes (bdrFace m b')))). split.
    + apply in_map_iff. exists b'. split; [reflexivity|exact Ib].
    + destruct (K b' Ib) as [K1 K2]. rewrite K2. apply block_positions; try assumption. split; [|symmetry; exact Ef].
      destruct (Hb b' Ib) as [Hf Hi].
      assert (Ke : isKey m e (fAt m e lf)) by (split; [exact He|apply nth_In; rewrite (proj1 U e He); exact Hl]).
      destruct (key_face m n mnodes G _ _ Ke) as [_ T]. rewrite <- Ef in T. destruct T as [T|T]; [symmetry; exact T|].
      exfalso. apply Hi. unfold interior. rewrite T. unfold inR in He. lia.
Qed.

End Kinds.

(** The condition of a face of a closed box. *)
Definition carriesB (m : cmesh) (mks : list (cond * list Z)) (c : cond) (f : Z) : bool :=
  existsb (fun b => (bdrFace m b =? f) && existsb (fun mk => condEqb (fst mk) c && isMarked (snd mk) (bdrAttr m b)) mks)%bool (allB m).
Lemma condEqb_eq : forall a b, condEqb a b = true <-> a = b.
Proof. intros a b. split; [destruct a, b; intros H; (reflexivity || discriminate H)|intros ->; destruct b; reflexivity]. Qed.
Lemma carries_iff : forall m mks c f, carriesB m mks c f = true <-> carries m mks c f.
Proof.
  intros m mks c f. unfold carriesB, carries. rewrite existsb_exists. split.
  - intros [b [Ib H]]. apply andb_true_iff in H as [H1 H2]. apply existsb_exists in H2 as [mk [Im H2]]. apply andb_true_iff in H2 as [H2 H3].
    apply condEqb_eq in H2. apply Z.eqb_eq in H1. exists b, mk. apply in_zseq in Ib. auto.
  - intros [b [mk [Ib [Ef [Im [Ec H]]]]]]. exists b. split; [apply in_zseq; exact Ib|]. apply andb_true_iff. split; [apply Z.eqb_eq; exact Ef|].
    apply existsb_exists. exists mk. split; [exact Im|]. rewrite H, andb_true_r. apply condEqb_eq. exact Ec.
Qed.
Definition kindsOf (m : cmesh) (bdrMk : list (cond * list Z)) (f : Z) : kind :=
  if (0 <=? cf_e2 (faceAt m f)) then KInterior else
  if carriesB m bdrMk SMA f then KSMA else if carriesB m bdrMk PMC f then KPMC else if carriesB m bdrMk PEC f then KPEC else KInterior.

Lemma wanted_iff : forall m mks c bs b, In b (wanted m mks c bs) <-> In b bs /\ exists mk, In mk mks /\ fst mk = c /\ isMarked (snd mk) (bdrAttr m b) = true.
Proof.
  intros m mks c bs b. split; [apply wanted_in|]. intros [Ib [mk [Im [Ec H]]]]. unfold wanted. apply in_flat_map. exists b. split; [exact Ib|].
  apply in_map_iff. exists mk. split; [reflexivity|]. apply filter_In. split; [exact Im|]. rewrite H, andb_true_r. apply condEqb_eq. exact Ec.
Qed.

Lemma box_kinds : forall m n mnodes NF nf bdrMk intMk tfsfMk conn maps,
  conforming m n mnodes -> faceOrder m n mnodes -> isGlobal m n mnodes conn -> uniform m mnodes NF nf -> wfBdrs m bdrMk ->
  closedBox m bdrMk intMk tfsfMk ->
  isBMap m mnodes conn (wanted m bdrMk PEC (trueB m)) (bPEC maps) -> isBMap m mnodes conn (wanted m bdrMk PMC (trueB m)) (bPMC maps) ->
  isBMap m mnodes conn (wanted m bdrMk SMA (trueB m)) (bSMA maps) ->
  isIMap m mnodes conn (wanted m intMk PEC (allB m) ++ wanted m tfsfMk PEC (allB m)) (iPEC maps) ->
  isIMap m mnodes conn (wanted m intMk PMC (allB m) ++ wanted m tfsfMk PMC (allB m)) (iPMC maps) ->
  isIMap m mnodes conn (wanted m intMk SMA (allB m) ++ wanted m tfsfMk SMA (allB m)) (iSMA maps) ->
  oneKind m nf maps (kindsOf m bdrMk).
Proof.
  intros m n mnodes NF nf bdrMk intMk tfsfMk conn maps G FO HG U WB [CB1 CB2] B1 B2 B3 J1 J2 J3. split.
  - intros f Hf Hk. unfold kindsOf in Hk. unfold interior. destruct (Z.leb_spec 0 (cf_e2 (faceAt m f))) as [Q|Q]; [exact Q|].
    exfalso. destruct (CB1 f Hf ltac:(unfold interior; lia)) as [C|[C|C]]; apply carries_iff in C; rewrite C in Hk.
    + destruct (carriesB m bdrMk SMA f), (carriesB m bdrMk PMC f); discriminate.
    + destruct (carriesB m bdrMk SMA f); discriminate.
    + discriminate.
  - intros e lf b He Hl Hb. pose proof (proj1 U e He) as LN. rewrite LN in Hl |- *. fold (fAt m e lf).
    change ((e * Z.of_nat NF + Z.of_nat lf) * Z.of_nat nf + Z.of_nat b) with (pos NF nf e lf b).
    assert (Ke : isKey m e (fAt m e lf)) by (split; [exact He|apply nth_In; rewrite LN; exact Hl]).
    destruct (key_face m n mnodes G _ _ Ke) as [Hf T].
    assert (NI : forall c im, c <> TotalFieldIn -> isIMap m mnodes conn (wanted m intMk c (allB m) ++ wanted m tfsfMk c (allB m)) im -> imem (pos NF nf e lf b) im = false).
    { intros c im Hc HI.
      assert (EM : wanted m intMk c (allB m) ++ wanted m tfsfMk c (allB m) = []).
      { destruct (wanted m intMk c (allB m) ++ wanted m tfsfMk c (allB m)) as [|b0 l] eqn:E; [reflexivity|]. exfalso.
        assert (I : In b0 (wanted m intMk c (allB m) ++ wanted m tfsfMk c (allB m))) by (rewrite E; left; reflexivity). apply Hc.
        apply (CB2 (bdrFace m b0)). apply in_app_or in I as [I|I]; [left|right]; apply wanted_iff in I as [Ib [mk [Im [Ec H]]]]; exists b0, mk; apply in_zseq in Ib; auto. }
      rewrite EM in HI. destruct HI as [qs [-> F]]. inversion F. reflexivity. }
    assert (NB : forall c bm, isBMap m mnodes conn (wanted m bdrMk c (trueB m)) bm ->
      mem (pos NF nf e lf b) (mapB bm) = if (0 <=? cf_e2 (faceAt m (fAt m e lf))) then false else carriesB m bdrMk c (fAt m e lf)).
    { intros c bm HI. pose proof (bmap_mem m n mnodes NF nf conn G FO U (wanted m bdrMk c (trueB m)) bm) as Q.
      assert (W : forall b0, In b0 (wanted m bdrMk c (trueB m)) -> inF m (bdrFace m b0) /\ ~ interior m (bdrFace m b0)).
      { intros b0 I. apply wanted_iff in I as [I _]. apply filter_In in I as [I1 I2]. apply in_zseq in I1. split; [apply WB; exact I1|].
        unfold isTrueB in I2. apply negb_true_iff, Z.leb_gt in I2. unfold interior. lia. }
      specialize (Q W HI e lf b He Hl Hb).
      destruct (mem (pos NF nf e lf b) (mapB bm)) eqn:E.
      - destruct (proj1 Q eq_refl) as [b0 [I Ef]]. destruct (W b0 I) as [_ NIt]. rewrite Ef in NIt. unfold interior in NIt.
        destruct (Z.leb_spec 0 (cf_e2 (faceAt m (fAt m e lf)))); [contradiction|]. symmetry. apply carries_iff. apply wanted_iff in I as [Ib [mk [Im [Ec H0]]]].
        apply filter_In in Ib as [Ib _]. apply in_zseq in Ib. exists b0, mk. auto.
      - destruct (Z.leb_spec 0 (cf_e2 (faceAt m (fAt m e lf)))) as [L|L]; [reflexivity|].
        destruct (carriesB m bdrMk c (fAt m e lf)) eqn:EC; [|reflexivity]. apply carries_iff in EC as [b0 [mk [Ib [Ef [Im [Ec H]]]]]].
        assert (false = true); [|discriminate]. apply Q. exists b0. split; [|exact Ef]. apply wanted_iff. split; [|exists mk; auto].
        apply filter_In. split; [apply in_zseq; exact Ib|]. unfold isTrueB. rewrite Ef. apply negb_true_iff, Z.leb_gt. lia. }
    unfold kindAt. rewrite (NI SMA _ ltac:(discriminate) J3), (NI PMC _ ltac:(discriminate) J2), (NI PEC _ ltac:(discriminate) J1).
    rewrite (NB SMA _ B3), (NB PMC _ B2), (NB PEC _ B1). unfold kindsOf.
    destruct (0 <=? cf_e2 (faceAt m (fAt m e lf))); [reflexivity|].
    destruct (carriesB m bdrMk SMA (fAt m e lf)); [reflexivity|]. destruct (carriesB m bdrMk PMC (fAt m e lf)); [reflexivity|].
    destruct (carriesB m bdrMk PEC (fAt m e lf)); reflexivity.
Qed.

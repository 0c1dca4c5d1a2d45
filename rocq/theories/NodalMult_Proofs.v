(** The value of every entry of the vector computed by the nodal operator. *)
From Coq Require Import ZArith List Bool Reals Lia Lra.
From Verif Require Import Common Geo_Spec Nodal_Model Nodal_Spec Nodal_Proofs.
Import ListNotations.
Local Open Scope Z_scope.

Lemma v3_eq : forall a b c a' b' c' : R, a = a' -> b = b' -> c = c' -> (a, b, c) = (a', b', c').
Proof. intros; subst; reflexivity. Qed.

Lemma map_seq_nth : forall {A} (d : A) l, map (fun i => nth i l d) (seq 0 (length l)) = l.
Proof.
  intros A d l. induction l as [|a t IH]; [reflexivity|]. cbn [length seq map nth]. f_equal.
  rewrite <- seq_shift, map_map. exact IH.
Qed.

Lemma rdot_sum : forall a b, length a = length b -> rdot a b = sumN (length b) (fun j => nth j a 0 * nth j b 0)%R.
Proof.
  intros a b H. unfold rdot, sumN. f_equal. revert b H. induction a as [|x t IH]; intros [|y b] H; try discriminate H; [reflexivity|].
  cbn [combine map length seq nth fst snd]. f_equal. rewrite <- seq_shift, map_map. apply IH. cbn [length] in H. lia.
Qed.

Lemma sumN_ext : forall n f g, (forall i, (i < n)%nat -> f i = g i) -> sumN n f = sumN n g.
Proof.
  intros n f g H. unfold sumN. f_equal. apply map_ext_in. intros i Hi. apply in_seq in Hi. apply H. lia.
Qed.

Lemma matVec_ok : forall A v r, matShape A r (length v) ->
  exists w, matVec A v = Ok w /\ length w = r /\
    forall k, (k < r)%nat -> nth k w 0%R = sumN (length v) (fun j => entry A k j * nth j v 0)%R.
Proof.
  intros A v r [H1 H2]. unfold matVec.
  assert (E : forallb (fun row => length row =? length v)%nat A = true).
  { apply forallb_forall. intros row Hr. rewrite Forall_forall in H2. apply Nat.eqb_eq. apply H2, Hr. }
  rewrite E. eexists; split; [reflexivity|]. split; [now rewrite map_length|]. intros k Hk.
  rewrite nth_indep with (d' := (fun row => rdot row v) []) by (rewrite map_length; lia).
  rewrite (map_nth (fun row => rdot row v)). apply rdot_sum. rewrite Forall_forall in H2. apply H2, nth_In. lia.
Qed.

Lemma nth_map_zseq : forall (f : Z -> R) m k, (k < m)%nat -> nth k (map f (zseq m)) 0%R = f (Z.of_nat k).
Proof.
  intros f m k Hk. rewrite nth_indep with (d' := f 0) by (rewrite map_length, zseq_length; lia).
  rewrite map_nth. f_equal. unfold zseq. change 0 with (Z.of_nat 0) at 1. rewrite map_nth. now rewrite seq_nth.
Qed.

Section Mult.
Variable s : nodal.
Variable x : list R.
Let n := nd_N s.
Let g := nd_global s.
Let L := length g.
Let u := comp6 n x.
Hypothesis Hx : length x = Z.to_nat (6 * n).
Hypothesis Hw : wfNodal s.

Lemma jumps_ok : exists F gg,
  (J0 <- initJumps s x ;; J1 <- applyBoundary s x J0 ;; evaluateTFSF s J1) = Ok F /\ rep L F gg /\
  forall q, 0 <= q < Z.of_nat L -> inCurved s (fst (pairAt s q)) = false ->
    E3 gg q = jumpE s u q (fst (pairAt s q)) (snd (pairAt s q)) /\ H3 gg q = jumpH s u q (fst (pairAt s q)) (snd (pairAt s q)).
Proof.
  destruct Hw as (Hn & Hg & B1 & B2 & B3 & I1 & I2 & I3 & HT & Ha & _).
  destruct (initJumps_rep s x Hx Hg) as (F0 & E0 & R0). rewrite E0. cbn [bind].
  destruct (applyBoundary_rep s x Hx Hg (conj B1 (conj B2 B3)) (conj I1 (conj I2 I3)) Ha F0 _ R0) as (F1 & g1 & E1 & R1 & V1).
  rewrite E1. cbn [bind].
  destruct (evaluateTFSF_rep s x Hx HT F1 g1 R1) as (F2 & E2 & R2).
  exists F2. eexists. split; [exact E2|]. split; [exact R2|]. intros q Hq Hn0.
  change (fst (pairAt s q)) with (own s q) in *. change (snd (pairAt s q)) with (oth s q).
  unfold E3, H3, jumpE, jumpH, incE, incH.
  repeat match goal with
        | |- context [(?a / 3)%Z] => let v := eval compute in (a / 3)%Z in change (a / 3)%Z with v
        | |- context [(?a mod 3)%Z] => let v := eval compute in (a mod 3)%Z in change (a mod 3)%Z with v
        end.
  rewrite !V1 by (assumption || lia).
  destruct (kindAt (nd_bdr s) q); cbn [ghostE ghostH factor]; unfold co, subp, addp, scalep; cbn [Z.ltb Z.compare Pos.compare Pos.compare_cont];
    split; apply v3_eq; unfold u, n; first [lra | unfold Rdiv; ring].
Qed.

Section Element.
Variable el : helem.
Hypothesis He : wfEl s el.
Let nd := elSize el.
Let fs := elFlux el.

Lemma el_dof_range : forall k, (k < nd)%nat -> 0 <= elDof el k < n.
Proof. intros k Hk. destruct He as (_ & Hd & _). destruct (Hd k Hk) as (_ & H & _). exact H. Qed.

Lemma elemField_ok : forall c, 0 <= c < 6 -> exists v, elemField n x el c = Ok v /\ length v = nd /\
  forall k, (k < nd)%nat -> nth k v 0%R = u c (elDof el k).
Proof.
  intros c Hc. unfold elemField. fold (elSize el). fold nd.
  rewrite (mapM_in _ (fun k => u c (elDof el (Z.to_nat k)))).
  - eexists; split; [reflexivity|]. split; [now rewrite map_length, zseq_length|]. intros k Hk. rewrite nth_map_zseq by exact Hk. now rewrite Nat2Z.id.
  - intros k Hk. apply in_zseq in Hk. pose proof (el_dof_range (Z.to_nat k) ltac:(lia)) as Hd.
    unfold u, comp6. rewrite (zget_nth x _ 0%R).
    + do 2 f_equal. unfold elDof. fold nd. lia.
    + rewrite Hx. unfold elDof in Hd. fold nd in Hd. rewrite Z2Nat.id in Hd by lia. nia.
Qed.

Variable F : hfields.
Variable gg : Z -> Z -> R.
Hypothesis HF : rep L F gg.
Hypothesis Hj : forall q, 0 <= q < Z.of_nat L -> inCurved s (fst (pairAt s q)) = false ->
    E3 gg q = jumpE s u q (fst (pairAt s q)) (snd (pairAt s q)) /\ H3 gg q = jumpH s u q (fst (pairAt s q)) (snd (pairAt s q)).

Definition hE (i : nat) : v3 := hatE (nd_alpha s) (elNormal el i) (dE s u el i) (dH s u el i).
Definition hH (i : nat) : v3 := hatH (nd_alpha s) (elNormal el i) (dE s u el i) (dH s u el i).
Definition six (i : nat) : list R := [pick (hE i) 0; pick (hE i) 1; pick (hE i) 2; pick (hH i) 0; pick (hH i) 1; pick (hH i) 2].

Lemma nodeFlux_ok : forall i, (i < fs)%nat -> nodeFlux s F el (Z.of_nat i) = Ok (six i).
Proof.
  intros i Hi. destruct He as (Hid & Hd & _ & _ & Hn3 & Hnl & _ & Hp). destruct (Hp i Hi) as (Hr & k & Hk & Ek).
  destruct (Hd k Hk) as (_ & _ & Hcur). rewrite <- Ek in Hcur. unfold inR in Hr.
  destruct (Hj (elPos el i) Hr Hcur) as [HE HH].
  unfold nodeFlux. fold (elFlux el). change (el_id el * Z.of_nat (elFlux el) + Z.of_nat i) with (elPos el i).
  assert (Hnor : forall d, 0 <= d < 3 -> fget (el_nor el) d (Z.of_nat i) = Ok (entry (el_nor el) (Z.to_nat d) i)).
  { intros d Hd3. unfold fget. rewrite (zget_nth (el_nor el) d []) by lia. cbn [bind].
    rewrite Forall_forall in Hnl. rewrite (zget_nth _ (Z.of_nat i) 0%R); [now rewrite Nat2Z.id|].
    rewrite (Hnl (nth (Z.to_nat d) (el_nor el) [])); [unfold fs in Hi; lia|apply nth_In; lia]. }
  unfold xyz. cbn [mapM]. rewrite !Hnor by lia. cbn [bind].
  rewrite !(fget_rep L F gg) by (exact HF || exact Hr || lia). cbn [bind].
  f_equal. unfold six, hE, hH, dE, dH. rewrite <- HE, <- HH.
  unfold E3, H3, hatE, hatH, elNormal, fluxE, fluxH, ndot, at3, tang, subp, addp, scalep, crossp, dotp, pick.
  cbn [map app].
  repeat match goal with
        | |- context [(?a mod 3)%Z] => let v := eval compute in (a mod 3)%Z in change (a mod 3)%Z with v
        | |- context [(3 + ?a)%Z] => let v := eval compute in (3 + a)%Z in change (3 + a)%Z with v
        | |- context [Z.to_nat ?z] => let v := eval compute in (Z.to_nat z) in change (Z.to_nat z) with v
        end. cbn [nth Z.eqb Pos.eqb].
  repeat (f_equal; try ring).
Qed.

Lemma fluxes_ok : mapM (nodeFlux s F el) (zseq fs) = Ok (map (fun i => six (Z.to_nat i)) (zseq fs)).
Proof.
  apply mapM_in. intros i Hi. apply in_zseq in Hi. rewrite <- nodeFlux_ok by lia. now rewrite Z2Nat.id by lia.
Qed.

Lemma applyLIFT_ok : forall c, 0 <= c < 6 ->
  exists w, applyLIFT (nd_lift s) (el_fscale el) (map (fun i => six (Z.to_nat i)) (zseq fs)) c = Ok w /\ length w = nd /\
    forall k, (k < nd)%nat -> nth k w 0%R =
      sumN fs (fun i => entry (nd_lift s) k i * (nth i (el_fscale el) 0 / 2 * nth (Z.to_nat c) (six i) 0))%R.
Proof.
  intros c Hc. unfold applyLIFT. rewrite map_length, zseq_length.
  rewrite (mapM_in _ (fun i => nth (Z.to_nat c) (six (Z.to_nat i)) 0 * (nth (Z.to_nat i) (el_fscale el) 0 / 2))%R).
  2:{ intros i Hi. apply in_zseq in Hi. rewrite (zget_nth _ i []) by (rewrite map_length, zseq_length; lia). cbn [bind].
      assert (En : nth (Z.to_nat i) (map (fun i => six (Z.to_nat i)) (zseq fs)) [] = six (Z.to_nat i)).
      { rewrite nth_indep with (d' := (fun i => six (Z.to_nat i)) 0) by (rewrite map_length, zseq_length; lia).
        rewrite (map_nth (fun i => six (Z.to_nat i))). f_equal. unfold zseq. change 0 with (Z.of_nat 0). rewrite map_nth, seq_nth by lia. lia. }
      rewrite En. rewrite (zget_nth (six (Z.to_nat i)) c 0%R) by (cbn [six length]; lia). cbn [bind].
      rewrite (zget_nth (el_fscale el) i 0%R) by (unfold fs, elFlux in Hi; lia). reflexivity. }
  cbn [bind]. destruct He as (_ & _ & _ & _ & _ & _ & Hl & _).
  edestruct (matVec_ok (nd_lift s)) as (w & Ew & Lw & Vw).
  { rewrite map_length, zseq_length. exact Hl. }
  exists w. split; [exact Ew|]. split; [exact Lw|]. intros k Hk. rewrite Vw by exact Hk.
  rewrite map_length, zseq_length. apply sumN_ext. intros i Hi. rewrite nth_map_zseq by exact Hi. rewrite Nat2Z.id. ring.
Qed.

Lemma add3_nth : forall a b c k, length a = length b -> length a = length c -> (k < length a)%nat ->
  nth k (add3 a b c) 0%R = (nth k a 0 + nth k b 0 + nth k c 0)%R.
Proof.
  intros a b c k H1 H2 Hk. unfold add3.
  rewrite nth_indep with (d' := (fun t : R * R * R => fst (fst t) + snd (fst t) + snd t)%R (0, 0, 0)%R).
  2:{ rewrite map_length, !combine_length. lia. }
  rewrite (map_nth (fun t : R * R * R => fst (fst t) + snd (fst t) + snd t)%R).
  rewrite combine_nth by (rewrite combine_length; lia). rewrite combine_nth by exact H1. reflexivity.
Qed.

Lemma add3_length : forall a b c, length a = length b -> length a = length c -> length (add3 a b c) = length a.
Proof. intros. unfold add3. rewrite map_length, !combine_length. lia. Qed.

Lemma elemResult_ok : forall f d, 0 <= f <= 1 -> 0 <= d < 3 ->
  exists w, elemResult s x el (map (fun i => six (Z.to_nat i)) (zseq fs)) f d = Ok w /\ length w = nd /\
    forall k, (k < nd)%nat -> nth k w 0%R = pick (if f =? 0 then rhsE s u el k else rhsH s u el k) d.
Proof.
  intros f d Hf Hd. unfold elemResult. fold n.
  set (y := (d + 1) mod 3). set (z := (d + 2) mod 3).
  assert (Hy : 0 <= y < 3) by (apply Z.mod_pos_bound; lia). assert (Hz : 0 <= z < 3) by (apply Z.mod_pos_bound; lia).
  destruct He as (_ & _ & Hd3 & Hsh & _).
  rewrite (zget_nth (el_dir el) y []) by lia. cbn [bind]. rewrite (zget_nth (el_dir el) z []) by lia. cbn [bind].
  destruct (elemField_ok (3 * (1 - f) + z) ltac:(lia)) as (uz & Euz & Luz & Vuz). rewrite Euz. cbn [bind].
  destruct (elemField_ok (3 * (1 - f) + y) ltac:(lia)) as (uy & Euy & Luy & Vuy). rewrite Euy. cbn [bind].
  rewrite Forall_forall in Hsh.
  destruct (matVec_ok (nth (Z.to_nat y) (el_dir el) []) uz nd) as (v1 & E1 & L1 & V1).
  { rewrite Luz. apply Hsh, nth_In. lia. }
  destruct (matVec_ok (nth (Z.to_nat z) (el_dir el) []) uy nd) as (v2 & E2 & L2 & V2).
  { rewrite Luy. apply Hsh, nth_In. lia. }
  rewrite E1. cbn [bind]. rewrite E2. cbn [bind].
  destruct (applyLIFT_ok (3 * f + d) ltac:(lia)) as (v3 & E3' & L3 & V3). rewrite E3'. cbn [bind].
  rewrite L1, L2, L3, Nat.eqb_refl. cbn [andb].
  eexists. split; [reflexivity|].
  assert (D1 : forall k, (k < nd)%nat -> nth k v1 0%R = deriv el u (Z.to_nat y) (3 * (1 - f) + z) k).
  { intros k Hk. rewrite V1 by exact Hk. unfold deriv. rewrite Luz. apply sumN_ext. intros j Hjj. rewrite Vuz by exact Hjj. reflexivity. }
  assert (D2 : forall k, (k < nd)%nat -> nth k v2 0%R = deriv el u (Z.to_nat z) (3 * (1 - f) + y) k).
  { intros k Hk. rewrite V2 by exact Hk. unfold deriv. rewrite Luy. apply sumN_ext. intros j Hjj. rewrite Vuy by exact Hjj. reflexivity. }
  split.
  - destruct (f =? 1); rewrite add3_length; rewrite ?map_length; lia.
  - intros k Hk.
    assert (N1 : nth k (map (fun r => -1 * r)%R v1) 0%R = (- nth k v1 0)%R).
    { rewrite nth_indep with (d' := (fun r => -1 * r)%R 0%R) by (rewrite map_length; lia). rewrite (map_nth (fun r => -1 * r)%R). ring. }
    assert (N2 : nth k (map (fun r => - (1 * r))%R v2) 0%R = (- nth k v2 0)%R).
    { rewrite nth_indep with (d' := (fun r => - (1 * r))%R 0%R) by (rewrite map_length; lia). rewrite (map_nth (fun r => - (1 * r))%R). ring. }
    specialize (D1 k Hk). specialize (D2 k Hk). specialize (V3 k Hk).
    assert (Hff : f = 0 \/ f = 1) by lia. assert (Hdd : d = 0 \/ d = 1 \/ d = 2) by lia.
    destruct Hff as [-> | ->]; cbn [Z.eqb Pos.eqb]; rewrite add3_nth by (rewrite ?map_length; lia); rewrite ?N1, ?N2, D1, D2, V3;
      unfold y, z; decompose [or] Hdd; subst d;
      repeat match goal with
        | |- context [((?a + ?b) mod 3)%Z] => let v := eval compute in ((a + b) mod 3)%Z in change ((a + b) mod 3)%Z with v
        | |- context [(3 * ?a + ?b)%Z] => let v := eval compute in (3 * a + b)%Z in change (3 * a + b)%Z with v
        | |- context [Z.to_nat ?z] => let v := eval compute in (Z.to_nat z) in change (Z.to_nat z) with v
        end;
      unfold rhsE, rhsH, curl, lifted, scalep, addp, pick; cbn [Z.eqb Pos.eqb six nth Z.add Pos.add Pos.succ];
      fold fs; try ring;
      unfold hE, hH, pick; cbn [Z.eqb Pos.eqb]; ring.
Qed.

End Element.

(** ** Writing the results *)
Lemma viewSet_ok : forall o c i a, length o = Z.to_nat (6 * n) -> 0 <= c < 6 -> 0 <= i < n ->
  exists o', viewSet n o c i a = Ok o' /\ length o' = length o /\ comp6 n o' c i = a /\
    forall c' i', 0 <= c' < 6 -> 0 <= i' < n -> (c', i') <> (c, i) -> comp6 n o' c' i' = comp6 n o c' i'.
Proof.
  intros o c i a Ho Hc Hi. unfold viewSet. destruct (Z.leb_spec 0 i); [|lia]. destruct (Z.ltb_spec i n); [|lia]. cbn [andb].
  rewrite zset_in_range by (rewrite Ho; nia). eexists. split; [reflexivity|]. split; [apply upd_length|]. split.
  - unfold comp6. apply nth_upd_eq. rewrite Ho. nia.
  - intros c' i' Hc' Hi' Hne. unfold comp6. apply nth_upd_neq. intros E. apply Hne.
    assert (c * n + i = c' * n + i') by nia.
    assert (c = c') by nia. subst c'. f_equal. lia.
Qed.

Lemma loadOut_ok : forall el c data o, wfEl s el -> length data = elSize el -> length o = Z.to_nat (6 * n) -> 0 <= c < 6 ->
  exists o', loadOut n c data (el_dofs el) o = Ok o' /\ length o' = length o /\
    (forall k, (k < elSize el)%nat -> comp6 n o' c (elDof el k) = nth k data 0%R) /\
    (forall c' i', 0 <= c' < 6 -> 0 <= i' < n -> (c' <> c \/ forall k, (k < elSize el)%nat -> i' <> elDof el k) ->
        comp6 n o' c' i' = comp6 n o c' i').
Proof.
  intros el c data o He Hd Ho Hc. unfold loadOut. fold (elSize el).
  pose proof He as (Hid & Hdof & _).
  assert (G : forall m, (m <= elSize el)%nat -> exists o',
     foldM (fun o i => k <- zget (el_dofs el) i ;; v <- zget data i ;; viewSet n o c k v) (zseq m) o = Ok o' /\ length o' = length o /\
     (forall k, (k < m)%nat -> comp6 n o' c (elDof el k) = nth k data 0%R) /\
     (forall c' i', 0 <= c' < 6 -> 0 <= i' < n -> (c' <> c \/ forall k, (k < m)%nat -> i' <> elDof el k) ->
        comp6 n o' c' i' = comp6 n o c' i')).
  { induction m as [|m IH]; intros Hm.
    - exists o. repeat split; try reflexivity. intros k Hk; lia.
    - destruct (IH ltac:(lia)) as (o1 & E1 & L1 & V1 & U1). rewrite zseq_S, foldM_app, E1. cbn [bind foldM].
      destruct (Hdof m ltac:(lia)) as (Dm & Rm & _). unfold inR in Rm. fold n in Rm.
      rewrite (zget_nth (el_dofs el) _ 0) by (unfold elSize in Hm; lia). cbn [bind]. rewrite (zget_nth data _ 0%R) by lia. cbn [bind].
      rewrite !Nat2Z.id, Dm.
      destruct (viewSet_ok o1 c (elDof el m) (nth m data 0%R) ltac:(lia) Hc Rm) as (o2 & E2 & L2 & V2 & U2).
      rewrite E2. cbn [bind]. exists o2. split; [reflexivity|]. split; [lia|]. split.
      + intros k Hk. destruct (Nat.eq_dec k m) as [->|Hn]; [exact V2|].
        destruct (Hdof k ltac:(lia)) as (_ & Rk & _). rewrite U2; [apply V1; lia|lia|exact Rk|].
        intros E. injection E as E. unfold elDof in E. lia.
      + intros c' i' Hc' Hi' Hor. rewrite U2; [apply U1; try assumption|assumption|assumption|].
        * destruct Hor as [H|H]; [left; exact H|right; intros k Hk; apply H; lia].
        * intros E. injection E as -> ->. destruct Hor as [H|H]; [apply H; reflexivity|]. apply (H m ltac:(lia)). reflexivity. }
  apply (G (elSize el) (le_n _)).
Qed.

Variable F : hfields.
Variable gg : Z -> Z -> R.
Hypothesis HF : rep L F gg.
Hypothesis Hj : forall q, 0 <= q < Z.of_nat L -> inCurved s (fst (pairAt s q)) = false ->
    E3 gg q = jumpE s u q (fst (pairAt s q)) (snd (pairAt s q)) /\ H3 gg q = jumpH s u q (fst (pairAt s q)) (snd (pairAt s q)).

Lemma linElement_ok : forall el o, wfEl s el -> length o = Z.to_nat (6 * n) ->
  exists o', linElement s x F o el = Ok o' /\ length o' = length o /\
    (forall k, (k < elSize el)%nat -> E3 (comp6 n o') (elDof el k) = rhsE s u el k /\ H3 (comp6 n o') (elDof el k) = rhsH s u el k) /\
    (forall c' i', 0 <= c' < 6 -> 0 <= i' < n -> (forall k, (k < elSize el)%nat -> i' <> elDof el k) -> comp6 n o' c' i' = comp6 n o c' i').
Proof.
  intros el o He Ho. unfold linElement. fold (elFlux el).
  rewrite (fluxes_ok el He F gg HF Hj). cbn [bind]. set (fl := map (fun i => six el (Z.to_nat i)) (zseq (elFlux el))).
  assert (R : forall d, 0 <= d < 3 -> forall o, length o = Z.to_nat (6 * n) -> exists o',
     (h <- elemResult s x el fl 1 d ;; e <- elemResult s x el fl 0 d ;;
      o1 <- loadOut (nd_N s) (3 + d) h (el_dofs el) o ;; loadOut (nd_N s) d e (el_dofs el) o1) = Ok o' /\ length o' = length o /\
     (forall k, (k < elSize el)%nat -> comp6 n o' d (elDof el k) = pick (rhsE s u el k) d /\ comp6 n o' (3 + d) (elDof el k) = pick (rhsH s u el k) d) /\
     (forall c' i', 0 <= c' < 6 -> 0 <= i' < n -> ((c' <> d /\ c' <> 3 + d) \/ forall k, (k < elSize el)%nat -> i' <> elDof el k) ->
        comp6 n o' c' i' = comp6 n o c' i')).
  { intros d Hd o0 Ho0.
    destruct (elemResult_ok el He 1 d ltac:(lia) Hd) as (h & Eh & Lh & Vh).
    destruct (elemResult_ok el He 0 d ltac:(lia) Hd) as (e & Ee & Le & Ve).
    unfold fl. rewrite Eh. cbn [bind]. rewrite Ee. cbn [bind]. fold n.
    destruct (loadOut_ok el (3 + d) h o0 He Lh Ho0 ltac:(lia)) as (o1 & E1 & L1 & V1 & U1). rewrite E1. cbn [bind].
    destruct (loadOut_ok el d e o1 He Le ltac:(lia) ltac:(lia)) as (o2 & E2 & L2 & V2 & U2). rewrite E2.
    exists o2. split; [reflexivity|]. split; [lia|]. split.
    - intros k Hk. split.
      + rewrite V2, Ve by exact Hk. reflexivity.
      + destruct He as (_ & Hdof & _). destruct (Hdof k Hk) as (_ & Rk & _). rewrite U2; [|lia|exact Rk|left; lia]. rewrite V1, Vh by exact Hk. reflexivity.
    - intros c' i' Hc' Hi' Hor. rewrite U2, U1; try assumption; try reflexivity; destruct Hor as [[? ?]|?]; auto. }
  unfold xyz. cbn [foldM].
  destruct (R 0 ltac:(lia) o Ho) as (o0 & E0 & L0 & V0 & U0). rewrite E0. cbn [bind].
  destruct (R 1 ltac:(lia) o0 ltac:(lia)) as (o1 & E1 & L1 & V1 & U1). rewrite E1. cbn [bind].
  destruct (R 2 ltac:(lia) o1 ltac:(lia)) as (o2 & E2 & L2 & V2 & U2). rewrite E2. cbn [bind].
  exists o2. split; [reflexivity|]. split; [lia|]. split.
  - intros k Hk. destruct He as (_ & Hdof & _). destruct (Hdof k Hk) as (_ & Rk & _). unfold inR in Rk. fold n in Rk.
    destruct (V0 k Hk) as [A0 B0]. destruct (V1 k Hk) as [A1 B1]. destruct (V2 k Hk) as [A2 B2].
    change (3 + 0) with 3 in *. change (3 + 1) with 4 in *. change (3 + 2) with 5 in *.
    unfold E3, H3. rewrite A2, B2.
    rewrite (U2 0), (U2 1), (U2 3), (U2 4) by (lia || assumption). rewrite A1, B1.
    rewrite (U1 0), (U1 3) by (lia || assumption). rewrite A0, B0.
    split; [destruct (rhsE s u el k) as [[? ?] ?]|destruct (rhsH s u el k) as [[? ?] ?]]; reflexivity.
  - intros c' i' Hc' Hi' Hne. rewrite U2, U1, U0; auto.
Qed.

Lemma el_disjoint : forall e1 e2 k1 k2, elSize e1 = elSize e2 -> (k1 < elSize e1)%nat -> (k2 < elSize e2)%nat ->
  elDof e1 k1 = elDof e2 k2 -> el_id e1 = el_id e2.
Proof.
  intros e1 e2 k1 k2 Hs H1 H2 E. unfold elDof in E. rewrite <- Hs in *. nia.
Qed.

Lemma linElements_ok : forall l o, length o = Z.to_nat (6 * n) ->
  Forall (wfEl s) l -> NoDup (map el_id l) -> (forall e1 e2, In e1 l -> In e2 l -> elSize e1 = elSize e2) ->
  exists o', foldM (linElement s x F) l o = Ok o' /\ length o' = length o /\
    (forall el k, In el l -> (k < elSize el)%nat -> E3 (comp6 n o') (elDof el k) = rhsE s u el k /\ H3 (comp6 n o') (elDof el k) = rhsH s u el k) /\
    (forall c' i', 0 <= c' < 6 -> 0 <= i' < n -> (forall el k, In el l -> (k < elSize el)%nat -> i' <> elDof el k) -> comp6 n o' c' i' = comp6 n o c' i').
Proof.
  induction l as [|e l IH]; intros o Ho Hwf Hnd Hsz.
  - exists o. cbn [foldM]. repeat split; try reflexivity; contradiction.
  - inversion Hwf as [|? ? We Wl]; subst. cbn [map] in Hnd. inversion Hnd as [|? ? Hni Hnd']; subst.
    destruct (linElement_ok e o We Ho) as (o1 & E1 & L1 & V1 & U1). cbn [foldM]. rewrite E1. cbn [bind].
    destruct (IH o1 ltac:(lia) Wl Hnd' (fun a b Ha Hb => Hsz a b (or_intror Ha) (or_intror Hb))) as (o2 & E2 & L2 & V2 & U2).
    exists o2. split; [exact E2|]. split; [lia|]. split.
    + intros el k [<-|Hin] Hk; [|apply V2; assumption].
      destruct We as (_ & Hdof & _). destruct (Hdof k Hk) as (_ & Rk & _). unfold inR in Rk. fold n in Rk.
      assert (Hne : forall el0 k0, In el0 l -> (k0 < elSize el0)%nat -> elDof e k <> elDof el0 k0).
      { intros el0 k0 Hin0 Hk0 E. apply Hni.
        rewrite (el_disjoint e el0 k k0 (Hsz e el0 (or_introl eq_refl) (or_intror Hin0)) Hk Hk0 E). apply in_map, Hin0. }
      destruct (V1 k Hk) as [A1 B1].
      split; [rewrite <- A1|rewrite <- B1]; unfold E3, H3; rewrite !U2; try reflexivity; try lia; assumption.
    + intros c' i' Hc' Hi' Hne. rewrite U2, U1; try reflexivity; try assumption.
      * intros k Hk. apply Hne; [left; reflexivity|exact Hk].
      * intros el k Hin Hk. apply Hne; [right; exact Hin|exact Hk].
Qed.

Definition rowStep (o : list R) (r : Z * list (Z * R)) : res (list R) :=
  t <- foldM (fun a cv => v <- zget x (fst cv) ;; Ok (a + snd cv * v)%R) (snd r) 0%R ;;
  b <- zget o (fst r) ;; zset o (fst r) (b + t)%R.

Lemma rowSum_ok : forall cols a, Forall (fun cv => inR (fst cv) (6 * n)) cols ->
  foldM (fun a cv => v <- zget x (fst cv) ;; Ok (a + snd cv * v)%R) cols a =
  Ok (a + suml (fun cv => snd cv * nth (Z.to_nat (fst cv)) x 0) cols)%R.
Proof.
  induction cols as [|cv t IH]; intros a H; inversion H as [|? ? H1 H2]; subst; cbn [foldM].
  - f_equal. unfold suml. cbn [map fold_right]. ring.
  - unfold inR in H1. rewrite (zget_nth x _ 0%R) by (rewrite Hx; lia). cbn [bind]. rewrite IH by exact H2. f_equal.
    unfold suml. cbn [map fold_right]. ring.
Qed.

Lemma rows_ok : forall rows o, length o = Z.to_nat (6 * n) -> NoDup (map fst rows) ->
  Forall (fun r => inR (fst r) (6 * n) /\ Forall (fun cv => inR (fst cv) (6 * n)) (snd r)) rows ->
  exists o', foldM rowStep rows o = Ok o' /\ length o' = length o /\
    (forall r, In r rows -> nth (Z.to_nat (fst r)) o' 0%R = (nth (Z.to_nat (fst r)) o 0 + suml (fun cv => snd cv * nth (Z.to_nat (fst cv)) x 0) (snd r))%R) /\
    (forall i, 0 <= i -> ~ In i (map fst rows) -> nth (Z.to_nat i) o' 0%R = nth (Z.to_nat i) o 0%R).
Proof.
  induction rows as [|r t IH]; intros o Ho Hnd Hf.
  - exists o. cbn [foldM]. repeat split; try reflexivity; contradiction.
  - inversion Hf as [|? ? [Hr Hc] Hf']; subst. cbn [map] in Hnd. inversion Hnd as [|? ? Hni Hnd']; subst. unfold inR in Hr.
    cbn [foldM]. unfold rowStep at 1. rewrite rowSum_ok by exact Hc. cbn [bind].
    rewrite (zget_nth o _ 0%R) by lia. cbn [bind]. rewrite zset_in_range by lia. cbn [bind].
    destruct (IH (upd o (Z.to_nat (fst r)) (nth (Z.to_nat (fst r)) o 0 + (0 + suml (fun cv => snd cv * nth (Z.to_nat (fst cv)) x 0) (snd r)))%R)
      ltac:(rewrite upd_length; exact Ho) Hnd' Hf') as (o' & E' & L' & V' & U').
    exists o'. split; [exact E'|]. split; [rewrite L'; apply upd_length|]. split.
    + intros r0 [<-|Hin].
      * rewrite U' by (lia || exact Hni). rewrite nth_upd_eq by lia. ring.
      * rewrite V' by exact Hin. rewrite nth_upd_neq; [reflexivity|]. intros E. apply Hni.
        rewrite Forall_forall in Hf'. destruct (Hf' r0 Hin) as [Hr0 _]. unfold inR in Hr0.
        replace (fst r) with (fst r0) by lia. apply in_map, Hin.
    + intros i Hi Hni2. cbn [map In] in Hni2. rewrite U' by tauto. apply nth_upd_neq. intros E. apply Hni2. left. lia.
Qed.

End Mult.

(** The whole operator. *)
Theorem nodal_value : forall s x, wfNodal s -> length x = Z.to_nat (6 * nd_N s) ->
  exists out, nodalMult s x = Ok out /\ length out = length x /\
    (forall el k, In el (nd_lin s) -> (k < elSize el)%nat ->
       E3 (comp6 (nd_N s) out) (elDof el k) = rhsE s (comp6 (nd_N s) x) el k /\
       H3 (comp6 (nd_N s) out) (elDof el k) = rhsH s (comp6 (nd_N s) x) el k) /\
    (forall r, In r (curRows s) -> nth (Z.to_nat (fst r)) out 0%R = suml (fun cv => snd cv * nth (Z.to_nat (fst cv)) x 0)%R (snd r)) /\
    (forall c i, 0 <= c < 6 -> 0 <= i < nd_N s ->
       (forall el k, In el (nd_lin s) -> (k < elSize el)%nat -> i <> elDof el k) ->
       ~ In (c * nd_N s + i) (map fst (curRows s)) -> comp6 (nd_N s) out c i = 0%R).
Proof.
  intros s x Hw Hx. destruct (jumps_ok s x Hx Hw) as (F & gg & EJ & HF & Hj).
  unfold nodalMult.
  destruct (initJumps s x) as [J0| |]; cbn [bind] in EJ; try discriminate EJ. cbn [bind].
  destruct (applyBoundary s x J0) as [J1| |]; cbn [bind] in EJ; try discriminate EJ. cbn [bind].
  rewrite EJ. cbn [bind].
  destruct Hw as (Hn & _ & _ & _ & _ & _ & _ & _ & _ & _ & Hwf & Hnd & Hsz & Hnr & Hrows).
  set (o0 := repeat 0%R (Z.to_nat (6 * nd_N s))).
  assert (L0 : length o0 = Z.to_nat (6 * nd_N s)) by apply repeat_length.
  assert (Z0 : forall c i, comp6 (nd_N s) o0 c i = 0%R).
  { intros c i. unfold comp6, o0. generalize (Z.to_nat (c * nd_N s + i)) (Z.to_nat (6 * nd_N s)).
    intros a b. revert a. induction b as [|b IH]; intros [|a]; cbn [repeat nth]; auto. }
  destruct (linElements_ok s x Hx F gg HF Hj (nd_lin s) o0 L0 Hwf Hnd Hsz) as (o1 & E1 & L1 & V1 & U1).
  rewrite E1. cbn [bind].
  assert (ER : foldM (curElement x) (nd_cur s) o1 = foldM (rowStep x) (curRows s) o1).
  { unfold curRows. rewrite foldM_flat_map. reflexivity. }
  rewrite ER.
  assert (Hcond : Forall (fun r : Z * list (Z * R) => inR (fst r) (6 * nd_N s) /\ Forall (fun cv => inR (fst cv) (6 * nd_N s)) (snd r)) (curRows s)).
  { rewrite Forall_forall in Hrows |- *. intros r Hr. destruct (Hrows r Hr) as (d & c & Hd & Hc & E & _ & Hcv). split; [|exact Hcv].
    unfold inR in *. rewrite E. nia. }
  destruct (rows_ok s x Hx (curRows s) o1 ltac:(lia) Hnr Hcond) as (o2 & E2 & L2 & V2 & U2).
  exists o2. split; [exact E2|]. split; [lia|].
  assert (Hlin : forall el k c, In el (nd_lin s) -> (k < elSize el)%nat -> 0 <= c < 6 -> comp6 (nd_N s) o2 c (elDof el k) = comp6 (nd_N s) o1 c (elDof el k)).
  { intros el k c Hin Hk Hc. rewrite Forall_forall in Hwf. destruct (Hwf el Hin) as (_ & Hdof & _). destruct (Hdof k Hk) as (_ & Rk & Ck). unfold inR in Rk.
    unfold comp6. apply U2; [nia|]. intros Hin2. apply in_map_iff in Hin2. destruct Hin2 as (r & Er & Hr).
    rewrite Forall_forall in Hrows. destruct (Hrows r Hr) as (d & c' & Hd & Hc' & E & Cd & _). unfold inR in *.
    assert (c = c') by nia. subst c'. assert (d = elDof el k) by lia. subst d. congruence. }
  split; [|split].
  - intros el k Hin Hk. destruct (V1 el k Hin Hk) as [A B]. split; [rewrite <- A|rewrite <- B]; unfold E3, H3; rewrite !Hlin by (assumption || lia); reflexivity.
  - intros r Hr. rewrite V2 by exact Hr. rewrite Forall_forall in Hrows. destruct (Hrows r Hr) as (d & c & Hd & Hc & E & Cd & _). unfold inR in *.
    rewrite E. change (nth (Z.to_nat (c * nd_N s + d)) o1 0%R) with (comp6 (nd_N s) o1 c d). rewrite U1; try assumption.
    + rewrite Z0. ring.
    + intros el k Hin Hk Ed. rewrite Forall_forall in Hwf. destruct (Hwf el Hin) as (_ & Hdof & _). destruct (Hdof k Hk) as (_ & _ & Ck). congruence.
  - intros c i Hc Hi Hne Hnr2. unfold comp6. rewrite U2 by (nia || assumption). change (comp6 (nd_N s) o1 c i = 0%R). rewrite U1 by assumption. apply Z0.
Qed.

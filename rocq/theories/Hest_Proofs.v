(** Proofs about the reference matrices of the nodal operator. *)
From Coq Require Import ZArith List Bool Reals Lia Lra Sorted.
From Verif Require Import Common Geo_Spec Face_Model Face_Spec Face_Proofs Nodal_Model Nodal_Spec NodalEnergy_Spec Step_Model Conn_Model Conn_Spec.
From Verif Require Import Nodal_Proofs NodalMult_Proofs NodalEnergy_Proofs ConnFlux_Proofs Hest_Model Hest_Spec.
Import ListNotations.
Local Open Scope R_scope.

(** ** Removing columns *)
Definition removeNth {A} (c : nat) (l : list A) : list A := firstn c l ++ skipn (S c) l.
Definition rowAt (A : emat) (i : nat) : list R := map (e_at A i) (seq 0 (e_c A)).

Lemma removeNth_nth : forall {A} (l : list A) c j d, (c < length l)%nat ->
  nth j (removeNth c l) d = if (j <? c)%nat then nth j l d else nth (S j) l d.
Proof.
  intros A l c j d Hc. unfold removeNth. destruct (j <? c)%nat eqn:E.
  - apply Nat.ltb_lt in E. rewrite app_nth1 by (rewrite firstn_length; lia).
    rewrite <- (firstn_skipn c l) at 2. rewrite app_nth1 by (rewrite firstn_length; lia). reflexivity.
  - apply Nat.ltb_ge in E. rewrite app_nth2 by (rewrite firstn_length; lia). rewrite firstn_length, Nat.min_l by lia.
    rewrite <- (firstn_skipn (S c) l) at 2. rewrite (app_nth2 (firstn (S c) l)) by (rewrite firstn_length; lia).
    rewrite firstn_length, Nat.min_l by lia. reflexivity.
Qed.
Lemma removeNth_length : forall {A} (l : list A) c, (c < length l)%nat -> length (removeNth c l) = (length l - 1)%nat.
Proof. intros A l c Hc. unfold removeNth. rewrite app_length, firstn_length, skipn_length. lia. Qed.
Lemma rowAt_length : forall A i, length (rowAt A i) = e_c A.
Proof. intros. unfold rowAt. rewrite map_length, seq_length. reflexivity. Qed.
Lemma rowAt_nth : forall A i j d, (j < e_c A)%nat -> nth j (rowAt A i) d = e_at A i j.
Proof.
  intros A i j d H. unfold rowAt. rewrite nth_indep with (d' := e_at A i 0%nat) by (rewrite map_length, seq_length; lia).
  rewrite map_nth, seq_nth by lia. reflexivity.
Qed.

Lemma removeColumn_row : forall A c i, (c < e_c A)%nat -> rowAt (removeColumn A c) i = removeNth c (rowAt A i).
Proof.
  intros A c i Hc. apply nth_ext with (d := 0) (d' := 0).
  - rewrite rowAt_length, removeNth_length by (rewrite rowAt_length; lia). rewrite rowAt_length. reflexivity.
  - intros j Hj. rewrite rowAt_length in Hj. cbn [removeColumn e_c] in Hj.
    rewrite removeNth_nth by (rewrite rowAt_length; lia). rewrite rowAt_nth by (cbn [removeColumn e_c]; lia).
    cbn [removeColumn e_at].
    destruct (j <? c)%nat eqn:E; [apply Nat.ltb_lt in E|apply Nat.ltb_ge in E].
    + replace (c <=? j)%nat with false by (symmetry; apply Nat.leb_gt; lia). rewrite andb_false_r.
      rewrite rowAt_nth by lia. reflexivity.
    + replace (c <=? j)%nat with true by (symmetry; apply Nat.leb_le; lia). rewrite andb_true_r.
      replace (c <? e_c A - 1)%nat with true by (symmetry; apply Nat.ltb_lt; lia).
      rewrite rowAt_nth by lia. f_equal. lia.
Qed.

Definition keptOf (p : nat -> bool) (n : nat) : list nat := filter (fun c => negb (p c)) (seq 0 n).

Lemma skipn_cons : forall {A} (d : A) n (l : list A), (n < length l)%nat -> skipn n l = nth n l d :: skipn (S n) l.
Proof.
  intros A d. induction n as [|n IH]; intros [|x l] H; try (cbn [length] in H; lia); [reflexivity|].
  cbn [skipn nth]. cbn [length] in H. rewrite (IH l) by lia. reflexivity.
Qed.
Lemma removed_list : forall {A} (d : A) p n (l : list A), (n <= length l)%nat ->
  fold_left (fun l c => removeNth c l) (rev (filter p (seq 0 n))) l =
  map (fun j => nth j l d) (keptOf p n) ++ skipn n l.
Proof.
  intros A d p. induction n as [|n IH]; intros l Hl; [reflexivity|].
  unfold keptOf. rewrite seq_S, !filter_app, map_app. cbn [plus filter]. destruct (p n) eqn:E; cbn [negb].
  - rewrite rev_app_distr. cbn [rev app fold_left]. rewrite IH by (rewrite removeNth_length; lia).
    cbn [map]. rewrite app_nil_r. f_equal.
    + apply map_ext_in. intros j Hj. apply filter_In in Hj as [Hj _]. apply in_seq in Hj.
      rewrite removeNth_nth by lia. replace (j <? n)%nat with true by (symmetry; apply Nat.ltb_lt; lia). reflexivity.
    + unfold removeNth. rewrite skipn_app, firstn_length, skipn_firstn_comm, Nat.sub_diag, Nat.min_l by lia.
      rewrite Nat.sub_diag. reflexivity.
  - rewrite app_nil_r, IH by lia. rewrite <- app_assoc. f_equal. cbn [map app]. apply skipn_cons. lia.
Qed.

Lemma fold_columns : forall cs A i, (forall pre c post, cs = pre ++ c :: post -> (c + length pre < e_c A)%nat) ->
  rowAt (fold_left removeColumn cs A) i = fold_left (fun l c => removeNth c l) cs (rowAt A i) /\
  e_r (fold_left removeColumn cs A) = e_r A.
Proof.
  induction cs as [|c cs IH]; intros A i H; [split; reflexivity|]. cbn [fold_left].
  pose proof (H [] c cs eq_refl) as Hc. cbn [length] in Hc.
  destruct (IH (removeColumn A c) i) as [I1 I2].
  - intros pre c' post E. pose proof (H (c :: pre) c' post) as H'. cbn [app length] in H'. rewrite E in H'. specialize (H' eq_refl).
    cbn [removeColumn e_c]. lia.
  - rewrite I1, I2, removeColumn_row by lia. split; reflexivity.
Qed.

Lemma filter_seq_desc : forall p n pre c post, rev (filter p (seq 0 n)) = pre ++ c :: post -> (c + length pre < n)%nat.
Proof.
  intros p. induction n as [|n IH]; intros pre c post E.
  - destruct pre; discriminate.
  - rewrite seq_S, filter_app, rev_app_distr in E. cbn [plus filter] in E. destruct (p n).
    + cbn [rev app] in E. destruct pre as [|x pre].
      * injection E as E _. subst c. cbn [length]. lia.
      * injection E as _ E. apply IH in E. cbn [length]. lia.
    + cbn [rev app] in E. apply IH in E. lia.
Qed.

Lemma remove_zero : forall A i, rowAt (removeZeroColumns A) i = map (e_at A i) (keptOf (isZeroColumn A) (e_c A)) /\
  e_r (removeZeroColumns A) = e_r A.
Proof.
  intros A i. unfold removeZeroColumns. destruct (fold_columns (rev (filter (isZeroColumn A) (seq 0 (e_c A)))) A i) as [I1 I2].
  - intros pre c post E. eapply filter_seq_desc. exact E.
  - rewrite I1, I2. split; [|reflexivity]. rewrite (removed_list 0) by (rewrite rowAt_length; lia).
    rewrite skipn_all2 by (rewrite rowAt_length; lia). rewrite app_nil_r. apply map_ext_in.
    intros j Hj. apply filter_In in Hj as [Hj _]. apply in_seq in Hj. apply rowAt_nth. lia.
Qed.
Lemma remove_zero_cols : forall A, e_c (removeZeroColumns A) = length (keptOf (isZeroColumn A) (e_c A)).
Proof. intros A. rewrite <- (rowAt_length _ 0). rewrite (proj1 (remove_zero A 0)), map_length. reflexivity. Qed.

(** ** The columns kept are those of the nodes of the face *)
Lemma sorted_same : forall l m : list nat, StronglySorted lt l -> StronglySorted lt m -> (forall x, In x l <-> In x m) -> l = m.
Proof.
  induction l as [|a l IH]; intros m Sl Sm H.
  - destruct m as [|b m]; [reflexivity|]. exfalso. apply (proj2 (H b)). left. reflexivity.
  - destruct m as [|b m]; [exfalso; apply (proj1 (H a)); left; reflexivity|].
    inversion Sl as [|? ? Sl' Fl]; subst. inversion Sm as [|? ? Sm' Fm]; subst. rewrite Forall_forall in Fl, Fm.
    assert (a = b).
    { destruct (proj1 (H a) (or_introl eq_refl)) as [E|E]; [congruence|]. destruct (proj2 (H b) (or_introl eq_refl)) as [E'|E']; [congruence|].
      specialize (Fm a E). specialize (Fl b E'). lia. }
    subst b. f_equal. apply IH; [assumption|assumption|]. intros x. split; intros Hx.
    + destruct (proj1 (H x) (or_intror Hx)) as [E|E]; [|exact E]. subst x. specialize (Fl a Hx). lia.
    + destruct (proj2 (H x) (or_intror Hx)) as [E|E]; [|exact E]. subst x. specialize (Fm a Hx). lia.
Qed.

Lemma overlap_zero : forall F i j, (forall q, In q (f_pts F) -> sh1 q i = 0 \/ sh1 q j = 0) -> overlap F i j = 0.
Proof.
  intros F i j H. unfold overlap, suml. induction (f_pts F) as [|q l IH]; [reflexivity|]. cbn [map fold_right].
  rewrite IH by (intros q' Hq'; apply H; right; exact Hq').
  destruct (H q (or_introl eq_refl)) as [E|E]; rewrite E; ring.
Qed.

Lemma face_matrix : forall n F ns, faceHas n F ns -> exists B, (S0 <- faceMassMatrix n F ;; Ok (removeZeroColumns S0)) = Ok B /\
  e_c B = length ns /\ forall i b, (i < n)%nat -> (b < length ns)%nat -> e_at B i b = overlap F i (nth b ns 0%nat).
Proof.
  intros n F ns [W [E1 [E2 [S0 [B0 [Hz Ht]]]]]]. destruct (flux_entry F W) as [M [EM HM]].
  assert (FS : faceSize F = n) by (unfold faceSize; rewrite E1, E2; lia). rewrite FS in HM.
  assert (HM' : forall i j, (i < n)%nat -> (j < n)%nat -> M i j = overlap F i j).
  { intros i j Hi Hj. rewrite HM by assumption. unfold overlap, shape. rewrite E1. apply suml_ext. intros q _.
    replace (i <? n)%nat with true by (symmetry; apply Nat.ltb_lt; exact Hi).
    replace (j <? n)%nat with true by (symmetry; apply Nat.ltb_lt; exact Hj). reflexivity. }
  unfold faceMassMatrix. rewrite EM. cbn [bind]. set (A := mkE n n M). exists (removeZeroColumns A). split; [reflexivity|].
  assert (K : keptOf (isZeroColumn A) (e_c A) = ns).
  { apply sorted_same; [apply sorted_filter, sorted_seq|exact S0|]. rewrite Forall_forall in B0.
    intros c. unfold keptOf. rewrite filter_In, in_seq. cbn [e_c A plus]. split.
    - intros [Hc HN]. destruct (in_dec Nat.eq_dec c ns) as [I|I]; [exact I|]. exfalso.
      apply negb_true_iff in HN. assert (Z0 : isZeroColumn A c = true).
      { unfold isZeroColumn. apply forallb_forall. intros r Hr. apply in_seq in Hr. cbn [e_r A e_at] in Hr |- *.
        rewrite HM' by lia. rewrite overlap_zero by (intros q Hq; right; apply Hz; [exact Hq|lia|exact I]).
        rewrite Rminus_0_r, Rabs_R0. destruct (Rle_dec zeroTol 0) as [L|L]; [|reflexivity]. unfold zeroTol in L. lra. }
      congruence.
    - intros I. pose proof (B0 c I) as Hc. split; [lia|]. apply negb_true_iff. apply not_true_is_false. intros Z0.
      unfold isZeroColumn in Z0. rewrite forallb_forall in Z0. specialize (Z0 c). cbn [e_r A e_at] in Z0.
      rewrite HM' in Z0 by lia. specialize (Z0 (proj2 (in_seq _ _ _) (conj (Nat.le_0_l c) Hc))).
      destruct (Rle_dec zeroTol (Rabs (overlap F c c - 0))) as [L|L]; [discriminate|]. apply L.
      rewrite Rminus_0_r. specialize (Ht c I). unfold zeroTol. pose proof (Rle_abs (overlap F c c)). lra. }
  split.
  - rewrite remove_zero_cols, K. reflexivity.
  - intros i b Hi Hb. rewrite <- rowAt_nth with (d := 0) by (rewrite remove_zero_cols, K; exact Hb).
    rewrite (proj1 (remove_zero A i)), K. rewrite nth_indep with (d' := e_at A i 0%nat) by (rewrite map_length; exact Hb).
    rewrite map_nth. cbn [A e_at]. apply HM'; [exact Hi|]. rewrite Forall_forall in B0. apply B0, nth_In, Hb.
Qed.

Definition ematStep (n nf : nat) (st : nat * emat) (F : face) : res (nat * emat) :=
  let '(f, A) := st in
  S0 <- faceMassMatrix n F ;;
  let B := removeZeroColumns S0 in
  if (e_c B =? nf)%nat
  then Ok ((f + 1)%nat, mkE (e_r A) (e_c A) (fun i j => if ((f * nf <=? j) && (j <? f * nf + nf))%nat then e_at B i (j - f * nf)%nat else e_at A i j))
  else UB.

Lemma emat_loop : forall n nf fs nodes, Forall2 (fun F ns => faceHas n F ns /\ length ns = nf) fs nodes ->
  forall f0 A, exists A', foldM (ematStep n nf) fs (f0, A) = Ok ((f0 + length fs)%nat, A') /\ e_r A' = e_r A /\ e_c A' = e_c A /\
    (forall i j, (j < f0 * nf)%nat -> e_at A' i j = e_at A i j) /\
    forall i k b, (i < n)%nat -> (k < length fs)%nat -> (b < nf)%nat ->
      e_at A' i ((f0 + k) * nf + b)%nat = overlap (nth k fs (mkFace 0 None [])) i (nth b (nth k nodes []) 0%nat).
Proof.
  intros n nf fs nodes H. induction H as [|F ns fs nodes [HF HL] H IH]; intros f0 A.
  - exists A. cbn [foldM length]. rewrite Nat.add_0_r. split; [reflexivity|]. repeat split; try reflexivity. intros i k b _ Hk. lia.
  - destruct (face_matrix n F ns HF) as [B [EB [CB VB]]]. cbn [foldM].
    assert (E : ematStep n nf (f0, A) F = Ok ((f0 + 1)%nat, mkE (e_r A) (e_c A) (fun i j => if ((f0 * nf <=? j) && (j <? f0 * nf + nf))%nat then e_at B i (j - f0 * nf)%nat else e_at A i j))).
    { unfold ematStep. destruct (faceMassMatrix n F) as [S0| |]; cbn [bind] in EB |- *; try discriminate.
      injection EB as EB. rewrite EB, CB, HL, Nat.eqb_refl. reflexivity. }
    rewrite E. cbn [bind]. set (A1 := mkE _ _ _). destruct (IH (f0 + 1)%nat A1) as [A' [E' [R' [C' [L' V']]]]].
    exists A'. split; [rewrite E'; f_equal; f_equal; cbn [length]; lia|]. split; [rewrite R'; reflexivity|]. split; [rewrite C'; reflexivity|].
    split.
    + intros i j Hj. rewrite L' by nia. cbn [A1 e_at]. replace (f0 * nf <=? j)%nat with false by (symmetry; apply Nat.leb_gt; lia). reflexivity.
    + intros i [|k] b Hi Hk Hb.
      * rewrite Nat.add_0_r. rewrite L' by nia. cbn [A1 e_at nth].
        replace (f0 * nf <=? f0 * nf + b)%nat with true by (symmetry; apply Nat.leb_le; lia).
        replace (f0 * nf + b <? f0 * nf + nf)%nat with true by (symmetry; apply Nat.ltb_lt; lia). cbn [andb].
        rewrite VB by lia. f_equal. f_equal. lia.
      * replace ((f0 + S k) * nf + b)%nat with ((f0 + 1 + k) * nf + b)%nat by nia. cbn [length] in Hk. rewrite V' by lia. reflexivity.
Qed.

Lemma emat_value : forall fc dim t nf nodes, faceNodeNum fc dim t = Ok nf -> refShape fc t nf nodes ->
  exists A, assembleEmat fc dim t = Ok A /\ e_r A = fc_n fc t /\ e_c A = (length (fc_faces fc t) * nf)%nat /\
  forall i f b, (i < fc_n fc t)%nat -> (f < length (fc_faces fc t))%nat -> (b < nf)%nat ->
    e_at A i (f * nf + b)%nat = overlap (faceN fc t f) i (nth b (nth f nodes []) 0%nat).
Proof.
  intros fc dim t nf nodes En H. unfold assembleEmat. rewrite En. cbn [bind].
  destruct (emat_loop _ _ _ _ H 0%nat (mkE (fc_n fc t) (length (fc_faces fc t) * nf) mzero)) as [A [E [Er [Ec [_ V]]]]].
  unfold ematStep in E. rewrite E. cbn [bind snd]. exists A. split; [reflexivity|]. split; [exact Er|]. split; [exact Ec|].
  intros i f b Hi Hf Hb. exact (V i f b Hi Hf Hb).
Qed.

(** ** The reference matrices *)
Definition refDet (t : etype) : R := match t with Triangle => 4 | Tetrahedron => 8 | _ => 1 end.
Definition faceScale (t : etype) : R := match t with Tetrahedron => 2 | _ => 1 end.

Lemma ref_mesh : forall t dim, supported t dim -> exists m, getRefMesh t dim = Ok m /\ rm_type m = t /\ rm_det m = refDet t /\
  rm_ne m = match t with Triangle => 2%nat | _ => 1%nat end.
Proof.
  intros t dim [[-> ->]|[[-> ->]|[-> ->]]]; eexists; (split; [reflexivity|]);
    cbn [rm_type rm_det rm_ne refTetrahedron refDet det2 det3 fst snd]; repeat split; unfold det2; cbn [fst snd]; ring.
Qed.

Lemma ref_mass : forall inv fc t dim, supported t dim -> exists Mi, refElemInvMass inv fc t dim = Ok Mi /\
  e_r Mi = fc_n fc t /\ e_c Mi = fc_n fc t /\
  forall i j, (i < fc_n fc t)%nat -> (j < fc_n fc t)%nat -> e_at Mi i j = inv (fc_n fc t) (scaledMass fc t (refDet t)) i j.
Proof.
  intros inv fc t dim H. destruct (ref_mesh t dim H) as [m [E [Et [Ed En]]]]. unfold refElemInvMass. rewrite E. cbn [bind].
  assert (V : forall i j, (i < fc_n fc t)%nat -> (j < fc_n fc t)%nat ->
    e_at (assembleInverseMass inv fc m) i j = inv (fc_n fc t) (scaledMass fc t (refDet t)) i j).
  { intros i j Hi Hj. cbn [assembleInverseMass e_at]. rewrite Et, Ed. rewrite !Nat.div_small, !Nat.mod_small, Nat.eqb_refl by assumption. reflexivity. }
  destruct H as [[-> ->]|[[-> ->]|[-> ->]]]; cbn [getElemMass Z.eqb]; eexists; (split; [reflexivity|]).
  - cbn [loadMatrixForTris e_r e_c e_at assembleInverseMass]. rewrite Et, En.
    replace (2 * fc_n fc Triangle)%nat with (fc_n fc Triangle * 2)%nat by lia. rewrite Nat.div_mul by lia.
    split; [reflexivity|]. split; [reflexivity|]. intros i j Hi Hj. cbn [plus]. rewrite Ed.
    rewrite !Nat.div_small, !Nat.mod_small, Nat.eqb_refl by assumption. reflexivity.
  - cbn [e_r e_c assembleInverseMass]. rewrite Et, En. split; [lia|]. split; [lia|]. exact V.
  - cbn [e_r e_c assembleInverseMass]. rewrite Et, En. split; [lia|]. split; [lia|]. exact V.
Qed.

Lemma ref_emat : forall fc t dim nf nodes, supported t dim -> faceNodeNum fc dim t = Ok nf -> refShape fc t nf nodes ->
  exists A, refElemEmat fc t dim = Ok A /\ e_r A = fc_n fc t /\ e_c A = (length (fc_faces fc t) * nf)%nat /\
  forall i f b, (i < fc_n fc t)%nat -> (f < length (fc_faces fc t))%nat -> (b < nf)%nat ->
    e_at A i (f * nf + b)%nat = faceScale t * overlap (faceN fc t f) i (nth b (nth f nodes []) 0%nat).
Proof.
  intros fc t dim nf nodes H En Hs. destruct (ref_mesh t dim H) as [m [E [Et _]]]. unfold refElemEmat. rewrite E. cbn [bind]. rewrite Et.
  destruct (emat_value fc dim t nf nodes En Hs) as [A [EA [Er [Ec V]]]]. rewrite EA. cbn [bind]. eexists. split; [reflexivity|].
  destruct H as [[-> ->]|[[-> ->]|[-> ->]]]; cbn [Z.eqb Pos.eqb andb etypeEqb faceScale escale e_r e_c e_at].
  - split; [exact Er|]. split; [exact Ec|]. intros i f b Hi Hf Hb. rewrite V by assumption. ring.
  - split; [exact Er|]. split; [exact Ec|]. intros i f b Hi Hf Hb. rewrite V by assumption. ring.
  - split; [exact Er|]. split; [exact Ec|]. intros i f b Hi Hf Hb. rewrite V by assumption. ring.
Qed.

Lemma emul_value : forall A B, e_c A = e_r B -> exists P, emul A B = Ok P /\ e_r P = e_r A /\ e_c P = e_c B /\
  forall i j, e_at P i j = sumN (e_c A) (fun k => e_at A i k * e_at B k j).
Proof.
  intros A B H. unfold emul. rewrite H, Nat.eqb_refl. eexists. split; [reflexivity|]. cbn [e_r e_c e_at].
  repeat split.
Qed.


Lemma refs_value : forall inv fc dim t nf nodes elems, supported t dim -> faceNodeNum fc dim t = Ok nf -> refShape fc t nf nodes ->
  elems <> [] -> Forall (fun g => ge_type g = t) elems ->
  exists Mi L, buildRefs inv fc dim elems = Ok (Mi, L) /\ e_r Mi = fc_n fc t /\ e_c Mi = fc_n fc t /\
    (forall i j, (i < fc_n fc t)%nat -> (j < fc_n fc t)%nat -> e_at Mi i j = inv (fc_n fc t) (scaledMass fc t (refDet t)) i j) /\
    e_r L = fc_n fc t /\ e_c L = (length (fc_faces fc t) * nf)%nat /\
    forall i f b, (i < fc_n fc t)%nat -> (f < length (fc_faces fc t))%nat -> (b < nf)%nat ->
      e_at L i (f * nf + b)%nat = sumN (fc_n fc t) (fun k => e_at Mi i k * (faceScale t * overlap (faceN fc t f) k (nth b (nth f nodes []) 0%nat))).
Proof.
  intros inv fc dim t nf nodes elems H En Hs Hne Ht. destruct elems as [|g0 elems]; [congruence|].
  assert (T0 : ge_type g0 = t) by (inversion Ht; assumption).
  unfold buildRefs, allSameType. cbn [zget Z.ltb]. change (zget (g0 :: elems) 0) with (Ok (A := gelem) g0). cbn [bind].
  assert (Sm : forallb (fun g => etypeEqb (ge_type g0) (ge_type g)) (g0 :: elems) = true).
  { apply forallb_forall. intros g Hg. rewrite Forall_forall in Ht. rewrite (Ht g Hg), T0. destruct t; reflexivity. }
  rewrite Sm, T0. cbn [bind].
  destruct (ref_mass inv fc t dim H) as [Mi [E1 [R1 [C1 V1]]]]. rewrite E1. cbn [bind].
  destruct (ref_emat fc t dim nf nodes H En Hs) as [A [E2 [R2 [C2 V2]]]]. rewrite E2. cbn [bind].
  destruct (emul_value Mi A) as [L [E3 [R3 [C3 V3]]]]; [congruence|]. rewrite E3. cbn [bind].
  exists Mi, L. split; [reflexivity|]. split; [exact R1|]. split; [exact C1|]. split; [exact V1|].
  split; [congruence|]. split; [congruence|]. intros i f b Hi Hf Hb. rewrite V3, C1. apply sumN_ext. intros k Hk. rewrite V2 by assumption. reflexivity.
Qed.

From Coq Require Import ZArith List Bool Lia.
From Verif Require Import Common Codec_Model Codec_Spec.
Import ListNotations.
Local Open Scope Z_scope.

(** ** Bytes and words *)
Definition isByte (b : Z) : Prop := 0 <= b < 256.
Lemma bytesOf_length : forall k z, length (bytesOf k z) = k.
Proof. induction k; intros; cbn; auto. Qed.
Lemma bytesOf_byte : forall k z, Forall isByte (bytesOf k z).
Proof. induction k; intros; cbn; constructor; auto. apply Z.mod_pos_bound. lia. Qed.
Lemma word_bytes : forall k z, wordOf (bytesOf k z) = z mod (256 ^ Z.of_nat k).
Proof.
  induction k; intros z; cbn [bytesOf wordOf].
  - rewrite Z.mod_1_r. reflexivity.
  - rewrite IHk. rewrite Nat2Z.inj_succ, Z.pow_succ_r by lia.
    rewrite Z.rem_mul_r by (try apply Z.pow_pos_nonneg; lia). reflexivity.
Qed.
Lemma word_double : forall z, isDouble z -> wordOf (bytesOf 8 z) = z.
Proof. intros z H. rewrite word_bytes. apply Z.mod_small. exact H. Qed.
Lemma bytes_word : forall l, Forall isByte l -> bytesOf (length l) (wordOf l) = l.
Proof.
  induction 1 as [|b l Hb Hl IH]; cbn [length bytesOf wordOf]; [reflexivity|].
  red in Hb. rewrite Z.mul_comm, Z_mod_plus_full, Z.mod_small by lia.
  rewrite Z_div_plus_full, Z.div_small by lia. rewrite Z.add_0_l, IH. reflexivity.
Qed.
Lemma word_range : forall l, Forall isByte l -> 0 <= wordOf l < 256 ^ Z.of_nat (length l).
Proof.
  induction 1 as [|b l Hb Hl IH]; cbn [length wordOf]; [cbn; lia|].
  rewrite Nat2Z.inj_succ, Z.pow_succ_r by lia. red in Hb. lia.
Qed.
Lemma int32_bytes : forall z, isInt32 z -> int32 (bytesOf 4 z) = z.
Proof.
  intros z H. unfold int32. rewrite word_bytes. change (256 ^ Z.of_nat 4) with 4294967296. red in H.
  destruct (Z_lt_ge_dec z 0).
  - replace (z mod 4294967296) with (z + 4294967296).
    + destruct (Z.ltb_spec (z + 4294967296) 2147483648); lia.
    + apply Z.mod_unique_pos with (q := -1); lia.
  - rewrite Z.mod_small by lia. destruct (Z.ltb_spec z 2147483648); lia.
Qed.

Lemma doubles_length : forall l, length (doubles l) = (8 * length l)%nat.
Proof. unfold doubles. induction l; cbn [flat_map length]; [reflexivity|]. rewrite app_length, bytesOf_length, IHl. lia. Qed.
Lemma doubles_app : forall a b, doubles (a ++ b) = doubles a ++ doubles b.
Proof. intros. apply flat_map_app. Qed.
Lemma doubles_byte : forall l, Forall isByte (doubles l).
Proof. unfold doubles. induction l; cbn [flat_map]; [constructor|]. apply Forall_app. split; [apply bytesOf_byte|assumption]. Qed.

Lemma words8_doubles : forall l t, Forall isDouble l -> words8 (length l) (doubles l ++ t) = l.
Proof.
  induction l as [|z l IH]; intros t H; [reflexivity|]. inversion H; subst.
  cbn [length words8 doubles flat_map]. fold (doubles l). rewrite <- app_assoc.
  rewrite firstn_app, skipn_app, bytesOf_length. rewrite firstn_all2, skipn_all2 by (rewrite bytesOf_length; lia).
  cbn [Nat.sub firstn skipn app]. rewrite app_nil_r, word_double, IH by assumption. reflexivity.
Qed.
Lemma words8_length : forall k b, length (words8 k b) = k.
Proof. induction k; intros; cbn; auto. Qed.
Lemma words8_double : forall k b, length b = (8 * k)%nat -> Forall isByte b -> Forall isDouble (words8 k b).
Proof.
  induction k; intros b Hl Hb; cbn [words8]; constructor.
  - assert (K := word_range (firstn 8 b)). rewrite firstn_length in K. replace (Nat.min 8 (length b)) with 8%nat in K by lia.
    apply K. apply Forall_forall. intros x Hx. rewrite Forall_forall in Hb. apply Hb. rewrite <- (firstn_skipn 8 b); apply in_or_app; left; exact Hx.
  - apply IHk; [rewrite skipn_length; lia|]. apply Forall_forall. intros x Hx. rewrite Forall_forall in Hb. apply Hb.
    rewrite <- (firstn_skipn 8 b). apply in_or_app. right. exact Hx.
Qed.
Lemma doubles_words8 : forall k b, length b = (8 * k)%nat -> Forall isByte b -> doubles (words8 k b) = b.
Proof.
  induction k; intros b Hl Hb; cbn [words8 doubles flat_map].
  - destruct b; [reflexivity|cbn in Hl; lia].
  - fold (doubles (words8 k (skipn 8 b))).
    assert (F : length (firstn 8 b) = 8%nat) by (rewrite firstn_length; lia).
    assert (B1 : Forall isByte (firstn 8 b)) by (apply Forall_forall; intros x Hx; rewrite Forall_forall in Hb; apply Hb; rewrite <- (firstn_skipn 8 b); apply in_or_app; left; exact Hx).
    assert (B2 : Forall isByte (skipn 8 b)) by (apply Forall_forall; intros x Hx; rewrite Forall_forall in Hb; apply Hb; rewrite <- (firstn_skipn 8 b); apply in_or_app; right; exact Hx).
    rewrite IHk by (try rewrite skipn_length; try assumption; lia).
    rewrite <- F at 1. rewrite bytes_word by assumption. apply firstn_skipn.
Qed.

(** ** Reading *)
Definition okStream (f : stream) : Prop := st_good f = false -> st_rest f = [].

Lemma skipn_repeat : forall (A : Type) (x : A) n m, skipn n (repeat x m) = repeat x (m - n).
Proof. induction n; intros m; [rewrite Nat.sub_0_r; reflexivity|]. destruct m; [reflexivity|]. cbn. apply IHn. Qed.
Lemma skipn_skipn : forall (A : Type) a b (l : list A), skipn a (skipn b l) = skipn (a + b) l.
Proof.
  induction b; intros l; [rewrite Nat.add_0_r; reflexivity|]. rewrite Nat.add_succ_r.
  destruct l; [rewrite !skipn_nil; reflexivity|]. cbn [skipn]. apply IHb.
Qed.
Lemma firstn_repeat : forall (A : Type) (x : A) n m, firstn n (repeat x m) = repeat x (Nat.min n m).
Proof. induction n; intros m; [reflexivity|]. destruct m; [reflexivity|]. cbn. f_equal. apply IHn. Qed.

Lemma read_pad : forall n f, okStream f ->
  fst (read n (repeat 0 n) f) = firstn n (st_rest f ++ repeat 0 n) /\
  st_rest (snd (read n (repeat 0 n) f)) = skipn n (st_rest f) /\
  st_good (snd (read n (repeat 0 n) f)) = (st_good f && (n <=? length (st_rest f))%nat) /\
  okStream (snd (read n (repeat 0 n) f)).
Proof.
  intros n [rest good] Hok. unfold okStream in Hok. cbn in Hok. unfold read. cbn [st_good st_rest].
  destruct good.
  - destruct (Nat.leb_spec n (length rest)); cbn [fst snd st_rest st_good].
    + rewrite firstn_app. replace (n - length rest)%nat with 0%nat by lia. cbn [firstn]. rewrite app_nil_r.
      repeat split; try reflexivity. discriminate.
    + rewrite firstn_app, (firstn_all2 rest), (skipn_all2 rest) by lia. rewrite skipn_repeat, firstn_repeat.
      rewrite Nat.min_l by lia. repeat split; try reflexivity.
  - rewrite Hok by reflexivity. cbn [fst snd app st_rest st_good andb]. rewrite firstn_all2 by (rewrite repeat_length; lia).
    rewrite skipn_nil. repeat split; reflexivity.
Qed.

(** Reading [k] doubles out of a stream that, continued by zeros, starts with the
    doubles [l]. *)
Lemma readDoubles_pad : forall l f t z, okStream f -> Forall isDouble l ->
  st_rest f ++ repeat 0 z = doubles l ++ t -> 
  exists f' z', readDoubles (length l) f = (l, f') /\ okStream f' /\
    st_rest f' = skipn (8 * length l) (st_rest f) /\
    st_good f' = (st_good f && (8 * length l <=? length (st_rest f))%nat) /\ st_rest f' ++ repeat 0 z' = t.
Proof.
  intros l f t z Hok Hl E. unfold readDoubles.
  destruct (read_pad (8 * length l) f Hok) as (R1 & R2 & R3 & R4).
  destruct (read (8 * length l) (repeat 0 (8 * length l)) f) as [b f'] eqn:ER. cbn [fst snd] in *.
  exists f', (z - (8 * length l - length (st_rest f)))%nat.
  assert (L : (length (st_rest f) + z = 8 * length l + length t)%nat).
  { apply (f_equal (@length Z)) in E. rewrite !app_length, repeat_length, doubles_length in E. exact E. }
  assert (B : b = doubles l).
  { rewrite R1. apply (f_equal (firstn (8 * length l))) in E.
    rewrite !firstn_app, doubles_length in E. rewrite (firstn_all2 (doubles l)) in E by (rewrite doubles_length; lia).
    rewrite Nat.sub_diag in E. cbn [firstn] in E. rewrite app_nil_r in E. rewrite <- E.
    rewrite firstn_app. f_equal. rewrite !firstn_repeat. f_equal. lia. }
  split; [f_equal; rewrite B; rewrite <- (app_nil_r (doubles l)); apply words8_doubles; assumption|].
  split; [assumption|]. split; [assumption|]. split; [assumption|].
  rewrite R2. apply (f_equal (skipn (8 * length l))) in E. rewrite !skipn_app, doubles_length in E.
  rewrite (skipn_all2 (doubles l)) in E by (rewrite doubles_length; lia). rewrite Nat.sub_diag in E.
  cbn [app] in E. rewrite <- skipn_O with (l := t). rewrite <- E, skipn_repeat. reflexivity.
Qed.

Lemma readComps_pad : forall k cs f t z, okStream f -> Forall (fun c => length c = k /\ Forall isDouble c) cs ->
  st_rest f ++ repeat 0 z = flat_map doubles cs ++ t ->
  exists f' z', readComps (length cs) k f = (cs, f') /\ okStream f' /\
    st_rest f' = skipn (8 * k * length cs) (st_rest f) /\
    st_good f' = (st_good f && (8 * k * length cs <=? length (st_rest f))%nat) /\ st_rest f' ++ repeat 0 z' = t.
Proof.
  intros k. induction cs as [|c cs IH]; intros f t z Hok Hc E.
  - exists f, z. cbn [length readComps]. rewrite Nat.mul_0_r. cbn. rewrite andb_true_r. auto.
  - inversion Hc as [|? ? [Hk Hd] Hcs]; subst. cbn [flat_map] in E. rewrite <- app_assoc in E.
    destruct (readDoubles_pad c f _ z Hok Hd E) as (f1 & z1 & R1 & O1 & S1 & G1 & E1).
    destruct (IH f1 t z1 O1 Hcs E1) as (f2 & z2 & R2 & O2 & S2 & G2 & E2).
    exists f2, z2. cbn [length readComps]. rewrite R1, R2. split; [reflexivity|]. split; [assumption|].
    split; [rewrite S2, S1, skipn_skipn; f_equal; lia|]. split; [|assumption].
    rewrite G2, G1, S1, skipn_length. destruct (st_good f); [|reflexivity]. cbn [andb].
    destruct (Nat.leb_spec (8 * length c) (length (st_rest f))); destruct (Nat.leb_spec (8 * length c * length cs) (length (st_rest f) - 8 * length c));
      destruct (Nat.leb_spec (8 * length c * S (length cs)) (length (st_rest f))); cbn [andb]; try reflexivity; lia.
Qed.

Lemma count_ok : forall z, 0 <= z -> isInt32 z -> count z = Ok (Z.to_nat z).
Proof.
  intros z H [H1 H2]. unfold count. destruct (Z.leb_spec (-2147483648) z); [|lia]. destruct (Z.leb_spec z 2147483647); [|lia].
  cbn [andb negb]. destruct (Z.ltb_spec z 0); [lia|reflexivity].
Qed.

Lemma snapshot_length : forall dofs s, goodSnapshot dofs s -> length (snapshotBytes s) = (8 + 48 * Z.to_nat dofs)%nat.
Proof.
  intros dofs s (_ & H6 & Hc). unfold snapshotBytes. rewrite app_length, doubles_length. cbn [length].
  assert (K : forall cs, Forall (fun c => Z.of_nat (length c) = dofs /\ Forall isDouble c) cs ->
    length (flat_map doubles cs) = (8 * Z.to_nat dofs * length cs)%nat).
  { induction 1 as [|c cs [Hl _] _ IH]; cbn [flat_map length]; [lia|]. rewrite app_length, doubles_length, IH. lia. }
  rewrite (K _ Hc), H6. lia.
Qed.

(** What a remainder shorter than a snapshot is read as. *)
Definition leftover (dofs : Z) (tail : list Z) (p : list snapshot) : Prop :=
  (length tail < 8)%nat /\ p = [] \/
  (8 <= length tail)%nat /\ exists s, p = [s] /\ goodSnapshot dofs s /\
    snapshotBytes s = tail ++ repeat 0 (8 + 48 * Z.to_nat dofs - length tail).

Lemma one_snapshot : forall dofs s f t z, 0 <= dofs -> isInt32 dofs -> goodSnapshot dofs s -> st_good f = true ->
  (8 <= length (st_rest f))%nat -> st_rest f ++ repeat 0 z = snapshotBytes s ++ t -> forall fuel,
  exists f' z', readSnaps (S fuel) dofs f = (rest <- readSnaps fuel dofs f' ;; Ok (s :: rest)) /\ okStream f' /\
    st_rest f' = skipn (8 + 48 * Z.to_nat dofs) (st_rest f) /\
    st_good f' = (8 + 48 * Z.to_nat dofs <=? length (st_rest f))%nat /\ st_rest f' ++ repeat 0 z' = t.
Proof.
  intros dofs s f t z Hd Hi Hs Hg H8 E fuel. cbn [readSnaps]. rewrite Hg. cbn [andb].
  destruct (st_rest f) as [|b0 r0] eqn:Er; [cbn in H8; lia|]. rewrite <- Er in *. cbn [negb].
  assert (Hok : okStream f) by (red; congruence).
  destruct Hs as (Ht & H6 & Hc). unfold snapshotBytes in E. rewrite <- app_assoc in E.
  destruct (readDoubles_pad [s_time s] f (flat_map doubles (s_comps s) ++ t) z Hok) as (f1 & z1 & R1 & O1 & S1 & G1 & E1); [constructor; [assumption|constructor]|exact E|].
  cbn [length] in *. change (8 * 1)%nat with 8%nat in *. unfold readDoubles in R1. change (8 * 1)%nat with 8%nat in R1.
  destruct (read 8 (repeat 0 8) f) as [tb f1'] eqn:ER. injection R1 as R1 <-.
  rewrite G1, Hg. rewrite (proj2 (Nat.leb_le _ _) H8). cbn [andb].
  rewrite (count_ok _ Hd Hi). cbn [bind].
  destruct (readComps_pad (Z.to_nat dofs) (s_comps s) f1' t z1 O1) as (f2 & z2 & R2 & O2 & S2 & G2 & E2).
  { eapply Forall_impl; [|exact Hc]. cbn. intros c [Hl Hdb]. split; [lia|assumption]. }
  { exact E1. }
  rewrite H6 in *. rewrite R2. exists f2, z2.
  assert (T : wordOf tb = s_time s).
  { assert (K := read_pad 8 f Hok). rewrite ER in K. cbn [fst snd] in K. destruct K as (K & _).
    change (wordOf (firstn 8 tb) = s_time s) in R1. rewrite <- R1, K, firstn_firstn. reflexivity. }
  rewrite T. destruct s as [ts cs]. cbn [s_time s_comps]. split; [reflexivity|]. split; [assumption|].
  split; [rewrite S2, S1, skipn_skipn; f_equal; lia|]. split; [|assumption].
  rewrite G2, G1, S1, Hg, skipn_length.
  rewrite (proj2 (Nat.leb_le _ _) H8). cbn [andb].
  destruct (Nat.leb_spec (8 * Z.to_nat dofs * 6) (length (st_rest f) - 8)); destruct (Nat.leb_spec (8 + 48 * Z.to_nat dofs) (length (st_rest f)));
    try reflexivity; lia.
Qed.

Lemma flat_snap_length : forall dofs l, Forall (goodSnapshot dofs) l ->
  length (flat_map snapshotBytes l) = ((8 + 48 * Z.to_nat dofs) * length l)%nat.
Proof.
  induction 1 as [|s l Hs Hl IH]; cbn [flat_map length]; [lia|]. rewrite app_length, (snapshot_length dofs), IH by assumption. lia.
Qed.

Lemma readSnaps_all : forall dofs, 0 <= dofs -> isInt32 dofs -> forall l tail p fuel, Forall (goodSnapshot dofs) l ->
  leftover dofs tail p -> (length tail < 8 + 48 * Z.to_nat dofs)%nat -> (length l + 1 < fuel)%nat ->
  readSnaps fuel dofs (mkStream (flat_map snapshotBytes l ++ tail) true) = Ok (l ++ p).
Proof.
  intros dofs Hd Hi. induction l as [|s l IH]; intros tail p fuel Hl Hp Ht Hf.
  - cbn [flat_map app]. destruct fuel as [|[|fuel]]; [cbn in Hf; lia|cbn in Hf; lia|].
    destruct Hp as [[H8 ->]|(H8 & s & -> & Hs & E)].
    + cbn [readSnaps st_good st_rest andb]. destruct tail as [|b r] eqn:Et; [reflexivity|]. rewrite <- Et in *. cbn [negb].
      unfold read. cbn [st_good st_rest]. destruct (Nat.leb_spec 8 (length tail)); [lia|]. reflexivity.
    + destruct (one_snapshot dofs s (mkStream tail true) [] (8 + 48 * Z.to_nat dofs - length tail) Hd Hi Hs eq_refl H8) with (fuel := S fuel)
        as (f' & z' & R & O & S' & G & E').
      { cbn [st_rest]. rewrite app_nil_r. symmetry. exact E. }
      rewrite R. cbn [st_rest] in S', G. destruct (Nat.leb_spec (8 + 48 * Z.to_nat dofs) (length tail)); [lia|].
      cbn [readSnaps]. rewrite G. reflexivity.
  - inversion Hl; subst. destruct fuel as [|fuel]; [lia|]. cbn [flat_map]. rewrite <- app_assoc.
    destruct (one_snapshot dofs s (mkStream (snapshotBytes s ++ flat_map snapshotBytes l ++ tail) true) (flat_map snapshotBytes l ++ tail) 0 Hd Hi H1 eq_refl) with (fuel := fuel)
      as (f' & z' & R & O & S' & G & E').
    { cbn [st_rest]. rewrite app_length, (snapshot_length dofs) by assumption. lia. }
    { cbn [st_rest repeat]. rewrite app_nil_r. reflexivity. }
    rewrite R. cbn [st_rest] in S', G. rewrite app_length, (snapshot_length dofs) in G by assumption.
    destruct (Nat.leb_spec (8 + 48 * Z.to_nat dofs) (8 + 48 * Z.to_nat dofs + length (flat_map snapshotBytes l ++ tail))); [|lia].
    rewrite skipn_app, (skipn_all2 (snapshotBytes s)), (snapshot_length dofs), Nat.sub_diag in S' by (try rewrite (snapshot_length dofs); auto).
    cbn [app skipn] in S'. destruct f' as [fr fg]. cbn [st_rest st_good] in S', G. subst fr fg.
    rewrite (IH tail p fuel H2 Hp Ht) by (cbn [length] in Hf; lia). reflexivity.
Qed.

Lemma header_words : forall g i, isInt32 (g_dim g) -> isInt32 (g_dofs g) -> isInt32 (g_bdr g) -> isInt32 (g_qp g) -> isInt32 (g_basis g) ->
  (i < 5)%nat -> int32 (firstn 4 (skipn (4 * i) (headerBytes g))) = nth i [g_dim g; g_dofs g; g_bdr g; g_qp g; g_basis g] 0.
Proof.
  intros g i H1 H2 H3 H4 H5 Hi.
  replace (firstn 4 (skipn (4 * i) (headerBytes g))) with (bytesOf 4 (nth i [g_dim g; g_dofs g; g_bdr g; g_qp g; g_basis g] 0)).
  - destruct i as [|[|[|[|[|i]]]]]; [| | | | |lia]; apply int32_bytes; assumption.
  - destruct i as [|[|[|[|[|i]]]]]; [| | | | |lia]; reflexivity.
Qed.
Lemma header_length : forall g, length (headerBytes g) = 20%nat.
Proof. intros g. unfold headerBytes. cbn [flat_map]. rewrite !app_length, !bytesOf_length. reflexivity. Qed.

Lemma firstn_exact : forall (A : Type) n (a b : list A), length a = n -> firstn n (a ++ b) = a.
Proof. intros A n a b <-. rewrite firstn_app, Nat.sub_diag, firstn_all. cbn. apply app_nil_r. Qed.
Lemma skipn_exact : forall (A : Type) n (a b : list A), length a = n -> skipn n (a ++ b) = b.
Proof. intros A n a b <-. rewrite skipn_app, Nat.sub_diag, skipn_all. reflexivity. Qed.
(** The file, with the geometry read as [g'], followed by [body]. *)
Lemma readRank_gen : forall g g' rest,
  goodGeometry g -> g_dim g' = g_dim g -> g_dofs g' = g_dofs g -> g_bdr g' = g_bdr g -> g_qp g' = g_qp g -> g_basis g' = g_basis g ->
  goodGeometry g' -> forall t z, rest ++ repeat 0 z = geometryBytes g' ++ t ->
  exists f z', readRankData (headerBytes g ++ rest) =
    (snaps <- readSnaps (S (length (headerBytes g ++ rest))) (g_dofs g) f ;; Ok (g', snaps)) /\
    st_rest f = skipn (length (geometryBytes g')) rest /\ st_good f = (length (geometryBytes g') <=? length rest)%nat /\
    st_rest f ++ repeat 0 z' = t.
Proof.
  intros g g' rest Hg E1 E2 E3 E4 E5 Hg' t z E. unfold readRankData.
  unfold read at 1. cbn [st_good st_rest]. rewrite app_length, header_length.
  destruct (Nat.leb_spec 20 (20 + length rest)); [|lia].
  replace (firstn 20 (headerBytes g ++ rest)) with (headerBytes g)
    by (symmetry; apply firstn_exact, header_length).
  replace (skipn 20 (headerBytes g ++ rest)) with rest
    by (symmetry; apply skipn_exact, header_length).
  cbn [st_good]. destruct Hg as (A1 & A2 & A3 & A4 & A5 & A6 & A7 & A8 & A9 & A10 & _).
  rewrite !(header_words g) by (try assumption; lia). cbn [nth].
  rewrite (count_ok (g_qp g * g_dim g)), (count_ok (g_qp g * 3)), (count_ok (g_qp g)) by (try assumption; lia). cbn [bind].
  destruct Hg' as (_ & _ & _ & _ & _ & _ & _ & _ & _ & _ & B1 & B2 & B3 & B4 & B5 & B6).
  unfold geometryBytes in E. rewrite <- !app_assoc in E.
  destruct (readDoubles_pad (g_pos g') (mkStream rest true) _ z ltac:(discriminate) B4 E) as (f1 & z1 & R1 & O1 & S1 & G1 & F1).
  destruct (readDoubles_pad (g_nor g') f1 _ z1 O1 B5 F1) as (f2 & z2 & R2 & O2 & S2 & G2 & F2).
  destruct (readDoubles_pad (g_wei g') f2 _ z2 O2 B6 F2) as (f3 & z3 & R3 & O3 & S3 & G3 & F3).
  replace (Z.to_nat (g_qp g * g_dim g)) with (length (g_pos g')) by (rewrite <- E1, <- E4; lia). rewrite R1.
  replace (Z.to_nat (g_qp g * 3)) with (length (g_nor g')) by (rewrite <- E4; lia). rewrite R2.
  replace (Z.to_nat (g_qp g)) with (length (g_wei g')) by (rewrite <- E4; lia). rewrite R3.
  exists f3, z3. unfold geometryBytes. rewrite !app_length, !doubles_length. cbn [st_rest st_good] in *.
  split; [rewrite <- E1, <- E2, <- E3, <- E4, <- E5; destruct g'; reflexivity|].
  split; [rewrite S3, S2, S1, !skipn_skipn; f_equal; lia|]. split; [|assumption].
  rewrite G3, S2, G2, S1, G1, !skipn_length. cbn [andb].
  destruct (Nat.leb_spec (8 * length (g_pos g')) (length rest)); cbn [andb];
    [|symmetry; apply Nat.leb_gt; lia].
  destruct (Nat.leb_spec (8 * length (g_nor g')) (length rest - 8 * length (g_pos g'))); cbn [andb];
    [|symmetry; apply Nat.leb_gt; lia].
  match goal with |- (?a <=? ?b)%nat = (?c <=? ?d)%nat => destruct (Nat.leb_spec a b); destruct (Nat.leb_spec c d); try reflexivity; lia end.
Qed.

Lemma geometry_length : forall g, goodGeometry g -> Z.of_nat (length (geometryBytes g)) + 20 = bodyStart g.
Proof.
  intros g (_ & _ & _ & _ & _ & _ & _ & _ & _ & _ & B1 & B2 & B3 & _). unfold geometryBytes, bodyStart.
  rewrite !app_length, !doubles_length. lia.
Qed.

(** Whole geometry, then [l], then a remainder. *)
Lemma readRank_tail : forall g l tail p, goodGeometry g -> Forall (goodSnapshot (g_dofs g)) l ->
  leftover (g_dofs g) tail p -> (length tail < 8 + 48 * Z.to_nat (g_dofs g))%nat ->
  readRankData (fileOf g l ++ tail) = Ok (g, l ++ p).
Proof.
  intros g l tail p Hg Hl Hp Ht.
  replace (fileOf g l ++ tail) with (headerBytes g ++ (geometryBytes g ++ flat_map snapshotBytes l ++ tail))
    by (unfold fileOf; rewrite <- !app_assoc; reflexivity).
  destruct (readRank_gen g g (geometryBytes g ++ flat_map snapshotBytes l ++ tail) Hg eq_refl eq_refl eq_refl eq_refl eq_refl Hg (flat_map snapshotBytes l ++ tail) 0)
    as (f & z' & R & S1 & G1 & _); [cbn; rewrite app_nil_r; reflexivity|].
  rewrite R. rewrite skipn_app, skipn_all, Nat.sub_diag in S1. cbn [app skipn] in S1.
  rewrite app_length in G1. destruct (Nat.leb_spec (length (geometryBytes g)) (length (geometryBytes g) + length (flat_map snapshotBytes l ++ tail))) in G1; [|lia].
  destruct f as [fr fg]. cbn [st_rest st_good] in *. subst fr fg.
  destruct Hg as (_ & A2 & _ & _ & _ & _ & A7 & _).
  rewrite (readSnaps_all (g_dofs g) A7 A2 l tail p); [reflexivity|assumption|assumption|assumption|].
  rewrite !app_length, header_length, (flat_snap_length (g_dofs g)) by assumption. nia.
Qed.

Lemma round_trip : forall g l, goodGeometry g -> Forall (goodSnapshot (g_dofs g)) l -> readRankData (fileOf g l) = Ok (g, l).
Proof.
  intros g l Hg Hl. assert (K : readRankData (fileOf g l ++ []) = Ok (g, l ++ [])).
  { apply readRank_tail; auto; [|cbn; lia]. left. split; [cbn; lia|reflexivity]. }
  rewrite !app_nil_r in K. exact K.
Qed.

(** ** Cuts *)
Lemma bytes_snapshot : forall dofs b, 0 <= dofs -> length b = (8 + 48 * Z.to_nat dofs)%nat -> Forall isByte b ->
  exists s, goodSnapshot dofs s /\ snapshotBytes s = b.
Proof.
  intros dofs b Hd Hb HB. set (k := Z.to_nat dofs) in *.
  assert (C : forall n b, length b = (8 * k * n)%nat -> Forall isByte b -> exists cs, length cs = n /\
    Forall (fun c => Z.of_nat (length c) = dofs /\ Forall isDouble c) cs /\ flat_map doubles cs = b).
  { induction n; intros c Hl Hc.
    - exists []. destruct c; [auto|cbn in Hl; lia].
    - assert (HH : Forall isByte (firstn (8 * k) c) /\ Forall isByte (skipn (8 * k) c)).
      { rewrite <- Forall_app, firstn_skipn. exact Hc. }
      destruct HH as [H1 H2]. destruct (IHn (skipn (8 * k) c)) as (cs & L & F & E); [rewrite skipn_length; lia|assumption|].
      exists (words8 k (firstn (8 * k) c) :: cs). cbn [length flat_map]. split; [lia|].
      assert (L1 : length (firstn (8 * k) c) = (8 * k)%nat) by (rewrite firstn_length; nia).
      split; [constructor; [split; [rewrite words8_length; unfold k; lia|apply words8_double; assumption]|assumption]|].
      rewrite doubles_words8, E by assumption. apply firstn_skipn. }
  assert (HH : Forall isByte (firstn 8 b) /\ Forall isByte (skipn 8 b)) by (rewrite <- Forall_app, firstn_skipn; exact HB).
  destruct HH as [H1 H2]. destruct (C 6%nat (skipn 8 b)) as (cs & L & F & E); [rewrite skipn_length; lia|assumption|].
  assert (L1 : length (firstn 8 b) = (8 * 1)%nat) by (rewrite firstn_length; lia).
  exists (mkSnap (wordOf (firstn 8 b)) cs). split.
  - split; [|split; assumption]. assert (K := words8_double 1 (firstn 8 b) L1 H1). apply Forall_inv in K. rewrite firstn_firstn in K. exact K.
  - unfold snapshotBytes. cbn [s_time s_comps]. rewrite E.
    assert (K := doubles_words8 1 (firstn 8 b) L1 H1). cbn [words8] in K. rewrite firstn_firstn in K. change (Nat.min 8 8) with 8%nat in K.
    rewrite K. apply firstn_skipn.
Qed.

Lemma snapshot_bytes : forall s, Forall isByte (snapshotBytes s).
Proof.
  intros s. unfold snapshotBytes. apply Forall_app. split; [apply doubles_byte|].
  induction (s_comps s); cbn [flat_map]; [constructor|]. apply Forall_app. split; [apply doubles_byte|assumption].
Qed.
Lemma zeros_byte : forall n, Forall isByte (repeat 0 n).
Proof. induction n; cbn; constructor; auto. red. lia. Qed.

Lemma cut_between : forall g done s later r, goodGeometry g -> Forall (goodSnapshot (g_dofs g)) (done ++ s :: later) ->
  (r < length (snapshotBytes s))%nat ->
  let file := firstn (length (fileOf g done) + r) (fileOf g (done ++ s :: later)) in
  ((r < 8)%nat -> readRankData file = Ok (g, done)) /\
  ((8 <= r)%nat -> exists p, readRankData file = Ok (g, done ++ [p]) /\ goodSnapshot (g_dofs g) p /\
     blanked r (snapshotBytes s) (snapshotBytes p)).
Proof.
  intros g done s later r Hg Hl Hr file.
  apply Forall_app in Hl. destruct Hl as [Hd Hs]. inversion Hs as [|? ? Hs1 _]; subst.
  assert (F : file = fileOf g done ++ firstn r (snapshotBytes s)).
  { unfold file. replace (fileOf g (done ++ s :: later)) with (fileOf g done ++ (snapshotBytes s ++ flat_map snapshotBytes later))
      by (unfold fileOf; rewrite flat_map_app, <- !app_assoc; reflexivity).
    rewrite firstn_app_2. f_equal. rewrite firstn_app. replace (r - length (snapshotBytes s))%nat with 0%nat by lia.
    cbn [firstn]. apply app_nil_r. }
  rewrite F. assert (LS := snapshot_length _ _ Hs1).
  assert (LT : length (firstn r (snapshotBytes s)) = r) by (rewrite firstn_length; lia).
  split; intros H8.
  - rewrite (readRank_tail g done _ []); auto; [rewrite app_nil_r; reflexivity| |lia]. left. split; [lia|reflexivity].
  - assert (Hd0 : 0 <= g_dofs g) by apply Hg.
    destruct (bytes_snapshot (g_dofs g) (firstn r (snapshotBytes s) ++ repeat 0 (8 + 48 * Z.to_nat (g_dofs g) - r))) as (p & Hp & Ep).
    + exact Hd0.
    + rewrite app_length, LT, repeat_length. lia.
    + apply Forall_app. split; [|apply zeros_byte]. apply Forall_forall. intros x Hx.
      assert (K := snapshot_bytes s). rewrite Forall_forall in K. apply K. rewrite <- (firstn_skipn r (snapshotBytes s)).
      apply in_or_app. left. exact Hx.
    + exists p. split; [|split; [assumption|red; rewrite LS; exact Ep]].
      apply readRank_tail; auto; [|lia]. right. split; [lia|]. exists p. rewrite LT. auto.
Qed.

Lemma file_length : forall g l, goodGeometry g -> Forall (goodSnapshot (g_dofs g)) l ->
  Z.of_nat (length (fileOf g l)) = bodyStart g + snapSize g * Z.of_nat (length l).
Proof.
  intros g l Hg Hl. unfold fileOf. rewrite !app_length, header_length, (flat_snap_length (g_dofs g)) by assumption.
  rewrite <- (geometry_length g Hg). unfold snapSize. assert (0 <= g_dofs g) by apply Hg. lia.
Qed.

Lemma cut_body : forall g l c, goodGeometry g -> Forall (goodSnapshot (g_dofs g)) l ->
  bodyStart g <= Z.of_nat c < Z.of_nat (length (fileOf g l)) ->
  exists k r, Z.of_nat c = bodyStart g + snapSize g * Z.of_nat k + Z.of_nat r /\ (k < length l)%nat /\ Z.of_nat r < snapSize g /\
  ((r < 8)%nat -> readRankData (firstn c (fileOf g l)) = Ok (g, firstn k l)) /\
  ((8 <= r)%nat -> exists s p, nth_error l k = Some s /\ readRankData (firstn c (fileOf g l)) = Ok (g, firstn k l ++ [p]) /\
     blanked r (snapshotBytes s) (snapshotBytes p)).
Proof.
  intros g l c Hg Hl Hc. rewrite (file_length g l Hg Hl) in Hc.
  assert (Hd : 0 <= g_dofs g) by apply Hg.
  assert (HS : 0 < snapSize g) by (unfold snapSize; lia).
  set (q := (Z.of_nat c - bodyStart g) / snapSize g). set (m := (Z.of_nat c - bodyStart g) mod snapSize g).
  assert (Hq : Z.of_nat c - bodyStart g = snapSize g * q + m) by (apply Z.div_mod; lia).
  assert (Hm : 0 <= m < snapSize g) by (apply Z.mod_pos_bound; lia).
  assert (Hq0 : 0 <= q) by (apply Z.div_pos; lia).
  assert (Hql : q < Z.of_nat (length l)) by (apply Z.div_lt_upper_bound; lia).
  exists (Z.to_nat q), (Z.to_nat m). rewrite !Z2Nat.id by lia.
  split; [lia|]. split; [lia|]. split; [lia|].
  destruct (nth_error l (Z.to_nat q)) as [s|] eqn:En; [|apply nth_error_None in En; lia].
  destruct (nth_error_split l _ En) as (d & t & El & Ld).
  assert (Ef : firstn (Z.to_nat q) l = d).
  { rewrite El, <- Ld. rewrite firstn_app, Nat.sub_diag, firstn_all. cbn. apply app_nil_r. }
  assert (Hall := Hl). rewrite El in Hall. assert (Hall2 := proj1 (Forall_app _ _ _) Hall). destruct Hall2 as [Hd1 Hs1]. inversion Hs1; subst x l0.
  assert (Hsl := snapshot_length _ _ H1).
  assert (Hcl : c = (length (fileOf g d) + Z.to_nat m)%nat).
  { assert (K := file_length g d Hg Hd1). lia. }
  assert (K := cut_between g d s t (Z.to_nat m) Hg Hall ltac:(rewrite Hsl; unfold snapSize in Hm; lia)). cbn zeta in K.
  rewrite <- Hcl, <- El in K. rewrite Ef. destruct K as [K1 K2]. split; [exact K1|].
  intros H8. destruct (K2 H8) as (p & R & _ & B). exists s, p. auto.
Qed.

Lemma cut_geometry : forall g l c, goodGeometry g -> Forall (goodSnapshot (g_dofs g)) l ->
  20 <= Z.of_nat c < bodyStart g ->
  exists g', readRankData (firstn c (fileOf g l)) = Ok (g', []) /\
    g_dim g' = g_dim g /\ g_dofs g' = g_dofs g /\ g_bdr g' = g_bdr g /\ g_qp g' = g_qp g /\ g_basis g' = g_basis g /\
    blanked (c - 20) (geometryBytes g) (geometryBytes g').
Proof.
  intros g l c Hg Hl Hc. assert (GL := geometry_length g Hg).
  set (r := (c - 20)%nat). assert (Hr : (r < length (geometryBytes g))%nat) by (unfold r; lia).
  assert (F : firstn c (fileOf g l) = headerBytes g ++ firstn r (geometryBytes g)).
  { unfold fileOf. replace c with (length (headerBytes g) + r)%nat by (rewrite header_length; unfold r; lia).
    rewrite firstn_app_2. f_equal. rewrite firstn_app. replace (r - length (geometryBytes g))%nat with 0%nat by lia. cbn. apply app_nil_r. }
  set (b := firstn r (geometryBytes g) ++ repeat 0 (length (geometryBytes g) - r)).
  assert (Lb : length b = length (geometryBytes g)) by (unfold b; rewrite app_length, firstn_length, repeat_length; lia).
  assert (GB : Forall isByte (geometryBytes g)) by (unfold geometryBytes; repeat (apply Forall_app; split); apply doubles_byte).
  assert (Hb : Forall isByte b).
  { unfold b. apply Forall_app. split; [|apply zeros_byte]. apply Forall_forall. intros x Hx. rewrite Forall_forall in GB. apply GB.
    rewrite <- (firstn_skipn r (geometryBytes g)). apply in_or_app. left. exact Hx. }
  set (np := length (g_pos g)). set (nn := length (g_nor g)). set (nw := length (g_wei g)).
  assert (Lg : length (geometryBytes g) = (8 * np + (8 * nn + 8 * nw))%nat) by (unfold geometryBytes; rewrite !app_length, !doubles_length; reflexivity).
  assert (Split : Forall isByte (firstn (8 * np) b) /\ Forall isByte (skipn (8 * np) b)) by (rewrite <- Forall_app, firstn_skipn; exact Hb).
  destruct Split as [B1 B2].
  assert (Split : Forall isByte (firstn (8 * nn) (skipn (8 * np) b)) /\ Forall isByte (skipn (8 * nn) (skipn (8 * np) b))) by (rewrite <- Forall_app, firstn_skipn; exact B2).
  destruct Split as [B3 B4].
  set (b1 := firstn (8 * np) b) in *. set (b2 := firstn (8 * nn) (skipn (8 * np) b)) in *. set (b3 := skipn (8 * nn) (skipn (8 * np) b)) in *.
  assert (L1 : length b1 = (8 * np)%nat) by (unfold b1; rewrite firstn_length; lia).
  assert (L2 : length b2 = (8 * nn)%nat) by (unfold b2; rewrite firstn_length, skipn_length; lia).
  assert (L3 : length b3 = (8 * nw)%nat) by (unfold b3; rewrite !skipn_length; lia).
  set (g' := mkGeo (g_dim g) (g_dofs g) (g_bdr g) (g_qp g) (g_basis g) (words8 np b1) (words8 nn b2) (words8 nw b3)).
  assert (EB : geometryBytes g' = b).
  { unfold geometryBytes, g'. cbn [g_pos g_nor g_wei]. rewrite !doubles_words8 by assumption.
    unfold b1, b2, b3. rewrite (firstn_skipn (8 * nn)), firstn_skipn. reflexivity. }
  assert (Hg' : goodGeometry g').
  { destruct Hg as (A1 & A2 & A3 & A4 & A5 & A6 & A7 & A8 & A9 & A10 & A11 & A12 & A13 & _).
    unfold g'. repeat split; cbn [g_dim g_dofs g_bdr g_qp g_basis g_pos g_nor g_wei]; try apply A1; try apply A2; try apply A3; try apply A4; try apply A5; try apply A9; try apply A10; try assumption.
    - rewrite words8_length. exact A11.
    - rewrite words8_length. exact A12.
    - rewrite words8_length. exact A13.
    - apply words8_double; assumption.
    - apply words8_double; assumption.
    - apply words8_double; assumption. }
  exists g'. rewrite F.
  destruct (readRank_gen g g' (firstn r (geometryBytes g)) Hg eq_refl eq_refl eq_refl eq_refl eq_refl Hg' [] (length (geometryBytes g) - r))
    as (f & z' & R & S1 & G1 & _); [rewrite app_nil_r, EB; reflexivity|].
  rewrite EB, firstn_length, Lb in G1. destruct (Nat.leb_spec (length (geometryBytes g)) (Nat.min r (length (geometryBytes g)))); [lia|].
  split; [rewrite R; cbn [readSnaps]; rewrite G1; reflexivity|].
  repeat (split; [reflexivity|]). red. rewrite EB. reflexivity.
Qed.

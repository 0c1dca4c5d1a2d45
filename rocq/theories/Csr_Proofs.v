(** Correctness of the CSR block merge. *)
From Coq Require Import ZArith List Lia Bool.
From Coq Require Import Reals Lra.
From Verif Require Import Common Csr_Model Csr_Spec.
Import ListNotations.
Local Open Scope Z_scope.

Section Proofs.
Variable V : Type.
Variable vadd vmul : V -> V -> V.
Notation block := (block V).

(** The entries visited for one global row, with shifted column and scaled value. *)
Definition block_entries (row : Z) (b : block) : list (Z * V) :=
  match local_row row b with
  | None => []
  | Some es => map (fun cv => (fst cv + b_colOffset b, vmul (snd cv) (b_sign b))) es
  end.
Definition rowlist (blocks : list block) (row : Z) : list (Z * V) :=
  flat_map (block_entries row) blocks.

Fixpoint ins (acc : list (Z * V)) (c : Z) (v : V) : list (Z * V) :=
  match acc with
  | [] => [(c, v)]
  | (c', w) :: t => if c' =? c then (c', vadd w v) :: t else (c', w) :: ins t c v
  end.
Definition merge_row (l : list (Z * V)) : list (Z * V) :=
  fold_left (fun acc e => ins acc (fst e) (snd e)) l [].

Lemma merge_row_snoc : forall l e,
  merge_row (l ++ [e]) = ins (merge_row l) (fst e) (snd e).
Proof. intros; unfold merge_row; rewrite fold_left_app; reflexivity. Qed.

Lemma ins_new : forall acc c v, ~ In c (map fst acc) -> ins acc c v = acc ++ [(c, v)].
Proof.
  induction acc as [|[c' w] t IH]; intros c v H; simpl in *; [reflexivity|].
  destruct (Z.eqb_spec c' c); [subst; tauto|]. f_equal; apply IH; tauto.
Qed.

Lemma ins_old : forall acc c v i w,
  NoDup (map fst acc) -> nth_error acc i = Some (c, w) ->
  ins acc c v = upd acc i (c, vadd w v).
Proof.
  induction acc as [|[c' w'] t IH]; intros c v i w Hn Hi; destruct i as [|i]; simpl in *; try discriminate.
  - injection Hi as -> ->. now rewrite Z.eqb_refl.
  - inversion Hn as [|? ? Hnin Hn']; subst.
    destruct (Z.eqb_spec c' c).
    + subst. exfalso; apply Hnin. apply nth_error_In in Hi. 
      change c with (fst (c, w)). now apply in_map.
    + f_equal; eauto.
Qed.

Lemma ins_fst : forall acc c v,
  map fst (ins acc c v) = if in_dec Z.eq_dec c (map fst acc) then map fst acc else map fst acc ++ [c].
Proof.
  induction acc as [|[c' w] t IH]; intros c v; simpl; [reflexivity|].
  destruct (Z.eqb_spec c' c).
  - subst. destruct (Z.eq_dec c c); [|congruence]. reflexivity.
  - destruct (Z.eq_dec c' c); [congruence|]. simpl. rewrite IH.
    destruct (in_dec Z.eq_dec c (map fst t)); reflexivity.
Qed.

Lemma merge_row_nodup : forall l, NoDup (map fst (merge_row l)).
Proof.
  induction l as [|e l IH] using rev_ind; [constructor|].
  rewrite merge_row_snoc, ins_fst.
  destruct (in_dec Z.eq_dec (fst e) (map fst (merge_row l))); auto.
  apply NoDup_Add with (a := fst e) (l := map fst (merge_row l)).
  - rewrite <- (app_nil_r (map fst (merge_row l))) at 1. apply Add_app.
  - auto.
Qed.

Lemma merge_row_in : forall l c, In c (map fst (merge_row l)) <-> In c (map fst l).
Proof.
  induction l as [|e l IH] using rev_ind; intros c; [reflexivity|].
  rewrite merge_row_snoc, ins_fst, map_app, in_app_iff; simpl.
  destruct (in_dec Z.eq_dec (fst e) (map fst (merge_row l))) as [Hi|Hi].
  - rewrite IH. split; [tauto|]. intros [H|[<-|[]]]; auto. now apply IH.
  - rewrite in_app_iff, IH; simpl; tauto.
Qed.

(** Contributions of a row list to a column, in order. *)
Definition at_col (c : Z) (l : list (Z * V)) : list V :=
  map snd (filter (fun e => c =? fst e) l).

Lemma accum_snoc : forall l v,
  accum vadd (l ++ [v]) = Some (match accum vadd l with None => v | Some w => vadd w v end).
Proof.
  intros [|x l] v; simpl; [reflexivity|]. now rewrite fold_left_app.
Qed.

Lemma accum_nil : forall (l : list V), accum vadd l = None <-> l = [].
Proof. intros [|x l]; simpl; split; congruence. Qed.

Lemma at_col_snoc : forall c l e,
  at_col c (l ++ [e]) = at_col c l ++ (if c =? fst e then [snd e] else []).
Proof.
  intros; unfold at_col. rewrite filter_app, map_app; simpl.
  destruct (c =? fst e); reflexivity.
Qed.

Lemma at_col_nil : forall c l, at_col c l = [] <-> ~ In c (map fst l).
Proof.
  intros c l; unfold at_col; induction l as [|e l IH]; simpl; [tauto|].
  destruct (Z.eqb_spec c (fst e)); simpl.
  - split; [discriminate|]. intros H; exfalso; apply H; left; auto.
  - rewrite IH. split; intros H; [intros [?|?]; [congruence|tauto]|tauto].
Qed.

Lemma nth_error_in_fst : forall (l : list (Z * V)) i c v,
  nth_error l i = Some (c, v) -> In c (map fst l).
Proof.
  intros l i c v H; apply nth_error_In in H. change c with (fst (c, v)); now apply in_map.
Qed.

Lemma in_fst_nth : forall (l : list (Z * V)) c,
  In c (map fst l) -> exists i v, nth_error l i = Some (c, v).
Proof.
  intros l c H. apply in_map_iff in H. destruct H as ([c' v] & E & H); simpl in E; subst.
  apply In_nth_error in H. destruct H as (i & H); eauto.
Qed.

Lemma nodup_fst_idx : forall (l : list (Z * V)) i j c v w,
  NoDup (map fst l) -> nth_error l i = Some (c, v) -> nth_error l j = Some (c, w) -> i = j.
Proof.
  intros l i j c v w Hn Hi Hj.
  apply (proj1 (NoDup_nth_error (map fst l)) Hn).
  - rewrite map_length. apply nth_error_Some; congruence.
  - now rewrite !nth_error_map, Hi, Hj.
Qed.

Lemma merge_row_value : forall l i c v,
  nth_error (merge_row l) i = Some (c, v) -> accum vadd (at_col c l) = Some v.
Proof.
  induction l as [|e l IH] using rev_ind; intros i c v H.
  - destruct i; discriminate.
  - rewrite merge_row_snoc in H. rewrite at_col_snoc.
    destruct (in_dec Z.eq_dec (fst e) (map fst (merge_row l))) as [Hi|Hi].
    + destruct (in_fst_nth _ _ Hi) as (k & w & Hk).
      rewrite (ins_old _ _ _ _ _ (merge_row_nodup l) Hk) in H.
      destruct (Nat.eq_dec k i) as [->|Hne].
      * rewrite nth_error_upd_same in H by (apply nth_error_Some; congruence).
        injection H as <- <-. rewrite Z.eqb_refl, accum_snoc.
        now rewrite (IH _ _ _ Hk).
      * rewrite nth_error_upd_other in H by auto.
        destruct (Z.eqb_spec c (fst e)).
        -- subst c. exfalso; apply Hne. eapply nodup_fst_idx; eauto. apply merge_row_nodup.
        -- rewrite app_nil_r. eapply IH; eauto.
    + rewrite ins_new in H by auto.
      destruct (Nat.lt_ge_cases i (length (merge_row l))).
      * rewrite nth_error_app1 in H by auto.
        destruct (Z.eqb_spec c (fst e)).
        -- subst c. exfalso; apply Hi. eapply nth_error_in_fst; eauto.
        -- rewrite app_nil_r. eapply IH; eauto.
      * rewrite nth_error_app2 in H by auto.
        destruct (i - length (merge_row l))%nat as [|k]; simpl in H; [|destruct k; discriminate].
        injection H as <- <-. rewrite Z.eqb_refl.
        assert (E : at_col (fst e) l = []).
        { apply at_col_nil. rewrite <- merge_row_in; auto. }
        rewrite E. reflexivity.
Qed.

(** ** Flattening of the nested loops *)

Lemma pass1_flat : forall row blocks st,
  foldM (pass1_block V row) blocks st =
  foldM (fun st e => pass1_entry row st (fst e)) (rowlist blocks row) st.
Proof.
  intros row blocks st. unfold rowlist. rewrite foldM_flat_map.
  apply foldM_ext_in; intros s b _. unfold pass1_block, block_entries.
  destruct (local_row row b); [|reflexivity]. now rewrite foldM_map.
Qed.

Lemma pass2_flat : forall C_i row blocks st,
  pass2_row V vadd vmul C_i blocks st row =
  foldM (pass2_entry V vadd C_i row) (rowlist blocks row) st.
Proof.
  intros C_i row blocks st. unfold pass2_row, rowlist. rewrite foldM_flat_map.
  apply foldM_ext_in; intros s b _. unfold pass2_block, block_entries.
  destruct (local_row row b); [|reflexivity]. now rewrite foldM_map.
Qed.

Definition cols_ok (cols : nat) (l : list (Z * V)) : Prop :=
  forall c, In c (map fst l) -> 0 <= c < Z.of_nat cols.

(** ** Pass 1, one row *)
Lemma pass1_row_ok : forall cols row l marker,
  cols_ok cols l -> length marker = cols ->
  (forall i m, nth_error marker i = Some m -> m < row) ->
  exists marker',
    foldM (fun st e => pass1_entry row st (fst e)) l (marker, 0) =
      Ok (marker', Z.of_nat (length (merge_row l))) /\
    length marker' = cols /\ (forall i m, nth_error marker' i = Some m -> m <= row).
Proof.
  intros cols row l marker Hc Hlen Hlt.
  set (I := fun (done : list (Z * V)) (st : list Z * Z) =>
    length (fst st) = cols /\ snd st = Z.of_nat (length (merge_row done)) /\
    forall i m, nth_error (fst st) i = Some m ->
      m <= row /\ (m = row <-> In (Z.of_nat i) (map fst (merge_row done)))).
  destruct (foldM_inv (fun st e => pass1_entry row st (fst e)) I l (marker, 0))
    as ((marker' & nnz) & E & Hl & Hn & Hm).
  - repeat split; simpl; auto.
    + specialize (Hlt _ _ H); lia.
    + intros ->. specialize (Hlt _ _ H); lia.
    + tauto.
  - intros done x rest [mk nnz] El (Hl & Hn & Hm); simpl in *.
    assert (Hx : 0 <= fst x < Z.of_nat cols).
    { apply Hc. rewrite El, map_app, in_app_iff; simpl; auto. }
    unfold pass1_entry.
    destruct (zget_in_range mk (fst x)) as (m & Eg & En); [lia|].
    rewrite Eg; simpl. specialize (Hm _ _ En) as Hmx. destruct Hmx as (Hle & Hiff).
    rewrite Z2Nat.id in Hiff by lia.
    destruct (Z.eqb_spec m row) as [->|Hne].
    + exists (mk, nnz); split; [reflexivity|].
      assert (Hin : In (fst x) (map fst (merge_row done))) by tauto.
      assert (Ef : map fst (merge_row (done ++ [x])) = map fst (merge_row done)).
      { rewrite merge_row_snoc, ins_fst.
        destruct (in_dec Z.eq_dec (fst x) (map fst (merge_row done))); tauto. }
      repeat split; simpl; auto.
      * rewrite Hn. f_equal. rewrite <- (map_length fst (merge_row done)), <- Ef, map_length. reflexivity.
      * apply (Hm _ _ H).
      * rewrite Ef. apply (Hm _ _ H).
      * rewrite Ef. apply (Hm _ _ H).
    + rewrite zset_in_range by lia; simpl.
      eexists; split; [reflexivity|].
      assert (Hnin : ~ In (fst x) (map fst (merge_row done))) by tauto.
      rewrite <- (map_length fst (merge_row done)) in Hn.
      assert (Ef : map fst (merge_row (done ++ [x])) = map fst (merge_row done) ++ [fst x]).
      { rewrite merge_row_snoc, ins_fst.
        destruct (in_dec Z.eq_dec (fst x) (map fst (merge_row done))); tauto. }
      repeat split; simpl in *.
      * now rewrite upd_length.
      * rewrite <- (map_length fst (merge_row (done ++ [x]))), Ef, app_length; simpl. lia.
      * destruct (Nat.eq_dec (Z.to_nat (fst x)) i) as [<-|Hd].
        -- rewrite nth_error_upd_same in H by lia. injection H as <-; lia.
        -- rewrite nth_error_upd_other in H by auto. apply (Hm _ _ H).
      * intros ->. rewrite Ef, in_app_iff; simpl.
        destruct (Nat.eq_dec (Z.to_nat (fst x)) i) as [<-|Hd].
        -- right; left; lia.
        -- rewrite nth_error_upd_other in H by auto. left. now apply (Hm _ _ H).
      * rewrite Ef, in_app_iff; simpl.
        destruct (Nat.eq_dec (Z.to_nat (fst x)) i) as [<-|Hd].
        -- rewrite nth_error_upd_same in H by lia. injection H as <-; auto.
        -- rewrite nth_error_upd_other in H by auto. intros [Hi|[Hi|[]]].
           ++ now apply (Hm _ _ H).
           ++ exfalso; lia.
  - simpl in *. exists marker'. rewrite E, Hn. repeat split; auto.
    intros i m H; apply (Hm _ _ H).
Qed.

(** Row pointers: partial sums of the merged row lengths. *)
Fixpoint ptr (blocks : list block) (n : nat) : Z :=
  match n with
  | O => 0
  | S m => ptr blocks m + Z.of_nat (length (merge_row (rowlist blocks (Z.of_nat m))))
  end.
Definition ptrs (blocks : list block) (n : nat) : list Z := map (ptr blocks) (seq 0 (S n)).

Lemma ptr_nonneg : forall blocks n, 0 <= ptr blocks n.
Proof. induction n; simpl; lia. Qed.

Lemma ptr_mono : forall blocks n m, (n <= m)%nat -> ptr blocks n <= ptr blocks m.
Proof. induction 1; simpl; lia. Qed.

Lemma ptrs_length : forall blocks n, length (ptrs blocks n) = S n.
Proof. intros; unfold ptrs; now rewrite map_length, seq_length. Qed.

Lemma ptrs_nth : forall blocks n k, (k <= n)%nat -> nth_error (ptrs blocks n) k = Some (ptr blocks k).
Proof.
  intros; unfold ptrs. rewrite nth_error_map.
  assert (E : nth_error (seq 0 (S n)) k = Some k).
  { rewrite (nth_error_nth' _ 0%nat) by (rewrite seq_length; lia).
    rewrite seq_nth by lia. reflexivity. }
  rewrite E. reflexivity.
Qed.

Lemma ptrs_nth_inv : forall blocks n k x, nth_error (ptrs blocks n) k = Some x ->
  (k <= n)%nat /\ x = ptr blocks k.
Proof.
  intros blocks n k x H.
  assert ((k < length (ptrs blocks n))%nat) by (apply nth_error_Some; congruence).
  rewrite ptrs_length in *. rewrite ptrs_nth in H by lia. split; [lia|congruence].
Qed.

Lemma ptrs_0 : forall blocks, ptrs blocks 0 = [0].
Proof. reflexivity. Qed.

Lemma ptrs_S : forall blocks n, ptrs blocks (S n) = ptrs blocks n ++ [ptr blocks (S n)].
Proof. intros; unfold ptrs. rewrite (seq_S (S n)), map_app. reflexivity. Qed.

Local Opaque ptrs.

Definition all_cols_ok (blocks : list block) (rows cols : nat) : Prop :=
  forall r, 0 <= r < Z.of_nat rows -> cols_ok cols (rowlist blocks r).

Lemma repeat_app_one : forall {A} (a : A) n, repeat a (S n) = [a] ++ repeat a n.
Proof. reflexivity. Qed.

Lemma pass1_ok : forall blocks rows cols,
  all_cols_ok blocks rows cols ->
  pass1 V blocks rows cols = Ok (map Some (ptrs blocks rows)).
Proof.
  intros blocks rows cols Hok. unfold pass1.
  rewrite zset_in_range by (rewrite repeat_length; lia).
  cbn [bind].
  assert (G : forall n, (n <= rows)%nat ->
    exists marker, foldM (pass1_row V blocks) (zseq n)
      (repeat (-1) cols, upd (repeat None (rows + 1)) (Z.to_nat 0) (Some 0)) =
      Ok (marker, map Some (ptrs blocks n) ++ repeat None (rows - n)) /\
      length marker = cols /\
      forall i m, nth_error marker i = Some m -> m < Z.of_nat n).
  { induction n as [|n IH]; intros Hn.
    - exists (repeat (-1) cols). simpl. rewrite Nat.add_1_r, Nat.sub_0_r; simpl.
      rewrite ptrs_0; simpl. split; [reflexivity|]. split; [apply repeat_length|].
      intros i m H. apply nth_error_In, repeat_spec in H. lia.
    - destruct IH as (marker & E & Hl & Hm); [lia|].
      rewrite zseq_S, foldM_app, E; simpl.
      rewrite pass1_flat.
      destruct (pass1_row_ok cols (Z.of_nat n) (rowlist blocks (Z.of_nat n)) marker)
        as (marker' & E' & Hl' & Hm'); auto.
      { apply Hok; lia. }
      rewrite E'; simpl.
      assert (Eg : zget_init (map Some (ptrs blocks n) ++ repeat None (rows - n)) (Z.of_nat n)
                   = Ok (ptr blocks n)).
      { unfold zget_init.
        assert (E1 : zget (map Some (ptrs blocks n) ++ repeat None (rows - n)) (Z.of_nat n)
                     = Ok (Some (ptr blocks n))).
        { apply zget_ok; split; [lia|]. rewrite Nat2Z.id.
          rewrite nth_error_app1 by (rewrite map_length, ptrs_length; lia).
          now rewrite nth_error_map, ptrs_nth by lia. }
        now rewrite E1. }
      rewrite Eg; simpl.
      rewrite zset_in_range by (rewrite app_length, map_length, ptrs_length, repeat_length; lia).
      simpl. exists marker'. split; [|split; auto].
      + f_equal. f_equal.
        replace (Z.to_nat (Z.of_nat n + 1)) with (length (map Some (ptrs blocks n)) + 0)%nat
          by (rewrite map_length, ptrs_length; lia).
        rewrite upd_app_r.
        replace (rows - n)%nat with (S (rows - S n)) by lia.
        simpl repeat; simpl upd.
        rewrite ptrs_S, map_app, <- app_assoc. reflexivity.
      + intros i m H. specialize (Hm' _ _ H). lia. }
  destruct (G rows (le_n _)) as (marker & E & _). rewrite E; simpl.
  now rewrite Nat.sub_diag, app_nil_r.
Qed.

(** ** Pass 2 *)
Definition prev (blocks : list block) (n : nat) : list (Z * V) :=
  flat_map (fun r => merge_row (rowlist blocks (Z.of_nat r))) (seq 0 n).

Lemma prev_S : forall blocks n,
  prev blocks (S n) = prev blocks n ++ merge_row (rowlist blocks (Z.of_nat n)).
Proof. intros; unfold prev. rewrite seq_S, flat_map_app; simpl. now rewrite app_nil_r. Qed.

Lemma prev_length : forall blocks n, Z.of_nat (length (prev blocks n)) = ptr blocks n.
Proof.
  induction n; [reflexivity|]. rewrite prev_S, app_length; simpl ptr. lia.
Qed.

Definition fillJ (total : nat) (l : list (Z * V)) : list (option Z) :=
  map (fun e => Some (fst e)) l ++ repeat None (total - length l).
Definition fillA (total : nat) (l : list (Z * V)) : list (option V) :=
  map (fun e => Some (snd e)) l ++ repeat None (total - length l).

Lemma fillJ_snoc : forall total l e, (length l < total)%nat ->
  upd (fillJ total l) (length l) (Some (fst e)) = fillJ total (l ++ [e]).
Proof.
  intros total l e H. unfold fillJ.
  replace (length l) with (length (map (fun e : Z * V => Some (fst e)) l) + 0)%nat at 2
    by (rewrite map_length; lia).
  rewrite upd_app_r, app_length; simpl length.
  replace (total - length l)%nat with (S (total - (length l + 1))) by lia.
  simpl. rewrite map_app, <- app_assoc. reflexivity.
Qed.

Lemma fillA_snoc : forall total l e, (length l < total)%nat ->
  upd (fillA total l) (length l) (Some (snd e)) = fillA total (l ++ [e]).
Proof.
  intros total l e H. unfold fillA.
  replace (length l) with (length (map (fun e : Z * V => Some (snd e)) l) + 0)%nat at 2
    by (rewrite map_length; lia).
  rewrite upd_app_r, app_length; simpl length.
  replace (total - length l)%nat with (S (total - (length l + 1))) by lia.
  simpl. rewrite map_app, <- app_assoc. reflexivity.
Qed.

Lemma map_upd : forall {A B} (f : A -> B) l i a, map f (upd l i a) = upd (map f l) i (f a).
Proof. induction l as [|x t IH]; intros [|i] a; simpl; auto. f_equal; auto. Qed.

Lemma fillA_upd : forall total l i e, (i < length l)%nat ->
  upd (fillA total l) i (Some (snd e)) = fillA total (upd l i e).
Proof.
  intros total l i e H. unfold fillA. rewrite upd_length, map_upd, upd_app_l; auto.
  now rewrite map_length.
Qed.

Lemma fillJ_upd : forall total l i c w w', nth_error l i = Some (c, w) ->
  fillJ total (upd l i (c, w')) = fillJ total l.
Proof.
  intros total l i c w w' H. unfold fillJ. rewrite upd_length, map_upd; simpl.
  f_equal. apply upd_same_noop. now rewrite nth_error_map, H.
Qed.

Lemma pass2_row_ok : forall blocks rows cols n marker total,
  all_cols_ok blocks rows cols -> (n < rows)%nat ->
  total = Z.to_nat (ptr blocks rows) ->
  length marker = cols ->
  (forall i m, nth_error marker i = Some m -> m < ptr blocks n) ->
  exists marker',
    pass2_row V vadd vmul (map Some (ptrs blocks rows)) blocks
      (mkSt2 V marker (ptr blocks n) (fillJ total (prev blocks n)) (fillA total (prev blocks n)))
      (Z.of_nat n) =
    Ok (mkSt2 V marker' (ptr blocks (S n)) (fillJ total (prev blocks (S n)))
          (fillA total (prev blocks (S n)))) /\
    length marker' = cols /\
    (forall i m, nth_error marker' i = Some m -> m < ptr blocks (S n)).
Proof.
  intros blocks rows cols n marker total Hok Hn Ht Hlen Hm.
  rewrite pass2_flat.
  set (base := ptr blocks n) in *.
  set (l := rowlist blocks (Z.of_nat n)).
  set (I := fun (done : list (Z * V)) (st : st2 V) =>
    let acc := merge_row done in
    length (s_marker V st) = cols /\
    s_pos V st = base + Z.of_nat (length acc) /\
    s_Cj V st = fillJ total (prev blocks n ++ acc) /\
    s_Cdata V st = fillA total (prev blocks n ++ acc) /\
    forall i m, nth_error (s_marker V st) i = Some m ->
      (forall k v, nth_error acc k = Some (Z.of_nat i, v) -> m = base + Z.of_nat k) /\
      (~ In (Z.of_nat i) (map fst acc) -> m < base)).
  assert (Hl : cols_ok cols l) by (apply Hok; lia).
  assert (Hci : zget_init (map Some (ptrs blocks rows)) (Z.of_nat n) = Ok base).
  { unfold zget_init.
    assert (E1 : zget (map Some (ptrs blocks rows)) (Z.of_nat n) = Ok (Some base)).
    { apply zget_ok; split; [lia|]. rewrite Nat2Z.id, nth_error_map, ptrs_nth by lia. reflexivity. }
    now rewrite E1. }
  assert (Hbase : 0 <= base) by apply ptr_nonneg.
  assert (Hpl : length (prev blocks n) = Z.to_nat base).
  { unfold base; rewrite <- prev_length; lia. }
  assert (Htot : base + Z.of_nat (length (merge_row l)) <= Z.of_nat total).
  { rewrite Ht, Z2Nat.id by apply ptr_nonneg. 
    change (ptr blocks (S n) <= ptr blocks rows). apply ptr_mono; lia. }
  destruct (foldM_inv (pass2_entry V vadd (map Some (ptrs blocks rows)) (Z.of_nat n)) I l
     (mkSt2 V marker base (fillJ total (prev blocks n)) (fillA total (prev blocks n))))
    as (st' & E & Hl' & Hp' & HJ & HA & Hm').
  - unfold I; simpl. rewrite app_nil_r. repeat split; auto; try lia.
    + intros k v H0; destruct k; discriminate.
    + intros _. eapply Hm; eauto.
  - intros done x rest st El HI. unfold I in HI; simpl in HI.
    destruct HI as (Hl1 & Hp1 & HJ1 & HA1 & Hm1).
    assert (Hx : 0 <= fst x < Z.of_nat cols).
    { apply Hl. rewrite El, map_app, in_app_iff; simpl; auto. }
    unfold pass2_entry. destruct x as [c v]; simpl in Hx.
    destruct (zget_in_range (s_marker V st) c) as (m & Eg & En); [lia|].
    rewrite Eg, Hci; simpl.
    specialize (Hm1 _ _ En) as Hmx. rewrite Z2Nat.id in Hmx by lia. destruct Hmx as (Hma & Hmb).
    (* the final merged row is at least as long as the current prefix plus room for a new column *)
    assert (Hpre : forall d r, l = d ++ r -> (length (merge_row d) <= length (merge_row l))%nat).
    { intros d r Elr; rewrite Elr. clear. revert d. induction r as [|y r IH]; intros d.
      - now rewrite app_nil_r.
      - specialize (IH (d ++ [y])). rewrite <- app_assoc in IH; simpl in IH.
        etransitivity; [|exact IH]. rewrite merge_row_snoc.
        rewrite <- (map_length fst (merge_row d)), <- (map_length fst (ins _ _ _)), ins_fst.
        destruct (in_dec _ _ _); [lia|rewrite app_length; lia]. }
    destruct (in_dec Z.eq_dec c (map fst (merge_row done))) as [Hin|Hnin].
    + destruct (in_fst_nth _ _ Hin) as (k & w & Hk).
      assert (Hmk : m = base + Z.of_nat k) by eauto.
      assert (Hklt : (k < length (merge_row done))%nat) by (apply nth_error_Some; congruence).
      specialize (Hpre done _ El).
      destruct (Z.ltb_spec m base); [lia|].
      assert (Hidx : nth_error (prev blocks n ++ merge_row done) (Z.to_nat m) = Some (c, w)).
      { rewrite nth_error_app2 by lia. replace (Z.to_nat m - length (prev blocks n))%nat with k by lia.
        assumption. }
      assert (Eold : zget_init (s_Cdata V st) m = Ok w).
      { unfold zget_init. rewrite HA1.
        assert (E1 : zget (fillA total (prev blocks n ++ merge_row done)) m = Ok (Some w)).
        { apply zget_ok; split; [lia|]. unfold fillA.
          rewrite nth_error_app1 by (rewrite map_length, app_length; lia).
          now rewrite nth_error_map, Hidx. }
        now rewrite E1. }
      rewrite Eold; simpl.
      rewrite zset_in_range.
      2:{ rewrite HA1. unfold fillA. rewrite app_length, map_length, app_length, repeat_length. lia. }
      simpl. eexists; split; [reflexivity|].
      unfold I; simpl. rewrite merge_row_snoc; simpl fst; simpl snd.
      rewrite (ins_old _ _ _ _ _ (merge_row_nodup done) Hk), upd_length.
      assert (Eapp : prev blocks n ++ upd (merge_row done) k (c, vadd w v) =
                     upd (prev blocks n ++ merge_row done) (Z.to_nat m) (c, vadd w v)).
      { replace (Z.to_nat m) with (length (prev blocks n) + k)%nat by lia. now rewrite upd_app_r. }
      rewrite Eapp. split; [auto|]. split; [auto|]. split; [|split].
      * rewrite HJ1. symmetry. eapply fillJ_upd; eauto.
      * rewrite HA1. 
        rewrite <- (fillA_upd total _ _ (c, vadd w v)); [reflexivity|].
        rewrite app_length; lia.
      * intros i m0 Hi. specialize (Hm1 _ _ Hi). destruct Hm1 as (H1 & H2). split.
        -- intros k0 v0 Hk0. destruct (Nat.eq_dec k k0) as [<-|Hd].
           ++ rewrite nth_error_upd_same in Hk0 by auto. injection Hk0 as Hic _.
              apply (H1 k w). rewrite <- Hic. exact Hk.
           ++ rewrite nth_error_upd_other in Hk0 by auto. eauto.
        -- rewrite map_upd; simpl. rewrite upd_same_noop; [auto|].
           now rewrite nth_error_map, Hk.
    + assert (Hlt : m < base) by auto.
      assert (Hlen2 : (length (merge_row (done ++ [(c, v)])) = S (length (merge_row done)))%nat).
      { rewrite merge_row_snoc; simpl. rewrite ins_new, app_length by auto. simpl; lia. }
      specialize (Hpre (done ++ [(c, v)]) rest).
      rewrite <- app_assoc in Hpre; simpl in Hpre. specialize (Hpre El).
      destruct (Z.ltb_spec m base); [|lia].
      assert (Hposn : Z.to_nat (s_pos V st) = length (prev blocks n ++ merge_row done)).
      { rewrite app_length; lia. }
      rewrite (zset_in_range (s_Cj V st)).
      2:{ rewrite HJ1. unfold fillJ. rewrite app_length, map_length, repeat_length, !app_length. lia. }
      simpl.
      rewrite (zset_in_range (s_Cdata V st)).
      2:{ rewrite HA1. unfold fillA. rewrite app_length, map_length, repeat_length, !app_length. lia. }
      simpl. rewrite zset_in_range by lia. simpl.
      eexists; split; [reflexivity|].
      unfold I; simpl. rewrite Hlen2.
      assert (Em : merge_row (done ++ [(c, v)]) = merge_row done ++ [(c, v)]).
      { rewrite merge_row_snoc; simpl. now apply ins_new. }
      rewrite Em, app_assoc.
      split; [now rewrite upd_length|]. split; [lia|]. split; [|split].
      * rewrite HJ1, Hposn. apply (fillJ_snoc total _ (c, v)). rewrite app_length. lia.
      * rewrite HA1, Hposn. apply (fillA_snoc total _ (c, v)). rewrite app_length. lia.
      * intros i m0 Hi. destruct (Nat.eq_dec (Z.to_nat c) i) as [<-|Hd].
        -- rewrite nth_error_upd_same in Hi by lia. injection Hi as <-.
           rewrite Z2Nat.id by lia. split.
           ++ intros k0 v0 Hk0.
              assert (k0 = length (merge_row done)).
              { destruct (Nat.lt_ge_cases k0 (length (merge_row done))).
                - rewrite nth_error_app1 in Hk0 by auto. exfalso; apply Hnin.
                  eapply nth_error_in_fst; eauto.
                - rewrite nth_error_app2 in Hk0 by auto.
                  destruct (k0 - length (merge_row done))%nat eqn:Ek; [lia|].
                  simpl in Hk0. destruct n0; discriminate. }
              lia.
           ++ intros Hni. exfalso; apply Hni. rewrite map_app, in_app_iff; simpl; auto.
        -- rewrite nth_error_upd_other in Hi by auto. specialize (Hm1 _ _ Hi) as (H1 & H2). split.
           ++ intros k0 v0 Hk0.
              destruct (Nat.lt_ge_cases k0 (length (merge_row done))).
              ** rewrite nth_error_app1 in Hk0 by auto. eauto.
              ** rewrite nth_error_app2 in Hk0 by auto.
                 destruct (k0 - length (merge_row done))%nat; simpl in Hk0; [|destruct n0; discriminate].
                 injection Hk0 as Hc _. lia.
           ++ intros Hni. apply H2. intros Hin. apply Hni. rewrite map_app, in_app_iff; auto.
  - exists (s_marker V st'). split.
    + rewrite E. f_equal. destruct st' as [mk' p' j' a']; simpl in *.
      rewrite prev_S. fold l. subst j' a' p'. reflexivity.
    + split; auto. intros i m Hi. specialize (Hm' _ _ Hi) as (H1 & H2).
      simpl ptr. fold l. fold base.
      destruct (in_dec Z.eq_dec (Z.of_nat i) (map fst (merge_row l))) as [Hin|Hnin].
      * destruct (in_fst_nth _ _ Hin) as (k & w & Hk).
        assert ((k < length (merge_row l))%nat) by (apply nth_error_Some; congruence).
        rewrite (H1 _ _ Hk). lia.
      * specialize (H2 Hnin). lia.
Qed.

Definition result (blocks : list block) (rows : nat) : csr V :=
  mkCsr V (map Some (ptrs blocks rows))
    (map (fun e => Some (fst e)) (prev blocks rows))
    (map (fun e => Some (snd e)) (prev blocks rows)).

Lemma merge_ok_aux : forall blocks rows cols,
  all_cols_ok blocks rows cols ->
  mergeBlocksToCSR V vadd vmul blocks rows cols = Ok (result blocks rows).
Proof.
  intros blocks rows cols Hok. unfold mergeBlocksToCSR.
  rewrite pass1_ok by auto. simpl.
  assert (Eg : zget_init (map Some (ptrs blocks rows)) (Z.of_nat rows) = Ok (ptr blocks rows)).
  { unfold zget_init.
    assert (E1 : zget (map Some (ptrs blocks rows)) (Z.of_nat rows) = Ok (Some (ptr blocks rows))).
    { apply zget_ok; split; [lia|]. rewrite Nat2Z.id, nth_error_map, ptrs_nth by lia. reflexivity. }
    now rewrite E1. }
  rewrite Eg; simpl.
  destruct (Z.ltb_spec (ptr blocks rows) 0); [pose proof (ptr_nonneg blocks rows); lia|].
  set (total := Z.to_nat (ptr blocks rows)).
  assert (G : forall n, (n <= rows)%nat -> exists marker,
    foldM (pass2_row V vadd vmul (map Some (ptrs blocks rows)) blocks) (zseq n)
      (mkSt2 V (repeat (-1) cols) 0 (repeat None total) (repeat None total)) =
    Ok (mkSt2 V marker (ptr blocks n) (fillJ total (prev blocks n)) (fillA total (prev blocks n))) /\
    length marker = cols /\ forall i m, nth_error marker i = Some m -> m < ptr blocks n).
  { induction n as [|n IH]; intros Hn.
    - exists (repeat (-1) cols). simpl. unfold fillJ, fillA; simpl. rewrite Nat.sub_0_r.
      split; [reflexivity|]. split; [apply repeat_length|].
      intros i m Hi; apply nth_error_In, repeat_spec in Hi; lia.
    - destruct IH as (marker & E & Hl & Hm); [lia|].
      rewrite zseq_S, foldM_app, E. cbn [bind].
      destruct (pass2_row_ok blocks rows cols n marker total) as (marker' & E' & Hl' & Hm'); auto; try lia.
      exists marker'. split; [|auto]. simpl foldM. rewrite E'. reflexivity. }
  destruct (G rows (le_n _)) as (marker & E & _ & _).
  rewrite E; simpl. unfold result. f_equal. f_equal.
  - unfold fillJ. replace (total - length (prev blocks rows))%nat with 0%nat.
    + now rewrite app_nil_r.
    + unfold total. rewrite <- prev_length. lia.
  - unfold fillA. replace (total - length (prev blocks rows))%nat with 0%nat.
    + now rewrite app_nil_r.
    + unfold total. rewrite <- prev_length. lia.
Qed.

(** ** Connection with the specification *)
Lemma local_row_nth : forall row (b : block) es,
  local_row row b = Some es ->
  nth_error (b_rows b) (Z.to_nat (row - b_rowOffset b)) = Some es /\ b_rowOffset b <= row.
Proof.
  intros row b es; unfold local_row.
  destruct (Z.ltb_spec (row - b_rowOffset b) 0); simpl; [discriminate|].
  destruct (Z.leb_spec (Z.of_nat (length (b_rows b))) (row - b_rowOffset b)); simpl; [discriminate|].
  intros E; split; [assumption|lia].
Qed.

Lemma block_entries_contrib : forall r c b,
  at_col c (block_entries r b) = contrib vmul r c b.
Proof.
  intros r c b. unfold block_entries, contrib, local_row, at_col.
  destruct (Z.ltb_spec r (b_rowOffset b)).
  - destruct (Z.ltb_spec (r - b_rowOffset b) 0); [reflexivity|lia].
  - destruct (Z.ltb_spec (r - b_rowOffset b) 0); [lia|]; simpl.
    destruct (Z.leb_spec (Z.of_nat (length (b_rows b))) (r - b_rowOffset b)); simpl.
    + rewrite nth_overflow by lia. reflexivity.
    + destruct (nth_error (b_rows b) (Z.to_nat (r - b_rowOffset b))) as [es|] eqn:E.
      * rewrite (nth_error_nth _ _ _ E). clear E.
        induction es as [|e es IH]; simpl; [reflexivity|].
        destruct (c =? fst e + b_colOffset b); simpl; now rewrite IH.
      * apply nth_error_None in E. lia.
Qed.

Lemma at_col_flat_map : forall c (f : block -> list (Z * V)) l,
  at_col c (flat_map f l) = flat_map (fun b => at_col c (f b)) l.
Proof.
  intros c f l; induction l as [|x t IH]; simpl; [reflexivity|].
  unfold at_col in *. rewrite filter_app, map_app, IH. reflexivity.
Qed.

Lemma rowlist_contribs : forall blocks r c,
  at_col c (rowlist blocks r) = contribs vmul blocks r c.
Proof.
  intros. unfold rowlist, contribs. rewrite at_col_flat_map.
  apply flat_map_ext. intros b; apply block_entries_contrib.
Qed.

Lemma fits_cols_ok : forall blocks rows cols,
  fits blocks rows cols <-> all_cols_ok blocks rows cols.
Proof.
  intros blocks rows cols; split.
  - intros Hf r Hr c Hc. unfold rowlist in Hc. apply in_map_iff in Hc.
    destruct Hc as (e & <- & He). apply in_flat_map in He. destruct He as (b & Hb & He).
    unfold block_entries in He. destruct (local_row r b) as [es|] eqn:El; [|destruct He].
    apply in_map_iff in He. destruct He as (e0 & <- & He0). simpl.
    destruct (local_row_nth _ _ _ El) as (Hn & Ho).
    eapply (Hf b _ es e0); eauto. lia.
  - intros Ha b i row e Hb Hi Hr He.
    apply (Ha (b_rowOffset b + Z.of_nat i) Hr).
    apply in_map_iff. exists (fst e + b_colOffset b, vmul (snd e) (b_sign b)).
    split; [reflexivity|]. unfold rowlist. apply in_flat_map. exists b; split; auto.
    unfold block_entries, local_row.
    replace (b_rowOffset b + Z.of_nat i - b_rowOffset b) with (Z.of_nat i) by lia.
    assert ((i < length (b_rows b))%nat) by (apply nth_error_Some; congruence).
    destruct (Z.ltb_spec (Z.of_nat i) 0); [lia|].
    destruct (Z.leb_spec (Z.of_nat (length (b_rows b))) (Z.of_nat i)); [lia|]; simpl.
    rewrite Nat2Z.id, Hi. apply in_map_iff. exists e; auto.
Qed.

(** Position of row [r]'s merged cells in the flat arrays. *)
Lemma prev_nth : forall blocks rows r p e, (r < rows)%nat ->
  ptr blocks r <= Z.of_nat p < ptr blocks (S r) ->
  nth_error (prev blocks rows) p = Some e <->
  nth_error (merge_row (rowlist blocks (Z.of_nat r))) (p - Z.to_nat (ptr blocks r)) = Some e.
Proof.
  intros blocks rows r p e Hr Hp.
  assert (Hsplit : exists tl, prev blocks rows = prev blocks (S r) ++ tl).
  { clear Hp. induction Hr as [|rows' Hr IH].
    - exists []. now rewrite app_nil_r.
    - destruct IH as (tl & E). eexists. rewrite (prev_S blocks rows'), E, <- app_assoc. reflexivity. }
  destruct Hsplit as (tl & ->).
  pose proof (prev_length blocks r) as Hl. pose proof (prev_length blocks (S r)) as Hl2.
  rewrite nth_error_app1 by lia.
  rewrite prev_S, nth_error_app2 by lia.
  replace (length (prev blocks r)) with (Z.to_nat (ptr blocks r)) by lia. reflexivity.
Qed.

Lemma stored_result : forall blocks rows r p c v,
  stored (result blocks rows) r p c v <->
  (r < rows)%nat /\ ptr blocks r <= Z.of_nat p < ptr blocks (S r) /\
  nth_error (merge_row (rowlist blocks (Z.of_nat r))) (p - Z.to_nat (ptr blocks r)) = Some (c, v).
Proof.
  intros blocks rows r p c v. unfold stored, result; simpl c_I; simpl c_J; simpl c_A. split.
  - intros (lo & hi & H1 & H2 & H3 & H4 & H5).
    rewrite nth_error_map in H1, H2, H4, H5.
    destruct (nth_error (ptrs blocks rows) r) eqn:E1; [|discriminate].
    destruct (nth_error (ptrs blocks rows) (S r)) eqn:E2; [|discriminate].
    apply ptrs_nth_inv in E1. apply ptrs_nth_inv in E2.
    destruct E1 as (_ & ->), E2 as (Hr & ->).
    simpl option_map in H1, H2. injection H1 as <-. injection H2 as <-.
    split; [lia|]. split; [exact H3|].
    destruct (nth_error (prev blocks rows) p) as [[c0 v0]|] eqn:Ep; simpl in H4, H5; [|discriminate].
    injection H4 as ->. injection H5 as ->.
    apply (prev_nth blocks rows r p); auto.
  - intros (Hr & Hp & Hn). exists (ptr blocks r), (ptr blocks (S r)).
    rewrite !nth_error_map, !ptrs_nth by lia.
    split; [reflexivity|]. split; [reflexivity|]. split; [exact Hp|].
    apply (prev_nth blocks rows r p) in Hn; auto.
    rewrite Hn. auto.
Qed.

Lemma merge_row_lookup : forall l c,
  match accum vadd (at_col c l) with
  | None => ~ In c (map fst (merge_row l))
  | Some v => exists i, nth_error (merge_row l) i = Some (c, v)
  end.
Proof.
  intros l c. destruct (accum vadd (at_col c l)) as [v|] eqn:E.
  - assert (Hin : In c (map fst (merge_row l))).
    { rewrite merge_row_in. destruct (in_dec Z.eq_dec c (map fst l)) as [Hi|Hi]; auto.
      apply at_col_nil in Hi. rewrite Hi in E; discriminate. }
    destruct (in_fst_nth _ _ Hin) as (i & w & Hi).
    pose proof (merge_row_value _ _ _ _ Hi) as Hv. exists i. congruence.
  - rewrite accum_nil, at_col_nil in E. now rewrite merge_row_in.
Qed.

Lemma merge_entry_value : forall blocks rows cols,
  fits blocks rows cols ->
  exists m, mergeBlocksToCSR V vadd vmul blocks rows cols = Ok m /\
    forall r c, (r < rows)%nat ->
      match accum vadd (contribs vmul blocks (Z.of_nat r) c) with
      | None => forall p v, ~ stored m r p c v
      | Some s => exists p, stored m r p c s /\
                   forall q v, stored m r q c v -> q = p /\ v = s
      end.
Proof.
  intros blocks rows cols Hf. apply fits_cols_ok in Hf.
  exists (result blocks rows). split; [now apply merge_ok_aux with (cols := cols)|].
  intros r c Hr. rewrite <- rowlist_contribs.
  pose proof (merge_row_lookup (rowlist blocks (Z.of_nat r)) c) as HL.
  destruct (accum vadd (at_col c (rowlist blocks (Z.of_nat r)))) as [s|].
  - destruct HL as (i & Hi). pose proof (ptr_nonneg blocks r) as Hnn.
    assert (Hil : (i < length (merge_row (rowlist blocks (Z.of_nat r))))%nat)
      by (apply nth_error_Some; congruence).
    exists (Z.to_nat (ptr blocks r) + i)%nat. split.
    + apply stored_result. split; [auto|]. split; [simpl ptr; lia|].
      replace (Z.to_nat (ptr blocks r) + i - Z.to_nat (ptr blocks r))%nat with i by lia. auto.
    + intros q v Hq. apply stored_result in Hq. destruct Hq as (_ & Hq & Hn).
      assert (Hk : (q - Z.to_nat (ptr blocks r))%nat = i).
      { eapply nodup_fst_idx; eauto. apply merge_row_nodup. }
      rewrite Hk in Hn. split; [lia|congruence].
  - intros p v Hs. apply stored_result in Hs. destruct Hs as (_ & _ & Hn).
    apply HL. eapply nth_error_in_fst; eauto.
Qed.

Lemma merge_wf : forall blocks rows cols,
  fits blocks rows cols ->
  exists m, mergeBlocksToCSR V vadd vmul blocks rows cols = Ok m /\ wf_csr m rows cols.
Proof.
  intros blocks rows cols Hf. apply fits_cols_ok in Hf.
  exists (result blocks rows). split; [now apply merge_ok_aux with (cols := cols)|].
  exists (ptrs blocks rows), (map fst (prev blocks rows)), (map snd (prev blocks rows)).
  unfold result; simpl c_I; simpl c_J; simpl c_A. rewrite !map_map.
  split; [reflexivity|]. split; [reflexivity|]. split; [reflexivity|].
  split; [apply ptrs_length|]. split; [now rewrite !map_length|].
  split; [apply (ptrs_nth blocks rows 0); lia|].
  split. { rewrite ptrs_nth, map_length, prev_length by lia. reflexivity. }
  split. { intros r lo hi H1 H2. apply ptrs_nth_inv in H1. apply ptrs_nth_inv in H2.
           destruct H1 as (_ & ->), H2 as (_ & ->). apply ptr_mono; lia. }
  split.
  { intros p c Hp. apply nth_error_In in Hp. apply in_map_iff in Hp. destruct Hp as (e & <- & He).
    unfold prev in He. apply in_flat_map in He. destruct He as (r & Hr & He). apply in_seq in Hr.
    apply (Hf (Z.of_nat r)); [lia|]. rewrite <- merge_row_in. now apply in_map. }
  intros r lo hi p q c H1 H2 Hp Hq Hpc Hqc.
  apply ptrs_nth_inv in H1. apply ptrs_nth_inv in H2.
  destruct H1 as (_ & ->), H2 as (Hr & ->).
  rewrite nth_error_map in Hpc, Hqc.
  destruct (nth_error (prev blocks rows) p) as [[cp vp]|] eqn:Ep; [|discriminate].
  destruct (nth_error (prev blocks rows) q) as [[cq vq]|] eqn:Eq; [|discriminate].
  simpl in Hpc, Hqc. injection Hpc as ->. injection Hqc as ->.
  apply (prev_nth blocks rows r p) in Ep; auto; try lia.
  apply (prev_nth blocks rows r q) in Eq; auto; try lia.
  pose proof (nodup_fst_idx _ _ _ _ _ _ (merge_row_nodup _) Ep Eq). lia.
Qed.

(** ** If some entry does not fit, the merge reads the marker out of bounds. *)
Lemma pass1_entry_cases : forall row marker nnz c,
  (exists m' n', pass1_entry row (marker, nnz) c = Ok (m', n') /\ length m' = length marker) \/
  (pass1_entry row (marker, nnz) c = UB /\ ~ 0 <= c < Z.of_nat (length marker)).
Proof.
  intros row marker nnz c. unfold pass1_entry.
  destruct (Z_lt_dec c 0); [right; split; [rewrite zget_oob by lia; reflexivity|lia]|].
  destruct (Z_lt_dec c (Z.of_nat (length marker))).
  - left. destruct (zget_in_range marker c) as (m & E & _); [lia|]. rewrite E; simpl.
    destruct (m =? row); [eauto|]. rewrite zset_in_range by lia; simpl.
    eexists _, _; split; [reflexivity|apply upd_length].
  - right; split; [rewrite zget_oob by lia; reflexivity|lia].
Qed.

Lemma pass1_fold_cases : forall row l marker nnz,
  (exists m' n', foldM (fun st e => pass1_entry row st (fst e)) l (marker, nnz) = Ok (m', n') /\
     length m' = length marker /\ cols_ok (length marker) l) \/
  (foldM (fun st e => pass1_entry row st (fst e)) l (marker, nnz) = UB /\ ~ cols_ok (length marker) l).
Proof.
  intros row l; induction l as [|e l IH]; intros marker nnz; cbn [foldM].
  - left; eexists _, _; split; [reflexivity|]. split; [reflexivity|]. intros c [].
  - destruct (pass1_entry_cases row marker nnz (fst e)) as [(m' & n' & E & Hl)|(E & Hn)]; rewrite E; simpl.
    + destruct (IH m' n') as [(m2 & n2 & E2 & Hl2 & Hc)|(E2 & Hc)].
      * destruct (Z_le_dec 0 (fst e)), (Z_lt_dec (fst e) (Z.of_nat (length marker))).
        { left. exists m2, n2. rewrite E2. split; [reflexivity|]. split; [congruence|].
          rewrite Hl in Hc. intros c [<-|Hi]; [lia|apply Hc; exact Hi]. }
        all: exfalso; unfold pass1_entry in E; rewrite zget_oob in E by lia; discriminate.
      * right; split; auto. rewrite Hl in Hc. intros H; apply Hc; intros c Hi; apply H; right; auto.
    + right; split; auto. intros H; apply Hn, H. left; reflexivity.
Qed.

Lemma merge_ub : forall blocks rows cols,
  ~ fits blocks rows cols -> mergeBlocksToCSR V vadd vmul blocks rows cols = UB.
Proof.
  intros blocks rows cols Hnf. rewrite fits_cols_ok in Hnf.
  assert (Hp : pass1 V blocks rows cols = UB).
  { unfold pass1. rewrite zset_in_range by (rewrite repeat_length; lia). cbn [bind].
    set (C0 := upd (repeat None (rows + 1)) (Z.to_nat 0) (Some 0)).
    assert (G : forall n, (n <= rows)%nat ->
      (all_cols_ok blocks n cols /\ exists marker, foldM (pass1_row V blocks) (zseq n) (repeat (-1) cols, C0)
         = Ok (marker, map Some (ptrs blocks n) ++ repeat None (rows - n)) /\ length marker = cols) \/
      foldM (pass1_row V blocks) (zseq n) (repeat (-1) cols, C0) = UB).
    { induction n as [|n IH]; intros Hn.
      - left. split; [intros r Hr; simpl in Hr; lia|]. exists (repeat (-1) cols). simpl.
        unfold C0. rewrite Nat.add_1_r, Nat.sub_0_r; rewrite ptrs_0; simpl. split; [reflexivity|apply repeat_length].
      - destruct IH as [(Ha & marker & E & Hl)|E]; [lia| |].
        2:{ right. rewrite zseq_S, foldM_app, E. reflexivity. }
        rewrite zseq_S, foldM_app, E; simpl. rewrite pass1_flat.
        destruct (pass1_fold_cases (Z.of_nat n) (rowlist blocks (Z.of_nat n)) marker 0)
          as [(m' & n' & E' & Hl' & Hc)|(E' & Hc)]; rewrite E'; simpl; [|right; reflexivity].
        left. rewrite Hl in Hc. split.
        { intros r Hr. destruct (Z.eq_dec r (Z.of_nat n)) as [->|]; [exact Hc|apply Ha; lia]. }
        (* reuse the positive lemma on the extended prefix *)
        assert (Ha' : all_cols_ok blocks (S n) cols).
        { intros r Hr. destruct (Z.eq_dec r (Z.of_nat n)) as [->|]; [exact Hc|apply Ha; lia]. }
        assert (Eg : zget_init (map Some (ptrs blocks n) ++ repeat None (rows - n)) (Z.of_nat n)
                   = Ok (ptr blocks n)).
        { unfold zget_init.
          assert (E1 : zget (map Some (ptrs blocks n) ++ repeat None (rows - n)) (Z.of_nat n)
                     = Ok (Some (ptr blocks n))).
          { apply zget_ok; split; [lia|]. rewrite Nat2Z.id.
            rewrite nth_error_app1 by (rewrite map_length, ptrs_length; lia).
            now rewrite nth_error_map, ptrs_nth by lia. }
          now rewrite E1. }
        rewrite Eg; simpl.
        rewrite zset_in_range by (rewrite app_length, map_length, ptrs_length, repeat_length; lia).
        simpl. exists m'. split; [|congruence]. f_equal. f_equal.
        (* value of nnz *)
        assert (Hn' : n' = Z.of_nat (length (merge_row (rowlist blocks (Z.of_nat n))))).
        { assert (HI : forall i m, nth_error marker i = Some m -> m < Z.of_nat n).
          { (* the markers left by the previous rows *)
            assert (GG : forall k mk ci, (k <= n)%nat ->
               foldM (pass1_row V blocks) (zseq k) (repeat (-1) cols, C0) = Ok (mk, ci) ->
               length mk = cols /\ forall i m, nth_error mk i = Some m -> m < Z.of_nat k).
            { induction k as [|k IHk]; intros mk ci Hk Ek.
              - simpl in Ek. injection Ek as <- <-. split; [apply repeat_length|].
                intros i m Hi. apply nth_error_In, repeat_spec in Hi; lia.
              - rewrite zseq_S, foldM_app in Ek.
                destruct (foldM (pass1_row V blocks) (zseq k) (repeat (-1) cols, C0)) as [[mk0 ci0]| |] eqn:E0;
                  simpl in Ek; try discriminate.
                destruct (IHk mk0 ci0) as (Hl0 & Hm0); [lia|reflexivity|].
                rewrite pass1_flat in Ek.
                destruct (pass1_row_ok cols (Z.of_nat k) (rowlist blocks (Z.of_nat k)) mk0)
                  as (mk1 & E1 & Hl1 & Hm1); auto.
                { apply Ha. lia. }
                rewrite E1 in Ek; simpl in Ek.
                destruct (zget_init ci0 (Z.of_nat k)); simpl in Ek; try discriminate.
                destruct (zset ci0 (Z.of_nat k + 1) _); simpl in Ek; try discriminate.
                injection Ek as <- <-. split; auto. intros i m Hi. specialize (Hm1 _ _ Hi). lia. }
            destruct (GG n marker _ (le_n _) E) as (_ & H). exact H. }
          destruct (pass1_row_ok cols (Z.of_nat n) (rowlist blocks (Z.of_nat n)) marker)
            as (mk1 & E1 & _ & _); auto.
          rewrite E1 in E'. congruence. }
        rewrite Hn'.
        replace (Z.to_nat (Z.of_nat n + 1)) with (length (map Some (ptrs blocks n)) + 0)%nat
          by (rewrite map_length, ptrs_length; lia).
        rewrite upd_app_r.
        replace (rows - n)%nat with (S (rows - S n)) by lia.
        simpl repeat; simpl upd.
        rewrite ptrs_S, map_app, <- app_assoc. reflexivity. }
    destruct (G rows (le_n _)) as [(Ha & _)|E]; [contradiction|].
    rewrite E; reflexivity. }
  unfold mergeBlocksToCSR. now rewrite Hp.
Qed.

(** ** Entry-wise (LIL) path *)
Lemma lil_row_fold : forall (b : block) R es d r c,
  fold_left (fun d cv => lil_add V vadd d R (b_colOffset b + fst cv) (vmul (snd cv) (b_sign b))) es d r c =
  if r =? R then
    accum vadd ((match d r c with None => [] | Some w => [w] end) ++
      map (fun e => vmul (snd e) (b_sign b)) (filter (fun e => c =? fst e + b_colOffset b) es))
  else d r c.
Proof.
  intros b R es; induction es as [|e es IH]; intros d r c; simpl.
  - destruct (r =? R); auto. destruct (d r c); reflexivity.
  - rewrite IH. unfold lil_add. destruct (Z.eqb_spec r R) as [->|]; simpl; auto.
    rewrite (Z.add_comm (b_colOffset b)).
    destruct (Z.eqb_spec c (fst e + b_colOffset b)) as [->|]; simpl; auto.
    destruct (d R (fst e + b_colOffset b)); simpl; reflexivity.
Qed.

Lemma accum_app_opt : forall l1 l2,
  accum vadd ((match accum vadd l1 with None => [] | Some w => [w] end) ++ l2) = accum vadd (l1 ++ l2).
Proof.
  intros [|x l1] l2; simpl; auto. now rewrite fold_left_app.
Qed.

Lemma load_block_value : forall (b : block) d r c n, (n <= length (b_rows b))%nat ->
  fold_left (load_row V vadd vmul b) (zseq n) d r c =
  if (b_rowOffset b <=? r) && (r <? b_rowOffset b + Z.of_nat n)
  then accum vadd ((match d r c with None => [] | Some w => [w] end) ++ contrib vmul r c b)
  else d r c.
Proof.
  intros b d r c n; induction n as [|n IH]; intros Hn.
  - simpl. rewrite Z.add_0_r. destruct (Z.leb_spec (b_rowOffset b) r); simpl; auto.
    destruct (Z.ltb_spec r (b_rowOffset b)); simpl; auto. lia.
  - rewrite zseq_S, fold_left_app; simpl. unfold load_row at 1.
    destruct (zget_in_range (b_rows b) (Z.of_nat n)) as (es & Eg & En); [lia|].
    rewrite Eg, lil_row_fold, IH by lia. rewrite Nat2Z.id in En.
    destruct (Z.eqb_spec r (b_rowOffset b + Z.of_nat n)) as [Hr|Hr].
    + destruct (Z.leb_spec (b_rowOffset b) r); [|lia].
      destruct (Z.ltb_spec r (b_rowOffset b + Z.of_nat n)); [lia|].
      destruct (Z.ltb_spec r (b_rowOffset b + Z.pos (Pos.of_succ_nat n))); [|lia]. simpl.
      f_equal. f_equal. unfold contrib. destruct (Z.ltb_spec r (b_rowOffset b)); [lia|].
      replace (Z.to_nat (r - b_rowOffset b)) with n by lia. now rewrite (nth_error_nth _ _ _ En).
    + destruct (Z.leb_spec (b_rowOffset b) r); simpl; auto.
      destruct (Z.ltb_spec r (b_rowOffset b + Z.of_nat n)),
               (Z.ltb_spec r (b_rowOffset b + Z.pos (Pos.of_succ_nat n))); simpl; auto; lia.
Qed.

Lemma load_blocks_value : forall blocks r c,
  loadBlocks V vadd vmul blocks r c = accum vadd (contribs vmul blocks r c).
Proof.
  intros blocks r c. unfold loadBlocks.
  assert (G : forall bs d,
    fold_left (loadBlock V vadd vmul) bs d r c =
    accum vadd ((match d r c with None => [] | Some w => [w] end) ++ contribs vmul bs r c)).
  { induction bs as [|b bs IH]; intros d; simpl.
    - destruct (d r c); reflexivity.
    - rewrite IH. unfold loadBlock at 1. rewrite load_block_value by lia.
      assert (Hc : (b_rowOffset b <=? r) && (r <? b_rowOffset b + Z.of_nat (length (b_rows b))) = false ->
                   contrib vmul r c b = []).
      { intros H. unfold contrib. destruct (Z.ltb_spec r (b_rowOffset b)); auto.
        destruct (Z.leb_spec (b_rowOffset b) r); simpl in H; [|lia].
        destruct (Z.ltb_spec r (b_rowOffset b + Z.of_nat (length (b_rows b)))); [discriminate|].
        now rewrite nth_overflow by lia. }
      destruct ((b_rowOffset b <=? r) && (r <? b_rowOffset b + Z.of_nat (length (b_rows b)))).
      + rewrite accum_app_opt. now rewrite <- app_assoc.
      + rewrite Hc by reflexivity. reflexivity. }
  rewrite G. reflexivity.
Qed.

End Proofs.

Lemma firstn_S_snoc : forall {A} (l : list A) k a,
  nth_error l k = Some a -> firstn (S k) l = firstn k l ++ [a].
Proof.
  induction l as [|x t IH]; intros [|k] a H; simpl in *; try discriminate.
  - now injection H as ->.
  - f_equal. now apply IH.
Qed.

Section Mult.
Local Open Scope R_scope.
Notation mergeR := (mergeBlocksToCSR R Rplus Rmult).

Lemma rsum_app : forall l1 l2, rsum (l1 ++ l2) = rsum l1 + rsum l2.
Proof. induction l1; intros; simpl; [lra|]. rewrite IHl1; lra. Qed.

Lemma ins_sum : forall (x : Z -> R) acc c v,
  rsum (map (fun e => snd e * x (fst e)) (ins R Rplus acc c v)) =
  rsum (map (fun e => snd e * x (fst e)) acc) + v * x c.
Proof.
  intros x acc c v; induction acc as [|[c' w] t IH]; simpl; [lra|].
  destruct (Z.eqb_spec c' c); simpl; [subst; lra|]. rewrite IH; lra.
Qed.

Lemma merge_row_sum : forall (x : Z -> R) l,
  rsum (map (fun e => snd e * x (fst e)) (merge_row R Rplus l)) =
  rsum (map (fun e => snd e * x (fst e)) l).
Proof.
  intros x l; induction l as [|e l IH] using rev_ind; [reflexivity|].
  rewrite merge_row_snoc, ins_sum, IH, map_app, rsum_app; simpl; lra.
Qed.

Lemma rsum_scale : forall {A} k (f : A -> R) l, rsum (map (fun e => k * f e) l) = k * rsum (map f l).
Proof. induction l; simpl; [lra|]. rewrite IHl; lra. Qed.

Lemma rowlist_sum : forall (x : list R) blocks r,
  rsum (map (fun e => snd e * nth (Z.to_nat (fst e)) x 0) (rowlist R Rmult blocks r)) =
  rsum (map (fun b => block_mult_row b x r) blocks).
Proof.
  intros x blocks r; induction blocks as [|b t IH]; [reflexivity|].
  unfold rowlist in *; simpl. rewrite map_app, rsum_app, IH. f_equal.
  unfold block_entries, local_row, block_mult_row.
  destruct (Z.ltb_spec r (b_rowOffset b)).
  - destruct (Z.ltb_spec (r - b_rowOffset b) 0); [reflexivity|lia].
  - destruct (Z.ltb_spec (r - b_rowOffset b) 0); [lia|]; simpl.
    destruct (Z.leb_spec (Z.of_nat (length (b_rows b))) (r - b_rowOffset b)); simpl.
    + rewrite nth_overflow by lia. simpl; lra.
    + destruct (nth_error (b_rows b) (Z.to_nat (r - b_rowOffset b))) as [es|] eqn:E.
      * rewrite (nth_error_nth _ _ _ E), <- rsum_scale, map_map; simpl.
        f_equal. apply map_ext; intros e; lra.
      * apply nth_error_None in E. lia.
Qed.

Lemma zget_init_some : forall {A} (l : list A) i a,
  nth_error l i = Some a -> zget_init (map Some l) (Z.of_nat i) = Ok a.
Proof.
  intros A l i a H. unfold zget_init.
  assert (E : zget (map Some l) (Z.of_nat i) = Ok (Some a)).
  { apply zget_ok. split; [lia|]. now rewrite Nat2Z.id, nth_error_map, H. }
  now rewrite E.
Qed.

Lemma merge_mult : forall blocks rows cols x r,
  fits blocks rows cols -> length x = cols -> (r < rows)%nat ->
  exists m, mergeR blocks rows cols = Ok m /\
    csr_mult_row m x (Z.of_nat r) = Ok (rsum (map (fun b => block_mult_row b x (Z.of_nat r)) blocks)).
Proof.
  intros blocks rows cols x r Hf Hx Hr.
  apply (fits_cols_ok R Rmult) in Hf.
  exists (result R Rplus Rmult blocks rows). split; [now apply merge_ok_aux with (cols := cols)|].
  unfold csr_mult_row, result; cbn [c_I c_J c_A].
  rewrite (zget_init_some _ _ _ (ptrs_nth R Rplus Rmult blocks rows r ltac:(lia))). cbn [bind].
  replace (Z.of_nat r + 1)%Z with (Z.of_nat (S r)) by lia.
  rewrite (zget_init_some _ _ _ (ptrs_nth R Rplus Rmult blocks rows (S r) ltac:(lia))). cbn [bind].
  set (l := rowlist R Rmult blocks (Z.of_nat r)).
  set (ml := merge_row R Rplus l).
  pose proof (ptr_nonneg R Rplus Rmult blocks r) as Hnn.
  replace (Z.to_nat (ptr R Rplus Rmult blocks (S r) - ptr R Rplus Rmult blocks r)) with (length ml)
    by (cbn [ptr]; fold l; fold ml; lia).
  rewrite <- rowlist_sum. fold l.
  rewrite <- (merge_row_sum (fun c => nth (Z.to_nat c) x 0) l). fold ml.
  assert (G : forall k, (k <= length ml)%nat ->
    foldM (fun acc k0 =>
      ' a <- zget_init (map (fun e => Some (snd e)) (prev R Rplus Rmult blocks rows)) (ptr R Rplus Rmult blocks r + k0) ;;
      ' j <- zget_init (map (fun e => Some (fst e)) (prev R Rplus Rmult blocks rows)) (ptr R Rplus Rmult blocks r + k0) ;;
      ' xj <- zget x j ;; Ok (acc + a * xj)) (zseq k) 0 =
    Ok (rsum (map (fun e => snd e * nth (Z.to_nat (fst e)) x 0) (firstn k ml)))).
  { induction k as [|k IH]; intros Hk; [reflexivity|].
    rewrite zseq_S, foldM_app, IH by lia. cbn [bind foldM].
    destruct (nth_error ml k) as [[c v]|] eqn:Ek.
    2:{ apply nth_error_None in Ek; lia. }
    assert (Ep : nth_error (prev R Rplus Rmult blocks rows) (Z.to_nat (ptr R Rplus Rmult blocks r + Z.of_nat k)) = Some (c, v)).
    { apply (prev_nth R Rplus Rmult blocks rows r); auto.
      - cbn [ptr]. fold l. fold ml. lia.
      - fold l. fold ml. rewrite <- Ek. f_equal. lia. }
    replace (ptr R Rplus Rmult blocks r + Z.of_nat k)%Z
      with (Z.of_nat (Z.to_nat (ptr R Rplus Rmult blocks r + Z.of_nat k))) by lia.
    rewrite <- (map_map snd Some), <- (map_map fst Some).
    rewrite (zget_init_some _ _ v) by (now rewrite nth_error_map, Ep). cbn [bind].
    rewrite (zget_init_some _ _ c) by (now rewrite nth_error_map, Ep). cbn [bind].
    assert (Hc : (0 <= c < Z.of_nat cols)%Z).
    { apply (Hf (Z.of_nat r)); [lia|]. rewrite <- (merge_row_in R Rplus). fold l. fold ml.
      eapply nth_error_in_fst; eauto. }
    destruct (zget_in_range x c) as (xc & Ex & Enx); [lia|]. rewrite Ex. cbn [bind].
    rewrite (firstn_S_snoc _ _ _ Ek), map_app, rsum_app; simpl.
    rewrite (nth_error_nth _ _ _ Enx). f_equal. lra. }
  rewrite G by lia. now rewrite firstn_all.
Qed.

End Mult.

(** ** Concrete instance: two overlapping blocks over Z with a repeated column. *)
Definition ex_blocks : list (block Z) :=
  [ mkBlock [[(0, 1); (1, 7); (0, 2)]; [(1, 3)]] 0 0 1;
    mkBlock [[(0, 5)]; []; [(1, 4)]] 0 1 (-1) ].

Lemma ex_blocks_fit : fits ex_blocks 3 3.
Proof.
  intros b i row e Hb Hi Hr He. unfold ex_blocks in Hb; simpl in Hb.
  destruct Hb as [<-|[<-|[]]]; simpl in *;
  (destruct i as [|[|[|i]]]; simpl in Hi; try discriminate; try (destruct i; discriminate));
  injection Hi as <-; simpl in He; intuition (subst; simpl; lia).
Qed.

Lemma ex_blocks_merge :
  mergeBlocksToCSR Z Z.add Z.mul ex_blocks 3 3 =
  Ok (mkCsr Z [Some 0; Some 2; Some 3; Some 4]
              [Some 0; Some 1; Some 1; Some 2] [Some 3; Some 2; Some 3; Some (-4)]).
Proof. reflexivity. Qed.

Lemma ex_blocks_misfit : ~ fits ex_blocks 3 2.
Proof.
  intros Hf. specialize (Hf (mkBlock [[(0, 5)]; []; [(1, 4)]] 0 1 (-1)) 2%nat [(1, 4)] (1, 4)).
  simpl in Hf. assert (0 <= 2 < 2); [|lia].
  apply Hf; auto; try lia.
Qed.

Definition exR_blocks : list (block R) :=
  [ mkBlock [[(0, 1%R); (1, 7%R); (0, 2%R)]; [(1, 3%R)]] 0 0 1%R;
    mkBlock [[(0, 5%R)]] 0 1 (-1)%R ].

Lemma exR_blocks_fit : fits exR_blocks 2 2.
Proof.
  intros b i row e Hb Hi Hr He. unfold exR_blocks in Hb; simpl in Hb.
  destruct Hb as [<-|[<-|[]]]; simpl in *;
  (destruct i as [|[|i]]; simpl in Hi; try discriminate; try (destruct i; discriminate));
  injection Hi as <-; simpl in He; intuition (subst; simpl; lia).
Qed.

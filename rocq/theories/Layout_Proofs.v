From Coq Require Import ZArith List Bool Lia.
From Verif Require Import Common Layout_Model Layout_Spec.
Import ListNotations.
Local Open Scope Z_scope.

Definition pos (f : fld) (d : Z) : Z := match f with FE => d | FH => 3 + d end.

Lemma upd_split : forall {A} (l : list A) i a, (i < length l)%nat -> upd l i a = firstn i l ++ a :: skipn (S i) l.
Proof.
  induction l as [|h t IH]; intros [|i] a H; cbn [length] in H; try lia; [reflexivity|].
  cbn [upd firstn skipn app]. f_equal. apply IH. lia.
Qed.

Lemma stateOf_length : forall {A} (B : fld -> Z -> list A) n, sized n B -> length (stateOf B) = (6 * n)%nat.
Proof.
  intros A B n H. unfold stateOf, order. cbn [flat_map fst snd]. rewrite !app_length, !H by (unfold isDir; lia). cbn [length]. lia.
Qed.

(** the state around component (f, d) *)
Lemma stateOf_split : forall {A} (B : fld -> Z -> list A) n f d, sized n B -> isDir d ->
  exists a b, length a = (Z.to_nat (pos f d) * n)%nat /\
    stateOf B = a ++ B f d ++ b /\
    forall C, (forall f' d', isDir d' -> (f', d') <> (f, d) -> C f' d' = B f' d') -> stateOf C = a ++ C f d ++ b.
Proof.
  intros A B n f d H Hd.
  assert (Hc : d = 0 \/ d = 1 \/ d = 2) by (unfold isDir in Hd; lia).
  assert (D0 : isDir 0) by (unfold isDir; lia). assert (D1 : isDir 1) by (unfold isDir; lia). assert (D2 : isDir 2) by (unfold isDir; lia).
  unfold stateOf, order. cbn [flat_map fst snd].
  destruct f; decompose [or] Hc; subst d;
  [exists [], (B FE 1 ++ B FE 2 ++ B FH 0 ++ B FH 1 ++ B FH 2)
  |exists (B FE 0), (B FE 2 ++ B FH 0 ++ B FH 1 ++ B FH 2)
  |exists (B FE 0 ++ B FE 1), (B FH 0 ++ B FH 1 ++ B FH 2)
  |exists (B FE 0 ++ B FE 1 ++ B FE 2), (B FH 1 ++ B FH 2)
  |exists (B FE 0 ++ B FE 1 ++ B FE 2 ++ B FH 0), (B FH 2)
  |exists (B FE 0 ++ B FE 1 ++ B FE 2 ++ B FH 0 ++ B FH 1), []];
  (split; [cbn [pos]; rewrite ?app_length, ?H by assumption; cbn [length Z.add Pos.add Z.to_nat Pos.to_nat Pos.iter_op Nat.add]; lia|
   split; [rewrite ?app_nil_r, <- ?app_assoc; reflexivity|];
   intros C HC; rewrite <- ?(HC FE 0), <- ?(HC FE 1), <- ?(HC FE 2), <- ?(HC FH 0), <- ?(HC FH 1), <- ?(HC FH 2) by (assumption || discriminate);
   rewrite ?app_nil_r, <- ?app_assoc; reflexivity]).
Qed.

Lemma zget_app_mid : forall {A} (a m b : list A) (i : nat) k, k = Z.of_nat (length a) + Z.of_nat i -> (i < length m)%nat ->
  zget (a ++ m ++ b) k = zget m (Z.of_nat i).
Proof.
  intros A a m b i k -> Hi. unfold zget.
  destruct (Z.ltb_spec (Z.of_nat (length a) + Z.of_nat i) 0); [lia|]. destruct (Z.ltb_spec (Z.of_nat i) 0); [lia|].
  rewrite <- Nat2Z.inj_add, !Nat2Z.id. rewrite nth_error_app2 by lia. replace (length a + i - length a)%nat with i by lia.
  rewrite nth_error_app1 by exact Hi. reflexivity.
Qed.

Lemma upd_app_mid : forall {A} (a m b : list A) i x, (i < length m)%nat -> upd (a ++ m ++ b) (length a + i) x = a ++ upd m i x ++ b.
Proof.
  intros A a m b i x Hi. induction a as [|h t IH]; cbn [length app Nat.add].
  - revert i Hi. induction m as [|y m IHm]; intros [|i] Hi; cbn [length] in Hi; try lia; [reflexivity|].
    cbn [app upd]. f_equal. apply IHm. lia.
  - cbn [upd]. f_equal. exact IH.
Qed.

(** any window placed like the intended one *)
Definition placed (n : nat) (f : fld) (d : Z) (w : win) : Prop := w_base w = pos f d * Z.of_nat n /\ w_len w = Z.of_nat n.

Lemma read_placed : forall {A} (B : fld -> Z -> list A) n f d w i, sized n B -> isDir d -> placed n f d w -> (i < n)%nat ->
  readW w (stateOf B) (Z.of_nat i) = zget (B f d) (Z.of_nat i).
Proof.
  intros A B n f d w i Hs Hd [Hb Hl] Hi. unfold readW. rewrite Hl, Hb.
  destruct (Z.leb_spec 0 (Z.of_nat i)); [|lia]. destruct (Z.ltb_spec (Z.of_nat i) (Z.of_nat n)); [|lia]. cbn [andb].
  destruct (stateOf_split B n f d Hs Hd) as (a & b & La & E & _). rewrite E.
  apply zget_app_mid; [|rewrite Hs by exact Hd; exact Hi]. rewrite La. unfold isDir in Hd. destruct f; cbn [pos]; nia.
Qed.

Lemma write_placed : forall {A} (B : fld -> Z -> list A) n f d w i a, sized n B -> isDir d -> placed n f d w -> (i < n)%nat ->
  writeW w (stateOf B) (Z.of_nat i) a = Ok (stateOf (change1 B f d i a)).
Proof.
  intros A B n f d w i x Hs Hd [Hb Hl] Hi. unfold writeW. rewrite Hl, Hb.
  destruct (Z.leb_spec 0 (Z.of_nat i)); [|lia]. destruct (Z.ltb_spec (Z.of_nat i) (Z.of_nat n)); [|lia]. cbn [andb].
  destruct (stateOf_split B n f d Hs Hd) as (a & b & La & E & EC).
  assert (Hlen : length (B f d) = n) by (apply Hs, Hd).
  rewrite zset_in_range.
  2:{ rewrite (stateOf_length B n Hs). unfold isDir in Hd. destruct f; cbn [pos]; nia. }
  rewrite (EC (change1 B f d i x)).
  2:{ intros f' d' _ Hne. unfold change1. destruct (fld_eqb f f') eqn:Ef; [|reflexivity]. destruct (Z.eqb_spec d d'); [|reflexivity].
      exfalso. apply Hne. destruct f, f'; try discriminate Ef; congruence. }
  replace (Z.to_nat (pos f d * Z.of_nat n + Z.of_nat i)) with (length a + i)%nat.
  2:{ rewrite La. unfold isDir in Hd. destruct f; cbn [pos]; nia. }
  rewrite E, upd_app_mid by lia. f_equal. f_equal. f_equal.
  unfold change1. assert (Ef : fld_eqb f f = true) by (destruct f; reflexivity). rewrite Ef, Z.eqb_refl. cbn [andb]. apply upd_split. lia.
Qed.

Lemma fieldWin_placed : forall n f d, placed n f d (fieldWin (Z.of_nat n) f d).
Proof. intros n f d. split; destruct f; cbn [fieldWin w_base w_len pos]; lia. Qed.

Lemma read_outside : forall {A} n f d (x : list A) i, ~ (0 <= i < n) -> readW (fieldWin n f d) x i = UB.
Proof.
  intros A n f d x i H. unfold readW. replace (w_len (fieldWin n f d)) with n by (destruct f; reflexivity).
  destruct (Z.leb_spec 0 i); destruct (Z.ltb_spec i n); cbn [andb]; try reflexivity. lia.
Qed.

Lemma windows_cover : forall n j, 0 <= j < 6 * n ->
  exists f d, isDir d /\ covers (fieldWin n f d) j /\ forall f' d', isDir d' -> covers (fieldWin n f' d') j -> f' = f /\ d' = d.
Proof.
  intros n j Hj. assert (Hn : 0 < n) by lia.
  assert (Hk : 0 <= j / n < 6) by (split; [apply Z.div_pos; lia|apply Z.div_lt_upper_bound; lia]).
  pose proof (Z.mod_pos_bound j n Hn) as Hm. pose proof (Z.div_mod j n ltac:(lia)) as He.
  set (k := j / n) in *.
  exists (if k <? 3 then FE else FH), (if k <? 3 then k else k - 3). unfold isDir, covers.
  destruct (Z.ltb_spec k 3); cbn [fieldWin w_base w_len]; (split; [lia|split; [nia|]]);
    intros [|] d' Hd' Hc; cbn [fieldWin w_base w_len] in Hc.
  - split; [reflexivity|nia].
  - exfalso. nia.
  - exfalso. nia.
  - split; [reflexivity|nia].
Qed.

Lemma globalWin_as_components : forall {A} n f d (x : list A) i, isDir d -> 0 <= i < n ->
  readW (globalWin n f) x (d * n + i) = readW (fieldWin n f d) x i.
Proof.
  intros A n f d x i Hd Hi. unfold isDir in Hd. unfold readW, globalWin. cbv zeta.
  replace (6 * n / 2) with (3 * n) by (replace (6 * n) with (3 * n * 2) by ring; rewrite Z.div_mul by lia; reflexivity).
  destruct f; cbn [w_base w_len fieldWin];
  (destruct (Z.leb_spec 0 (d * n + i)); [|nia]); (destruct (Z.ltb_spec (d * n + i) (3 * n)); [|nia]);
  (destruct (Z.leb_spec 0 i); [|lia]); (destruct (Z.ltb_spec i n); [|lia]); cbn [andb]; f_equal; ring.
Qed.

Lemma offsets_same_layout : forall lb nb f d loc,
  rowStart (fieldOffsets lb nb f d loc) = w_base (fieldWin lb f d) /\
  rowEnd (fieldOffsets lb nb f d loc) = w_base (fieldWin lb f d) + w_len (fieldWin lb f d) /\
  colStart (fieldOffsets lb nb f d loc) = w_base (fieldWin (lb + nb) f d) /\
  colEnd (fieldOffsets lb nb f d false) = w_base (fieldWin (lb + nb) f d) + w_len (fieldWin (lb + nb) f d) /\
  colEnd (fieldOffsets lb nb f d true) = colStart (fieldOffsets lb nb f d true) + lb.
Proof.
  intros. unfold fieldOffsets. cbv zeta. destruct f; cbn [rowStart rowEnd colStart colEnd fnum fieldWin w_base w_len]; destruct loc; repeat split; ring.
Qed.

Lemma other_windows : forall n f d, hesthavenWin n f d = fieldWin n f d /\ maxwellWin n f d = fieldWin n f d.
Proof. intros n f d. split; destruct f; unfold hesthavenWin, fieldWin, maxwellWin; try reflexivity. rewrite (Z.add_comm 3 d). reflexivity. Qed.

(** memcpy *)
Lemma memcpy_ok : forall {A} (src : list A) a (b : list (option A)) c k n, k = Z.of_nat (length a) ->
  (n <= length src)%nat -> length b = n ->
  memcpy (a ++ b ++ c) k src (Z.of_nat n) = Ok (a ++ map Some (firstn n src) ++ c).
Proof.
  intros A src a b c k n -> Hn Hb. unfold memcpy. rewrite Nat2Z.id. subst n.
  assert (G : forall m, (m <= length b)%nat ->
    foldM (fun o i => x <- zget src i ;; zset o (Z.of_nat (length a) + i) (Some x)) (zseq m) (a ++ b ++ c) =
    Ok (a ++ map Some (firstn m src) ++ skipn m b ++ c)).
  { induction m as [|m IH]; intros Hm; [reflexivity|].
    rewrite zseq_S, foldM_app, IH by lia. cbn [bind foldM].
    destruct (nth_error src m) as [x|] eqn:Ex; [|apply nth_error_None in Ex; lia].
    assert (Eg : zget src (Z.of_nat m) = Ok x).
    { unfold zget. destruct (Z.ltb_spec (Z.of_nat m) 0); [lia|]. rewrite Nat2Z.id, Ex. reflexivity. }
    rewrite Eg. cbn [bind].
    assert (Lf : length (map (@Some A) (firstn m src)) = m) by (rewrite map_length, firstn_length; lia).
    rewrite zset_in_range by (rewrite !app_length, Lf, skipn_length; lia). cbn [bind]. f_equal.
    replace (Z.to_nat (Z.of_nat (length a) + Z.of_nat m)) with (length (a ++ map (@Some A) (firstn m src)) + 0)%nat by (rewrite app_length, Lf; lia).
    assert (Sk : exists y, skipn m b = y :: skipn (S m) b).
    { destruct (skipn m b) as [|y t] eqn:E.
      - apply (f_equal (@length _)) in E. rewrite skipn_length in E. cbn [length] in E. lia.
      - exists y. f_equal. change (S m) with (1 + m)%nat. rewrite Nat.add_comm.
        clear -E. revert b E. induction m as [|m IH]; intros [|h b] E; try discriminate E.
        + cbn [skipn] in E. injection E as -> ->. reflexivity.
        + cbn [skipn Nat.add] in *. apply IH. exact E. }
    destruct Sk as [y Ey]. rewrite app_assoc, Ey.
    change ((y :: skipn (S m) b) ++ c) with ([y] ++ (skipn (S m) b ++ c)).
    rewrite upd_app_mid by (cbn [length]; lia). cbn [upd]. rewrite <- app_assoc. f_equal.
    assert (Fs : firstn (S m) src = firstn m src ++ [x]).
    { clear -Ex. revert src Ex. induction m as [|m IH]; intros [|h t] Ex; try discriminate Ex.
      - cbn [nth_error] in Ex. injection Ex as ->. reflexivity.
      - cbn [nth_error] in Ex. cbn [firstn app]. f_equal. apply (IH t Ex). }
    rewrite Fs, map_app. cbn [map]. rewrite <- app_assoc. reflexivity. }
  rewrite (G (length b) (le_n _)). rewrite skipn_all. reflexivity.
Qed.

Lemma tfsf_layout : forall {A} (B : fld -> Z -> list A) n, sized n B ->
  buildSingleVectorTFSFFunc B = Ok (map Some (stateOf B)).
Proof.
  intros A B n H. unfold buildSingleVectorTFSFFunc.
  assert (D0 : isDir 0) by (unfold isDir; lia). assert (D1 : isDir 1) by (unfold isDir; lia). assert (D2 : isDir 2) by (unfold isDir; lia).
  rewrite (H FE 0 D0). replace (Z.to_nat (6 * Z.of_nat n)) with (n + (n + (n + (n + (n + n)))))%nat by lia.
  rewrite !repeat_app. cbn [foldM].
  assert (L : forall f d, isDir d -> firstn n (B f d) = B f d) by (intros f d Hd; rewrite <- (H f d Hd); apply firstn_all).
  rewrite (memcpy_ok (B FE 0) [] (repeat None n) (repeat None n ++ repeat None n ++ repeat None n ++ repeat None n ++ repeat None n)) by (rewrite ?repeat_length, ?H by assumption; cbn [length fnum]; lia).
  cbn [bind app]. rewrite L by assumption.
  rewrite (memcpy_ok (B FE 1) (map Some (B FE 0)) (repeat None n)) by (rewrite ?repeat_length, ?map_length, ?H by assumption; cbn [length fnum]; lia).
  cbn [bind]. rewrite L by assumption. rewrite app_assoc.
  rewrite (memcpy_ok (B FE 2) (map Some (B FE 0) ++ map Some (B FE 1)) (repeat None n)) by (rewrite ?app_length, ?repeat_length, ?map_length, ?H by assumption; cbn [length fnum]; lia).
  cbn [bind]. rewrite L by assumption. rewrite app_assoc.
  rewrite (memcpy_ok (B FH 0) ((map Some (B FE 0) ++ map Some (B FE 1)) ++ map Some (B FE 2)) (repeat None n)) by (rewrite ?app_length, ?repeat_length, ?map_length, ?H by assumption; cbn [length fnum]; lia).
  cbn [bind]. rewrite L by assumption. rewrite app_assoc.
  rewrite (memcpy_ok (B FH 1) (((map Some (B FE 0) ++ map Some (B FE 1)) ++ map Some (B FE 2)) ++ map Some (B FH 0)) (repeat None n)) by (rewrite ?app_length, ?repeat_length, ?map_length, ?H by assumption; cbn [length fnum]; lia).
  cbn [bind]. rewrite L by assumption. rewrite app_assoc. rewrite <- (app_nil_r (repeat None n)).
  rewrite (memcpy_ok (B FH 2) ((((map Some (B FE 0) ++ map Some (B FE 1)) ++ map Some (B FE 2)) ++ map Some (B FH 0)) ++ map Some (B FH 1)) (repeat None n)) by (rewrite ?app_length, ?repeat_length, ?map_length, ?H by assumption; cbn [length fnum]; lia).
  cbn [bind]. rewrite L by assumption. f_equal. unfold stateOf, order. cbn [flat_map fst snd]. rewrite !map_app, <- !app_assoc. reflexivity.
Qed.

Lemma loadOld_ok : forall {A} (B : fld -> Z -> list A) n f d, sized n B -> isDir d ->
  loadOld (Z.of_nat n) (stateOf B) f d = Ok (map Some (B f d)).
Proof.
  intros A B n f d Hs Hd. destruct (stateOf_split B n f d Hs Hd) as (a & b & La & E & _).
  unfold loadOld. rewrite E. fold (pos f d).
  replace (Z.to_nat (pos f d * Z.of_nat n)) with (length a) by (rewrite La; unfold isDir in Hd; destruct f; cbn [pos]; nia).
  rewrite skipn_app, skipn_all, Nat.sub_diag. cbn [skipn app].
  rewrite Nat2Z.id. rewrite <- (app_nil_r (repeat None n)).
  assert (Hl : length (B f d) = n) by (apply Hs, Hd).
  change (repeat None n ++ []) with ([] ++ repeat (@None A) n ++ []).
  rewrite (memcpy_ok (B f d ++ b) [] (repeat None n) [] 0 n) by (rewrite ?app_length, ?repeat_length; cbn [length]; lia).
  cbn [app]. rewrite app_nil_r. f_equal. f_equal. rewrite firstn_app, Hl, Nat.sub_diag, <- Hl, firstn_all. cbn [firstn]. apply app_nil_r.
Qed.

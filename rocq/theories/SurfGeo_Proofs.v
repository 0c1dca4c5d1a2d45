(** Proofs about the geometry section of the far-field surface file. *)
From Coq Require Import ZArith List Bool Lia Reals Lra.
From Verif Require Import Common Face_Model SurfGeo_Model SurfGeo_Spec Codec_Model Codec_Spec Codec_Proofs.
Import ListNotations.
Local Open Scope R_scope.

(** ** The marker *)
Lemma max_fold : forall t m, let M := fold_left (fun m e => Z.max m (be_attr e)) t m in
  (m <= M)%Z /\ (forall e, In e t -> (be_attr e <= M)%Z) /\ (M = m \/ exists e, In e t /\ be_attr e = M).
Proof.
  induction t as [|x t IH]; intros m M.
  - subst M; cbn. split; [lia|]. split; [tauto|auto].
  - subst M. cbn [fold_left]. destruct (IH (Z.max m (be_attr x))) as (A & B & C). cbv zeta in *.
    split; [lia|]. split.
    + intros e [->|He]; [lia|auto].
    + destruct C as [C|(e & He & C)].
      * rewrite C. destruct (Z.max_spec m (be_attr x)) as [[_ E]|[_ E]]; rewrite E; [right; exists x; cbn; auto|auto].
      * right; exists e; cbn; auto.
Qed.
Lemma max_attr : forall els, els <> [] -> exists M, maxAttribute els = Ok M /\
  (forall e, In e els -> (be_attr e <= M)%Z) /\ exists e, In e els /\ be_attr e = M.
Proof.
  intros [|x t] H; [congruence|]. cbn [maxAttribute]. eexists; split; [reflexivity|].
  destruct (max_fold t (be_attr x)) as (A & B & C). cbv zeta in *. split.
  - intros e [->|He]; auto.
  - destruct C as [->|(e & He & <-)]; [exists x|exists e]; cbn; auto.
Qed.

Lemma marker_ok : forall M, (201 <= M)%Z ->
  getNearToFarFieldMarker M = Ok (upd (repeat 0%Z (Z.to_nat M)) 200 1%Z).
Proof.
  intros M H. unfold getNearToFarFieldMarker, ntff. rewrite zset_in_range; [reflexivity|]. rewrite repeat_length. lia.
Qed.
Lemma marker_bad : forall M, (M < 201)%Z -> getNearToFarFieldMarker M = UB.
Proof. intros M H. unfold getNearToFarFieldMarker, ntff. apply zset_oob. rewrite repeat_length. lia. Qed.

Lemma nth_error_upd_same : forall {A} (l : list A) n a, (n < length l)%nat -> nth_error (upd l n a) n = Some a.
Proof. induction l as [|x t IH]; intros [|n] a H; cbn in *; try lia; auto. apply IH; lia. Qed.
Lemma nth_error_upd_other : forall {A} (l : list A) n k a, n <> k -> nth_error (upd l n a) k = nth_error l k.
Proof. induction l as [|x t IH]; intros [|n] [|k] a H; cbn; try congruence; auto. Qed.
Lemma points_of : forall M e, (201 <= M)%Z -> (1 <= be_attr e <= M)%Z ->
  pointsOf (upd (repeat 0%Z (Z.to_nat M)) 200 1%Z) e = Ok (surfacePoints [e]).
Proof.
  intros M [a r] HM Ha. cbn [be_attr] in Ha. unfold pointsOf. cbn [be_attr be_rule surfacePoints]. rewrite app_nil_r.
  destruct (Z.eq_dec a 201) as [->|N].
  - replace (zget (upd (repeat 0%Z (Z.to_nat M)) 200 1%Z) (201 - 1)) with (@Ok Z 1%Z); [reflexivity|].
    symmetry. apply zget_ok. split; [lia|]. change (Z.to_nat (201 - 1)) with 200%nat.
    apply nth_error_upd_same. rewrite repeat_length. lia.
  - replace (zget (upd (repeat 0%Z (Z.to_nat M)) 200 1%Z) (a - 1)) with (@Ok Z 0%Z); [reflexivity|].
    symmetry. apply zget_ok. split; [lia|]. rewrite nth_error_upd_other; [|lia].
    apply nth_error_repeat. lia.
Qed.
Lemma surface_cons : forall e t, surfacePoints (e :: t) = surfacePoints [e] ++ surfacePoints t.
Proof. intros [a r] t. cbn [surfacePoints]. now rewrite app_nil_r. Qed.


Lemma loop_points : forall {A} M (f : A -> list bpoint -> res A) els, (201 <= M)%Z ->
  (forall e, In e els -> (1 <= be_attr e <= M)%Z) -> forall a,
  foldM (fun a e => ps <- pointsOf (upd (repeat 0%Z (Z.to_nat M)) 200 1%Z) e ;; f a ps) els a =
  foldM (fun a e => f a (surfacePoints [e])) els a.
Proof.
  intros A M f els HM H a. apply foldM_ext_in. intros b e He. rewrite points_of; auto.
Qed.
Lemma with_marker : forall els, hasSurface els -> exists M, (201 <= M)%Z /\ maxAttribute els = Ok M /\
  forall e, In e els -> (1 <= be_attr e <= M)%Z.
Proof.
  intros els (H1 & e & He & H2). assert (N : els <> []) by (intro; subst; contradiction).
  destruct (max_attr els N) as (M & E & B & _). exists M. pose proof (B _ He). repeat split; auto. lia.
Qed.

Lemma count_ok : forall els, hasSurface els -> totalQuadPts els = Ok (length (surfacePoints els)).
Proof.
  intros els H. destruct (with_marker els H) as (M & HM & E & B). unfold totalQuadPts. rewrite E. cbn [bind].
  rewrite marker_ok by exact HM. cbn [bind].
  rewrite (loop_points M (fun n ps => Ok (n + length ps)%nat) els HM B 0%nat). rewrite foldM_pure. f_equal.
  clear. assert (G : forall n, fold_left (fun b a => (b + length (surfacePoints [a]))%nat) els n = (n + length (surfacePoints els))%nat).
  { induction els as [|e t IH]; intros n; [cbn; lia|]. cbn [fold_left]. rewrite IH, (surface_cons e t), app_length. lia. }
  apply (G 0%nat).
Qed.

Lemma geometry_loop : forall dim els, hasSurface els ->
  writeGeometry dim els = foldM (writePoint dim) (surfacePoints els) (mkArr [] [] []).
Proof.
  intros dim els H. destruct (with_marker els H) as (M & HM & E & B). unfold writeGeometry. rewrite E. cbn [bind].
  rewrite marker_ok by exact HM. cbn [bind].
  rewrite (loop_points M (fun A ps => foldM (writePoint dim) ps A) els HM B). generalize (mkArr [] [] []). clear.
  induction els as [|e t IH]; intros A; [reflexivity|]. rewrite (surface_cons e t), foldM_app. cbn [foldM].
  destruct (foldM (writePoint dim) (surfacePoints [e]) A); cbn [bind]; auto.
Qed.

(** ** One point *)
Definition nOf (g : geo) : list R :=
  let a := across g in [fst (fst a) / weightOf g; snd (fst a) / weightOf g; snd a / weightOf g].
Definition isPoint (g : geo) : Prop := match g with G1 _ => True | _ => False end.
Lemma outward_ok : forall g, ~ isPoint g -> outward g = Ok (nOf g).
Proof.
  intros [x|a b|a0 a1 a2 b0 b1 b2] H; [destruct (H Logic.I)| |].
  - unfold nOf, across. cbn [fst snd]. replace (0 / weightOf (G2 a b)) with 0 by (unfold Rdiv; ring). reflexivity.
  - reflexivity.
Qed.
Lemma regular_notpoint : forall dim p, regular dim p -> ~ isPoint (bp_geo p).
Proof. intros dim [w x [y|a b|a0 a1 a2 b0 b1 b2]] (H & _); cbn in *; auto. Qed.

Lemma weight_sq : forall g, ~ isPoint g -> weightOf g * weightOf g = dot (across g) (across g).
Proof.
  intros [x|a b|a0 a1 a2 b0 b1 b2] H; [destruct (H Logic.I)| |]; unfold weightOf, dot, across; cbv zeta; cbn [fst snd].
  - rewrite sqrt_sqrt; [ring|nra].
  - rewrite sqrt_sqrt; [ring|].
    replace ((a0 * a0 + a1 * a1 + a2 * a2) * (b0 * b0 + b1 * b1 + b2 * b2) - (a0 * b0 + a1 * b1 + a2 * b2) * (a0 * b0 + a1 * b1 + a2 * b2))
      with (Rsqr (a1 * b2 - a2 * b1) + Rsqr (a2 * b0 - a0 * b2) + Rsqr (a0 * b1 - a1 * b0)) by (unfold Rsqr; ring).
    pose proof (Rle_0_sqr (a1 * b2 - a2 * b1)). pose proof (Rle_0_sqr (a2 * b0 - a0 * b2)). pose proof (Rle_0_sqr (a0 * b1 - a1 * b0)). lra.
Qed.
Lemma dot_zero : forall v, dot v v = 0 -> v = (0, 0, 0).
Proof.
  intros [[x y] z]; unfold dot; cbn [fst snd]; intros H.
  pose proof (Rle_0_sqr x). pose proof (Rle_0_sqr y). pose proof (Rle_0_sqr z). unfold Rsqr in *.
  assert (x = 0) by (apply Rsqr_0_uniq; unfold Rsqr; lra). assert (y = 0) by (apply Rsqr_0_uniq; unfold Rsqr; lra).
  assert (z = 0) by (apply Rsqr_0_uniq; unfold Rsqr; lra). subst; reflexivity.
Qed.
Lemma weight_pos' : forall dim p, regular dim p -> 0 < weightOf (bp_geo p).
Proof.
  intros dim p H. pose proof (regular_notpoint _ _ H) as N. destruct H as (H & _).
  assert (G : 0 <= weightOf (bp_geo p)).
  { destruct (bp_geo p); cbn [weightOf]; cbv zeta; [lra|apply sqrt_pos|apply sqrt_pos]. }
  destruct G as [G|G]; auto. exfalso; apply H, dot_zero. rewrite <- weight_sq by exact N. rewrite <- G. ring.
Qed.

Lemma mapM_firstn : forall (l : list R) dim, (dim <= length l)%nat -> mapM (zget l) (zseq dim) = Ok (firstn dim l).
Proof.
  intros l dim H. unfold zseq.
  assert (G : forall n s, (s + n <= length l)%nat -> mapM (zget l) (map Z.of_nat (seq s n)) = Ok (firstn n (skipn s l))).
  { induction n as [|n IH]; intros s Hs; [reflexivity|]. cbn [seq map mapM].
    destruct (nth_error l s) as [a|] eqn:E; [|apply nth_error_None in E; lia].
    replace (zget l (Z.of_nat s)) with (Ok a) by (symmetry; apply zget_ok; split; [lia|now rewrite Nat2Z.id]).
    cbn [bind]. rewrite IH by lia. cbn [bind]. f_equal.
    assert (Sk : skipn s l = a :: skipn (S s) l).
    { clear -E. revert s E. induction l as [|x t IHl]; intros [|s] E; cbn in *; try discriminate; [congruence|auto]. }
    rewrite Sk. reflexivity. }
  apply (G dim 0%nat). lia.
Qed.
Lemma loop_arrays : forall dim pts, Forall (regular dim) pts -> forall A,
  foldM (writePoint dim) pts A = Ok (mkArr (a_pos A ++ flat_map (fun p => firstn dim (bp_pos p)) pts)
    (a_nor A ++ flat_map (fun p => nOf (bp_geo p)) pts) (a_wei A ++ map (fun p => bp_ip p * weightOf (bp_geo p)) pts)).
Proof.
  intros dim pts H; induction H as [|p t Hp Ht IH]; intros A.
  - cbn. rewrite !app_nil_r. now destruct A.
  - cbn [foldM flat_map map]. unfold writePoint at 1. rewrite mapM_firstn by (apply Hp). cbn [bind].
    rewrite outward_ok by (eapply regular_notpoint; eauto). cbn [bind]. rewrite IH. cbn [a_pos a_nor a_wei].
    rewrite <- !app_assoc. reflexivity.
Qed.

Lemma nth_blocks : forall {A} (f : A -> list R) c l k p d, Forall (fun x => length (f x) = c) l -> nth_error l k = Some p -> (d < c)%nat ->
  nth (c * k + d) (flat_map f l) 0 = nth d (f p) 0.
Proof.
  intros A f c l; induction l as [|x t IH]; intros [|k] p d H E Hd; try discriminate; cbn [flat_map].
  - injection E as ->. apply Forall_inv in H. cbn beta in H. rewrite app_nth1 by lia. f_equal. lia.
  - pose proof (Forall_inv H) as Hx. apply Forall_inv_tail in H. rewrite app_nth2 by (cbn beta in Hx; rewrite Hx; nia).
    rewrite <- (IH k p d H E Hd). f_equal. cbn beta in Hx. rewrite Hx. nia.
Qed.
Lemma length_blocks : forall {A} (f : A -> list R) c l, Forall (fun x => length (f x) = c) l -> length (flat_map f l) = (c * length l)%nat.
Proof. intros A f c l H; induction H as [|x t Hx Ht IH]; cbn [flat_map length]; [lia|]. rewrite app_length, IH, Hx. lia. Qed.

Lemma normal_ok : forall dim p, regular dim p -> let n := (nth 0 (nOf (bp_geo p)) 0, nth 1 (nOf (bp_geo p)) 0, nth 2 (nOf (bp_geo p)) 0) in
  dot n n = 1 /\ Forall (fun t => dot n t = 0) (tangents (bp_geo p)) /\ 0 < dot n (across (bp_geo p)) /\
  scale (bp_ip p * weightOf (bp_geo p)) n = scale (bp_ip p) (across (bp_geo p)).
Proof.
  intros dim p H. pose proof (weight_pos' _ _ H) as W. pose proof (regular_notpoint _ _ H) as N.
  pose proof (weight_sq _ N) as S. unfold nOf. cbv zeta. cbn [nth]. 
  assert (T : Forall (fun t => dot (across (bp_geo p)) t = 0) (tangents (bp_geo p))).
  { destruct (bp_geo p); cbn [tangents]; repeat constructor; unfold dot, across; cbn [fst snd]; ring. }
  set (w := weightOf (bp_geo p)) in *. destruct (across (bp_geo p)) as [[x y] z]. unfold dot, scale in *. cbn [fst snd] in *.
  assert (E : forall u v t, x / w * u + y / w * v + z / w * t = (x * u + y * v + z * t) / w) by (intros; field; lra).
  split; [|split; [|split]].
  - rewrite E. replace (x * (x / w) + y * (y / w) + z * (z / w)) with ((x * x + y * y + z * z) / w) by (field; lra).
    rewrite <- S. field. lra.
  - eapply Forall_impl; [|exact T]. intros [[u v] t]; cbn [fst snd]. intros Q. rewrite E, Q. unfold Rdiv; ring.
  - rewrite E, <- S. replace (w * w / w) with w by (field; lra). exact W.
  - f_equal; [f_equal|]; field; lra.
Qed.

(** ** The file *)
Lemma geometry_ok : forall dim els, hasSurface els -> Forall (regular dim) (surfacePoints els) ->
  exists A, writeGeometry dim els = Ok A /\ describes dim (surfacePoints els) (a_pos A) (a_nor A) (a_wei A).
Proof.
  intros dim els H R. rewrite geometry_loop by exact H. rewrite loop_arrays by exact R. eexists; split; [reflexivity|].
  cbn [a_pos a_nor a_wei app]. set (pts := surfacePoints els) in *. clearbody pts. clear H els.
  assert (P : Forall (fun p => length (firstn dim (bp_pos p)) = dim) pts).
  { eapply Forall_impl; [|exact R]. intros p (_ & L). rewrite firstn_length. lia. }
  assert (Q : Forall (fun p => length (nOf (bp_geo p)) = 3%nat) pts) by (apply Forall_forall; reflexivity).
  split; [apply length_blocks, P|]. split; [apply length_blocks, Q|]. split; [apply map_length|].
  intros k p H. split.
  - intros d Hd. rewrite (nth_blocks _ dim pts k p d P H Hd).
    clear -Hd. revert d Hd. generalize (bp_pos p). induction dim as [|n IH]; intros l d Hd; [lia|].
    destruct l as [|x t]; [destruct d; reflexivity|]. destruct d as [|d]; [reflexivity|]. cbn. apply IH. lia.
  - cbv zeta. unfold normalAt.
    replace (3 * k)%nat with (3 * k + 0)%nat at 1 3 5 7 9 by lia.
    assert (B : forall d, (d < 3)%nat -> nth (3 * k + d) (flat_map (fun p => nOf (bp_geo p)) pts) 0 = nth d (nOf (bp_geo p)) 0)
      by (intros d Hd; apply (nth_blocks (fun p => nOf (bp_geo p)) 3 pts k p d Q H Hd)).
    assert (B0 := B 0%nat ltac:(lia)). rewrite Nat.add_0_r in B0 |- *.
    rewrite (B 1%nat), (B 2%nat), B0 by lia.
    replace (nth k (map (fun p => bp_ip p * weightOf (bp_geo p)) pts) 0) with (bp_ip p * weightOf (bp_geo p)).
    + apply (normal_ok dim). eapply Forall_forall; [exact R|]. eapply nth_error_In; exact H.
    + symmetry. apply nth_error_nth. rewrite nth_error_map, H. reflexivity.
Qed.

Lemma unmarked : forall dim els, (forall e, In e els -> (be_attr e < 201)%Z) -> totalQuadPts els = UB /\ writeGeometry dim els = UB.
Proof.
  intros dim els H. unfold totalQuadPts, writeGeometry. destruct els as [|x t]; [split; reflexivity|].
  destruct (max_attr (x :: t)) as (M & E & _ & e & He & <-); [discriminate|]. rewrite E. cbn [bind].
  rewrite marker_bad by auto. split; reflexivity.
Qed.

(** ** Reading the file back *)
Lemma read_back : forall dim els A N (bits : R -> Z) dofs basis snaps, hasSurface els -> Forall (regular dim) (surfacePoints els) ->
  totalQuadPts els = Ok N -> writeGeometry dim els = Ok A -> (forall x, isDouble (bits x)) ->
  isInt32 (Z.of_nat dim) -> isInt32 (Z.of_nat (length els)) -> isInt32 basis -> (0 <= dofs)%Z -> isInt32 dofs ->
  isInt32 (Z.of_nat N * Z.of_nat dim) -> isInt32 (Z.of_nat N * 3) ->
  let g := mkGeo (Z.of_nat dim) dofs (Z.of_nat (length els)) (Z.of_nat N) basis
             (map bits (a_pos A)) (map bits (a_nor A)) (map bits (a_wei A)) in
  Forall (goodSnapshot dofs) snaps -> readRankData (fileOf g snaps) = Ok (g, snaps).
Proof.
  intros dim els A N bits dofs basis snaps H R EN EA Hb H1 H2 H3 H4 H5 H6 H7 g Hs.
  rewrite count_ok in EN by exact H. injection EN as <-.
  destruct (geometry_ok dim els H R) as (A' & EA' & L1 & L2 & L3 & _). rewrite EA' in EA. injection EA as ->.
  apply round_trip; [|exact Hs]. unfold goodGeometry, isInt32 in *. subst g.
  cbn [g_dim g_dofs g_bdr g_qp g_basis g_pos g_nor g_wei]. rewrite !map_length, L1, L2, L3.
  repeat split; try lia; apply Forall_forall; intros z Hz; apply in_map_iff in Hz; destruct Hz as (x & <- & _); apply Hb.
Qed.

From Coq Require Import ZArith List Bool Lia.
From Verif Require Import Common Codec_Model Codec_Spec.
Import ListNotations.
Local Open Scope Z_scope.

(** Two points in the plane, one dof (the patterns of 1.0 and 2.0). *)
Definition one : Z := 4607182418800017408.
Definition two : Z := 4611686018427387904.
Definition exGeo : geometry := mkGeo 2 1 3 2 1 [one; two; two; one] [one; 0; 0; 0; one; 0] [two; two].
Definition exSnaps : list snapshot :=
  [mkSnap 0 [[one]; [two]; [0]; [0]; [0]; [one]]; mkSnap two [[two]; [two]; [one]; [0]; [one]; [one]]].

Lemma ex_good : goodGeometry exGeo /\ Forall (goodSnapshot (g_dofs exGeo)) exSnaps.
Proof.
  split.
  - unfold goodGeometry, isInt32. cbn. repeat split; try lia;
      repeat (apply Forall_cons; [unfold isDouble, one, two; lia|]); apply Forall_nil.
  - repeat (apply Forall_cons; [|]); try apply Forall_nil; (split; [unfold isDouble; cbn; unfold two; lia|]); (split; [reflexivity|]);
      cbn [s_comps]; repeat (apply Forall_cons; [split; [reflexivity|apply Forall_cons; [unfold isDouble, one, two; lia|apply Forall_nil]]|]); apply Forall_nil.
Qed.
Lemma ex_sizes : bodyStart exGeo = 116 /\ Z.of_nat (length (fileOf exGeo exSnaps)) = 228.
Proof. vm_compute. split; reflexivity. Qed.
Lemma ex_prefix : exists g l c r, goodGeometry g /\ Forall (goodSnapshot (g_dofs g)) l /\ (20 <= c)%nat /\
  readRankData (firstn c (fileOf g l)) = Ok (g, r) /\ forall k, r <> firstn k l.
Proof.
  exists exGeo, exSnaps, 140%nat, [mkSnap 0 [[one]; [two]; [0]; [0]; [0]; [0]]].
  split; [apply ex_good|]. split; [apply ex_good|]. split; [lia|]. split; [vm_compute; reflexivity|].
  intros [|[|[|k]]]; discriminate.
Qed.

(** ** Any file *)
Lemma count_ok : forall z n, count z = Ok n <-> 0 <= z <= 2147483647 /\ n = Z.to_nat z.
Proof.
  intros z n. unfold count.
  destruct ((-2147483648 <=? z) && (z <=? 2147483647)) eqn:E; cbn [negb].
  - destruct (z <? 0) eqn:N; [split; [discriminate|intros [? _]; apply Z.ltb_lt in N; lia]|].
    apply Z.ltb_ge in N. apply andb_prop in E as [E1 E2]. apply Z.leb_le in E1, E2.
    split; [intros [= <-]; split; [lia|reflexivity]|intros [_ ->]; reflexivity].
  - split; [discriminate|]. intros [? _]. apply andb_false_iff in E as [E|E]; apply Z.leb_gt in E; lia.
Qed.
Lemma words8_length : forall k l, length (words8 k l) = k.
Proof. induction k as [|k IH]; intros l; cbn [words8 length]; [reflexivity|rewrite IH; reflexivity]. Qed.
Lemma readDoubles_length : forall k f v f', readDoubles k f = (v, f') -> length v = k.
Proof.
  intros k f v f'. unfold readDoubles. destruct (read (8 * k) (repeat 0 (8 * k)) f) as [b g]. intros [= <- _]. apply words8_length.
Qed.
Lemma readComps_length : forall n k f r f', readComps n k f = (r, f') -> length r = n /\ Forall (fun c => length c = k) r.
Proof.
  induction n as [|n IH]; intros k f r f'; cbn [readComps].
  - intros [= <- _]. split; [reflexivity|constructor].
  - destruct (readDoubles k f) as [v g] eqn:E. destruct (readComps n k g) as [r' g'] eqn:E'. intros [= <- _].
    destruct (IH _ _ _ _ E') as [L F]. split; [cbn [length]; lia|]. constructor; [eapply readDoubles_length; eassumption|exact F].
Qed.
Lemma readSnaps_sized : forall fuel nd f l, readSnaps fuel nd f = Ok l ->
  Forall (fun s => length (s_comps s) = 6%nat /\ Forall (fun c => Z.of_nat (length c) = nd) (s_comps s)) l.
Proof.
  induction fuel as [|fuel IH]; intros nd f l; cbn [readSnaps]; [intros [= <-]; constructor|].
  destruct (st_good f && _); [|intros [= <-]; constructor].
  destruct (read 8 (repeat 0 8) f) as [tb g]. destruct (st_good g); [|intros [= <-]; constructor].
  destruct (count nd) as [k| |] eqn:C; cbn [bind]; try discriminate. apply count_ok in C as [B ->].
  destruct (readComps 6 (Z.to_nat nd) g) as [cs g'] eqn:E.
  destruct (readSnaps fuel nd g') as [rest| |] eqn:R; cbn [bind]; try discriminate. intros [= <-].
  destruct (readComps_length _ _ _ _ _ E) as [L F]. constructor; [|eapply IH; eassumption]. cbn [s_comps]. split; [exact L|].
  eapply Forall_impl; [|exact F]. cbn beta. intros a Ha. lia.
Qed.
Lemma any_file : forall file g l, readRankData file = Ok (g, l) ->
  (20 <= length file)%nat /\ 0 <= g_qp g /\
  Z.of_nat (length (g_pos g)) = g_qp g * g_dim g /\ Z.of_nat (length (g_nor g)) = g_qp g * 3 /\ Z.of_nat (length (g_wei g)) = g_qp g /\
  Z.of_nat (length (g_pos g)) <= 2147483647 /\ Z.of_nat (length (g_nor g)) <= 2147483647 /\
  Forall (fun s => length (s_comps s) = 6%nat /\ Forall (fun c => Z.of_nat (length c) = g_dofs g) (s_comps s)) l.
Proof.
  intros file g l. unfold readRankData.
  assert (Lr : forall h f, read 20 (repeat 0 20) (mkStream file true) = (h, f) -> st_good f = true -> (20 <= length file)%nat).
  { intros h f. unfold read. cbn [st_good st_rest]. destruct (20 <=? length file)%nat eqn:E; [intros _ _; apply Nat.leb_le; exact E|].
    intros [= _ <-]. discriminate. }
  destruct (read 20 (repeat 0 20) (mkStream file true)) as [h f] eqn:Er. destruct (st_good f) eqn:G; [|discriminate].
  specialize (Lr _ _ eq_refl G).
  set (dim := int32 (firstn 4 (skipn (4 * 0) h))). set (nd := int32 (firstn 4 (skipn (4 * 1) h))). set (nq := int32 (firstn 4 (skipn (4 * 3) h))).
  destruct (count (nq * dim)) as [a| |] eqn:Ca; cbn [bind]; try discriminate.
  destruct (count (nq * 3)) as [b| |] eqn:Cb; cbn [bind]; try discriminate.
  destruct (count nq) as [c| |] eqn:Cc; cbn [bind]; try discriminate.
  apply count_ok in Ca as [Ba ->]. apply count_ok in Cb as [Bb ->]. apply count_ok in Cc as [Bc ->].
  destruct (readDoubles (Z.to_nat (nq * dim)) f) as [pos f1] eqn:E1. destruct (readDoubles (Z.to_nat (nq * 3)) f1) as [nor f2] eqn:E2.
  destruct (readDoubles (Z.to_nat nq) f2) as [wei f3] eqn:E3.
  destruct (readSnaps (S (length file)) nd f3) as [sn| |] eqn:E4; cbn [bind]; try discriminate. intros [= <- <-].
  cbn [g_dim g_dofs g_qp g_pos g_nor g_wei]. apply readDoubles_length in E1, E2, E3. rewrite E1, E2, E3.
  repeat split; try lia. eapply readSnaps_sized; exact E4.
Qed.
Lemma short_file : forall file, (length file < 20)%nat -> readRankData file = UB.
Proof.
  intros file L. unfold readRankData, read. cbn [st_good st_rest].
  destruct (20 <=? length file)%nat eqn:E; [apply Nat.leb_le in E; lia|]. reflexivity.
Qed.
(** A header that asks for 2^30 points in three dimensions. *)
Definition overflowing : list Z := headerBytes (mkGeo 3 1 1 1073741824 0 [] [] []).
Lemma overflow : length overflowing = 20%nat /\ readRankData overflowing = UB.
Proof. split; vm_compute; reflexivity. Qed.

From Coq Require Import ZArith List Bool Reals Lia Lra Psatz Permutation.
From Verif Require Import Common Nodal_Proofs Sub_Proofs SubGeo_Proofs Step_Model Step_Spec Step_Proofs.
Import ListNotations.
Local Open Scope R_scope.

(** ** Triangles *)
Lemma square_pos : forall x, x <> 0 -> 0 < x * x.
Proof. intros. now apply Rsqr_pos_lt. Qed.
Lemma square_nn : forall x, 0 <= x * x.
Proof. intros. apply Rle_0_sqr. Qed.
Lemma dist2_sym : forall n a b, dist2 n a b = dist2 n b a.
Proof. intros n [[? ?] ?] [[? ?] ?]. unfold dist2, sq. destruct (0 <? n)%Z, (1 <? n)%Z, (2 <? n)%Z; ring. Qed.
Lemma dist_sym : forall n a b, dist n a b = dist n b a.
Proof. intros. unfold dist. now rewrite dist2_sym. Qed.

Lemma area2_rot : forall a b c, area2 b c a = area2 a b c.
Proof. intros [[? ?] ?] [[? ?] ?] [[? ?] ?]. unfold area2. ring. Qed.

Lemma side_pos : forall a b c, area2 a b c <> 0 -> 0 < dist 2 a b.
Proof.
  intros [[a1 a2] a3] [[b1 b2] b3] [[c1 c2] c3] H. apply sqrt_lt_R0.
  unfold dist2, sq. change (0 <? 2)%Z with true. change (1 <? 2)%Z with true. change (2 <? 2)%Z with false. cbv iota.
  destruct (Req_dec a1 b1) as [E1|E1]; [destruct (Req_dec a2 b2) as [E2|E2]|].
  - exfalso. apply H. subst. unfold area2. ring.
  - pose proof (square_pos (a2 - b2) ltac:(lra)). pose proof (square_nn (a1 - b1)). lra.
  - pose proof (square_pos (a1 - b1) ltac:(lra)). pose proof (square_nn (a2 - b2)). lra.
Qed.

Lemma area_ab : forall a b c u v w, u + v + w = 1 -> area2 a b (comb3 a b c u v w) = w * area2 a b c.
Proof.
  intros [[a1 a2] a3] [[b1 b2] b3] [[c1 c2] c3] u v w H. unfold area2, comb3.
  replace u with (1 - v - w) by lra. ring.
Qed.
Lemma area_bc : forall a b c u v w, u + v + w = 1 -> area2 b c (comb3 a b c u v w) = u * area2 a b c.
Proof.
  intros [[a1 a2] a3] [[b1 b2] b3] [[c1 c2] c3] u v w H. unfold area2, comb3.
  replace u with (1 - v - w) by lra. ring.
Qed.
Lemma area_ca : forall a b c u v w, u + v + w = 1 -> area2 c a (comb3 a b c u v w) = v * area2 a b c.
Proof.
  intros [[a1 a2] a3] [[b1 b2] b3] [[c1 c2] c3] u v w H. unfold area2, comb3.
  replace u with (1 - v - w) by lra. ring.
Qed.

Lemma div_le : forall x y z, 0 < y -> x <= z * y -> x / y <= z.
Proof.
  intros x y z Hy H. apply Rmult_le_reg_r with y; auto.
  unfold Rdiv. rewrite Rmult_assoc, Rinv_l by lra. lra.
Qed.
Lemma div_gt : forall x y z, 0 < y -> z < x / y -> z * y < x.
Proof.
  intros x y z Hy H. apply Rmult_lt_compat_r with (r := y) in H; auto.
  unfold Rdiv in H. rewrite Rmult_assoc, Rinv_l in H by lra. lra.
Qed.

Theorem triangle_inradius : forall a b c, area2 a b c <> 0 ->
  inradius a b c (Rabs (area2 a b c) / (dist 2 a b + dist 2 b c + dist 2 c a)).
Proof.
  intros a b c H.
  pose proof (side_pos a b c H) as P1.
  assert (0 < dist 2 b c) as P2 by (apply (side_pos b c a); now rewrite area2_rot).
  assert (0 < dist 2 c a) as P3 by (apply (side_pos c a b); now rewrite 2!area2_rot).
  set (x := dist 2 a b) in *. set (y := dist 2 b c) in *. set (z := dist 2 c a) in *.
  set (T := Rabs (area2 a b c)).
  assert (0 < x + y + z) as PP by lra.
  assert (forall q, 0 < q -> 0 < q / (x + y + z)) as Q.
  { intros q Hq. apply Rmult_lt_0_compat; auto. now apply Rinv_0_lt_compat. }
  split.
  - exists (comb3 a b c (y / (x + y + z)) (z / (x + y + z)) (x / (x + y + z))).
    assert (y / (x + y + z) + z / (x + y + z) + x / (x + y + z) = 1) as S1 by (field; lra).
    repeat split.
    + eexists _, _, _. repeat split; try reflexivity; try (now apply Rlt_le, Q). exact S1.
    + unfold lineDist. rewrite area_ab by exact S1. rewrite Rabs_mult, (Rabs_pos_eq (x / _)) by now apply Rlt_le, Q.
      fold T x. field; lra.
    + unfold lineDist. rewrite area_bc by exact S1. rewrite Rabs_mult, (Rabs_pos_eq (y / _)) by now apply Rlt_le, Q.
      fold T y. field; lra.
    + unfold lineDist. rewrite area_ca by exact S1. rewrite Rabs_mult, (Rabs_pos_eq (z / _)) by now apply Rlt_le, Q.
      fold T z. field; lra.
  - intros p (u & v & w & Hu & Hv & Hw & S1 & ->). unfold lineDist.
    rewrite area_ab, area_bc, area_ca by exact S1. rewrite !Rabs_mult, !(Rabs_pos_eq u), !(Rabs_pos_eq v), !(Rabs_pos_eq w) by assumption.
    fold T x y z. set (r := T / (x + y + z)).
    assert (r * (x + y + z) = T) as Er by (unfold r; field; lra).
    destruct (Rle_dec (w * T / x) r) as [|n1]; [tauto|].
    destruct (Rle_dec (u * T / y) r) as [|n2]; [tauto|].
    destruct (Rle_dec (v * T / z) r) as [|n3]; [tauto|]. exfalso.
    apply Rnot_le_lt, div_gt in n1; auto. apply Rnot_le_lt, div_gt in n2; auto. apply Rnot_le_lt, div_gt in n3; auto.
    assert ((u + v + w) * T = T) by (rewrite S1; ring). lra.
Qed.

(** The radius is unique. *)
Theorem inradius_unique : forall a b c r r', inradius a b c r -> inradius a b c r' -> r = r'.
Proof.
  intros a b c r r' ((p & Ip & A1 & A2 & A3) & Hr) ((q & Iq & B1 & B2 & B3) & Hr').
  apply Rle_antisym.
  - destruct (Hr' p Ip) as [X|[X|X]]; lra.
  - destruct (Hr q Iq) as [X|[X|X]]; lra.
Qed.

(** ** Tetrahedra *)
Definition normal2 (a b c : vertex) : R :=
  let '(a1, a2, a3) := a in let '(b1, b2, b3) := b in let '(c1, c2, c3) := c in
  sq ((b2 - a2) * (c3 - a3) - (b3 - a3) * (c2 - a2)) + sq ((b3 - a3) * (c1 - a1) - (b1 - a1) * (c3 - a3))
  + sq ((b1 - a1) * (c2 - a2) - (b2 - a2) * (c1 - a1)).
Lemma heron_normal : forall a b c, heron16 (dist2 3 a b) (dist2 3 b c) (dist2 3 c a) = 4 * normal2 a b c.
Proof.
  intros [[a1 a2] a3] [[b1 b2] b3] [[c1 c2] c3]. unfold heron16, dist2, sq, normal2, sq.
  change (0 <? 3)%Z with true. change (1 <? 3)%Z with true. change (2 <? 3)%Z with true. cbv iota. ring.
Qed.
Lemma area_pos : forall a b c d, volume6 a b c d <> 0 -> 0 < triArea a b c.
Proof.
  intros a b c d H. unfold triArea. rewrite heron_normal.
  enough (0 < normal2 a b c) as N.
  { assert (0 < sqrt (4 * normal2 a b c)) by (apply sqrt_lt_R0; lra). lra. }
  destruct a as [[a1 a2] a3], b as [[b1 b2] b3], c as [[c1 c2] c3], d as [[d1 d2] d3].
  unfold normal2, volume6, sq in *.
  set (X := (b2 - a2) * (c3 - a3) - (b3 - a3) * (c2 - a2)) in *.
  set (Y := (b3 - a3) * (c1 - a1) - (b1 - a1) * (c3 - a3)) in *.
  set (Z := (b1 - a1) * (c2 - a2) - (b2 - a2) * (c1 - a1)) in *.
  pose proof (square_nn X). pose proof (square_nn Y). pose proof (square_nn Z).
  destruct (Req_dec X 0) as [EX|EX]; [|pose proof (square_pos X EX); lra].
  destruct (Req_dec Y 0) as [EY|EY]; [|pose proof (square_pos Y EY); lra].
  destruct (Req_dec Z 0) as [EZ|EZ]; [|pose proof (square_pos Z EZ); lra]. exfalso. apply H. rewrite EX, EY, EZ. ring.
Qed.

Lemma tri_area_sym : forall a b c, triArea a b c = triArea b c a /\ triArea a b c = triArea b a c.
Proof.
  intros a b c. unfold triArea, heron16.
  rewrite (dist2_sym 3 c a), (dist2_sym 3 c b), (dist2_sym 3 b a). split; f_equal; f_equal; ring.
Qed.

Lemma vol_abc : forall a b c d u v w t, u + v + w + t = 1 ->
  volume6 a b c (comb4 a b c d u v w t) = t * volume6 a b c d.
Proof.
  intros [[a1 a2] a3] [[b1 b2] b3] [[c1 c2] c3] [[d1 d2] d3] u v w t H. unfold volume6, comb4, comb3.
  replace u with (1 - v - w - t) by lra. ring.
Qed.
Lemma vol_abd : forall a b c d u v w t, u + v + w + t = 1 ->
  volume6 a b d (comb4 a b c d u v w t) = - w * volume6 a b c d.
Proof.
  intros [[a1 a2] a3] [[b1 b2] b3] [[c1 c2] c3] [[d1 d2] d3] u v w t H. unfold volume6, comb4, comb3.
  replace u with (1 - v - w - t) by lra. ring.
Qed.
Lemma vol_acd : forall a b c d u v w t, u + v + w + t = 1 ->
  volume6 a c d (comb4 a b c d u v w t) = v * volume6 a b c d.
Proof.
  intros [[a1 a2] a3] [[b1 b2] b3] [[c1 c2] c3] [[d1 d2] d3] u v w t H. unfold volume6, comb4, comb3.
  replace u with (1 - v - w - t) by lra. ring.
Qed.
Lemma vol_bcd : forall a b c d u v w t, u + v + w + t = 1 ->
  volume6 b c d (comb4 a b c d u v w t) = - u * volume6 a b c d.
Proof.
  intros [[a1 a2] a3] [[b1 b2] b3] [[c1 c2] c3] [[d1 d2] d3] u v w t H. unfold volume6, comb4, comb3.
  replace u with (1 - v - w - t) by lra. ring.
Qed.

Lemma vol_sw3 : forall a b c d, volume6 a b d c = - volume6 a b c d.
Proof. intros [[? ?] ?] [[? ?] ?] [[? ?] ?] [[? ?] ?]. unfold volume6. ring. Qed.
Lemma vol_sw2 : forall a b c d, volume6 a c d b = volume6 a b c d.
Proof. intros [[? ?] ?] [[? ?] ?] [[? ?] ?] [[? ?] ?]. unfold volume6. ring. Qed.
Lemma vol_sw1 : forall a b c d, volume6 b c d a = - volume6 a b c d.
Proof. intros [[? ?] ?] [[? ?] ?] [[? ?] ?] [[? ?] ?]. unfold volume6. ring. Qed.

Theorem tetra_inradius : forall a b c d, volume6 a b c d <> 0 ->
  inradius3 a b c d (Rabs (volume6 a b c d) / 2 / (triArea b c d + triArea a c d + triArea a b d + triArea a b c)).
Proof.
  intros a b c d H.
  pose proof (area_pos a b c d H) as P4.
  assert (0 < triArea a b d) as P3.
  { apply (area_pos a b d c). rewrite vol_sw3; lra. }
  assert (0 < triArea a c d) as P2.
  { apply (area_pos a c d b). rewrite vol_sw2; lra. }
  assert (0 < triArea b c d) as P1.
  { apply (area_pos b c d a). rewrite vol_sw1; lra. }
  set (x := triArea b c d) in *. set (y := triArea a c d) in *. set (z := triArea a b d) in *. set (q := triArea a b c) in *.
  set (T := Rabs (volume6 a b c d)).
  assert (0 < x + y + z + q) as PP by lra.
  assert (forall k, 0 < k -> 0 < k / (x + y + z + q)) as Q.
  { intros k Hk. apply Rmult_lt_0_compat; auto. now apply Rinv_0_lt_compat. }
  split.
  - exists (comb4 a b c d (x / (x + y + z + q)) (y / (x + y + z + q)) (z / (x + y + z + q)) (q / (x + y + z + q))).
    assert (x / (x + y + z + q) + y / (x + y + z + q) + z / (x + y + z + q) + q / (x + y + z + q) = 1) as S1 by (field; lra).
    repeat split.
    + eexists _, _, _, _. repeat split; try reflexivity; try (now apply Rlt_le, Q). exact S1.
    + unfold planeDist. rewrite vol_bcd by exact S1. rewrite Rabs_mult, Rabs_Ropp, (Rabs_pos_eq (x / _)) by now apply Rlt_le, Q.
      fold T x. field; lra.
    + unfold planeDist. rewrite vol_acd by exact S1. rewrite Rabs_mult, (Rabs_pos_eq (y / _)) by now apply Rlt_le, Q.
      fold T y. field; lra.
    + unfold planeDist. rewrite vol_abd by exact S1. rewrite Rabs_mult, Rabs_Ropp, (Rabs_pos_eq (z / _)) by now apply Rlt_le, Q.
      fold T z. field; lra.
    + unfold planeDist. rewrite vol_abc by exact S1. rewrite Rabs_mult, (Rabs_pos_eq (q / _)) by now apply Rlt_le, Q.
      fold T q. field; lra.
  - intros p (u & v & w & t & Hu & Hv & Hw & Ht & S1 & ->). unfold planeDist.
    rewrite vol_abc, vol_abd, vol_acd, vol_bcd by exact S1.
    rewrite !Rabs_mult, !Rabs_Ropp, !(Rabs_pos_eq u), !(Rabs_pos_eq v), !(Rabs_pos_eq w), !(Rabs_pos_eq t) by assumption.
    fold T x y z q. set (r := T / 2 / (x + y + z + q)).
    assert (r * (x + y + z + q) = T / 2) as Er by (unfold r; field; lra).
    destruct (Rle_dec (u * T / 2 / x) r) as [|n1]; [tauto|].
    destruct (Rle_dec (v * T / 2 / y) r) as [|n2]; [tauto|].
    destruct (Rle_dec (w * T / 2 / z) r) as [|n3]; [tauto|].
    destruct (Rle_dec (t * T / 2 / q) r) as [|n4]; [tauto|]. exfalso.
    apply Rnot_le_lt, div_gt in n1; auto. apply Rnot_le_lt, div_gt in n2; auto.
    apply Rnot_le_lt, div_gt in n3; auto. apply Rnot_le_lt, div_gt in n4; auto.
    assert ((u + v + w + t) * T = T) by (rewrite S1; ring). lra.
Qed.

Theorem inradius3_unique : forall a b c d r r', inradius3 a b c d r -> inradius3 a b c d r' -> r = r'.
Proof.
  intros a b c d r r' ((p & Ip & A1 & A2 & A3 & A4) & Hr) ((q & Iq & B1 & B2 & B3 & B4) & Hr').
  apply Rle_antisym.
  - destruct (Hr' p Ip) as [X|[X|[X|X]]]; lra.
  - destruct (Hr q Iq) as [X|[X|[X|X]]]; lra.
Qed.

(** ** Elements *)
Lemma perm2 : forall (A : Type) (f : list A) a b, Permutation f [a; b] -> f = [a; b] \/ f = [b; a].
Proof.
  intros A f a b P. pose proof (Permutation_length P) as L.
  destruct f as [|x [|y [|? ?]]]; try discriminate L.
  destruct (Permutation_length_2 P) as [[-> ->]|[-> ->]]; auto.
Qed.

Lemma perm3 : forall (f : list vertex) a b c, Permutation f [a; b; c] ->
  exists x y z, f = [x; y; z] /\ triArea x y z = triArea a b c.
Proof.
  intros f a b c P. pose proof (Permutation_length P) as L.
  destruct f as [|x [|y [|z [|? ?]]]]; try discriminate L.
  exists x, y, z. split; auto.
  assert (In x [a; b; c]) as I by (apply (Permutation_in x P); now left).
  destruct (tri_area_sym a b c) as (S1 & S2). destruct (tri_area_sym b c a) as (S3 & S4).
  destruct (tri_area_sym c a b) as (S5 & S6).
  destruct (tri_area_sym b a c) as (S7 & S8). destruct (tri_area_sym a c b) as (S9 & S10).
  destruct I as [->|[->|[->|[]]]].
  - apply Permutation_cons_inv in P. destruct (Permutation_length_2 P) as [[-> ->]|[-> ->]]; congruence.
  - assert (Permutation [y; z] [a; c]) as P'.
    { apply Permutation_cons_inv with x. etransitivity; [exact P|]. apply perm_swap. }
    destruct (Permutation_length_2 P') as [[-> ->]|[-> ->]]; congruence.
  - assert (Permutation [y; z] [a; b]) as P'.
    { apply Permutation_cons_inv with x. etransitivity; [exact P|].
      change [a; b; x] with ([a; b] ++ [x]). symmetry. apply Permutation_cons_append. }
    destruct (Permutation_length_2 P') as [[-> ->]|[-> ->]]; congruence.
Qed.

Lemma edge_measure : forall m f a b, m_dim m = 2%Z -> m_sdim m = 2%Z -> Permutation f [a; b] -> measure m f (dist 2 a b).
Proof.
  intros m f a b D S P. unfold measure. rewrite D, S. cbn.
  destruct (perm2 _ _ _ _ P) as [->| ->]; eexists _, _; split; try reflexivity. apply dist_sym.
Qed.
Lemma face_measure : forall m f a b c, m_dim m = 3%Z -> Permutation f [a; b; c] -> measure m f (triArea a b c).
Proof.
  intros m f a b c D P. unfold measure. rewrite D. cbn.
  destruct (perm3 _ _ _ _ P) as (x & y & z & -> & E). exists x, y, z, []. split; auto.
Qed.

Lemma triangle_boundary : forall m e a b c, m_dim m = 2%Z -> m_sdim m = 2%Z -> triangleElement e a b c ->
  boundary m e (dist 2 a b + dist 2 b c + dist 2 c a) /\ usable m e.
Proof.
  intros m e a b c D S (F & V & N).
  assert (boundary m e (dist 2 a b + dist 2 b c + dist 2 c a)) as B.
  { exists [dist 2 a b; dist 2 b c; dist 2 c a]. split; [|cbn [fold_right]; ring].
    inversion F as [|f1 ? r1 ? P1 F1]; subst. inversion F1 as [|f2 ? r2 ? P2 F2]; subst.
    inversion F2 as [|f3 ? r3 ? P3 F3]; subst. inversion F3; subst.
    repeat apply Forall2_cons; auto using edge_measure. }
  split; auto. split.
  - rewrite V. pose proof (Rabs_pos_lt _ N). lra.
  - eexists; split; [exact B|]. pose proof (side_pos a b c N).
    pose proof (sqrt_pos (dist2 2 b c)). pose proof (sqrt_pos (dist2 2 c a)). unfold dist in *. lra.
Qed.

Lemma tetra_boundary : forall m e a b c d, m_dim m = 3%Z -> tetraElement e a b c d ->
  boundary m e (triArea b c d + triArea a c d + triArea a b d + triArea a b c) /\ usable m e.
Proof.
  intros m e a b c d D (F & V & N).
  assert (boundary m e (triArea b c d + triArea a c d + triArea a b d + triArea a b c)) as B.
  { exists [triArea b c d; triArea a c d; triArea a b d; triArea a b c]. split; [|cbn [fold_right]; ring].
    inversion F as [|f1 ? r1 ? P1 F1]; subst. inversion F1 as [|f2 ? r2 ? P2 F2]; subst.
    inversion F2 as [|f3 ? r3 ? P3 F3]; subst. inversion F3 as [|f4 ? r4 ? P4 F4]; subst. inversion F4; subst.
    repeat apply Forall2_cons; auto using face_measure. }
  split; auto. split.
  - rewrite V. pose proof (Rabs_pos_lt _ N). lra.
  - eexists; split; [exact B|]. pose proof (area_pos a b c d N).
    assert (forall p q r, 0 <= triArea p q r) as NN.
    { intros. unfold triArea. pose proof (sqrt_pos (heron16 (dist2 3 p q) (dist2 3 q r) (dist2 3 r p))). lra. }
    pose proof (NN b c d). pose proof (NN a c d). pose proof (NN a b d). lra.
Qed.

Lemma triangle_scale : forall m e a b c s, m_dim m = 2%Z -> m_sdim m = 2%Z -> triangleElement e a b c ->
  boundary m e s -> inradius a b c (2 * e_volume e / s).
Proof.
  intros m e a b c s D S T B. destruct (triangle_boundary m e a b c D S T) as (B' & _).
  rewrite (boundary_fun m e s _ ltac:(lia) B B'). destruct T as (_ & -> & N).
  replace (2 * (Rabs (area2 a b c) / 2)) with (Rabs (area2 a b c)) by field. now apply triangle_inradius.
Qed.
Lemma tetra_scale : forall m e a b c d s, m_dim m = 3%Z -> (m_sdim m <= 3)%Z -> tetraElement e a b c d ->
  boundary m e s -> inradius3 a b c d (3 / 2 * (2 * e_volume e / s)).
Proof.
  intros m e a b c d s D S T B. destruct (tetra_boundary m e a b c d D T) as (B' & _ & s' & B2 & P2).
  rewrite (boundary_fun m e s' _ S B2 B') in P2.
  rewrite (boundary_fun m e s _ S B B'). destruct T as (_ & -> & N).
  match goal with |- inradius3 _ _ _ _ ?x =>
    replace x with (Rabs (volume6 a b c d) / 2 / (triArea b c d + triArea a c d + triArea a b d + triArea a b c)) by (field; lra) end.
  now apply tetra_inradius.
Qed.

From Coq Require Import ZArith List Bool Reals Lia Lra Psatz Permutation.
From Verif Require Import Common Nodal_Proofs Sub_Proofs SubGeo_Proofs Step_Model Step_Spec Step_Proofs StepGeo_Proofs.
Import ListNotations.
Local Open Scope R_scope.

Lemma etype_eqb : forall a b, etypeEqb a b = true <-> a = b.
Proof. intros [] []; cbn; split; congruence. Qed.

Lemma extra_divisor : forall m x, extraDivisor m x ->
  x = (if elemTypeInMesh (m_elements m) (if (m_dim m =? 2)%Z then Quadrilateral else Hexahedron)
       then if (m_dim m =? 2)%Z then 2 else 6 else 1).
Proof.
  intros m x [((e & I & T) & ->)|(N & ->)].
  - replace (elemTypeInMesh _ _) with true; auto. symmetry. apply existsb_exists. exists e. split; auto. now apply etype_eqb.
  - destruct (elemTypeInMesh _ _) eqn:E; auto. exfalso. apply existsb_exists in E. destruct E as (e & I & T).
    apply etype_eqb in T. exact (N e I T).
Qed.
Lemma extra_pos : forall m x, extraDivisor m x -> 0 < x.
Proof. intros m x H. rewrite (extra_divisor _ _ H). destruct (elemTypeInMesh _ _), (m_dim m =? 2)%Z; lra. Qed.
Lemma extra_exists : forall m, exists x, extraDivisor m x.
Proof.
  intros m. unfold extraDivisor. set (sp := if (m_dim m =? 2)%Z then Quadrilateral else Hexahedron).
  destruct (elemTypeInMesh (m_elements m) sp) eqn:E.
  - apply existsb_exists in E. destruct E as (e & I & T). apply etype_eqb in T. eexists. left. split; eauto.
  - exists 1. right. split; auto. intros e I T.
    assert (elemTypeInMesh (m_elements m) sp = true); [|congruence].
    apply existsb_exists. exists e. split; auto. now apply etype_eqb.
Qed.

(** ** The value in two and three dimensions *)
Theorem step_value : forall dmax gl st m o n0 n1 ns dv,
  (m_dim m = 2 \/ m_dim m = 3)%Z -> (m_sdim m <= 3)%Z -> (so_op o = Hesthaven -> m_dim m = 2%Z) ->
  m_elements m <> [] -> Forall (usable m) (m_elements m) -> gl (so_order o) = n0 :: n1 :: ns -> extraDivisor m dv ->
  exists x, estimateTimeStep dmax gl st m o = Ok (so_cfl o * Rabs (n0 - n1) / 2 * x / dv / globalFactor m (so_op o)) /\
    0 < x /\
    (exists e s, In e (m_elements m) /\ boundary m e s /\ x = 2 * e_volume e / s) /\
    (forall e s, In e (m_elements m) -> boundary m e s -> x <= 2 * e_volume e / s).
Proof.
  intros dmax gl st m o n0 n1 ns dv D S Hop Hne F G Dv.
  pose proof (extra_divisor _ _ Dv) as Ed. pose proof (extra_pos _ _ Dv) as Pd.
  unfold estimateTimeStep, globalFactor.
  destruct D as [D|D]; rewrite D in *; cbn [Z.eqb Pos.eqb] in *;
    (edestruct (mesh_step gl m (so_order o) n0 n1 ns) as (x & E & P & A & B); eauto);
    exists x; (split; [|now auto]); rewrite E; cbn [bind]; rewrite <- Ed.
  - destruct (so_op o); apply f_equal; field; lra.
  - destruct (so_op o); [| |discriminate (Hop eq_refl)]; apply f_equal; field; lra.
Qed.

Theorem step_positive : forall dmax gl st m o n0 n1 ns,
  (m_dim m = 2 \/ m_dim m = 3)%Z -> (m_sdim m <= 3)%Z -> (so_op o = Hesthaven -> m_dim m = 2%Z) ->
  m_elements m <> [] -> Forall (usable m) (m_elements m) -> gl (so_order o) = n0 :: n1 :: ns -> n0 <> n1 ->
  0 < so_cfl o -> exists dt, estimateTimeStep dmax gl st m o = Ok dt /\ 0 < dt.
Proof.
  intros dmax gl st m o n0 n1 ns D S Hop Hne F G Hn C. destruct (extra_exists m) as (dv & Dv).
  destruct (step_value dmax gl st m o n0 n1 ns dv D S Hop Hne F G Dv) as (x & E & P & _).
  eexists; split; [exact E|]. pose proof (extra_pos _ _ Dv). pose proof (Rabs_pos_lt (n0 - n1) ltac:(lra)).
  assert (0 < globalFactor m (so_op o)) by (unfold globalFactor; destruct (so_op o), (m_dim m =? 3)%Z; lra).
  unfold Rdiv. repeat (apply Rmult_lt_0_compat || apply Rinv_0_lt_compat); auto; lra.
Qed.

(** Meshes of triangles and of tetrahedra: the smallest radius of an inscribed
    circle (sphere). *)
Lemma forall_usable : forall m, (forall e, In e (m_elements m) -> usable m e) -> Forall (usable m) (m_elements m).
Proof. intros m H. now apply Forall_forall. Qed.

Lemma extra_none : forall m sp, sp <> Quadrilateral -> sp <> Hexahedron ->
  (forall e, In e (m_elements m) -> e_type e = sp) -> extraDivisor m 1.
Proof.
  intros m sp A B H. right. split; auto. intros e I. rewrite (H e I). destruct (m_dim m =? 2)%Z; auto.
Qed.

Theorem step_triangles : forall dmax gl st m o n0 n1 ns,
  m_dim m = 2%Z -> m_sdim m = 2%Z -> m_elements m <> [] ->
  (forall e, In e (m_elements m) -> e_type e = Triangle /\ exists a b c, triangleElement e a b c) ->
  gl (so_order o) = n0 :: n1 :: ns ->
  exists r, estimateTimeStep dmax gl st m o = Ok (so_cfl o * Rabs (n0 - n1) / 2 * r) /\ 0 < r /\
    (exists e a b c, In e (m_elements m) /\ triangleElement e a b c /\ inradius a b c r) /\
    (forall e a b c r', In e (m_elements m) -> triangleElement e a b c -> inradius a b c r' -> r <= r').
Proof.
  intros dmax gl st m o n0 n1 ns D S Hne H G.
  assert (extraDivisor m 1) as Dv by (apply (extra_none m Triangle); try discriminate; intros e I; apply (H e I)).
  destruct (step_value dmax gl st m o n0 n1 ns 1) as (x & E & P & (e & s & I & B & X) & M); auto; try lia.
  { apply forall_usable. intros e I. destruct (H e I) as (_ & a & b & c & T). now apply (triangle_boundary m e a b c D S T). }
  exists x. split; [|split; [exact P|split]].
  - rewrite E. apply f_equal. unfold globalFactor. rewrite D. cbn [Z.eqb Pos.eqb]. destruct (so_op o); field.
  - destruct (H e I) as (_ & a & b & c & T). exists e, a, b, c. repeat split; auto; try apply T; rewrite X;
      apply (triangle_scale m e a b c s D S T B).
  - intros e' a b c r' I' T R'. destruct (triangle_boundary m e' a b c D S T) as (B' & _).
    pose proof (triangle_scale m e' a b c _ D S T B') as R2.
    rewrite (inradius_unique _ _ _ _ _ R' R2). now apply M.
Qed.

Theorem step_tetra : forall dmax gl st m o n0 n1 ns,
  m_dim m = 3%Z -> (m_sdim m <= 3)%Z -> m_elements m <> [] -> so_op o <> Hesthaven ->
  (forall e, In e (m_elements m) -> e_type e = Tetrahedron /\ exists a b c d, tetraElement e a b c d) ->
  gl (so_order o) = n0 :: n1 :: ns ->
  exists r, estimateTimeStep dmax gl st m o = Ok (so_cfl o * Rabs (n0 - n1) / 3 * r / globalFactor m (so_op o)) /\ 0 < r /\
    (exists e a b c d, In e (m_elements m) /\ tetraElement e a b c d /\ inradius3 a b c d r) /\
    (forall e a b c d r', In e (m_elements m) -> tetraElement e a b c d -> inradius3 a b c d r' -> r <= r').
Proof.
  intros dmax gl st m o n0 n1 ns D S Hne Hop H G.
  assert (extraDivisor m 1) as Dv by (apply (extra_none m Tetrahedron); try discriminate; intros e I; apply (H e I)).
  destruct (step_value dmax gl st m o n0 n1 ns 1) as (x & E & P & (e & s & I & B & X) & M); auto; try lia; try tauto.
  { apply forall_usable. intros e I. destruct (H e I) as (_ & a & b & c & d & T). now apply (tetra_boundary m e a b c d D T). }
  exists (3 / 2 * x). split; [|split; [lra|split]].
  - rewrite E. apply f_equal. unfold globalFactor. rewrite D. cbn [Z.eqb Pos.eqb]. destruct (so_op o); field.
  - destruct (H e I) as (_ & a & b & c & d & T). exists e, a, b, c, d. split; [exact I|split; [exact T|]]. rewrite X.
    apply (tetra_scale m e a b c d s D S T B).
  - intros e' a b c d r' I' T R'. destruct (tetra_boundary m e' a b c d D T) as (B' & _).
    pose proof (tetra_scale m e' a b c d _ D S T B') as R2.
    rewrite (inradius3_unique _ _ _ _ _ _ R' R2). specialize (M e' _ I' B'). lra.
Qed.

(** ** Enlarged and moved meshes *)
Lemma dist_nonneg : forall n a b, 0 <= dist n a b.
Proof. intros. apply sqrt_pos. Qed.
Lemma dist2_of : forall n a b, dist2 n a b = dist n a b * dist n a b.
Proof.
  intros. unfold dist. rewrite sqrt_sqrt; auto. destruct a as [[? ?] ?], b as [[? ?] ?]. unfold dist2, sq.
  destruct (0 <? n)%Z, (1 <? n)%Z, (2 <? n)%Z; repeat apply Rplus_le_le_0_compat; try apply square_nn; lra.
Qed.
Lemma tri_similar : forall k a b c a' b' c', 0 <= k -> dist 3 a' b' = k * dist 3 a b -> dist 3 b' c' = k * dist 3 b c ->
  dist 3 c' a' = k * dist 3 c a -> triArea a' b' c' = k * k * triArea a b c.
Proof.
  intros k a b c a' b' c' Hk A B C. unfold triArea. rewrite !dist2_of, A, B, C.
  replace (heron16 _ _ _) with ((k * k) * (k * k) * heron16 (dist 3 a b * dist 3 a b) (dist 3 b c * dist 3 b c) (dist 3 c a * dist 3 c a))
    by (unfold heron16; ring).
  rewrite sqrt_mult_alt by (pose proof (square_nn (k * k)); lra).
  rewrite sqrt_square by apply square_nn. field.
Qed.

Lemma measure_similar : forall m m' k f g x, m_dim m' = m_dim m -> m_sdim m' = m_sdim m -> 0 < k ->
  (m_dim m = 2 \/ m_dim m = 3)%Z ->
  similarFace (if (m_dim m =? 2)%Z then m_sdim m else 3%Z) k f g -> measure m f x ->
  measure m' g (k ^ (Z.to_nat (m_dim m) - 1) * x).
Proof.
  intros m m' k f g x D S Hk Dim (L & Sim) M. unfold measure in *. rewrite D, S.
  destruct Dim as [E|E]; rewrite E in *; cbn [Z.eqb Pos.eqb] in *.
  - destruct M as (a & b & -> & ->). destruct g as [|a' [|b' [|? ?]]]; try discriminate L.
    exists a', b'. split; auto. change (Z.to_nat 2 - 1)%nat with 1%nat. rewrite pow_1.
    rewrite (Sim 0%nat 1%nat a b a' b'); reflexivity.
  - destruct M as (a & b & c & r & -> & ->). destruct g as [|a' [|b' [|c' r']]]; try discriminate L.
    exists a', b', c', r'. split; auto. change (Z.to_nat 3 - 1)%nat with 2%nat.
    rewrite (tri_similar k a b c a' b' c'); [ring|lra| | |].
    + now rewrite (Sim 0%nat 1%nat a b a' b').
    + now rewrite (Sim 1%nat 2%nat b c b' c').
    + now rewrite (Sim 2%nat 0%nat c a c' a').
Qed.

Lemma boundary_similar : forall m m' k e e' s, m_dim m' = m_dim m -> m_sdim m' = m_sdim m -> 0 < k ->
  (m_dim m = 2 \/ m_dim m = 3)%Z ->
  similarElement (m_dim m) (if (m_dim m =? 2)%Z then m_sdim m else 3%Z) k e e' -> boundary m e s ->
  boundary m' e' (k ^ (Z.to_nat (m_dim m) - 1) * s).
Proof.
  intros m m' k e e' s D S Hk Dim (_ & _ & F) (xs & M & ->).
  exists (map (fun x => k ^ (Z.to_nat (m_dim m) - 1) * x) xs). split.
  - clear - D S Hk Dim F M. revert xs M. induction F as [|f g fs gs Hf _ IH]; intros xs M; inversion M; subst; cbn [map]; constructor.
    + eapply measure_similar; eauto.
    + now apply IH.
  - clear. induction xs as [|x xs IH]; cbn [fold_right map]; [ring|]. rewrite <- IH. ring.
Qed.

Lemma scale_similar : forall m m' k e e' s, m_dim m' = m_dim m -> m_sdim m' = m_sdim m -> 0 < k ->
  (m_dim m = 2 \/ m_dim m = 3)%Z ->
  similarElement (m_dim m) (if (m_dim m =? 2)%Z then m_sdim m else 3%Z) k e e' -> 0 < s ->
  2 * e_volume e' / (k ^ (Z.to_nat (m_dim m) - 1) * s) = k * (2 * e_volume e / s).
Proof.
  intros m m' k e e' s D S Hk Dim (_ & V & _) P. rewrite V.
  destruct Dim as [E|E]; rewrite E.
  - change (Z.to_nat 2) with 2%nat. change (2 - 1)%nat with 1%nat. field. lra.
  - change (Z.to_nat 3) with 3%nat. change (3 - 1)%nat with 2%nat. field. lra.
Qed.

Lemma extra_similar : forall m m' k dv, similarMesh k m m' -> extraDivisor m dv -> extraDivisor m' dv.
Proof.
  intros m m' k dv (D & _ & F) [((e & I & T) & V)|(N & V)]; unfold extraDivisor; rewrite D.
  - left. split; auto. destruct (F2_in_l _ _ _ _ F I) as (e' & I' & T' & _). exists e'. split; auto. now rewrite T'.
  - right. split; auto. intros e' I'. destruct (F2_in_r _ _ _ _ F I') as (e & I & T' & _). rewrite T'. now apply N.
Qed.

Theorem step_similar : forall dmax dmax' gl st st' m m' o n0 n1 ns k,
  0 < k -> similarMesh k m m' ->
  (m_dim m = 2 \/ m_dim m = 3)%Z -> (m_sdim m <= 3)%Z -> (so_op o = Hesthaven -> m_dim m = 2%Z) ->
  m_elements m <> [] -> Forall (usable m) (m_elements m) -> gl (so_order o) = n0 :: n1 :: ns ->
  exists dt, estimateTimeStep dmax gl st m o = Ok dt /\ estimateTimeStep dmax' gl st' m' o = Ok (k * dt).
Proof.
  intros dmax dmax' gl st st' m m' o n0 n1 ns k Hk Sim D S Hop Hne U G.
  destruct (extra_exists m) as (dv & Dv). pose proof (extra_similar _ _ _ _ Sim Dv) as Dv'.
  destruct Sim as (Ed & Es & F).
  assert (m_elements m' <> []) as Hne'.
  { intros E. rewrite E in F. inversion F as [X|]. symmetry in X. now apply Hne. }
  assert (Forall (usable m') (m_elements m')) as U'.
  { apply Forall_forall. intros e' I'. destruct (F2_in_r _ _ _ _ F I') as (e & I & Se).
    rewrite Forall_forall in U. destruct (U e I) as (V & s & B & P). split.
    - destruct Se as (_ & -> & _). apply Rmult_lt_0_compat; auto. now apply pow_lt.
    - eexists; split; [exact (boundary_similar m m' k e e' s Ed Es Hk D Se B)|].
      apply Rmult_lt_0_compat; auto. now apply pow_lt. }
  destruct (step_value dmax gl st m o n0 n1 ns dv) as (x & E & P & (e & s & I & B & X) & M); auto.
  destruct (step_value dmax' gl st' m' o n0 n1 ns dv) as (x' & E' & P' & (e' & s' & I' & B' & X') & M'); auto;
    try (rewrite Ed; auto); try (rewrite Es; auto); auto.
  enough (x' = k * x) as ->.
  { eexists; split; [exact E|]. rewrite E'. apply f_equal. unfold globalFactor. rewrite Ed. unfold Rdiv; ring. }
  rewrite Forall_forall in U. apply Rle_antisym.
  - destruct (F2_in_l _ _ _ _ F I) as (f & If & Sf). destruct (U e I) as (_ & s2 & B2 & P2).
    rewrite (boundary_fun m e s2 s S B2 B) in P2.
    specialize (M' f _ If (boundary_similar m m' k e f s Ed Es Hk D Sf B)).
    rewrite (scale_similar m m' k e f s Ed Es Hk D Sf P2) in M'. now rewrite X.
  - destruct (F2_in_r _ _ _ _ F I') as (f & If & Sf). destruct (U f If) as (_ & s2 & B2 & P2).
    pose proof (boundary_similar m m' k f e' s2 Ed Es Hk D Sf B2) as B3.
    rewrite (boundary_fun m' e' s' _ ltac:(lia) B' B3) in X'.
    rewrite (scale_similar m m' k f e' s2 Ed Es Hk D Sf P2) in X'. rewrite X'.
    apply Rmult_le_compat_l; [lra|]. now apply M.
Qed.

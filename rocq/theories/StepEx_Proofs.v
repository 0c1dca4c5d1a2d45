From Coq Require Import ZArith List Bool Reals Lia Lra Psatz Permutation.
From Verif Require Import Common Step_Model Step_Spec Step_Proofs StepGeo_Proofs StepMain_Proofs StepLine_Proofs.
Import ListNotations.
Local Open Scope R_scope.

(** Gauss-Lobatto nodes of [0, 2] for the orders 0 and 1 (others: three nodes, the
    order 2). *)
Definition gl_ex (p : Z) : list R := if (p =? 0)%Z then [1] else if (p =? 1)%Z then [0; 2] else [0; 1; 2].

(** The triangle of sides 3, 4, 5, one edge listed backwards. *)
Definition tri_ex (k : R) : element :=
  mkElement Triangle (k * k * 6) 0 [[(0, 0, 0); (k * 3, 0, 0)]; [(0, k * 4, 0); (k * 3, 0, 0)]; [(0, k * 4, 0); (0, 0, 0)]] [].
Definition tri_mesh (k : R) : mesh := mkMesh 2 2 [tri_ex k].
Lemma tri_ex_ok : forall k, 0 < k -> triangleElement (tri_ex k) (0, 0, 0) (k * 3, 0, 0) (0, k * 4, 0).
Proof.
  intros k Hk. unfold triangleElement, tri_ex. cbn [e_faces e_volume]. split; [|split].
  - repeat constructor.
  - unfold area2. rewrite Rabs_pos_eq; [field|]. nra.
  - unfold area2. nra.
Qed.
Lemma tri_mesh_ok : forall e, In e (m_elements (tri_mesh 1)) -> e_type e = Triangle /\ exists a b c, triangleElement e a b c.
Proof. intros e [<-|[]]. split; auto. eexists _, _, _. apply tri_ex_ok. lra. Qed.
Lemma tri_usable : forall k, 0 < k -> Forall (usable (tri_mesh k)) (m_elements (tri_mesh k)).
Proof.
  intros k Hk. constructor; [|constructor].
  exact (proj2 (triangle_boundary (tri_mesh k) (tri_ex k) _ _ _ eq_refl eq_refl (tri_ex_ok k Hk))).
Qed.
(** Radius 1, so the step of the first order is the factor itself. *)
Lemma tri_boundary_12 : boundary (tri_mesh 1) (tri_ex 1) 12.
Proof.
  destruct (triangle_boundary (tri_mesh 1) (tri_ex 1) _ _ _ eq_refl eq_refl (tri_ex_ok 1 Rlt_0_1)) as (B & _).
  replace 12 with (dist 2 (0, 0, 0) (1 * 3, 0, 0) + dist 2 (1 * 3, 0, 0) (0, 1 * 4, 0) + dist 2 (0, 1 * 4, 0) (0, 0, 0)); auto.
  unfold dist, dist2, sq. cbn [Z.ltb Z.compare Pos.compare Pos.compare_cont].
  replace ((0 - 1 * 3) * (0 - 1 * 3) + (0 - 0) * (0 - 0) + 0) with (3 * 3) by ring.
  replace ((1 * 3 - 0) * (1 * 3 - 0) + (0 - 1 * 4) * (0 - 1 * 4) + 0) with (5 * 5) by ring.
  replace ((0 - 0) * (0 - 0) + (1 * 4 - 0) * (1 * 4 - 0) + 0) with (4 * 4) by ring.
  rewrite !sqrt_square by lra. lra.
Qed.
Theorem tri_step : estimateTimeStep 1000 gl_ex [] (tri_mesh 1) (mkStepOptions 1 (1 / 2) Global) = Ok (1 / 2).
Proof.
  destruct (step_value 1000 gl_ex [] (tri_mesh 1) (mkStepOptions 1 (1 / 2) Global) 0 2 [] 1) as (x & E & P & (e & s & I & B & X) & M).
  - now left.
  - cbn; lia.
  - discriminate.
  - discriminate.
  - apply tri_usable; lra.
  - reflexivity.
  - right. split; auto. intros e [<-|[]]. discriminate.
  - rewrite E. apply f_equal. destruct I as [<-|[]].
    rewrite (boundary_fun (tri_mesh 1) (tri_ex 1) s 12 ltac:(cbn; lia) B tri_boundary_12) in X.
    rewrite X. cbn [so_cfl so_op e_volume tri_ex globalFactor m_dim tri_mesh Z.eqb Pos.eqb].
    replace (0 - 2) with (- (2)) by ring. rewrite Rabs_Ropp, Rabs_pos_eq by lra. field.
Qed.

(** An enlarged copy. *)
Theorem tri_similar_ex : similarMesh 2 (tri_mesh 1) (tri_mesh 2).
Proof.
  split; [reflexivity|split; [reflexivity|]]. constructor; [|constructor]. split; [reflexivity|split].
  - cbn [tri_ex e_volume m_dim tri_mesh]. change (Z.to_nat 2) with 2%nat. ring.
  - assert (forall x y x' y', similarFace 2 2 [(x, y, 0); (x', y', 0)] [(2 * x, 2 * y, 0); (2 * x', 2 * y', 0)]) as K.
    { intros x y x' y'. split; [reflexivity|].
      assert (forall u v u' v', dist 2 (2 * u, 2 * v, 0) (2 * u', 2 * v', 0) = 2 * dist 2 (u, v, 0) (u', v', 0)) as D.
      { intros. unfold dist, dist2, sq. cbn [Z.ltb Z.compare Pos.compare Pos.compare_cont].
        rewrite <- (sqrt_square 2) at 9 by lra. rewrite <- sqrt_mult_alt by lra. f_equal. ring. }
      intros i j a b a' b' Hi Hj Hi' Hj'.
      destruct i as [|[|[|i]]], j as [|[|[|j]]]; cbn [nth_error] in *; try discriminate;
        repeat match goal with H : Some _ = Some _ |- _ => injection H as H; subst end; apply D. }
    cbn [tri_ex e_faces]. constructor; [|constructor; [|constructor; [|constructor]]].
    + pose proof (K 0 0 (1 * 3) 0) as Q. replace (2 * 0) with 0 in Q by ring. now replace (2 * (1 * 3)) with (2 * 3) in Q by ring.
    + pose proof (K 0 (1 * 4) (1 * 3) 0) as Q. replace (2 * 0) with 0 in Q by ring.
      replace (2 * (1 * 3)) with (2 * 3) in Q by ring. now replace (2 * (1 * 4)) with (2 * 4) in Q by ring.
    + pose proof (K 0 (1 * 4) 0 0) as Q. replace (2 * 0) with 0 in Q by ring. now replace (2 * (1 * 4)) with (2 * 4) in Q by ring.
Qed.

(** The corner of a cube. *)
Definition tet_ex : element :=
  mkElement Tetrahedron (1 / 6) 0
    [[(1, 0, 0); (0, 1, 0); (0, 0, 1)]; [(0, 0, 0); (0, 0, 1); (0, 1, 0)];
     [(1, 0, 0); (0, 0, 0); (0, 0, 1)]; [(0, 0, 0); (1, 0, 0); (0, 1, 0)]] [].
Definition tet_mesh (n : nat) : mesh := mkMesh 3 3 (repeat tet_ex n).
Lemma tet_ex_ok : tetraElement tet_ex (0, 0, 0) (1, 0, 0) (0, 1, 0) (0, 0, 1).
Proof.
  split; [|split].
  - cbn [tet_ex e_faces]. repeat constructor.
  - cbn [tet_ex e_volume]. unfold volume6. rewrite Rabs_pos_eq; lra.
  - unfold volume6. lra.
Qed.
Lemma tet_mesh_ok : forall n e, In e (m_elements (tet_mesh n)) -> e_type e = Tetrahedron /\ exists a b c d, tetraElement e a b c d.
Proof. intros n e I. apply repeat_spec in I. subst. split; auto. eexists _, _, _, _. apply tet_ex_ok. Qed.
Lemma tet_usable : forall n, Forall (usable (tet_mesh n)) (m_elements (tet_mesh n)).
Proof.
  intros n. apply Forall_forall. intros e I. apply repeat_spec in I. subst.
  exact (proj2 (tetra_boundary (tet_mesh n) tet_ex _ _ _ _ eq_refl tet_ex_ok)).
Qed.

(** Two elements on two ranks: each stores one. *)
Theorem hes_two_ranks : forall l, l <> [] ->
  estimateTimeStep 1000 gl_ex [l] (tet_mesh 2) (mkStepOptions 1 1 Hesthaven) = UB.
Proof.
  intros l Hl. apply (step_hesthaven_oob 1000 gl_ex [l] (tet_mesh 2) (mkStepOptions 1 1 Hesthaven) 0 2 []);
    try reflexivity; try discriminate; try (cbn; lia).
  - apply tet_usable.
  - now constructor.
Qed.
(** The same two elements on one rank. *)
Theorem hes_one_rank : exists dt,
  estimateTimeStep 1000 gl_ex [[3; 4]; [5]] (tet_mesh 2) (mkStepOptions 1 1 Hesthaven) = Ok dt /\ dt = 1 / 5.
Proof.
  destruct (step_hesthaven 1000 gl_ex [[3; 4]; [5]] (tet_mesh 2) (mkStepOptions 1 1 Hesthaven) 0 2 [] [3; 4] 3)
    as (M & E & P & (l & Il & IM) & B); try reflexivity; try discriminate; try (cbn; lia); try lra.
  - apply tet_usable.
  - repeat constructor; discriminate.
  - now left.
  - now left.
  - assert (M = 5) as ->.
    { specialize (B [5] 5 (or_intror (or_introl eq_refl)) (or_introl eq_refl)).
      destruct Il as [<-|[<-|[]]]; cbn [In] in IM; destruct IM as [<-|IM]; try lra; destruct IM as [<-|IM]; try lra; destruct IM. }
    eexists; split; [exact E|]. cbn [so_cfl so_order]. field.
Qed.

(** A segment of length 1 with three nodes and one of length 1/2 with one node. *)
Definition line_mesh : mesh := mkMesh 1 1
  [mkElement Segment 1 1 [] [0; 1 / 2; 1]; mkElement Segment (1 / 4) (1 / 4) [] [1]].
Theorem line_ex_ok : nodeGap (mkElement Segment (1 / 4) (1 / 4) [] [1]) (1 / 4) /\
  (forall e d, In e (m_elements line_mesh) -> nodeGap e d -> 0 < d).
Proof.
  split; [reflexivity|]. intros e d [<-|[<-|[]]] H; unfold nodeGap in H; cbn [e_nodes e_size] in H.
  - destruct H as (i & j & x & y & N & Hi & Hj & ->). apply Rabs_pos_lt.
    destruct i as [|[|[|[|i]]]], j as [|[|[|[|j]]]]; cbn [nth_error] in *; try discriminate; try congruence;
      injection Hi as <-; injection Hj as <-; lra.
  - lra.
Qed.

(** The unit cube: the code counts 3 for the six faces. *)
Definition cube_faces : list (list vertex) :=
  [[(0,0,0); (1,0,0); (1,1,0); (0,1,0)]; [(0,0,1); (1,0,1); (1,1,1); (0,1,1)];
   [(0,0,0); (1,0,0); (1,0,1); (0,0,1)]; [(0,1,0); (1,1,0); (1,1,1); (0,1,1)];
   [(0,0,0); (0,1,0); (0,1,1); (0,0,1)]; [(1,0,0); (1,1,0); (1,1,1); (1,0,1)]].
Definition cube_mesh : mesh := mkMesh 3 3 [mkElement Hexahedron 1 1 cube_faces []].
Theorem cube_sum : forall e, In e (m_elements cube_mesh) -> faceAreaSum cube_mesh e = Ok 3.
Proof.
  intros e [<-|[]]. unfold faceAreaSum, cube_mesh, cube_faces. cbn [e_faces m_dim Z.eqb Pos.eqb].
  assert (forall a b c d, 4 * normal2 a b c = 4 -> faceArea [a; b; c; d] = Ok (1 / 2)) as K.
  { intros a b c d H. rewrite face_area. unfold triArea. rewrite heron_normal, H.
    replace 4 with (2 * 2) at 1 by ring. rewrite sqrt_square by lra. apply f_equal. lra. }
  cbn [foldM].
  repeat (rewrite K by (unfold normal2, sq; ring); cbn [bind]). apply f_equal. lra.
Qed.

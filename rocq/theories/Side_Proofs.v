(** Proofs about the total-field side in two dimensions. *)
From Coq Require Import ZArith List Bool Reals Lra Lia.
From Verif Require Import Common Sub_Model Side_Model Side_Spec.
Import ListNotations.
Local Open Scope R_scope.

Lemma fold_padd3 : forall ps a, fold_left padd3 ps a =
  (px a + fold_right Rplus 0 (map px ps), py a + fold_right Rplus 0 (map py ps), snd a + fold_right Rplus 0 (map snd ps)).
Proof.
  induction ps as [|[[x y] z] t IH]; intros [[a b] c]; cbn [fold_left map fold_right].
  - unfold px, py. cbn [fst snd]. rewrite !Rplus_0_r. reflexivity.
  - rewrite IH. unfold padd3, px, py. cbn [fst snd]. rewrite !Rplus_assoc. reflexivity.
Qed.
Lemma mapM_forall2 : forall {A B} (f : A -> res B) l r, Forall2 (fun a b => f a = Ok b) l r -> mapM f l = Ok r.
Proof. intros A B f l r H; induction H as [|a b l r E H IH]; [reflexivity|]. cbn [mapM]. rewrite E. cbn [bind]. rewrite IH. reflexivity. Qed.
Lemma centre_bary : forall m e c, centre m e c -> exists q, baryElem m e = Ok q /\ px q = px c /\ py q = py c.
Proof.
  intros m e c (vs & ps & E & F & X & Y). unfold baryElem. rewrite E. cbn [bind].
  rewrite (mapM_forall2 _ _ _ F). cbn [bind]. eexists; split; [reflexivity|]. unfold mean. rewrite fold_padd3.
  set (sx := fold_right Rplus 0 (map px ps)) in *. set (sy := fold_right Rplus 0 (map py ps)) in *. clearbody sx sy.
  rewrite X, Y. unfold pscal, px, py, Rdiv. cbn [fst snd]. split; ring.
Qed.

Lemma sides : forall m be e1 e2 u v c1 c2, segment m be e1 e2 u v -> centre m e1 c1 -> centre m e2 c2 ->
  exists o, crossBaryVertexSign m be = Ok o /\ o = turn u v c1 - turn u v c2.
Proof.
  intros m be e1 e2 u v c1 c2 (b & iu & iv & rest & Eb & Ef & H2 & Ev & Eu & Ew) C1 C2.
  destruct (centre_bary _ _ _ C1) as (q1 & Q1 & X1 & Y1). destruct (centre_bary _ _ _ C2) as (q2 & Q2 & X2 & Y2).
  unfold crossBaryVertexSign, bdrVertex, baryVector, faceTrans. rewrite Eb. cbn [bind]. rewrite Ev.
  change (zget (iu :: iv :: rest) 0) with (Ok iu). change (zget (iu :: iv :: rest) 1) with (Ok iv). cbn [bind].
  rewrite Eu, Ew. cbn [bind]. rewrite Ef. cbn [bind]. rewrite Q1. cbn [bind].
  destruct (Z.leb_spec 0 e2); [|lia]. rewrite Q2. cbn [bind]. eexists; split; [reflexivity|].
  unfold turn. rewrite <- X1, <- Y1, <- X2, <- Y2. destruct q1 as [[a b1] c], q2 as [[a' b'] c'], u as [[ux uy] uz], v as [[vx vy] vz].
  unfold px, py, psub, flat, pcross, pz. cbn [fst snd]. ring.
Qed.
Lemma right_is_total : forall m be e1 e2 u v c1 c2, m_dim m = 2%Z -> segment m be e1 e2 u v -> centre m e1 c1 -> centre m e2 c2 ->
  (leftOf u v c1 -> rightOf u v c2 -> elementwiseElem1IsTF m be = Ok false) /\
  (rightOf u v c1 -> leftOf u v c2 -> elementwiseElem1IsTF m be = Ok true).
Proof.
  intros m be e1 e2 u v c1 c2 D S C1 C2. destruct (sides m be e1 e2 u v c1 c2 S C1 C2) as (o & E & Q).
  unfold elementwiseElem1IsTF, elementwiseOrientation, leftOf, rightOf. rewrite D. change (2 =? 2)%Z with true. cbv iota. rewrite E. cbn [bind]. split; intros A B; destruct (Rle_dec 0 o); try reflexivity; exfalso; lra.
Qed.

Lemma tangent_runs : forall m be same t, faceRuns m be same -> tangent2D m be = Ok t ->
  exists c0 c1, bdrVertex m be 0 = Ok c0 /\ bdrVertex m be 1 = Ok c1 /\ t = (if same then psub c1 c0 else psub c0 c1).
Proof.
  intros m be same t (b & iu & iv & Eb & Ev & Ef). unfold tangent2D, faceVertex, bdrVertex. rewrite Eb. cbn [bind]. rewrite Ef, Ev. cbn [bind].
  change (zget [iu; iv] 0) with (Ok iu). change (zget [iu; iv] 1) with (Ok iv). cbn [bind].
  destruct same.
  - change (zget [iu; iv] 0) with (Ok iu). change (zget [iu; iv] 1) with (Ok iv). cbn [bind].
    destruct (zget (m_coord m) iu) as [p| |]; try discriminate. cbn [bind]. destruct (zget (m_coord m) iv) as [q| |]; try discriminate. cbn [bind].
    intros E; injection E as <-. eauto 6.
  - change (zget [iv; iu] 0) with (Ok iv). change (zget [iv; iu] 1) with (Ok iu). cbn [bind].
    destruct (zget (m_coord m) iv) as [p| |]; try discriminate. cbn [bind]. destruct (zget (m_coord m) iu) as [q| |]; try discriminate. cbn [bind].
    intros E; injection E as <-. eauto 6.
Qed.
Lemma both_signs : forall m be same o, m_dim m = 2%Z -> faceRuns m be same -> faceOrientation m be = Ok o ->
  crossBaryVertexSign m be = Ok (if same then o else - o).
Proof.
  intros m be same o D R. unfold faceOrientation. rewrite D. change (2 =? 2)%Z with true. cbn [bind]. unfold crossBaryVertexSign.
  destruct (baryVector m be) as [b| |]; try discriminate. cbn [bind]. destruct (tangent2D m be) as [t| |] eqn:T; try discriminate. cbn [bind].
  destruct (tangent_runs m be same t R T) as (c0 & c1 & E0 & E1 & ->). rewrite E0, E1. cbn [bind]. intros E; injection E as <-. f_equal.
  destruct same; [reflexivity|]. destruct b as [[x y] z], c0 as [[x0 y0] z0], c1 as [[x1 y1] z1]. unfold psub, flat, pcross, pz. ring.
Qed.
Lemma both_sides : forall m be same o, m_dim m = 2%Z -> faceRuns m be same -> faceOrientation m be = Ok o -> o <> 0 ->
  exists k, elem1IsTF2D m be = Ok k /\ elementwiseElem1IsTF m be = Ok (if same then k else negb k).
Proof.
  intros m be same o D R E N. pose proof (both_signs m be same o D R E) as S. unfold elem1IsTF2D, elementwiseElem1IsTF, elementwiseOrientation. rewrite D. change (2 =? 2)%Z with true. cbv iota. rewrite E, S. cbn [bind].
  eexists; split; [reflexivity|]. destruct same; [reflexivity|]. destruct (Rle_dec 0 o), (Rle_dec 0 (- o)); try reflexivity; exfalso; lra.
Qed.

(** ** Space *)
Lemma centre3_bary : forall m e c, centre3 m e c -> baryElem m e = Ok c.
Proof.
  intros m e c (vs & ps & E & F & X & Y & Z). unfold baryElem. rewrite E. cbn [bind].
  rewrite (mapM_forall2 _ _ _ F). cbn [bind]. f_equal. unfold mean. rewrite fold_padd3.
  set (sx := fold_right Rplus 0 (map px ps)) in *. set (sy := fold_right Rplus 0 (map py ps)) in *. set (sz := fold_right Rplus 0 (map snd ps)) in *. clearbody sx sy sz.
  destruct c as [[a b] d]. unfold px, py in *. cbn [fst snd] in *. subst. unfold pscal, Rdiv. f_equal; [f_equal|]; ring.
Qed.
Lemma facet_normal : forall m be e1 e2 u v w, facet m be e1 e2 u v w -> normal3D m be = Ok (pcross (psub v u) (psub w u)).
Proof.
  intros m be e1 e2 u v w (b & iu & iv & mid & iw & Eb & _ & _ & Ef & L & Eu & Ev & Ew). unfold normal3D, faceVertex. rewrite Eb. cbn [bind]. rewrite Ef. cbn [bind].
  change (zget (iu :: iv :: mid ++ [iw]) 0) with (Ok iu). change (zget (iu :: iv :: mid ++ [iw]) 1) with (Ok iv). cbn [bind]. rewrite Eu, Ev. cbn [bind].
  destruct mid as [|x [|y mid]]; [| |cbn in L; lia].
  - change (length (iu :: iv :: [] ++ [iw]) =? 4)%nat with false. cbv iota. change (zget (iu :: iv :: [] ++ [iw]) 2) with (Ok iw). cbn [bind]. rewrite Ew. reflexivity.
  - change (length (iu :: iv :: [x] ++ [iw]) =? 4)%nat with true. cbv iota. change (zget (iu :: iv :: [x] ++ [iw]) 3) with (Ok iw). cbn [bind]. rewrite Ew. reflexivity.
Qed.
Lemma space_side : forall m be e1 e2 u v w c1 c2, m_dim m = 3%Z -> facet m be e1 e2 u v w -> centre3 m e1 c1 -> centre3 m e2 c2 ->
  (height u v w c1 < 0 < height u v w c2 -> elementwiseElem1IsTF m be = Ok false) /\
  (height u v w c2 < 0 < height u v w c1 -> elementwiseElem1IsTF m be = Ok true).
Proof.
  intros m be e1 e2 u v w c1 c2 D F C1 C2. pose proof (facet_normal _ _ _ _ _ _ _ F) as N. apply centre3_bary in C1. apply centre3_bary in C2.
  destruct F as (b & iu & iv & mid & iw & Eb & Ef & H2 & _).
  assert (B : baryVector m be = Ok (psub c2 c1)).
  { unfold baryVector, faceTrans. rewrite Eb. cbn [bind]. rewrite Ef. cbn [bind]. rewrite C1. cbn [bind]. destruct (Z.leb_spec 0 e2); [|lia]. rewrite C2. reflexivity. }
  unfold elementwiseElem1IsTF, elementwiseOrientation, faceOrientation. rewrite D. change (3 =? 2)%Z with false. change (3 =? 3)%Z with true. cbv iota.
  rewrite B, N. cbn [bind].
  assert (Q : pdot (psub c2 c1) (pcross (psub v u) (psub w u)) = height u v w c2 - height u v w c1).
  { destruct c1 as [[a1 b1] d1], c2 as [[a2 b2] d2], u as [[ux uy] uz], v as [[vx vy] vz], w as [[wx wy] wz]. unfold height, px, py, psub, pcross, pdot. cbn [fst snd]. ring. }
  rewrite Q. split; intros H; destruct (Rle_dec 0 (height u v w c2 - height u v w c1)); try reflexivity; exfalso; lra.
Qed.

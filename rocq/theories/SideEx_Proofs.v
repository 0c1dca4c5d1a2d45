(** The strip of three squares: its second boundary element runs against its face. *)
From Coq Require Import ZArith List Bool Reals Lra Lia.
From Verif Require Import Common Sub_Model Side_Model Side_Spec Side_Proofs Sub_Spec Sub_Proofs SubGeo_Proofs SubEx_Proofs.
Import ListNotations.
Local Open Scope R_scope.

Lemma strip_centre : forall e c, (e = 1%Z /\ c = (3 / 2, 1 / 2, 0)) \/ (e = 2%Z /\ c = (5 / 2, 1 / 2, 0)) -> centre strip e c.
Proof.
  intros e c [(-> & ->)|(-> & ->)].
  - exists [1; 2; 6; 5]%Z, [(1, 0, 0); (2, 0, 0); (2, 1, 0); (1, 1, 0)]. split; [reflexivity|]. split; [repeat constructor|].
    unfold px, py. cbn [map fold_right length INR fst snd]. split; lra.
  - exists [2; 3; 7; 6]%Z, [(2, 0, 0); (3, 0, 0); (3, 1, 0); (2, 1, 0)]. split; [reflexivity|]. split; [repeat constructor|].
    unfold px, py. cbn [map fold_right length INR fst snd]. split; lra.
Qed.
Lemma strip_segment : segment strip 1 1 2 (2, 1, 0) (2, 0, 0) /\ centre strip 1 (3 / 2, 1 / 2, 0) /\ centre strip 2 (5 / 2, 1 / 2, 0) /\
  rightOf (2, 1, 0) (2, 0, 0) (3 / 2, 1 / 2, 0) /\ leftOf (2, 1, 0) (2, 0, 0) (5 / 2, 1 / 2, 0).
Proof.
  split; [|split; [|split; [|split]]].
  - exists (mkBdr 1 [6; 2]%Z 5), 6%Z, 2%Z, []. repeat split; lia.
  - apply strip_centre; auto.
  - apply strip_centre; auto.
  - unfold rightOf, turn, px, py. cbn [fst snd]. lra.
  - unfold leftOf, turn, px, py. cbn [fst snd]. lra.
Qed.
Lemma strip_runs : faceRuns strip 0 true /\ faceRuns strip 1 false.
Proof.
  split; [exists (mkBdr 1 [1; 5]%Z 1), 1%Z, 5%Z|exists (mkBdr 1 [6; 2]%Z 5), 6%Z, 2%Z]; repeat split.
Qed.
Lemma strip_orientation : exists o, faceOrientation strip 1 = Ok o /\ o = 1.
Proof.
  destruct strip_segment as ((b & iu & iv & r & Eb & Ef & H2 & Ev & _) & C1 & C2 & _ & _).
  destruct (centre_bary _ _ _ C1) as (q1 & Q1 & X1 & Y1). destruct (centre_bary _ _ _ C2) as (q2 & Q2 & X2 & Y2).
  assert (B : baryVector strip 1 = Ok (psub q2 q1)).
  { unfold baryVector, faceTrans. rewrite Eb. cbn [bind]. rewrite Ef. cbn [bind]. rewrite Q1. cbn [bind].
    change (0 <=? 2)%Z with true. cbn [bind]. rewrite Q2. reflexivity. }
  unfold faceOrientation. change (m_dim strip =? 2)%Z with true. rewrite B. cbn [bind].
  change (tangent2D strip 1) with (Ok (psub (2, 1, 0) (2, 0, 0))). cbn [bind]. eexists; split; [reflexivity|].
  destruct q1 as [[a b1] c], q2 as [[a' b'] c']. unfold px, py in *. cbn [fst snd] in *. subst. unfold psub, flat, pcross, pz. lra.
Qed.
Lemma strip_sides : exists m be o, m_dim m = 2%Z /\ faceOrientation m be = Ok o /\ o <> 0 /\
  elem1IsTF2D m be = Ok false /\ elementwiseElem1IsTF m be = Ok true.
Proof.
  destruct strip_orientation as (o & E & Eo). exists strip, 1%Z, o. split; [reflexivity|]. split; [exact E|]. split; [lra|]. split.
  - unfold elem1IsTF2D. rewrite E. cbn [bind]. destruct (Rle_dec 0 o); [reflexivity|exfalso; lra].
  - destruct strip_segment as (S & C1 & C2 & A & B). exact (proj2 (right_is_total strip 1 1 2 _ _ _ _ eq_refl S C1 C2) A B).
Qed.

(** ** Space: a cube with another one on top; the surface of the first one is marked. *)
Local Open Scope Z_scope.
Definition stack : mesh := mkMesh 3
  [(0, 0, 0); (1, 0, 0); (1, 1, 0); (0, 1, 0); (0, 0, 1); (1, 0, 1); (1, 1, 1); (0, 1, 1); (0, 0, 2); (1, 0, 2); (1, 1, 2); (0, 1, 2)]%R
  [[0; 1; 2; 3; 4; 5; 6; 7]; [4; 5; 6; 7; 8; 9; 10; 11]]
  [[0; 1; 2; 3; 4; 5]; [5; 6; 7; 8; 9; 10]]
  [[3; 2; 1; 0]; [0; 1; 5; 4]; [1; 2; 6; 5]; [2; 3; 7; 6]; [3; 0; 4; 7]; [4; 5; 6; 7]; [4; 5; 9; 8]; [5; 6; 10; 9]; [6; 7; 11; 10]; [7; 4; 8; 11]; [8; 9; 10; 11]]
  [(0, -1); (0, -1); (0, -1); (0, -1); (0, -1); (0, 1); (1, -1); (1, -1); (1, -1); (1, -1); (1, -1)]
  [mkBdr 1 [3; 2; 1; 0] 0; mkBdr 1 [0; 1; 5; 4] 1; mkBdr 1 [1; 2; 6; 5] 2; mkBdr 1 [2; 3; 7; 6] 3; mkBdr 1 [3; 0; 4; 7] 4; mkBdr 1 [4; 5; 6; 7] 5].
Lemma stack_wf : wfMesh stack /\ wfGeo stack /\ covers stack [1].
Proof. split; [apply wfB_ok; vm_compute; reflexivity|]. split; [apply geoB_ok; vm_compute; reflexivity|]. apply coversB_ok; vm_compute; reflexivity. Qed.
Lemma stack_center : exists c, tfsfCenter stack [1] = Ok c /\ c = (1 / 2, 1 / 2, 1 / 2)%R.
Proof.
  eexists. split.
  - unfold tfsfCenter. rewrite (foldM_filter stack [1] (fun acc be => b <- zget (m_bdr stack) be ;; Ok (listSet acc (b_verts b)))) by (exact (proj2 (proj2 stack_wf)) || apply numBdr_ok).
    change (filter (markedB stack [1]) (numBdr stack)) with [0; 1; 2; 3; 4; 5].
    change (foldM (fun acc be => b <- zget (m_bdr stack) be ;; Ok (listSet acc (b_verts b))) [0; 1; 2; 3; 4; 5] []) with (Ok [3; 2; 1; 0; 5; 4; 6; 7]).
    cbn [bind]. cbn [mapM]. reflexivity.
  - cbn [length Nat.eqb]. unfold mean. cbn [length fold_left padd3 pscal INR]. apply f_equal2; [apply f_equal2|]; field.
Qed.
Lemma stack_bary : exists p1 p2, baryElem stack 0 = Ok p1 /\ baryElem stack 1 = Ok p2 /\ p1 = (1 / 2, 1 / 2, 1 / 2)%R /\ p2 = (1 / 2, 1 / 2, 3 / 2)%R.
Proof.
  eexists. eexists. split; [reflexivity|]. split; [reflexivity|]. unfold mean. cbn [length fold_left padd3 pscal INR]. split; (apply f_equal2; [apply f_equal2|]; field).
Qed.
Lemma stack_sides : exists m marker c be, wfMesh m /\ wfGeo m /\ covers m marker /\ m_dim m = 3 /\ tfsfCenter m marker = Ok c /\
  elem1IsTF3D m c be = Ok true /\ elementwiseElem1IsTF m be = Ok false.
Proof.
  destruct stack_wf as (W & G & C). destruct stack_center as (c & Ec & Qc). exists stack, [1], c, 5.
  split; [exact W|]. split; [exact G|]. split; [exact C|]. split; [reflexivity|]. split; [exact Ec|]. subst c.
  destruct stack_bary as (p1 & p2 & E1 & E2 & -> & ->). split.
  - assert (B : beside stack 5 5 0 1) by (eexists; split; [reflexivity|split; reflexivity]).
    destruct (tf3_iff stack (1 / 2, 1 / 2, 1 / 2)%R 5 5 0 1 _ _ B ltac:(lia) E1 E2) as (d & Ed & Hd). rewrite Ed. f_equal. apply Hd.
    cbn [psub pdot pscal padd3]. lra.
  - unfold elementwiseElem1IsTF, elementwiseOrientation, faceOrientation. change (m_dim stack =? 2) with false. change (m_dim stack =? 3) with true. cbv iota.
    assert (BV : baryVector stack 5 = Ok (psub (1 / 2, 1 / 2, 3 / 2) (1 / 2, 1 / 2, 1 / 2))%R).
    { unfold baryVector. change (zget (m_bdr stack) 5) with (Ok (mkBdr 1 [4; 5; 6; 7] 5)). cbn [bind]. change (faceTrans stack 5) with (Ok (0, 1)). cbn [bind].
      rewrite E1. cbn [bind]. change (0 <=? 1) with true. cbv iota. rewrite E2. reflexivity. }
    rewrite BV. cbn [bind]. change (normal3D stack 5) with (Ok (pcross (psub (1, 0, 1) (0, 0, 1)) (psub (0, 1, 1) (0, 0, 1)))%R).
    cbn [bind psub pcross pdot]. match goal with |- context [Rle_dec ?a ?b] => destruct (Rle_dec a b) as [|N]; [reflexivity|exfalso; apply N; lra] end.
Qed.
Local Open Scope R_scope.
Lemma stack_facet : m_dim stack = 3%Z /\ facet stack 5 0 1 (0, 0, 1) (1, 0, 1) (0, 1, 1) /\ centre3 stack 0 (1 / 2, 1 / 2, 1 / 2) /\ centre3 stack 1 (1 / 2, 1 / 2, 3 / 2) /\
  height (0, 0, 1) (1, 0, 1) (0, 1, 1) (1 / 2, 1 / 2, 1 / 2) < 0 < height (0, 0, 1) (1, 0, 1) (0, 1, 1) (1 / 2, 1 / 2, 3 / 2).
Proof.
  split; [reflexivity|]. split; [exists (mkBdr 1 [4; 5; 6; 7]%Z 5), 4%Z, 5%Z, [6%Z], 7%Z; repeat split; cbn; lia|]. split; [|split].
  - exists [0; 1; 2; 3; 4; 5; 6; 7]%Z, [(0, 0, 0); (1, 0, 0); (1, 1, 0); (0, 1, 0); (0, 0, 1); (1, 0, 1); (1, 1, 1); (0, 1, 1)]. split; [reflexivity|]. split; [repeat constructor|].
    unfold px, py. cbn [map fold_right length INR fst snd]. repeat split; lra.
  - exists [4; 5; 6; 7; 8; 9; 10; 11]%Z, [(0, 0, 1); (1, 0, 1); (1, 1, 1); (0, 1, 1); (0, 0, 2); (1, 0, 2); (1, 1, 2); (0, 1, 2)]. split; [reflexivity|]. split; [repeat constructor|].
    unfold px, py. cbn [map fold_right length INR fst snd]. repeat split; lra.
  - unfold height, px, py. cbn [fst snd]. split; lra.
Qed.

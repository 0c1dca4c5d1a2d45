From Coq Require Import ZArith List Bool Reals Lra Lia Permutation.
From Verif Require Import Common Conn_Model Sub_Model Sub_Spec Sub_Proofs SubGeo_Proofs SubChild_Proofs SubSide_Proofs SubLine_Proofs.
Import ListNotations.
Local Open Scope Z_scope.

(** ** A checker for the hypotheses *)
Definition getD {A} (d : A) (l : list A) (i : Z) : A := if i <? 0 then d else nth (Z.to_nat i) l d.
Definition inZ (x : Z) (l : list Z) : bool := existsb (Z.eqb x) l.
Fixpoint nodupB (l : list (list Z)) : bool :=
  match l with [] => true | x :: t => negb (existsb (fun y => if list_eq_dec Z.eq_dec x y then true else false) t) && nodupB t end.
Definition inRange (x : Z) (n : nat) : bool := (0 <=? x) && (x <? Z.of_nat n).
Definition wfB (m : mesh) : bool :=
  (length (m_efaces m) =? length (m_everts m))%nat && (length (m_fverts m) =? length (m_fels m))%nat &&
  forallb (fun f => let '(e1, e2) := getD (0, 0) (m_fels m) f in
    inRange e1 (length (m_everts m)) && ((e2 =? -1) || inRange e2 (length (m_everts m))) && negb (e1 =? e2) &&
    inZ f (getD [] (m_efaces m) e1) && ((e2 =? -1) || inZ f (getD [] (m_efaces m) e2))) (zseq (length (m_fels m))) &&
  forallb (fun fs => forallb (fun f => inRange f (length (m_fels m))) fs && nodupB (map (fun f => sortBy Z.leb (getD [] (m_fverts m) f)) fs)) (m_efaces m) &&
  forallb (fun b => inRange (b_face b) (length (m_fverts m)) && (if list_eq_dec Z.eq_dec (sortBy Z.leb (b_verts b)) (sortBy Z.leb (getD [] (m_fverts m) (b_face b))) then true else false)) (m_bdr m).
Lemma getD_zget : forall {A} (d : A) l i a, zget l i = Ok a -> getD d l i = a.
Proof. intros A d l i a H. apply zget_ok in H as [H1 H2]. unfold getD. destruct (Z.ltb_spec i 0); [lia|]. apply nth_error_nth. exact H2. Qed.
Lemma zget_getD : forall {A} (d : A) l i, 0 <= i < Z.of_nat (length l) -> zget l i = Ok (getD d l i).
Proof. intros A d l i H. destruct (zget_some l i H) as [a E]. rewrite (getD_zget d l i a E). exact E. Qed.
Lemma inRange_ok : forall x n, inRange x n = true -> 0 <= x < Z.of_nat n.
Proof. intros x n H. unfold inRange in H. apply andb_true_iff in H as [H1 H2]. apply Z.leb_le in H1. apply Z.ltb_lt in H2. lia. Qed.
Lemma inZ_ok : forall x l, inZ x l = true -> exists i, zget l i = Ok x.
Proof. intros x l H. unfold inZ in H. apply existsb_exists in H as [y [Hy E]]. apply Z.eqb_eq in E. subst y. apply in_zget. exact Hy. Qed.
Lemma nodupB_ok : forall l, nodupB l = true -> NoDup l.
Proof.
  induction l as [|x l IH]; intros H; [constructor|]. cbn [nodupB] in H. apply andb_true_iff in H as [H1 H2]. constructor; [|apply IH; exact H2].
  intros Hin. apply negb_true_iff in H1. assert (existsb (fun y => if list_eq_dec Z.eq_dec x y then true else false) l = true); [|congruence].
  apply existsb_exists. exists x. split; [exact Hin|]. destruct (list_eq_dec Z.eq_dec x x); [reflexivity|contradiction].
Qed.
Lemma wfB_ok : forall m, wfB m = true -> wfMesh m.
Proof.
  intros m H. unfold wfB in H. apply andb_true_iff in H as [H H5]. apply andb_true_iff in H as [H H4]. apply andb_true_iff in H as [H H3]. apply andb_true_iff in H as [H1 H2].
  apply Nat.eqb_eq in H1, H2. rewrite forallb_forall in H3, H4, H5.
  assert (LF : forall e f l, localFace m e f l -> exists fs, In fs (m_efaces m) /\ zget (m_efaces m) e = Ok fs /\ zget fs l = Ok f) by (intros e f l [fs [A B]]; exists fs; split; [apply (zget_in _ _ _ A)|auto]).
  constructor; [exact H1|exact H2| | | |].
  - intros f e1 e2 Hf. specialize (H3 f). rewrite (getD_zget (0, 0) _ _ _ Hf) in H3. pose proof (zget_len _ _ _ Hf) as Lf. specialize (H3 (proj2 (in_zseq _ _) Lf)).
    apply andb_true_iff in H3 as [H3 Q5]. apply andb_true_iff in H3 as [H3 Q4]. apply andb_true_iff in H3 as [H3 Q3]. apply andb_true_iff in H3 as [Q1 Q2].
    apply inRange_ok in Q1. apply negb_true_iff, Z.eqb_neq in Q3. split; [exact Q1|]. split; [|split; [exact Q3|split]].
    + apply orb_true_iff in Q2 as [Q2|Q2]; [left; apply Z.eqb_eq; exact Q2|right; apply inRange_ok in Q2; exact Q2].
    + apply inZ_ok in Q4 as [l Hl]. exists l. exists (getD [] (m_efaces m) e1). split; [apply zget_getD; rewrite H1; exact Q1|exact Hl].
    + intros G. apply orb_true_iff in Q2 as [Q2|Q2]; [apply Z.eqb_eq in Q2; lia|]. apply inRange_ok in Q2. apply orb_true_iff in Q5 as [Q5|Q5]; [apply Z.eqb_eq in Q5; lia|].
      apply inZ_ok in Q5 as [l Hl]. exists l. exists (getD [] (m_efaces m) e2). split; [apply zget_getD; rewrite H1; exact Q2|exact Hl].
  - intros e f l Hl. apply LF in Hl as [fs [A [_ B]]]. specialize (H4 fs A). apply andb_true_iff in H4 as [H4 _]. rewrite forallb_forall in H4. apply inRange_ok. apply H4. apply (zget_in _ _ _ B).
  - intros e l l' f f' v v' Hl Hl' Hv Hv' P. apply LF in Hl as [fs [A [E B]]]. apply LF in Hl' as [fs' [A' [E' B']]]. rewrite E in E'. injection E' as <-.
    specialize (H4 fs A). apply andb_true_iff in H4 as [_ H4]. apply nodupB_ok in H4.
    pose proof (zget_len _ _ _ B) as LB. apply zget_ok in B as [Bp B]. apply zget_ok in B' as [Bp' B'].
    assert (Z.to_nat l = Z.to_nat l'); [|lia]. apply (proj1 (NoDup_nth_error _) H4).
    + rewrite map_length. lia.
    + rewrite (map_nth_error (fun g => sortBy Z.leb (getD [] (m_fverts m) g)) _ _ B), (map_nth_error (fun g => sortBy Z.leb (getD [] (m_fverts m) g)) _ _ B').
      f_equal. rewrite (getD_zget [] _ _ _ Hv), (getD_zget [] _ _ _ Hv'). apply sort_eq. exact P.
  - intros be b Hb. specialize (H5 b (zget_in _ _ _ Hb)). apply andb_true_iff in H5 as [Q1 Q2]. apply inRange_ok in Q1. exists (getD [] (m_fverts m) (b_face b)).
    split; [apply zget_getD; exact Q1|]. apply sort_eq. destruct (list_eq_dec Z.eq_dec (sortBy Z.leb (b_verts b)) (sortBy Z.leb (getD [] (m_fverts m) (b_face b)))); [assumption|discriminate Q2].
Qed.
Definition geoB (m : mesh) : bool :=
  forallb (forallb (fun v => inRange v (length (m_coord m)))) (m_everts m) && forallb (forallb (fun v => inRange v (length (m_coord m)))) (m_fverts m) &&
  forallb (fun vs => m_dim m <=? Z.of_nat (length vs)) (m_fverts m) && forallb (fun b => forallb (fun v => inRange v (length (m_coord m))) (b_verts b)) (m_bdr m).
Lemma geoB_ok : forall m, geoB m = true -> wfGeo m.
Proof.
  intros m H. unfold geoB in H. apply andb_true_iff in H as [H H4]. apply andb_true_iff in H as [H H3]. apply andb_true_iff in H as [H1 H2].
  rewrite forallb_forall in H1, H2, H3, H4. split; [|split; [|split]].
  - intros vs v A B. specialize (H1 vs A). rewrite forallb_forall in H1. apply inRange_ok. apply H1. exact B.
  - intros vs v A B. specialize (H2 vs A). rewrite forallb_forall in H2. apply inRange_ok. apply H2. exact B.
  - intros vs A. apply Z.leb_le. apply H3. exact A.
  - intros b v A B. specialize (H4 b A). rewrite forallb_forall in H4. apply inRange_ok. apply H4. exact B.
Qed.
Definition coversB (m : mesh) (marker : list Z) : bool := forallb (fun b => (1 <=? b_attr b) && (b_attr b <=? Z.of_nat (length marker))) (m_bdr m).
Lemma coversB_ok : forall m marker, coversB m marker = true -> covers m marker.
Proof. intros m marker H b Hb. unfold coversB in H. rewrite forallb_forall in H. specialize (H b Hb). apply andb_true_iff in H as [A B]. apply Z.leb_le in A, B. lia. Qed.

(** ** Three squares in a row; the first and last face of the middle one are marked *)
Definition strip : mesh := mkMesh 2
  [(0, 0, 0); (1, 0, 0); (2, 0, 0); (3, 0, 0); (0, 1, 0); (1, 1, 0); (2, 1, 0); (3, 1, 0)]%R
  [[0; 1; 5; 4]; [1; 2; 6; 5]; [2; 3; 7; 6]]
  [[0; 1; 2; 3]; [4; 5; 6; 1]; [7; 8; 9; 5]]
  [[0; 1]; [1; 5]; [5; 4]; [4; 0]; [1; 2]; [2; 6]; [6; 5]; [2; 3]; [3; 7]; [7; 6]]
  [(0, -1); (0, 1); (0, -1); (0, -1); (1, -1); (1, 2); (1, -1); (2, -1); (2, -1); (2, -1)]
  [mkBdr 1 [1; 5] 1; mkBdr 1 [6; 2] 5; mkBdr 2 [0; 1] 0].
Lemma strip_wf : wfMesh strip /\ wfGeo strip /\ covers strip [1; 0] /\ covers strip [0; 1].
Proof. split; [apply wfB_ok; vm_compute; reflexivity|]. split; [apply geoB_ok; vm_compute; reflexivity|]. split; apply coversB_ok; vm_compute; reflexivity. Qed.
Ltac sides := match goal with |- allLeft ?m ?a ?b ?vs => split | |- allRight ?m ?a ?b ?vs => split end.
Ltac inv_in := repeat match goal with H : In _ (_ :: _) |- _ => destruct H as [<-|H] | H : In _ [] |- _ => destruct H end.
Lemma strip_ccw : forall be, In be (marked strip [1; 0]) -> ccwFace strip be.
Proof.
  intros be H. change (marked strip [1; 0]) with [0; 1] in H. inv_in.
  - exists 1, 0, 1, 1, 5, [], (1, 0, 0)%R, (1, 1, 0)%R, [0; 1; 5; 4]. split; [eexists; split; [reflexivity|split; reflexivity]|]. split; [reflexivity|]. split; [reflexivity|]. split; [reflexivity|].
    split; [reflexivity|]. split; [reflexivity|]. split.
    + split; [intros v p Hv E; inv_in; cbn in E; injection E as <-; cbn [sideOf]; lra|]. exists 0, (0, 0, 0)%R. split; [left; reflexivity|]. split; [reflexivity|]. cbn [sideOf]. lra.
    + intros _. exists [1; 2; 6; 5]. split; [reflexivity|]. split; [intros v p Hv E; inv_in; cbn in E; injection E as <-; cbn [sideOf]; lra|]. exists 2, (2, 0, 0)%R. split; [right; left; reflexivity|]. split; [reflexivity|]. cbn [sideOf]. lra.
  - exists 5, 1, 2, 2, 6, [], (2, 0, 0)%R, (2, 1, 0)%R, [1; 2; 6; 5]. split; [eexists; split; [reflexivity|split; reflexivity]|]. split; [reflexivity|]. split; [reflexivity|]. split; [reflexivity|].
    split; [reflexivity|]. split; [reflexivity|]. split.
    + split; [intros v p Hv E; inv_in; cbn in E; injection E as <-; cbn [sideOf]; lra|]. exists 1, (1, 0, 0)%R. split; [left; reflexivity|]. split; [reflexivity|]. cbn [sideOf]. lra.
    + intros _. exists [2; 3; 7; 6]. split; [reflexivity|]. split; [intros v p Hv E; inv_in; cbn in E; injection E as <-; cbn [sideOf]; lra|]. exists 3, (3, 0, 0)%R. split; [right; left; reflexivity|]. split; [reflexivity|]. cbn [sideOf]. lra.
Qed.
(** The middle element is the inside of the surface, and ends up in the scattered field, the last in the total field. *)
Lemma dec2_strip : forall be, In be [0; 1] -> elem1IsTF2D strip be = Ok false.
Proof.
  intros be H. destruct (dec2_ok strip be (proj1 strip_wf) (proj1 (proj2 strip_wf)) eq_refl) as [d Hd].
  - inv_in; eexists; reflexivity.
  - rewrite Hd. f_equal. apply (ccw_not_tf strip be d eq_refl); [apply strip_ccw; exact H|exact Hd].
Qed.
Lemma strip_run : tfsfSubMesher strip [1; 0] [1; 1; 1] = Ok (mkT [2000; 2000; 1000] [(1, 3); (2, 3)] [(0, 1); (1, 1)]).
Proof.
  unfold tfsfSubMesher. change (m_dim strip =? 1) with false. change (m_dim strip =? 2) with true. cbv iota. unfold faces23.
  rewrite (foldM_filter strip [1; 0] _ (numBdr strip) _ (proj1 (proj2 (proj2 strip_wf))) (numBdr_ok strip)). change (filter (markedB strip [1; 0]) (numBdr strip)) with [0; 1].
  cbn [foldM]. unfold oneFace. rewrite (dec2_strip 0) by (left; reflexivity). rewrite (dec2_strip 1) by (right; left; reflexivity). reflexivity.
Qed.
Lemma strip_separates : separates strip [1; 0] [1].
Proof.
  split.
  - intros be f e1 e2 H [b [Hb [<- Hf]]]. change (marked strip [1; 0]) with [0; 1] in H. inv_in; cbn in Hb; injection Hb as <-; cbn in Hf; injection Hf as <- <-.
    + right. split; [intros [Q|[]]; discriminate Q|left; reflexivity].
    + left. split; [left; reflexivity|intros [Q|[]]; discriminate Q].
  - intros f e1 e2 Hf G H. pose proof (zget_len _ _ _ Hf) as L. cbn in L.
    assert (D : f = 0 \/ f = 1 \/ f = 2 \/ f = 3 \/ f = 4 \/ f = 5 \/ f = 6 \/ f = 7 \/ f = 8 \/ f = 9) by lia.
    repeat match goal with Q : _ \/ _ |- _ => destruct Q as [Q|Q] end; subst f; cbn in Hf; injection Hf as <- <-;
    try (exfalso; lia); try (exists 0; split; [left; reflexivity|eexists; split; [reflexivity|split; reflexivity]]); try (exists 1; split; [right; left; reflexivity|eexists; split; [reflexivity|split; reflexivity]]).
Qed.

Definition box : mesh := mkMesh 3
  [(- 10, - (1 / 2), - (1 / 2)); (0, - (1 / 2), - (1 / 2)); (10, - (1 / 2), - (1 / 2)); (- 10, 1 / 2, - (1 / 2)); (0, 1 / 2, - (1 / 2)); (10, 1 / 2, - (1 / 2)); (- 10, - (1 / 2), 1 / 2); (0, - (1 / 2), 1 / 2); (10, - (1 / 2), 1 / 2); (- 10, 1 / 2, 1 / 2); (0, 1 / 2, 1 / 2); (10, 1 / 2, 1 / 2); (- 4, - (1 / 2), 3 / 2); (6, - (1 / 2), 3 / 2); (16, - (1 / 2), 3 / 2); (- 4, 1 / 2, 3 / 2); (6, 1 / 2, 3 / 2); (16, 1 / 2, 3 / 2)]%R
  [[0; 1; 4; 3; 6; 7; 10; 9]; [1; 2; 5; 4; 7; 8; 11; 10]; [6; 7; 10; 9; 12; 13; 16; 15]; [7; 8; 11; 10; 13; 14; 17; 16]]
  [[0; 1; 2; 3; 4; 5]; [6; 7; 8; 9; 2; 10]; [5; 11; 12; 13; 14; 15]; [10; 16; 17; 18; 12; 19]]
  [[3; 4; 1; 0]; [0; 1; 7; 6]; [1; 4; 10; 7]; [4; 3; 9; 10]; [3; 0; 6; 9]; [6; 7; 10; 9]; [4; 5; 2; 1]; [1; 2; 8; 7]; [2; 5; 11; 8]; [5; 4; 10; 11]; [7; 8; 11; 10]; [6; 7; 13; 12]; [7; 10; 16; 13]; [10; 9; 15; 16]; [9; 6; 12; 15]; [12; 13; 16; 15]; [7; 8; 14; 13]; [8; 11; 17; 14]; [11; 10; 16; 17]; [13; 14; 17; 16]]
  [(0, -1); (0, -1); (0, 1); (0, -1); (0, -1); (0, 2); (1, -1); (1, -1); (1, -1); (1, -1); (1, 3); (2, -1); (2, 3); (2, -1); (2, -1); (2, -1); (3, -1); (3, -1); (3, -1); (3, -1)]
  [mkBdr 1 [3; 4; 1; 0] 0; mkBdr 1 [0; 1; 7; 6] 1; mkBdr 1 [4; 3; 9; 10] 3; mkBdr 1 [3; 0; 6; 9] 4; mkBdr 1 [6; 7; 10; 9] 5; mkBdr 1 [4; 5; 2; 1] 6; mkBdr 1 [1; 2; 8; 7] 7; mkBdr 1 [2; 5; 11; 8] 8; mkBdr 1 [5; 4; 10; 11] 9; mkBdr 1 [7; 8; 11; 10] 10].

Lemma box_wf : wfMesh box /\ wfGeo box /\ covers box [1].
Proof. split; [apply wfB_ok; vm_compute; reflexivity|]. split; [apply geoB_ok; vm_compute; reflexivity|]. apply coversB_ok; vm_compute; reflexivity. Qed.
Lemma box_center : exists c, tfsfCenter box [1] = Ok c /\ c = (0, 0, 0)%R.
Proof.
  eexists. split.
  - unfold tfsfCenter. rewrite (foldM_filter box [1] (fun acc be => b <- zget (m_bdr box) be ;; Ok (listSet acc (b_verts b)))) by (exact (proj2 (proj2 box_wf)) || apply numBdr_ok).
    change (filter (markedB box [1]) (numBdr box)) with [0; 1; 2; 3; 4; 5; 6; 7; 8; 9].
    change (foldM (fun acc be => b <- zget (m_bdr box) be ;; Ok (listSet acc (b_verts b))) [0; 1; 2; 3; 4; 5; 6; 7; 8; 9] []) with (Ok [3; 4; 1; 0; 7; 6; 9; 10; 5; 2; 8; 11]).
    cbn [bind]. cbn [mapM]. reflexivity.
  - cbn [length Nat.eqb]. unfold mean. cbn [length fold_left padd3 pscal INR]. apply f_equal2; [apply f_equal2|]; field.
Qed.
Lemma box_bary : exists p1 p2, baryElem box 0 = Ok p1 /\ baryElem box 2 = Ok p2 /\ p1 = (-5, 0, 0)%R /\ p2 = (-2, 0, 1)%R.
Proof.
  eexists. eexists. split; [reflexivity|]. split; [reflexivity|]. unfold mean. cbn [length fold_left padd3 pscal INR]. split; (apply f_equal2; [apply f_equal2|]; field).
Qed.
Lemma box_beside : beside box 4 5 0 2.
Proof. eexists. split; [reflexivity|split; reflexivity]. Qed.
Lemma box_choice : choice box [1] 4 = false.
Proof.
  unfold choice. change (m_dim box =? 2) with false. cbv iota. destruct box_center as [c [Ec ->]]. rewrite Ec. cbn [bind].
  destruct box_bary as [p1 [p2 [E1 [E2 [-> ->]]]]]. destruct (tf3_iff box (0, 0, 0)%R 4 5 0 2 _ _ box_beside ltac:(lia) E1 E2) as [d [Ed Hd]]. rewrite Ed.
  destruct d; [|reflexivity]. assert (Q : true = true) by reflexivity. apply Hd in Q. cbn [psub pdot pscal padd3] in Q. exfalso. lra.
Qed.
Lemma box_separates : separates box [1] [0; 1].
Proof.
  split.
  - intros be f e1 e2 H [b [Hb [<- Hf]]]. change (marked box [1]) with [0; 1; 2; 3; 4; 5; 6; 7; 8; 9] in H. inv_in; cbn in Hb; injection Hb as <-; cbn in Hf; injection Hf as <- <-; left; cbn [In]; lia.
  - change (marked box [1]) with [0; 1; 2; 3; 4; 5; 6; 7; 8; 9]. intros f e1 e2 Hf G H. pose proof (zget_len _ _ _ Hf) as L. cbn in L. assert (D : In f (zseq 20)) by (apply in_zseq; exact L). cbn in D. clear L.
    repeat match goal with Q : _ \/ _ |- _ => destruct Q as [Q|Q] | Q : False |- _ => destruct Q end; subst f; cbn in Hf; injection Hf as <- <-;
    try (exfalso; lia); try (exfalso; cbn [In] in *; lia); try (exists 4; split; [cbn [In]; auto 20|exact box_beside]); try (exists 9; split; [cbn [In]; auto 20|eexists; split; [reflexivity|split; reflexivity]]).
Qed.
Definition inBox (p : point) : Prop := let '(x, y, z) := p in (-10 <= x <= 10 /\ - (1/2) <= y <= 1/2 /\ - (1/2) <= z <= 1/2)%R.
Definition aboveBox (p : point) : Prop := let '(x, y, z) := p in (1/2 <= z)%R.
Lemma box_inside : vertsIn box inBox 0 /\ vertsIn box inBox 1 /\ vertsIn box aboveBox 2 /\ vertsIn box aboveBox 3.
Proof. repeat split; eexists; (split; [reflexivity|]); intros v p Hv E; inv_in; cbn in E; injection E as <-; cbn [inBox aboveBox]; lra. Qed.
(** The marked surface bounds a box; the element above it is taken for the total field. *)
Lemma box_tf : onSide box (choice box [1]) 4 2 true.
Proof. exists 5, 0, 2. split; [exact box_beside|]. right. rewrite box_choice. split; [lia|split; reflexivity]. Qed.

(** ** Far field, space: the pair of the face between elements 0 and 2 *)
Lemma box_neg : neg box 4 = false.
Proof.
  unfold neg. destruct (faceOrientation box 4) as [o| |] eqn:E; [|reflexivity|reflexivity]. unfold faceOrientation in E. change (m_dim box =? 2) with false in E. change (m_dim box =? 3) with true in E. cbv iota in E.
  destruct box_bary as [p1 [p2 [E1 [E2 [-> ->]]]]].
  assert (BV : baryVector box 4 = Ok (psub (-2, 0, 1) (-5, 0, 0))%R).
  { unfold baryVector. change (zget (m_bdr box) 4) with (Ok (mkBdr 1 [6; 7; 10; 9] 5)). cbn [bind]. change (faceTrans box 4) with (Ok (0, 2)). cbn [bind]. rewrite E1. cbn [bind]. change (0 <=? 2) with true. cbv iota. rewrite E2. reflexivity. }
  rewrite BV in E. cbn [bind] in E. change (normal3D box 4) with (Ok (pcross (psub (0, - (1 / 2), 1 / 2) (- 10, - (1 / 2), 1 / 2)) (psub (- 10, 1 / 2, 1 / 2) (- 10, - (1 / 2), 1 / 2)))%R) in E.
  cbn [bind] in E. injection E as <-. cbn [psub pcross pdot]. match goal with |- (if ?b then _ else _) = _ => destruct b as [|N]; [reflexivity|exfalso; apply N; lra] end.
Qed.
Lemma box_ntff : exists a ps, ntffSubMesher box [1] [1; 1; 1; 1] = Ok (a, ps) /\ exists p, nth_error ps 4 = Some p /\ nth_error (marked box [1]) 4 = Some 4 /\ ~ rightPair box 4 p.
Proof.
  destruct box_wf as [W [G C]].
  destruct (ntff_ok box [1] [1; 1; 1; 1] W G C (or_intror eq_refl) eq_refl) as [a [ps [E F]]]; [discriminate|].
  exists a, ps. split; [exact E|]. change (marked box [1]) with [0; 1; 2; 3; 4; 5; 6; 7; 8; 9] in F.
  inversion F as [|b0 p0 t0 q0 P0 F0]; subst. inversion F0 as [|b1 p1 t1 q1 P1 F1]; subst. inversion F1 as [|b2 p2 t2 q2 P2 F2]; subst. inversion F2 as [|b3 p3 t3 q3 P3 F3]; subst. inversion F3 as [|b4 p4 t4 q4 P4 F4]; subst.
  exists p4. split; [reflexivity|]. split; [reflexivity|]. intros R.
  destruct (ntff3_iff box 4 p4 5 0 2 5 0 W eq_refl box_beside) as [Q _]; [lia|eexists; split; reflexivity|eexists; split; reflexivity|exact P4|].
  destruct (Q R) as [Q1|Q1]; [rewrite box_neg in Q1; discriminate Q1|discriminate Q1].
Qed.

(** ** A face shared with another rank *)
(** One square whose last face is shared; the library reports a negative neighbour. *)
Definition shared : mesh := mkMesh 2 [(0, 0, 0); (1, 0, 0); (1, 1, 0); (0, 1, 0)]%R [[0; 1; 2; 3]] [[0; 1; 2; 3]]
  [[0; 1]; [1; 2]; [2; 3]; [3; 0]] [(0, -1); (0, -2); (0, -1); (0, -1)] [mkBdr 1 [1; 2] 1].
Lemma shared_run : exists s, tfsfSubMesher shared [1] [1] = Ok s /\ (In (-2, 0) (t_tf s) \/ In (-2, 0) (t_sf s)).
Proof.
  unfold tfsfSubMesher. change (m_dim shared =? 1) with false. change (m_dim shared =? 2) with true. cbv iota. unfold faces23.
  assert (C : covers shared [1]) by (apply coversB_ok; reflexivity). rewrite (foldM_filter shared [1] _ (numBdr shared) _ C (numBdr_ok shared)).
  change (filter (markedB shared [1]) (numBdr shared)) with [0]. cbn [foldM]. unfold oneFace.
  assert (D : exists d, elem1IsTF2D shared 0 = Ok d) by (eexists; reflexivity). destruct D as [d D]. rewrite D. destruct d; eexists; (split; [reflexivity|]); [right|left]; left; reflexivity.
Qed.

(** ** One dimension *)
Definition line : mesh := mkMesh 1 [(0, 0, 0); (1, 0, 0); (2, 0, 0); (3, 0, 0)]%R [[0; 1]; [1; 2]; [2; 3]] [[0; 1]; [1; 2]; [2; 3]]
  [[0]; [1]; [2]; [3]] [(0, -1); (0, 1); (1, 2); (2, -1)] [mkBdr 1 [1] 1; mkBdr 2 [2] 2].
Lemma line_wf : wfMesh line /\ covers line [1; 0] /\ covers line [0; 1] /\ covers line [1; 1].
Proof. split; [apply wfB_ok; vm_compute; reflexivity|]. repeat split; try (apply coversB_ok; vm_compute; reflexivity); apply (coversB_ok line [1; 0]); (vm_compute; reflexivity) || assumption. Qed.
(** The marked point between the first two elements: only the wrong end of the first is listed. *)
Lemma line_first : tfsfSubMesher line [1; 0] [1; 1; 1] = Ok (mkT [1000; 2000; 1] [(0, 0)] []).
Proof. reflexivity. Qed.
Lemma line_second : tfsfSubMesher line [0; 1] [1; 1; 1] = Ok (mkT [1; 2000; 1000] [(2, 0)] [(1, 1)]).
Proof. reflexivity. Qed.
Lemma line_both : tfsfSubMesher line [1; 1] [1; 1; 1] = Ok (mkT [2000; 1000; 2000] [(1, 0); (1, 1)] [(0, 1); (2, 0)]).
Proof. reflexivity. Qed.
Lemma line_refuted : ~ exists c, contributes line 0 c /\ fst c = [(0, 0)] /\ snd c = [].
Proof.
  intros [c [[f [e1 [e2 [l1 [[b [Hb [<- Hf]]] [L1 H]]]]]] [E1 E2]]]. cbn in Hb. injection Hb as <-. cbn in Hf. injection Hf as <- <-.
  destruct H as [[_ [l2 [_ [->| ->]]]]|[G _]]; [discriminate E2|discriminate E2|lia].
Qed.

(** ** Examples for the theorems *)
(** The strip with one marked face. *)
Definition strip1 : mesh := mkMesh 2 (m_coord strip) (m_everts strip) (m_efaces strip) (m_fverts strip) (m_fels strip) [mkBdr 1 [5; 1] 1].
Lemma strip1_wf : wfMesh strip1 /\ wfGeo strip1 /\ covers strip1 [1].
Proof. split; [apply wfB_ok; vm_compute; reflexivity|]. split; [apply geoB_ok; vm_compute; reflexivity|]. apply coversB_ok; vm_compute; reflexivity. Qed.
Lemma strip1_ccw : ccwFace strip1 0.
Proof.
  exists 1, 0, 1, 1, 5, [], (1, 0, 0)%R, (1, 1, 0)%R, [0; 1; 5; 4]. split; [eexists; split; [reflexivity|split; reflexivity]|]. split; [reflexivity|]. split; [reflexivity|]. split; [reflexivity|].
  split; [reflexivity|]. split; [reflexivity|]. split.
  + split; [intros v p Hv E; inv_in; cbn in E; injection E as <-; cbn [sideOf]; lra|]. exists 0, (0, 0, 0)%R. split; [left; reflexivity|]. split; [reflexivity|]. cbn [sideOf]. lra.
  + intros _. exists [1; 2; 6; 5]. split; [reflexivity|]. split; [intros v p Hv E; inv_in; cbn in E; injection E as <-; cbn [sideOf]; lra|]. exists 2, (2, 0, 0)%R. split; [right; left; reflexivity|]. split; [reflexivity|]. cbn [sideOf]. lra.
Qed.
Lemma strip1_run : tfsfSubMesher strip1 [1] [1; 1; 1] = Ok (mkT [2000; 1000; 1] [(1, 3)] [(0, 1)]).
Proof.
  unfold tfsfSubMesher. change (m_dim strip1 =? 1) with false. change (m_dim strip1 =? 2) with true. cbv iota. unfold faces23.
  rewrite (foldM_filter strip1 [1] _ (numBdr strip1) _ (proj2 (proj2 strip1_wf)) (numBdr_ok strip1)). change (filter (markedB strip1 [1]) (numBdr strip1)) with [0].
  cbn [foldM]. unfold oneFace. destruct (dec2_ok strip1 0 (proj1 strip1_wf) (proj1 (proj2 strip1_wf)) eq_refl) as [d Hd]; [eexists; reflexivity|].
  rewrite Hd. rewrite (ccw_not_tf strip1 0 d eq_refl strip1_ccw Hd). reflexivity.
Qed.
Lemma strip1_ex : (forall e l l', In (e, l) [(1, 3)] -> In (e, l') [(0, 1)] -> False) /\ domain [2000; 1000; 1] TotalFieldMarker = [1] /\ domain [2000; 1000; 1] ScatteredFieldMarker = [0].
Proof. split; [|split; reflexivity]. intros e l l' [H|[]] [H'|[]]. injection H as <- <-. discriminate H'. Qed.
Lemma strip_refuted : exists m marker attrs s inside, wfMesh m /\ wfGeo m /\ covers m marker /\ (forall be, In be (marked m marker) -> ccwFace m be) /\ separates m marker inside /\
  tfsfSubMesher m marker attrs = Ok s /\ (exists e, In e inside /\ In e (domain (t_attr s) ScatteredFieldMarker)) /\ (exists e, ~ In e inside /\ In e (domain (t_attr s) TotalFieldMarker)).
Proof.
  destruct strip_wf as [W [G [C _]]]. exists strip, [1; 0], [1; 1; 1]. eexists. exists [1]. split; [exact W|]. split; [exact G|]. split; [exact C|]. split; [exact strip_ccw|]. split; [exact strip_separates|].
  split; [exact strip_run|]. split; [exists 1; split; [left; reflexivity|right; left; reflexivity]|]. exists 2. split; [intros [Q|[]]; discriminate Q|left; reflexivity].
Qed.
Lemma box_refuted : exists m marker attrs s inside, wfMesh m /\ wfGeo m /\ covers m marker /\ m_dim m = 3 /\ separates m marker inside /\
  (forall e, In e inside -> vertsIn m inBox e) /\ tfsfSubMesher m marker attrs = Ok s /\
  exists e l, ~ In e inside /\ vertsIn m aboveBox e /\ In (e, l) (t_tf s).
Proof.
  destruct box_wf as [W [G C]]. destruct (tfsf_ok box [1] [1; 1; 1; 1] W G C (or_intror eq_refl) eq_refl) as [s [cs [E [F [T _]]]]].
  exists box, [1], [1; 1; 1; 1], s, [0; 1]. split; [exact W|]. split; [exact G|]. split; [exact C|]. split; [reflexivity|]. split; [exact box_separates|].
  destruct box_inside as [I0 [I1 [I2 _]]]. split; [intros e He; inv_in; assumption|]. split; [exact E|]. 
  destruct (proj2 (in_concat_sided box (choice box [1]) (marked box [1]) cs 2 true F)) as [l Hl]; [exists 4; split; [unfold marked; apply filter_In; split; [apply in_zseq; cbn; lia|reflexivity]|exact box_tf]|].
  exists 2, l. split; [cbn [In]; lia|]. split; [exact I2|]. rewrite T. exact Hl.
Qed.
Lemma box_hyps : isCentre box [1] (0, 0, 0)%R /\ isBary box 0 (-5, 0, 0)%R /\ isBary box 2 (-2, 0, 1)%R /\ straight (3, 0, 1)%R (-5, 0, 0)%R (-2, 0, 1)%R /\ (along (3, 0, 1) (0, 0, 0) (middle (-5, 0, 0) (-2, 0, 1)) < 0)%R.
Proof.
  destruct box_wf as [W [G C]]. split; [|split; [|split; [|split]]].
  - destruct box_center as [c [Ec ->]]. apply centre_spec; [exact C|exact G|exact Ec|]. exists 0, (mkBdr 1 [3; 4; 1; 0] 0), 3. split; [unfold marked; apply filter_In; split; [apply in_zseq; cbn; lia|reflexivity]|]. split; [reflexivity|left; reflexivity].
  - eexists. eexists. split; [reflexivity|]. split; [discriminate|]. split; [unfold pointsOf; repeat (constructor; [reflexivity|]); constructor|].
    unfold isMean. cbn [length map fold_right fst snd INR]. repeat split; lra.
  - eexists. eexists. split; [reflexivity|]. split; [discriminate|]. split; [unfold pointsOf; repeat (constructor; [reflexivity|]); constructor|].
    unfold isMean. cbn [length map fold_right fst snd INR]. repeat split; lra.
  - exists 1%R. split; [lra|]. cbn. repeat split; lra.
  - cbn [along middle]. lra.
Qed.
Lemma box_corner : beside box 4 5 0 2 /\ isBary box 0 (-5, 0, 0)%R /\ isBary box 2 (-2, 0, 1)%R /\ exists vs i j k v0 v1 v2, zget (m_fverts box) 5 = Ok vs /\ cornerOf vs i j k /\
  zget (m_coord box) i = Ok v0 /\ zget (m_coord box) j = Ok v1 /\ zget (m_coord box) k = Ok v2 /\ (0 < triple (-5, 0, 0) (-2, 0, 1) v0 v1 v2)%R.
Proof.
  destruct box_hyps as [_ [B1 [B2 _]]]. split; [exact box_beside|]. split; [exact B1|]. split; [exact B2|].
  eexists. eexists. eexists. eexists. eexists. eexists. eexists. split; [reflexivity|]. split; [right; eexists; reflexivity|].
  split; [reflexivity|]. split; [reflexivity|]. split; [reflexivity|]. cbn [triple]. lra.
Qed.
Lemma line_mesh : lineMesh line.
Proof.
  intros f e1 e2 Hf. pose proof (zget_len _ _ _ Hf) as L. cbn in L. assert (D : f = 0 \/ f = 1 \/ f = 2 \/ f = 3) by lia.
  destruct D as [-> |[-> |[-> | ->]]]; cbn in Hf; injection Hf as <- <-.
  - right. left. split; [reflexivity|]. split; [reflexivity|]. eexists. split; reflexivity.
  - left. split; [lia|]. split; [reflexivity|]. split; eexists; split; reflexivity.
  - left. split; [lia|]. split; [reflexivity|]. split; eexists; split; reflexivity.
  - right. right. split; [reflexivity|]. split; [reflexivity|]. eexists. split; reflexivity.
Qed.
Lemma line_hyp : marked line [1; 1] = [0; 1] /\ ~ rightEnd line 0 /\ ~ leftEnd line 1.
Proof.
  split; [reflexivity|]. split; intros [f [[b [Hb [<- Hf]]] _]]; cbn in Hb; injection Hb as <-; cbn in Hf; discriminate Hf.
Qed.
Lemma line_bad : exists m marker attrs s, wfMesh m /\ lineMesh m /\ covers m marker /\ m_dim m = 1 /\ marked m marker = [0] /\ tfsfSubMesher m marker attrs = Ok s /\
  ~ exists c, contributes m 0 c /\ fst c = t_tf s /\ snd c = t_sf s.
Proof.
  destruct line_wf as [W [C _]]. exists line, [1; 0], [1; 1; 1]. eexists. split; [exact W|]. split; [exact line_mesh|]. split; [exact C|]. split; [reflexivity|]. split; [reflexivity|]. split; [exact line_first|].
  cbn [t_tf t_sf]. exact line_refuted.
Qed.
Lemma shared_bad : exists m marker attrs s, covers m marker /\ tfsfSubMesher m marker attrs = Ok s /\ exists e l, (In (e, l) (t_tf s) \/ In (e, l) (t_sf s)) /\ e < 0.
Proof.
  destruct shared_run as [s [E H]]. exists shared, [1], [1], s. split; [apply coversB_ok; reflexivity|]. split; [exact E|]. exists (-2), 0. split; [exact H|lia].
Qed.
Lemma box_far_refuted : exists m marker attrs a ps, wfMesh m /\ wfGeo m /\ covers m marker /\ m_dim m = 3 /\ ntffSubMesher m marker attrs = Ok (a, ps) /\ ~ Forall2 (rightPair m) (marked m marker) ps.
Proof.
  destruct box_wf as [W [G C]]. destruct box_ntff as [a [ps [E [p [H1 [H2 H3]]]]]]. exists box, [1], [1; 1; 1; 1], a, ps.
  split; [exact W|]. split; [exact G|]. split; [exact C|]. split; [reflexivity|]. split; [exact E|]. intros F. apply H3.
  assert (K : forall l qs n x y, Forall2 (rightPair box) l qs -> nth_error l n = Some x -> nth_error qs n = Some y -> rightPair box x y).
  { clear. intros l qs n x y F. revert n. induction F; intros n A B; destruct n; try discriminate A; cbn in A, B; [injection A as <-; injection B as <-; assumption|eapply IHF; eassumption]. }
  apply (K _ _ 4%nat 4 p F H2 H1).
Qed.
Lemma strip1_same : exists m marker (attrs : list Z), wfMesh m /\ wfGeo m /\ covers m marker /\ m_dim m = 2 /\ length attrs = length (m_everts m) /\ marked m marker <> [] /\
  (forall be f e1 e2, In be (marked m marker) -> beside m be f e1 e2 -> e2 < 0 \/ exists l, localFace m e1 f l /\ localFace m e2 f l).
Proof.
  destruct strip_wf as [W [G [_ C]]]. exists strip, [0; 1], [1; 1; 1]. split; [exact W|]. split; [exact G|]. split; [exact C|]. split; [reflexivity|]. split; [reflexivity|]. split; [discriminate|].
  intros be f e1 e2 H [b [Hb [<- Hf]]]. change (marked strip [0; 1]) with [2] in H. inv_in. cbn in Hb. injection Hb as <-. cbn in Hf. injection Hf as <- <-. left. lia.
Qed.
Lemma child_ex : covers strip [1; 0] /\ onceNonneg [2; 0; -1; -1; -1; 1; -1; -1; -1; -1] /\ NoDup [1; 4; 5; 6] /\
  setChild strip [1; 0] [2; 0; -1; -1; -1; 1; -1; -1; -1; -1] [1; 2; 3; 0] [4; 5; 6; 1] 301 [7; 7; 7; 7] = Ok [301; 7; 301; 7] /\ inherits [2; 0; -1; -1; -1; 1; -1; -1; -1; -1] [1; 2; 3; 0] [4; 5; 6; 1] 0 0.
Proof.
  split; [apply strip_wf|]. split.
  - intros i j v Hv A B. pose proof (zget_len _ _ _ A) as LA. pose proof (zget_len _ _ _ B) as LB. cbn in LA, LB.
    assert (DA : In i (zseq 10)) by (apply in_zseq; exact LA). assert (DB : In j (zseq 10)) by (apply in_zseq; exact LB). cbn in DA, DB.
    repeat match goal with Q : _ \/ _ |- _ => destruct Q as [<-|Q] | Q : False |- _ => destruct Q end; cbn in A, B; injection A as <-; first [lia | discriminate B | reflexivity].
  - split; [repeat (constructor; [cbn; lia|]); constructor|]. split; [|exists 1, 3; repeat split; lia]. reflexivity.
Qed.
Lemma box_unmarked : covers box [0] /\ marked box [0] = [].
Proof. split; [apply coversB_ok; vm_compute; reflexivity|vm_compute; reflexivity]. Qed.

(** Proofs about the element data of the nodal operator. *)
From Coq Require Import ZArith List Bool Reals Lia Lra Sorted.
From Verif Require Import Common Geo_Spec Face_Model Face_Spec Face_Proofs Nodal_Model Nodal_Spec NodalEnergy_Spec Step_Model Conn_Model Conn_Spec.
From Verif Require Import Nodal_Proofs NodalMult_Proofs NodalEnergy_Proofs GlobalEnergy_Proofs ConnFlux_Proofs FaceLoad_Proofs Hest_Model Hest_Spec Hest_Proofs.
Import ListNotations.
Local Open Scope R_scope.

(** ** Sums *)
Lemma sumN_S : forall n f, sumN (S n) f = sumN n f + f n.
Proof.
  intros n f. replace (S n) with (n + 1)%nat by lia. rewrite sumN_app. f_equal. unfold sumN. cbn [seq map fold_right]. rewrite Nat.add_0_r. ring.
Qed.
Lemma sumN_blocks : forall F nf h, sumN (F * nf) h = sumN F (fun f => sumN nf (fun b => h (f * nf + b)%nat)).
Proof.
  induction F as [|F IH]; intros nf h; [reflexivity|].
  replace (S F * nf)%nat with (F * nf + nf)%nat by lia. rewrite sumN_app, IH, sumN_S. reflexivity.
Qed.
Lemma sumN_scal_r : forall n k f, sumN n (fun i => f i * k) = sumN n f * k.
Proof. intros n k f. rewrite Rmult_comm, <- sumN_scal. apply sumN_ext. intros; ring. Qed.
Lemma sumN_suml_swap : forall {A} n (l : list A) (f : nat -> A -> R), sumN n (fun i => suml (f i) l) = suml (fun a => sumN n (fun i => f i a)) l.
Proof.
  intros A n l f. induction l as [|a l IH].
  - unfold suml. cbn [map fold_right]. apply sumN_zero. reflexivity.
  - unfold suml in *. cbn [map fold_right]. rewrite <- IH, <- sumN_plus. reflexivity.
Qed.
Lemma suml_scal : forall {A} k (f : A -> R) l, suml (fun a => k * f a) l = k * suml f l.
Proof. intros A k f l. unfold suml. induction l as [|a l IH]; cbn [map fold_right]; [ring|]. rewrite IH. ring. Qed.
Lemma suml_seq : forall n f, suml f (seq 0 n) = sumN n f.
Proof. reflexivity. Qed.

(** Sum over the nodes of a sorted list. *)
Lemma sumN_nodes : forall n ns (f : nat -> R), StronglySorted lt ns -> Forall (fun k => (k < n)%nat) ns ->
  (forall k, (k < n)%nat -> ~ In k ns -> f k = 0) -> sumN (length ns) (fun b => f (nth b ns 0%nat)) = sumN n f.
Proof.
  intros n ns f Hs Hb Hz.
  assert (E : ns = filter (fun k => if in_dec Nat.eq_dec k ns then true else false) (seq 0 n)).
  { apply sorted_same; [exact Hs|apply sorted_filter, sorted_seq|]. intros x. rewrite filter_In, in_seq. rewrite Forall_forall in Hb. split.
    - intros Hx. split; [specialize (Hb x Hx); lia|]. destruct (in_dec Nat.eq_dec x ns); [reflexivity|contradiction].
    - intros [_ Hx]. destruct (in_dec Nat.eq_dec x ns); [assumption|discriminate]. }
  assert (A : sumN (length ns) (fun b => f (nth b ns 0%nat)) = suml f ns).
  { unfold sumN, suml. f_equal. clear. induction ns as [|a ns IH]; [reflexivity|]. cbn [length seq map nth]. f_equal.
    rewrite <- seq_shift, map_map. exact IH. }
  rewrite A. rewrite E at 1. unfold sumN, suml. clear A E.
  assert (G : forall l, (forall k, In k l -> (k < n)%nat) ->
    fold_right Rplus 0 (map f (filter (fun k => if in_dec Nat.eq_dec k ns then true else false) l)) = fold_right Rplus 0 (map f l)).
  { induction l as [|k l IH]; intros Hl; [reflexivity|]. cbn [filter map fold_right].
    rewrite <- IH by (intros k' Hk'; apply Hl; right; exact Hk'). destruct (in_dec Nat.eq_dec k ns) as [I|I]; [reflexivity|].
    rewrite (Hz k (Hl k (or_introl eq_refl)) I). ring. }
  apply G. intros k Hk. apply in_seq in Hk. lia.
Qed.

(** ** Rows and face values *)
Lemma rows_entry : forall A i j, (i < e_r A)%nat -> (j < e_c A)%nat -> entry (rowsOf A) i j = e_at A i j.
Proof.
  intros A i j Hi Hj. unfold entry, rowsOf.
  rewrite nth_indep with (d' := map (e_at A 0%nat) (seq 0 (e_c A))) by (rewrite map_length, seq_length; exact Hi).
  rewrite (map_nth (fun i => map (e_at A i) (seq 0 (e_c A)))), seq_nth by exact Hi. cbn [plus].
  rewrite nth_indep with (d' := e_at A i 0%nat) by (rewrite map_length, seq_length; exact Hj).
  rewrite map_nth, seq_nth by exact Hj. reflexivity.
Qed.
Lemma rows_shape : forall A, matShape (rowsOf A) (e_r A) (e_c A).
Proof.
  intros A. unfold matShape, rowsOf. rewrite map_length, seq_length. split; [reflexivity|]. apply Forall_forall. intros r Hr.
  apply in_map_iff in Hr as [i [<- _]]. rewrite map_length, seq_length. reflexivity.
Qed.
Lemma flat_repeat_length : forall {A B} (v : A -> B) nf l, length (flat_map (fun q => repeat (v q) nf) l) = (length l * nf)%nat.
Proof. intros A B v nf l. induction l as [|a l IH]; [reflexivity|]. cbn [flat_map]. rewrite app_length, repeat_length, IH. cbn [length]. lia. Qed.
Lemma flat_repeat_nth : forall {A B} (v : A -> B) nf l f b (da : A) (db : B), (f < length l)%nat -> (b < nf)%nat ->
  nth (f * nf + b) (flat_map (fun q => repeat (v q) nf) l) db = v (nth f l da).
Proof.
  intros A B v nf l. induction l as [|a l IH]; intros f b da db Hf Hb; [cbn [length] in Hf; lia|]. cbn [flat_map]. destruct f as [|f].
  - cbn [mult plus nth]. rewrite app_nth1 by (rewrite repeat_length; exact Hb).
    rewrite nth_indep with (d' := v a) by (rewrite repeat_length; exact Hb). apply nth_repeat.
  - rewrite app_nth2 by (rewrite repeat_length; nia). rewrite repeat_length.
    replace (S f * nf + b - nf)%nat with (f * nf + b)%nat by nia. cbn [nth]. apply IH; [cbn [length] in Hf; lia|exact Hb].
Qed.

(** ** The stored element *)
Lemma pick3 : forall {A B} (f : nat -> A) (g : A -> B) (d : nat) (db : B), (d < 3)%nat ->
  nth d (map g (map f (seq 0 3))) db = g (f d).
Proof. intros A B f g d db H. destruct d as [|[|[|d]]]; try reflexivity. lia. Qed.

Section Element.
Variables (fc : fecol) (dim : Z) (t : etype) (nf : nat).
Hypothesis Hsup : supported t dim.
Hypothesis Hnf : faceNodeNum fc dim t = Ok nf.
Let n := fc_n fc t.
Let NF := length (fc_faces fc t).
Variables (Mi : emat) (g : gelem).
Hypothesis Rm : e_r Mi = n.
Hypothesis Cm : e_c Mi = n.
Hypothesis Hg : straight fc dim t g.

Lemma dir_value : forall d, exists P, storeDir fc dim Mi g d = Ok P /\ e_r P = n /\ e_c P = n /\
  forall i j, (i < n)%nat -> (j < n)%nat ->
    e_at P i j = sumN n (fun k => e_at Mi i k * e_at (derivMatrix fc dim g d) k j) * kappa t * refDet t / ge_det g.
Proof.
  intros d. destruct Hg as [Ht _ Hd Hv _ _ _]. unfold storeDir.
  destruct (emul_value Mi (derivMatrix fc dim g d)) as [P [EP [RP [CP VP]]]].
  { cbn [derivMatrix e_r]. rewrite Ht. exact Cm. }
  rewrite EP. cbn [bind]. rewrite Ht.
  assert (K : forall x, 0 < ge_det g -> exists rv, getReferenceVolume t = Ok rv /\ x * rv / (ge_det g * refVolume t) = x * kappa t * refDet t / ge_det g).
  { intros x Hp. destruct Hsup as [[-> _]|[[-> _]|[-> _]]]; eexists; (split; [reflexivity|]); cbn [kappa refDet refVolume]; field; lra. }
  destruct (K 0 Hd) as [rv [Erv _]]. rewrite Erv. cbn [bind]. eexists. split; [reflexivity|]. cbn [e_r e_c e_at]. split; [congruence|].
  split; [rewrite CP; cbn [derivMatrix e_c]; rewrite Ht; reflexivity|]. intros i j Hi Hj. rewrite Hv, VP, Cm.
  destruct (K (sumN n (fun k => e_at Mi i k * e_at (derivMatrix fc dim g d) k j)) Hd) as [rv' [E' F']]. rewrite Erv in E'. injection E' as <-. exact F'.
Qed.

Lemma face_nodes : faceNodes fc dim g = Ok nf.
Proof.
  unfold faceNodes. rewrite (st_type _ _ _ _ Hg). destruct (dim =? 2)%Z eqn:E; [|exact Hnf].
  unfold faceNodeNum in Hnf. rewrite E in Hnf. exact Hnf.
Qed.

Variables (elems : list gelem) (e : Z).
Hypothesis He : zget elems e = Ok g.

Lemma element_value : exists el, storeElement fc dim Mi elems e = Ok el /\ el_id el = e /\ el_dofs el = ge_dofs g /\
  elSize el = n /\ elFlux el = (NF * nf)%nat /\
  length (el_dir el) = 3%nat /\ Forall (fun A => matShape A n n) (el_dir el) /\
  (forall d i j, (d < 3)%nat -> (i < n)%nat -> (j < n)%nat ->
     entry (dirMat el d) i j = sumN n (fun k => e_at Mi i k * e_at (derivMatrix fc dim g d) k j) * kappa t * refDet t / ge_det g) /\
  length (el_nor el) = 3%nat /\ Forall (fun l => length l = (NF * nf)%nat) (el_nor el) /\
  (forall f b, (f < NF)%nat -> (b < nf)%nat -> elNormal el (f * nf + b) = unit3 (geoN g f)) /\
  (forall f b, (f < NF)%nat -> (b < nf)%nat -> nth (f * nf + b) (el_fscale el) 0 = weightOf (geoN g f) * 2 / ge_det g).
Proof.
  unfold storeElement. rewrite He. cbn [bind].
  destruct (dir_value 0) as [P0 [E0 [R0 [C0 V0]]]]. destruct (dir_value 1) as [P1 [E1 [R1 [C1 V1]]]]. destruct (dir_value 2) as [P2 [E2 [R2 [C2 V2]]]].
  cbn [seq mapM]. rewrite E0, E1, E2. cbn [bind]. rewrite face_nodes. cbn [bind]. eexists. split; [reflexivity|].
  pose proof (st_faces _ _ _ _ Hg) as HF. pose proof (st_dofs _ _ _ _ Hg) as HD.
  cbn [el_id el_dofs el_dir el_nor el_fscale]. split; [reflexivity|]. split; [reflexivity|]. split; [exact HD|].
  unfold elFlux. cbn [el_fscale].
  split; [unfold perFaceNode; rewrite flat_repeat_length, HF; reflexivity|].
  split; [reflexivity|].
  split. { assert (K : forall P, e_r P = n -> e_c P = n -> matShape (rowsOf P) n n).
    { intros P HR HC. pose proof (rows_shape P) as Q. rewrite HR, HC in Q. exact Q. }
    cbn [map]. constructor; [apply K; assumption|]. constructor; [apply K; assumption|]. constructor; [apply K; assumption|]. constructor. }
  split. { intros d i j Hd Hi Hj. unfold dirMat. cbn [el_dir map]. destruct d as [|[|[|d]]]; [| | |lia]; cbn [nth].
    - rewrite rows_entry by lia. apply V0; assumption.
    - rewrite rows_entry by lia. apply V1; assumption.
    - rewrite rows_entry by lia. apply V2; assumption. }
  split; [reflexivity|].
  split. { cbn [map]. repeat constructor; unfold perFaceNode; rewrite flat_repeat_length, HF; reflexivity. }
  split.
  - intros f b Hf Hb. unfold elNormal, entry. cbn [el_nor map nth]. unfold perFaceNode.
    rewrite !(flat_repeat_nth _ nf (ge_geo g) f b noGeo 0) by (rewrite ?HF; assumption).
    change (nth f (ge_geo g) noGeo) with (geoN g f). unfold unit3, normalCoord.
    pose proof (st_geo _ _ _ _ Hg) as GG. rewrite Forall_forall in GG.
    assert (I : In (geoN g f) (ge_geo g)) by (apply nth_In; rewrite HF; exact Hf). destruct (GG _ I) as [GD GW].
    destruct (geoN g f) as [x|a b0|a0 a1 a2 b0 b1 b2]; cbn [geoDim] in GD; [destruct GD| |]; subst dim; cbn [Z.of_nat Z.ltb Z.compare Pos.compare Pos.compare_cont Pos.of_succ_nat Pos.succ calculateNormal nth].
    + f_equal. unfold Rdiv. ring.
    + reflexivity.
  - intros f b Hf Hb. unfold perFaceNode.
    rewrite (flat_repeat_nth _ nf (ge_geo g) f b noGeo 0) by (rewrite ?HF; assumption). reflexivity.
Qed.
End Element.

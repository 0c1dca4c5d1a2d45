(** Proofs about the global assembly. *)
From Coq Require Import ZArith List Bool Reals Lia Lra.
From Verif Require Import Common Csr_Model Csr_Spec Csr_Proofs Assembly_Model Assembly_Spec.
Import ListNotations.
Local Open Scope Z_scope.

(** ** The two assembly paths place the same blocks in the same order. *)
Section Paths.
Variable V : Type.
Variable vadd vmul : V -> V -> V.
Variable vone vmone : V.
Variable op : opname -> list (list (Z * V)).
Variable dim localSize nbrSize : Z.

Notation LB := (loadBlock V vadd vmul).
Notation cz := (collect_zero V vmone op localSize nbrSize).
Notation co := (collect_one V vone vmone op dim localSize nbrSize).
Notation ct := (collect_two V vone op dim localSize nbrSize).

Lemma fold_left_flat_map : forall {A B C} (f : C -> B -> C) (g : A -> list B) l c,
  fold_left f (flat_map g l) c = fold_left (fun c a => fold_left f (g a) c) l c.
Proof.
  intros A B C f g l; induction l as [|x t IH]; intros c; simpl; [reflexivity|].
  rewrite fold_left_app; auto.
Qed.

Lemma fold_left_ext : forall {A B} (f g : B -> A -> B) l b,
  (forall b a, f b a = g b a) -> fold_left f l b = fold_left g l b.
Proof. intros A B f g l; induction l; intros b Hfg; simpl; auto. rewrite Hfg; auto. Qed.

Lemma add_zero_collect : forall o g,
  add_zero V vadd vmul vmone op localSize nbrSize o g = fold_left LB (cz o) g.
Proof.
  intros. unfold add_zero, collect_zero. rewrite fold_left_flat_map.
  apply fold_left_ext; intros. rewrite fold_left_flat_map. reflexivity.
Qed.

Lemma add_one_collect : forall o g,
  add_one V vadd vmul vone vmone op dim localSize nbrSize o g = fold_left LB (co o) g.
Proof.
  intros. unfold add_one, collect_one. rewrite fold_left_flat_map.
  apply fold_left_ext; intros. rewrite fold_left_flat_map.
  apply fold_left_ext; intros. destruct (dim <=? a0); reflexivity.
Qed.

Lemma add_two_collect : forall o g,
  add_two V vadd vmul vone op dim localSize nbrSize o g = fold_left LB (ct o) g.
Proof.
  intros. unfold add_two, collect_two. rewrite fold_left_flat_map.
  apply fold_left_ext; intros. rewrite fold_left_flat_map.
  apply fold_left_ext; intros. destruct (dim <=? a0); [reflexivity|].
  rewrite fold_left_flat_map. apply fold_left_ext; intros. destruct (dim <=? a1); reflexivity.
Qed.

Lemma add_directional_collect : forall g,
  add_directional V vadd vmul vone vmone op dim localSize nbrSize g =
  fold_left LB (collectDirectional V vone vmone op dim localSize nbrSize) g.
Proof.
  intros. unfold add_directional, collectDirectional. rewrite fold_left_flat_map.
  apply fold_left_ext; intros. rewrite fold_left_flat_map.
  apply fold_left_ext; intros. destruct (dim <=? a0); reflexivity.
Qed.

Lemma add_conductive_collect : forall g,
  add_conductive V vadd vmul vmone op localSize nbrSize g =
  fold_left LB (collectConductive V vmone op localSize nbrSize) g.
Proof.
  intros. unfold add_conductive, collectConductive. now rewrite fold_left_flat_map.
Qed.

Lemma addGlobal_collect : forall ib,
  addGlobal V vadd vmul vone vmone op dim localSize nbrSize ib =
  loadBlocks V vadd vmul (collectGlobal V vone vmone op dim localSize nbrSize ib).
Proof.
  intros ib. unfold addGlobal, loadBlocks, collectGlobal.
  rewrite add_conductive_collect, add_two_collect, add_zero_collect, add_one_collect, add_directional_collect.
  rewrite !fold_left_app. unfold collectOneNormal, collectZeroNormal, collectTwoNormal.
  destruct ib; simpl (fold_left _ [] _).
  - rewrite add_two_collect, add_zero_collect, add_one_collect.
    unfold collectOneNormalIBFI, collectZeroNormalIBFI, collectTwoNormalIBFI.
    now rewrite !fold_left_app.
  - reflexivity.
Qed.

Lemma source_collect :
  buildSourceFaceOperator V vadd vmul vone vmone op dim localSize nbrSize =
  loadBlocks V vadd vmul (collectSourceFace V vone vmone op dim localSize nbrSize).
Proof.
  unfold buildSourceFaceOperator, loadBlocks, collectSourceFace.
  rewrite add_two_collect, add_zero_collect, add_one_collect.
  now rewrite !fold_left_app.
Qed.

(** Every collected block is a placement at a legal component pair. *)
Definition legal (b : block V) : Prop :=
  exists o f d f' d' s, b = place V op localSize nbrSize o f d f' d' s /\
    0 <= f <= 1 /\ 0 <= d <= 2 /\ 0 <= f' <= 1 /\ 0 <= d' <= 2.

Lemma legal_place : forall o f d f' d' s,
  0 <= f <= 1 -> 0 <= d <= 2 -> 0 <= f' <= 1 -> 0 <= d' <= 2 ->
  legal (place V op localSize nbrSize o f d f' d' s).
Proof. intros. exists o, f, d, f', d', s. repeat split; lia. Qed.

Lemma alt_range : forall f, 0 <= altField f <= 1.
Proof. intros; unfold altField, E, H; destruct (f =? 0); lia. Qed.

Ltac in_cases Hin :=
  repeat match type of Hin with
  | In _ (_ ++ _) => apply in_app_or in Hin; destruct Hin as [Hin|Hin]
  | In _ (flat_map _ _) => let x := fresh "x" in let Hx := fresh "Hx" in
      apply in_flat_map in Hin; destruct Hin as (x & Hx & Hin)
  | In _ (if ?c then _ else _) => destruct c
  | In _ [] => destruct Hin
  end.

Lemma in_dirs : forall d, In d dirs -> 0 <= d <= 2.
Proof. intros d [<-|[<-|[<-|[]]]]; lia. Qed.
Lemma in_fields : forall f, In f fields -> 0 <= f <= 1.
Proof. intros f [<-|[<-|[]]]; unfold E, H; lia. Qed.

Lemma collect_zero_legal : forall o b, In b (cz o) -> legal b.
Proof.
  intros o b Hb. unfold collect_zero in Hb. in_cases Hb.
  destruct Hb as [<-|[]]. apply in_fields in Hx. apply in_dirs in Hx0. apply legal_place; lia.
Qed.
Lemma collect_one_legal : forall o b, In b (co o) -> legal b.
Proof.
  intros o b Hb. unfold collect_one in Hb. in_cases Hb.
  apply in_fields in Hx. apply in_dirs in Hx0. pose proof (alt_range x).
  pose proof (Z.mod_pos_bound (x0 + 1) 3). pose proof (Z.mod_pos_bound (x0 + 2) 3).
  destruct Hb as [<-|[<-|[]]]; apply legal_place; lia.
Qed.
Lemma collect_two_legal : forall o b, In b (ct o) -> legal b.
Proof.
  intros o b Hb. unfold collect_two in Hb. in_cases Hb.
  apply in_fields in Hx. apply in_dirs in Hx0. apply in_dirs in Hx1.
  destruct Hb as [<-|[]]; apply legal_place; lia.
Qed.
Lemma collect_dir_legal : forall b,
  In b (collectDirectional V vone vmone op dim localSize nbrSize) -> legal b.
Proof.
  intros b Hb. unfold collectDirectional in Hb. in_cases Hb.
  apply in_fields in Hx. apply in_dirs in Hx0. pose proof (alt_range x).
  pose proof (Z.mod_pos_bound (x0 + 1) 3). pose proof (Z.mod_pos_bound (x0 + 2) 3).
  destruct Hb as [<-|[<-|[]]]; apply legal_place; lia.
Qed.
Lemma collect_cond_legal : forall b,
  In b (collectConductive V vmone op localSize nbrSize) -> legal b.
Proof.
  intros b Hb. unfold collectConductive in Hb. in_cases Hb.
  apply in_dirs in Hx. destruct Hb as [<-|[]]; apply legal_place; unfold E; lia.
Qed.

Lemma collectGlobal_legal : forall ib b,
  In b (collectGlobal V vone vmone op dim localSize nbrSize ib) -> legal b.
Proof.
  intros ib b Hb. unfold collectGlobal, collectOneNormalIBFI, collectZeroNormalIBFI,
    collectTwoNormalIBFI, collectOneNormal, collectZeroNormal, collectTwoNormal in Hb.
  in_cases Hb; eauto using collect_zero_legal, collect_one_legal, collect_two_legal,
    collect_dir_legal, collect_cond_legal.
Qed.

Lemma collectSource_legal : forall b,
  In b (collectSourceFace V vone vmone op dim localSize nbrSize) -> legal b.
Proof.
  intros b Hb. unfold collectSourceFace in Hb.
  in_cases Hb; eauto using collect_zero_legal, collect_one_legal, collect_two_legal.
Qed.

Lemma legal_fits : forall bs,
  0 <= localSize -> 0 <= nbrSize ->
  (forall o, (length (op o) <= Z.to_nat localSize)%nat /\
     forall row e, In row (op o) -> In e row -> 0 <= fst e < localSize + nbrSize) ->
  (forall b, In b bs -> legal b) ->
  fits bs (globalRows localSize) (globalCols localSize nbrSize).
Proof.
  intros bs Hl Hn Hop Hleg b i row e Hb Hi Hr He.
  destruct (Hleg b Hb) as (o & f & d & f' & d' & s & -> & Hf & Hd & Hf' & Hd').
  unfold place, colStart in *; cbn [b_rows b_colOffset b_rowOffset] in *.
  destruct (Hop o) as (_ & Hc). specialize (Hc row e (nth_error_In _ _ Hi) He).
  unfold globalCols. rewrite Z2Nat.id by nia.
  assert (Hk : 0 <= 3 * f' + d' <= 5) by lia. set (k := 3 * f' + d') in *.
  assert (k * (localSize + nbrSize) <= 5 * (localSize + nbrSize)) by (apply Z.mul_le_mono_nonneg_r; lia).
  assert (0 <= k * (localSize + nbrSize)) by (apply Z.mul_nonneg_nonneg; lia). lia.
Qed.

End Paths.

(** ** Action of the assembled operator *)
Section Action.
Variable op : opname -> list (list (Z * R)).
Variable n nb : Z.
Hypothesis Hn : 0 <= n.
Hypothesis Hnb : 0 <= nb.
Hypothesis Hop : ops_ok op n nb.

Notation pl := (place R op n nb).

Lemma block_far : forall k0 k i, k <> k0 -> (i < Z.to_nat n)%nat -> k * n <= k0 * n + Z.of_nat i ->
  (Z.to_nat n <= Z.to_nat (k0 * n + Z.of_nat i - k * n))%nat.
Proof.
  intros k0 k i Hne Hi Hle. assert (k < k0) by nia.
  assert ((k + 1) * n <= k0 * n) by (apply Z.mul_le_mono_nonneg_r; lia). lia.
Qed.

Lemma block_row_of : forall o f d f' d' s x f0 d0 i,
  0 <= f <= 1 -> 0 <= d <= 2 -> 0 <= f0 <= 1 -> 0 <= d0 <= 2 -> (i < Z.to_nat n)%nat ->
  block_mult_row (pl o f d f' d' s) x ((3 * f0 + d0) * n + Z.of_nat i) =
  if (f =? f0) && (d =? d0) then (s * app op n nb o x f' d' i)%R else 0%R.
Proof.
  intros o f d f' d' s x f0 d0 i Hf Hd Hf0 Hd0 Hi. unfold block_mult_row, place;
  cbn [b_rows b_rowOffset b_colOffset b_sign].
  unfold rowStart, colStart, app, comp.
  destruct (Hop o) as (Hlen & _).
  destruct (Z.eqb_spec f f0) as [->|Hff], (Z.eqb_spec d d0) as [->|Hdd]; cbn [andb].
  - destruct (Z.ltb_spec ((3 * f0 + d0) * n + Z.of_nat i) ((3 * f0 + d0) * n)); [lia|].
    replace (Z.to_nat ((3 * f0 + d0) * n + Z.of_nat i - (3 * f0 + d0) * n)) with i by lia.
    f_equal. f_equal. apply map_ext. intros e. f_equal. f_equal. f_equal. lia.
  - destruct (Z.ltb_spec ((3 * f0 + d0) * n + Z.of_nat i) ((3 * f0 + d) * n)); [reflexivity|].
    rewrite (nth_overflow (op o)); [cbn [map rsum fold_right]; lra|]. rewrite Hlen.
    apply (block_far (3 * f0 + d0) (3 * f0 + d)); lia.
  - destruct (Z.ltb_spec ((3 * f0 + d0) * n + Z.of_nat i) ((3 * f + d0) * n)); [reflexivity|].
    rewrite (nth_overflow (op o)); [cbn [map rsum fold_right]; lra|]. rewrite Hlen.
    apply (block_far (3 * f0 + d0) (3 * f + d0)); lia.
  - destruct (Z.ltb_spec ((3 * f0 + d0) * n + Z.of_nat i) ((3 * f + d) * n)); [reflexivity|].
    rewrite (nth_overflow (op o)); [cbn [map rsum fold_right]; lra|]. rewrite Hlen.
    apply (block_far (3 * f0 + d0) (3 * f + d)); lia.
Qed.

Lemma rsum_map_app : forall {A} (g : A -> R) l1 l2, rsum (map g (l1 ++ l2)) = (rsum (map g l1) + rsum (map g l2))%R.
Proof. intros. now rewrite map_app, rsum_app. Qed.

Ltac grind unfolder :=
  match goal with Hdim : 1 <= ?dim <= 3, Hf : 0 <= ?f <= 1, Hd : 0 <= ?d <= 2 |- _ =>
    assert (dim = 1 \/ dim = 2 \/ dim = 3) as [->|[->| ->]] by lia;
    (assert (f = 0 \/ f = 1) as [->| ->] by lia);
    (assert (d = 0 \/ d = 1 \/ d = 2) as [->|[->| ->]] by lia)
  end;
  unfolder; unfold fields, dirs, altField, signA, signB; unfold E, Assembly_Model.H;
  cbn -[block_mult_row place app Z.mul Z.of_nat Z.add Z.modulo];
  repeat match goal with |- context [(?a + ?b) mod 3] =>
    let v := eval compute in ((a + b) mod 3) in change ((a + b) mod 3) with v end;
  rewrite ?block_row_of by lia;
  cbn -[app]; lra.

Section Row.
Variable x : list R.
Variable i : nat.
Hypothesis Hi : (i < Z.to_nat n)%nat.

Definition rowsum (f d : Z) (bs : list (block R)) : R :=
  rsum (map (fun b => block_mult_row b x ((3 * f + d) * n + Z.of_nat i)) bs).

Lemma directional_row : forall dim f d, 1 <= dim <= 3 -> 0 <= f <= 1 -> 0 <= d <= 2 ->
  rowsum f d (collectDirectional R 1%R (-1)%R op dim n nb) = curl_term op dim n nb x f d i.
Proof. intros. grind ltac:(unfold rowsum, collectDirectional, curl_term, ifdim, sgn). Qed.

Lemma one_row : forall o dim f d, 1 <= dim <= 3 -> 0 <= f <= 1 -> 0 <= d <= 2 ->
  rowsum f d (collect_one R 1%R (-1)%R op dim n nb o) = jump_term op dim n nb o x f d i.
Proof. intros. grind ltac:(unfold rowsum, collect_one, jump_term, ifdim, sgn). Qed.

Lemma zero_two_row : forall o0 o2 dim f d, 1 <= dim <= 3 -> 0 <= f <= 1 -> 0 <= d <= 2 ->
  (rowsum f d (collect_zero R (-1)%R op n nb o0) + rowsum f d (collect_two R 1%R op dim n nb o2))%R =
  penalty_term op dim n nb o0 o2 x f d i.
Proof. intros. grind ltac:(unfold rowsum, collect_zero, collect_two, penalty_term, ifdim). Qed.

Lemma conductive_row : forall dim f d, 1 <= dim <= 3 -> 0 <= f <= 1 -> 0 <= d <= 2 ->
  rowsum f d (collectConductive R (-1)%R op n nb) = conductive_term op n nb x f d i.
Proof. intros. grind ltac:(unfold rowsum, collectConductive, conductive_term). Qed.

Lemma rowsum_app : forall f d l1 l2, rowsum f d (l1 ++ l2) = (rowsum f d l1 + rowsum f d l2)%R.
Proof. intros. unfold rowsum. apply rsum_map_app. Qed.

Lemma global_row : forall ib dim f d, 1 <= dim <= 3 -> 0 <= f <= 1 -> 0 <= d <= 2 ->
  rowsum f d (collectGlobal R 1%R (-1)%R op dim n nb ib) = rhs op dim n nb ib x f d i.
Proof.
  intros ib dim f d Hdim Hf Hd. unfold collectGlobal, rhs.
  rewrite !rowsum_app, directional_row, (conductive_row dim) by assumption.
  unfold collectOneNormal, collectZeroNormal, collectTwoNormal. rewrite one_row by assumption.
  rewrite <- (zero_two_row OpZeroNormal OpTwoNormal) by assumption.
  destruct ib.
  - rewrite !rowsum_app. unfold collectOneNormalIBFI, collectZeroNormalIBFI, collectTwoNormalIBFI.
    rewrite one_row, <- (zero_two_row OpZeroNormalIBFI OpTwoNormalIBFI) by assumption. lra.
  - unfold rowsum; simpl. lra.
Qed.

End Row.

Lemma global_fits : forall dim ib,
  fits (collectGlobal R 1%R (-1)%R op dim n nb ib) (globalRows n) (globalCols n nb).
Proof.
  intros dim ib. apply legal_fits with (op := op); auto.
  - intros o. destruct (Hop o) as (Hl & Hc). split; [lia|auto].
  - apply collectGlobal_legal.
Qed.

Lemma global_action : forall dim ib x f d i,
  1 <= dim <= 3 -> 0 <= f <= 1 -> 0 <= d <= 2 -> (i < Z.to_nat n)%nat ->
  length x = Z.to_nat (6 * (n + nb)) ->
  exists m, buildGlobalOperator R Rplus Rmult 1%R (-1)%R op dim n nb ib = Ok m /\
    csr_mult_row m x ((3 * f + d) * n + Z.of_nat i) = Ok (rhs op dim n nb ib x f d i).
Proof.
  intros dim ib x f d i Hdim Hf Hd Hi Hx.
  destruct (merge_mult (collectGlobal R 1%R (-1)%R op dim n nb ib) (globalRows n) (globalCols n nb) x
             (Z.to_nat ((3 * f + d) * n + Z.of_nat i))) as (m & E & Em).
  - apply global_fits.
  - exact Hx.
  - unfold globalRows. nia.
  - exists m. split; [exact E|].
    rewrite Z2Nat.id in Em by nia. rewrite Em. f_equal. now apply (global_row x i Hi).
Qed.

End Action.

(** ** Equality of the two paths, entry by entry *)
Section PathsEqual.
Variable V : Type.
Variable vadd vmul : V -> V -> V.
Variable vone vmone : V.
Variable op : opname -> list (list (Z * V)).
Variable dim n nb : Z.
Hypothesis Hn : 0 <= n.
Hypothesis Hnb : 0 <= nb.
Hypothesis Hop : forall o, (length (op o) <= Z.to_nat n)%nat /\
     forall row e, In row (op o) -> In e row -> 0 <= fst e < n + nb.

Lemma paths_agree_aux : forall bs, (forall b, In b bs -> legal V op n nb b) ->
  exists m, mergeBlocksToCSR V vadd vmul bs (globalRows n) (globalCols n nb) = Ok m /\
   forall r c, (r < globalRows n)%nat ->
     match loadBlocks V vadd vmul bs (Z.of_nat r) c with
     | None => forall p v, ~ stored m r p c v
     | Some s => exists p, stored m r p c s /\ forall q v, stored m r q c v -> q = p /\ v = s
     end.
Proof.
  intros bs Hleg.
  destruct (merge_entry_value V vadd vmul bs (globalRows n) (globalCols n nb)) as (m & E & Hm).
  { apply legal_fits with (op := op); auto. }
  exists m; split; auto. intros r c Hr. rewrite load_blocks_value. now apply Hm.
Qed.

Lemma global_paths_agree : forall ib,
  exists m, buildGlobalOperator V vadd vmul vone vmone op dim n nb ib = Ok m /\
   forall r c, (r < globalRows n)%nat ->
     match addGlobal V vadd vmul vone vmone op dim n nb ib (Z.of_nat r) c with
     | None => forall p v, ~ stored m r p c v
     | Some s => exists p, stored m r p c s /\ forall q v, stored m r q c v -> q = p /\ v = s
     end.
Proof.
  intros ib. rewrite addGlobal_collect. apply paths_agree_aux. apply collectGlobal_legal.
Qed.

Lemma source_paths_agree :
  exists m, mergeBlocksToCSR V vadd vmul (collectSourceFace V vone vmone op dim n nb) (globalRows n) (globalCols n nb) = Ok m /\
   forall r c, (r < globalRows n)%nat ->
     match buildSourceFaceOperator V vadd vmul vone vmone op dim n nb (Z.of_nat r) c with
     | None => forall p v, ~ stored m r p c v
     | Some s => exists p, stored m r p c s /\ forall q v, stored m r q c v -> q = p /\ v = s
     end.
Proof.
  rewrite source_collect. apply paths_agree_aux. apply collectSource_legal.
Qed.
End PathsEqual.

(** A family of sub-operators meeting the hypotheses: two local dofs and one
    neighbour dof, the derivative in x is a dense 2x3 block. *)
Definition ex_op (o : opname) : list (list (Z * R)) :=
  match o with
  | OpDerivative f x => [[(0, 1%R); (2, 2%R)]; [(1, IZR x)]]
  | OpOneNormal f _ x => [[(2, 3%R)]; []]
  | _ => [[(0, 1%R)]; [(1, 1%R)]]
  end.

Lemma ex_ops_ok : ops_ok ex_op 2 1.
Proof.
  intros o. split; [destruct o; reflexivity|].
  intros row e Hr He.
  destruct o; simpl in Hr; destruct Hr as [<-|[<-|[]]]; simpl in He; intuition (subst; simpl; lia).
Qed.

(** The interior flux matrix of two elements and the pairs read off from it. *)
From Coq Require Import ZArith List Bool Lia Reals Lra Sorted Permutation.
From Verif Require Import Common Face_Model Face_Spec Face_Proofs Nodal_Model Nodal_Spec Nodal_Proofs NodalMult_Proofs Conn_Model Conn_Spec.
Import ListNotations.
Local Open Scope R_scope.

(** Shape function [i] of the two elements together. *)
Definition shape (F : face) (q : qpoint) (i : nat) : R :=
  if (i <? f_el1 F)%nat then sh1 q i else match f_el2 F with Some _ => sh2 q (i - f_el1 F) | None => 0 end.
Definition delta (k i : nat) : R := if (i =? k)%nat then 1 else 0.

Lemma mform_delta : forall n M a b, (a < n)%nat -> (b < n)%nat -> mform n M (delta a) (delta b) = M a b.
Proof.
  intros n M a b Ha Hb. unfold mform.
  rewrite (sumN_ext n _ (fun i => if (i =? a)%nat then M i b else 0)).
  - rewrite (sumN_delta n a (fun i => M i b) Ha). reflexivity.
  - intros i Hi. unfold delta at 1. destruct (i =? a)%nat.
    + rewrite (sumN_ext n _ (fun j => if (j =? b)%nat then M i j else 0)); [apply (sumN_delta n b (fun j => M i j) Hb)|].
      intros j Hj. unfold delta. destruct (j =? b)%nat; ring.
    + apply sumN_zero. intros j Hj. ring.
Qed.

Lemma tr_delta : forall s off k, tr (delta k) off s = if ((off <=? k) && (k <? off + length s))%nat then nth (k - off) s 0 else 0.
Proof.
  intros s off k. unfold tr.
  destruct ((off <=? k) && (k <? off + length s))%nat eqn:E.
  - apply andb_prop in E as [E1 E2]. apply Nat.leb_le in E1. apply Nat.ltb_lt in E2.
    rewrite (sumN_ext _ _ (fun i => if (i =? k - off)%nat then nth i s 0 else 0)).
    + apply (sumN_delta _ (k - off) (fun i => nth i s 0)). lia.
    + intros i Hi. unfold delta. destruct (i + off =? k)%nat eqn:A, (i =? k - off)%nat eqn:B; try ring.
      * apply Nat.eqb_eq in A. apply Nat.eqb_neq in B. lia.
      * apply Nat.eqb_neq in A. apply Nat.eqb_eq in B. lia.
  - apply sumN_zero. intros i Hi. unfold delta. destruct (i + off =? k)%nat eqn:A; [|ring].
    apply Nat.eqb_eq in A. apply andb_false_iff in E as [E|E]; [apply Nat.leb_gt in E|apply Nat.ltb_ge in E]; lia.
Qed.

Lemma flux_entry : forall F, wfFace F -> exists M, hesthavenFlux F = Ok M /\
  forall i j, (i < faceSize F)%nat -> (j < faceSize F)%nat ->
    M i j = suml (fun q => q_w q * 2 * (shape F q i * shape F q j)) (f_pts F).
Proof.
  intros F W. destruct (hesthaven_value F W) as [M [E H]]. exists M. split; [exact E|].
  intros i j Hi Hj. rewrite <- (mform_delta _ M i j Hi Hj), H.
  apply suml_ext. intros q Hq. unfold wfFace in W. rewrite Forall_forall in W. pose proof (W q Hq) as Wq.
  pose proof (weight_pos F q Wq) as Wp.
  assert (A : forall k, (k < faceSize F)%nat -> avg F (delta k) q = shape F q k / 2).
  { intros k Hk. unfold avg, side1, side2, shape, sh1, sh2, faceSize in *. destruct Wq as [_ [L1 L2]].
    rewrite tr_delta. rewrite L1. destruct (f_el2 F) as [n2|].
    - rewrite tr_delta, L2. cbn [Nat.leb andb plus]. rewrite Nat.sub_0_r.
      destruct (k <? f_el1 F)%nat eqn:K; [apply Nat.ltb_lt in K|apply Nat.ltb_ge in K].
      + replace (f_el1 F <=? k)%nat with false by (symmetry; apply Nat.leb_gt; lia). cbn [andb]. lra.
      + replace (f_el1 F <=? k)%nat with true by (symmetry; apply Nat.leb_le; lia).
        replace (k <? f_el1 F + n2)%nat with true by (symmetry; apply Nat.ltb_lt; lia). cbn [andb]. lra.
    - cbn [Nat.leb andb plus]. rewrite Nat.sub_0_r. destruct (k <? f_el1 F)%nat; lra. }
  rewrite (A i Hi), (A j Hj). unfold ds. field. lra.
Qed.

(** ** Ordered lists *)
Lemma sorted_filter : forall {A} (lt : A -> A -> Prop) f l, StronglySorted lt l -> StronglySorted lt (filter f l).
Proof.
  intros A lt f l H. induction H as [|a l Hs IH Hf]; [constructor|]. cbn [filter]. destruct (f a); [|exact IH].
  constructor; [exact IH|]. rewrite Forall_forall in *. intros x Hx. apply filter_In in Hx. apply Hf, Hx.
Qed.
Lemma sorted_seq : forall n a, StronglySorted lt (seq a n).
Proof.
  induction n as [|n IH]; intros a; [constructor|]. cbn [seq]. constructor; [apply IH|].
  apply Forall_forall. intros x Hx. apply in_seq in Hx. lia.
Qed.
Lemma sorted_map : forall {A B} (f : A -> B) (la : A -> A -> Prop) (lb : B -> B -> Prop) l,
  (forall x y, In x l -> In y l -> la x y -> lb (f x) (f y)) -> StronglySorted la l -> StronglySorted lb (map f l).
Proof.
  intros A B f la lb l H S. induction S as [|a l S IH F]; [constructor|]. cbn [map]. constructor.
  - apply IH. intros x y Hx Hy. apply H; right; assumption.
  - apply Forall_forall. intros y Hy. apply in_map_iff in Hy as [x [<- Hx]]. rewrite Forall_forall in F.
    apply H; [left; reflexivity|right; exact Hx|apply F, Hx].
Qed.
Lemma sorted_app : forall {A} (lt : A -> A -> Prop) l1 l2, StronglySorted lt l1 -> StronglySorted lt l2 ->
  (forall x y, In x l1 -> In y l2 -> lt x y) -> StronglySorted lt (l1 ++ l2).
Proof.
  intros A lt l1 l2 S1 S2 H. induction S1 as [|a l S IH F]; [exact S2|]. cbn [Datatypes.app]. constructor.
  - apply IH. intros x y Hx Hy. apply H; [right; exact Hx|exact Hy].
  - rewrite Forall_forall in *. intros x Hx. apply in_app_iff in Hx as [Hx|Hx]; [apply F, Hx|apply H; [left; reflexivity|exact Hx]].
Qed.
Lemma sorted_ext : forall {A} (lt : A -> A -> Prop), (forall x, ~ lt x x) -> (forall x y z, lt x y -> lt y z -> lt x z) ->
  forall l1 l2, StronglySorted lt l1 -> StronglySorted lt l2 -> (forall x, In x l1 <-> In x l2) -> l1 = l2.
Proof.
  intros A lt irr tra l1. induction l1 as [|a t IH]; intros l2 S1 S2 H.
  - destruct l2 as [|b u]; [reflexivity|]. exfalso. apply (proj2 (H b)). left; reflexivity.
  - destruct l2 as [|b u]; [exfalso; apply (proj1 (H a)); left; reflexivity|].
    inversion S1 as [|? ? St Ft]; subst. inversion S2 as [|? ? Su Fu]; subst. rewrite Forall_forall in Ft, Fu.
    assert (a = b) as <-.
    { destruct (proj1 (H a) (or_introl eq_refl)) as [E|Hu]; [auto|]. destruct (proj2 (H b) (or_introl eq_refl)) as [E|Ht]; [auto|].
      exfalso. apply (irr a). apply (tra a b a); [apply Ft, Ht|apply Fu, Hu]. }
    f_equal. apply IH; try assumption. intros x. split; intros Hx.
    + destruct (proj1 (H x) (or_intror Hx)) as [<-|Hu]; [|exact Hu]. exfalso. apply (irr a), Ft, Hx.
    + destruct (proj2 (H x) (or_intror Hx)) as [<-|Ht]; [|exact Ht]. exfalso. apply (irr a), Fu, Hx.
Qed.
Lemma sorted_pieces : forall {B} (g : nat -> list (nat * B)), (forall r, (length (g r) <= 1)%nat) ->
  (forall r p, In p (g r) -> fst p = r) -> forall n a, StronglySorted (fun p q => (fst p < fst q)%nat) (flat_map g (seq a n)).
Proof.
  intros B g L H n. induction n as [|n IH]; intros a; [constructor|]. cbn [seq flat_map]. apply sorted_app.
  - specialize (L a). destruct (g a) as [|x [|y t]]; [constructor|constructor; [constructor|constructor]|cbn [length] in L; lia].
  - apply IH.
  - intros x y Hx Hy. apply H in Hx. apply in_flat_map in Hy as [r [Hr Hy]]. apply H in Hy. apply in_seq in Hr. lia.
Qed.
Lemma at_most_one : forall {A} (l : list A), NoDup l -> (forall x y, In x l -> In y l -> x = y) -> (length l <= 1)%nat.
Proof.
  intros A [|a [|b t]] ND H; cbn [length]; try lia. exfalso. inversion ND as [|? ? N _]; subst. apply N. left. symmetry. apply H; [left|right; left]; reflexivity.
Qed.

(** ** mapConnectivity *)
Definition pick (r : nat) (d : R) (cv : nat * R) : bool :=
  if (r =? fst cv)%nat then false else
  if Rlt_dec (Rabs (snd cv - d)) connTol then (if Rlt_dec connTol (Rabs d) then true else false) else false.

Lemma row_loop : forall r row d, diagOf r row = Ok d -> forall l acc,
  foldM (fun acc cv =>
      if (r =? fst cv)%nat then Ok acc else
      d <- diagOf r row ;;
      if Rlt_dec (Rabs (snd cv - d)) connTol then
        (if Rlt_dec connTol (Rabs d) then Ok (acc ++ [(r, fst cv)]) else Ok acc)
      else Ok acc) l acc = Ok (acc ++ map (fun cv => (r, fst cv)) (filter (pick r d) l)).
Proof.
  intros r row d E l. induction l as [|cv t IH]; intros acc; cbn [foldM filter map]; [rewrite app_nil_r; reflexivity|].
  unfold pick at 1. match goal with |- bind _ ?k = _ => set (K := k) in * end.
  destruct (r =? fst cv)%nat; [cbn [bind]; apply IH|]. rewrite E. cbn [bind].
  destruct (Rlt_dec (Rabs (snd cv - d)) connTol); [destruct (Rlt_dec connTol (Rabs d))|]; cbn [bind]; rewrite IH; cbn [map]; rewrite <- ?app_assoc; reflexivity.
Qed.

Definition piece (n : nat) (A : mat) (r : nat) : list (nat * nat) :=
  map (fun cv => (r, fst cv)) (filter (pick r (A r r)) (getRow n A r)).

Lemma row_in : forall n A r cv, In cv (getRow n A r) <-> (fst cv < n)%nat /\ snd cv = A r (fst cv) /\ snd cv <> 0.
Proof.
  intros n A r [c v]. unfold getRow. rewrite in_map_iff. cbn [fst snd]. split.
  - intros [x [E Hx]]. inversion E; subst. apply filter_In in Hx as [Hx Hv]. apply in_seq in Hx.
    destruct (Req_EM_T (A r c) 0); [discriminate|]. repeat split; [lia|assumption].
  - intros [H1 [-> H3]]. exists c. split; [reflexivity|]. apply filter_In. split; [apply in_seq; lia|].
    destruct (Req_EM_T (A r c) 0); [contradiction|reflexivity].
Qed.
Lemma row_nodup : forall n A r, NoDup (getRow n A r).
Proof.
  intros n A r. unfold getRow. apply FinFun.Injective_map_NoDup; [intros x y E; inversion E; reflexivity|].
  apply NoDup_filter, seq_NoDup.
Qed.
Lemma diag_found : forall n A r, (r < n)%nat -> A r r <> 0 -> diagOf r (getRow n A r) = Ok (A r r).
Proof.
  intros n A r Hr Hn. unfold diagOf.
  destruct (find (fun cv => (fst cv =? r)%nat) (getRow n A r)) as [[c v]|] eqn:E.
  - apply find_some in E as [Hin He]. apply Nat.eqb_eq in He. cbn [fst] in He. subst c. apply row_in in Hin as [_ [Hv _]].
    cbn [fst snd] in *. subst. reflexivity.
  - exfalso. pose proof (find_none _ _ E (r, A r r)) as H. cbn [fst] in H. rewrite Nat.eqb_refl in H.
    discriminate H. apply row_in. cbn [fst snd]. auto.
Qed.
Lemma map_conn_pieces : forall n A,
  (forall r, (r < n / 2)%nat -> A r r <> 0 \/ getRow n A r = []) ->
  mapConnectivity n A = Ok (flat_map (piece n A) (seq 0 (n / 2))).
Proof.
  intros n A H. unfold mapConnectivity.
  assert (G : forall l acc, (forall r, In r l -> (r < n / 2)%nat) ->
    foldM (fun acc r =>
    let row := getRow n A r in
    foldM (fun acc cv =>
      if (r =? fst cv)%nat then Ok acc else
      d <- diagOf r row ;;
      if Rlt_dec (Rabs (snd cv - d)) connTol then
        (if Rlt_dec connTol (Rabs d) then Ok (acc ++ [(r, fst cv)]) else Ok acc)
      else Ok acc) row acc) l acc = Ok (acc ++ flat_map (piece n A) l)).
  { intros l. induction l as [|r t IH]; intros acc Hl; cbn [foldM flat_map]; [rewrite app_nil_r; reflexivity|].
    assert (Hr : (r < n / 2)%nat) by (apply Hl; left; reflexivity).
    assert (n / 2 <= n)%nat by (apply Nat.div_le_upper_bound; lia).
    assert (E : (let row := getRow n A r in foldM (fun acc cv =>
      if (r =? fst cv)%nat then Ok acc else
      d <- diagOf r row ;;
      if Rlt_dec (Rabs (snd cv - d)) connTol then
        (if Rlt_dec connTol (Rabs d) then Ok (acc ++ [(r, fst cv)]) else Ok acc)
      else Ok acc) row acc) = Ok (acc ++ piece n A r)).
    { cbv zeta. destruct (H r Hr) as [Hd|He].
      - apply row_loop. apply diag_found; [lia|exact Hd].
      - unfold piece. rewrite He. cbn [foldM filter map]. rewrite app_nil_r. reflexivity. }
    match goal with |- bind ?x _ = _ => change x with (let row := getRow n A r in foldM (fun acc cv =>
      if (r =? fst cv)%nat then Ok acc else
      d <- diagOf r row ;;
      if Rlt_dec (Rabs (snd cv - d)) connTol then
        (if Rlt_dec connTol (Rabs d) then Ok (acc ++ [(r, fst cv)]) else Ok acc)
      else Ok acc) row acc) end.
    etransitivity; [apply (f_equal (fun x => bind x _) E)|]. cbn [bind]. rewrite IH by (intros; apply Hl; right; assumption). rewrite app_assoc. reflexivity. }
  apply (G (seq 0 (n / 2)) []). intros r Hr. apply in_seq in Hr. lia.
Qed.

Section Two.
  Variables (F : face) (n : nat) (nodes : list (nat * nat)) (A : mat).
  Hypothesis C : conforms F n nodes.
  Hypothesis S : separated F nodes.
  Hypothesis V : forall r c, (r < n + n)%nat -> (c < n + n)%nat -> A r c = suml (fun q => q_w q * 2 * (shape F q r * shape F q c)) (f_pts F).

  Lemma zero_sum : forall (g : qpoint -> R), (forall q, In q (f_pts F) -> g q = 0) -> suml g (f_pts F) = 0.
  Proof.
    intros g H. rewrite (suml_ext g (fun _ => 0)) by exact H. clear. unfold suml. induction (f_pts F); cbn [map fold_right]; [|rewrite IHl]; ring.
  Qed.
  Lemma el1 : f_el1 F = n. Proof. apply C. Qed.
  Lemma el2 : f_el2 F = Some n. Proof. apply C. Qed.
  Lemma shape_lo : forall q i, (i < n)%nat -> shape F q i = sh1 q i.
  Proof. intros q i H. unfold shape. rewrite el1. replace (i <? n)%nat with true; [reflexivity|symmetry; apply Nat.ltb_lt; exact H]. Qed.
  Lemma shape_hi : forall q j, shape F q (n + j) = sh2 q j.
  Proof.
    intros q j. unfold shape. rewrite el1, el2. replace (n + j <? n)%nat with false by (symmetry; apply Nat.ltb_ge; lia).
    f_equal. lia.
  Qed.

  Lemma not_node_row : forall r c, (r < n)%nat -> ~ In r (map fst nodes) -> (c < n + n)%nat -> A r c = 0.
  Proof.
    intros r c Hr Hn Hc. rewrite V by lia. apply zero_sum. intros q Hq. rewrite shape_lo by exact Hr.
    destruct C as [_ [_ [_ [_ [_ [_ [Z1 _]]]]]]]. rewrite (Z1 q r Hq Hr Hn). ring.
  Qed.
  Lemma entry_low : forall r c, (r < n)%nat -> (c < n)%nat -> A r c = overlap F r c.
  Proof. intros r c Hr Hc. rewrite V by lia. unfold overlap. apply suml_ext. intros q Hq. rewrite !shape_lo by assumption. reflexivity. Qed.
  Lemma entry_zero : forall r c, (r < n)%nat -> (c < n)%nat -> ~ In c (map fst nodes) -> A r c = 0.
  Proof.
    intros r c Hr Hc Hn. rewrite V by lia. apply zero_sum. intros q Hq. rewrite (shape_lo q c Hc).
    destruct C as [_ [_ [_ [_ [_ [_ [Z1 _]]]]]]]. rewrite (Z1 q c Hq Hc Hn). ring.
  Qed.
  Lemma entry_hi : forall r ij, (r < n)%nat -> In ij nodes -> A r (n + snd ij)%nat = overlap F r (fst ij).
  Proof.
    intros r ij Hr Hij. destruct C as [_ [_ [_ [_ [_ [R [_ [_ T]]]]]]]]. rewrite Forall_forall in R. pose proof (R ij Hij) as [R1 R2].
    rewrite V by lia. unfold overlap. apply suml_ext. intros q Hq. rewrite shape_lo by exact Hr. rewrite shape_hi, <- (T q ij Hq Hij). reflexivity.
  Qed.
  Lemma entry_hi_zero : forall r j, (r < n)%nat -> (j < n)%nat -> ~ In j (map snd nodes) -> A r (n + j)%nat = 0.
  Proof.
    intros r j Hr Hj Hn. rewrite V by lia. apply zero_sum. intros q Hq. rewrite shape_hi.
    destruct C as [_ [_ [_ [_ [_ [_ [_ [Z2 _]]]]]]]]. rewrite (Z2 q j Hq Hj Hn). ring.
  Qed.

  Lemma fst_eq : forall ij kl, In ij nodes -> In kl nodes -> fst ij = fst kl -> ij = kl.
  Proof.
    destruct C as [_ [_ [_ [ND _]]]]. revert ND. clear. induction nodes as [|a t IH]; intros ND ij kl H1 H2 E; [destruct H1|].
    cbn [map] in ND. inversion ND as [|? ? N ND']; subst. destruct H1 as [<-|H1], H2 as [<-|H2]; try reflexivity.
    - exfalso. apply N. rewrite E. apply in_map, H2.
    - exfalso. apply N. rewrite <- E. apply in_map, H1.
    - apply IH; assumption.
  Qed.

  Lemma piece_in : forall r p, (r < n)%nat -> In p (piece (n + n) A r) <-> exists ij, In ij nodes /\ fst ij = r /\ p = (r, (n + snd ij)%nat).
  Proof.
    intros r p Hr. unfold piece. rewrite in_map_iff. destruct S as [S1 S2]. split.
    - intros [[c v] [<- Hc]]. apply filter_In in Hc as [Hrow Hp]. apply row_in in Hrow as [Hc [Hv Hnz]]. cbn [fst snd] in *. subst v.
      unfold pick in Hp. cbn [fst snd] in Hp. destruct (Nat.eqb_spec r c) as [|Hrc]; [discriminate|].
      destruct (Rlt_dec (Rabs (A r c - A r r)) connTol) as [Hd|]; [|discriminate].
      assert (Hnode : In r (map fst nodes)).
      { destruct (in_dec Nat.eq_dec r (map fst nodes)) as [H|H]; [exact H|]. exfalso. apply Hnz. apply not_node_row; assumption. }
      apply in_map_iff in Hnode as [ij [Eij Hij]]. exists ij. split; [exact Hij|]. split; [exact Eij|].
      f_equal. destruct (Nat.lt_ge_cases c n) as [Hcn|Hcn].
      + exfalso. destruct (in_dec Nat.eq_dec c (map fst nodes)) as [Hcin|Hcin]; [|apply Hnz, entry_zero; assumption].
        apply in_map_iff in Hcin as [kl [Ekl Hkl]]. rewrite !entry_low in Hd by assumption.
        pose proof (S2 ij kl Hij Hkl) as H. rewrite Eij, Ekl in H. specialize (H Hrc). lra.
      + remember (c - n)%nat as j eqn:Ej. assert (c = n + j)%nat as -> by lia.
        destruct (in_dec Nat.eq_dec j (map snd nodes)) as [Hjin|Hjin]; [|exfalso; apply Hnz, entry_hi_zero; [assumption|lia|assumption]].
        apply in_map_iff in Hjin as [kl [<- Hkl]]. rewrite (entry_hi r kl Hr Hkl), entry_low in Hd by assumption.
        destruct (Nat.eq_dec (fst ij) (fst kl)) as [Ef|Ef].
        * rewrite (fst_eq ij kl Hij Hkl Ef). reflexivity.
        * exfalso. pose proof (S2 ij kl Hij Hkl Ef) as H. rewrite Eij in H. lra.
    - intros [ij [Hij [<- ->]]]. exists ((n + snd ij)%nat, A (fst ij) (n + snd ij)%nat). split; [reflexivity|].
      destruct C as [_ [_ [_ [_ [_ [R _]]]]]]. rewrite Forall_forall in R. pose proof (R ij Hij) as [R1 R2].
      pose proof (S1 ij Hij) as Hpos. pose proof (entry_hi (fst ij) ij R1 Hij) as Eh. pose proof (entry_low (fst ij) (fst ij) R1 R1) as El.
      assert (Ct : 0 < connTol) by (unfold connTol; lra).
      apply filter_In. split.
      + apply row_in. cbn [fst snd]. split; [lia|]. split; [reflexivity|]. rewrite Eh. lra.
      + unfold pick. cbn [fst snd]. replace (fst ij =? n + snd ij)%nat with false by (symmetry; apply Nat.eqb_neq; lia).
        rewrite Eh, El. destruct (Rlt_dec (Rabs (overlap F (fst ij) (fst ij) - overlap F (fst ij) (fst ij))) connTol) as [_|H].
        * destruct (Rlt_dec connTol (Rabs (overlap F (fst ij) (fst ij)))) as [_|H]; [reflexivity|]. exfalso. apply H. rewrite Rabs_pos_eq; lra.
        * exfalso. apply H. rewrite Rminus_diag_eq, Rabs_R0 by reflexivity. exact Ct.
  Qed.

  Lemma map_conn : exists l, mapConnectivity (n + n) A = Ok l /\ StronglySorted (fun p q => (fst p < fst q)%nat) l /\
    forall p, In p l <-> exists ij, In ij nodes /\ p = (fst ij, (n + snd ij)%nat).
  Proof.
    assert (H2 : ((n + n) / 2 = n)%nat) by (replace (n + n)%nat with (n * 2)%nat by lia; apply Nat.div_mul; lia).
    exists (flat_map (fun r => if (r <? n)%nat then piece (n + n) A r else []) (seq 0 n)).
    assert (Eq : flat_map (fun r => if (r <? n)%nat then piece (n + n) A r else []) (seq 0 n) = flat_map (piece (n + n) A) (seq 0 n)).
    { rewrite !flat_map_concat_map. f_equal. apply map_ext_in. intros r Hr. apply in_seq in Hr.
      replace (r <? n)%nat with true; [reflexivity|symmetry; apply Nat.ltb_lt; lia]. }
    split; [|split].
    - rewrite Eq, map_conn_pieces; rewrite H2; [reflexivity|]. intros r Hr.
      destruct (in_dec Nat.eq_dec r (map fst nodes)) as [H|H].
      + left. apply in_map_iff in H as [ij [<- Hij]]. rewrite entry_low by exact Hr. destruct S as [S1 _]. specialize (S1 ij Hij).
        unfold connTol in S1. lra.
      + right. destruct (getRow (n + n) A r) as [|[c v] t] eqn:E; [reflexivity|]. exfalso.
        assert (Hin : In (c, v) (getRow (n + n) A r)) by (rewrite E; left; reflexivity).
        apply row_in in Hin as [Hc [Hv Hnz]]. cbn [fst snd] in *. apply Hnz. subst v. apply not_node_row; assumption.
    - apply sorted_pieces.
      + intros r. destruct (Nat.ltb_spec r n) as [Hr|Hr]; [|cbn; lia]. apply at_most_one.
        * unfold piece. assert (G : NoDup (filter (pick r (A r r)) (getRow (n + n) A r))) by (apply NoDup_filter, row_nodup).
          revert G. assert (G : forall cv, In cv (filter (pick r (A r r)) (getRow (n + n) A r)) -> snd cv = A r (fst cv)).
          { intros cv H. apply filter_In in H as [H _]. apply row_in in H. apply H. }
          revert G. generalize (filter (pick r (A r r)) (getRow (n + n) A r)). induction l as [|cv t IH]; intros G ND; [constructor|].
          inversion ND as [|? ? N ND']; subst. cbn [map]. constructor; [|apply IH; [intros; apply G; right; assumption|exact ND']].
          intros Hin. apply in_map_iff in Hin as [cv' [E Hin]]. inversion E as [E1]. apply N.
          replace cv with cv'; [exact Hin|]. destruct cv as [c v], cv' as [c' v']. cbn [fst snd] in *. subst c'.
          f_equal. pose proof (G _ (or_introl eq_refl)). pose proof (G _ (or_intror Hin)). cbn [fst snd] in *. congruence.
        * intros x y Hx Hy. apply piece_in in Hx as [ij [Hij [E1 ->]]]; [|exact Hr]. apply piece_in in Hy as [kl [Hkl [E2 ->]]]; [|exact Hr].
          rewrite (fst_eq ij kl Hij Hkl) by congruence. reflexivity.
      + intros r p Hp. destruct (Nat.ltb_spec r n) as [Hr|Hr]; [|destruct Hp]. apply piece_in in Hp as [ij [_ [_ ->]]]; [reflexivity|exact Hr].
    - intros p. rewrite Eq, in_flat_map. split.
      + intros [r [Hr Hp]]. apply in_seq in Hr. apply piece_in in Hp as [ij [Hij [E ->]]]; [|lia]. exists ij. split; [exact Hij|]. rewrite E. reflexivity.
      + intros [ij [Hij ->]]. destruct C as [_ [_ [_ [_ [_ [R _]]]]]]. rewrite Forall_forall in R. pose proof (R ij Hij) as [R1 R2].
        exists (fst ij). split; [apply in_seq; lia|]. apply piece_in; [exact R1|]. exists ij. auto.
  Qed.
End Two.

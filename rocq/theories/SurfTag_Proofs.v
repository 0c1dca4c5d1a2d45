(** Proofs that the surface in the file is the one with the tags of the probe. *)
From Coq Require Import ZArith List Bool Lia Reals Classical.
From Verif Require Import Common Sub_Model Sub_Spec Sub_Proofs SubChild_Proofs SurfGeo_Model SurfGeo_Spec SurfGeo_Proofs SurfTag_Model SurfTag_Spec.
Import ListNotations.
Local Open Scope Z_scope.

(** ** The marker *)
Definition hit (tags : list Z) (i : nat) : Z := if existsb (Z.eqb (Z.of_nat i + 1)) tags then 1 else 0.
Lemma marker_tags : forall maxAttr tags, goodTags maxAttr tags ->
  exists mk, buildSurfaceMarker maxAttr tags = Ok mk /\ length mk = Z.to_nat maxAttr /\
    forall i, (i < Z.to_nat maxAttr)%nat -> nth_error mk i = Some (hit tags i).
Proof.
  intros maxAttr tags H. unfold buildSurfaceMarker.
  destruct (foldM_inv (fun m t => zset m (t - 1) 1) (fun done mk => length mk = Z.to_nat maxAttr /\
     forall i, (i < Z.to_nat maxAttr)%nat -> nth_error mk i = Some (hit done i)) tags (repeat 0 (Z.to_nat maxAttr))) as (mk & E & I1 & I2).
  - split; [apply repeat_length|]. intros i Hi. unfold hit. cbn. apply nth_error_repeat. exact Hi.
  - intros done t rest mk E (L & N). assert (Ht : In t tags) by (rewrite E; apply in_or_app; right; left; reflexivity). apply H in Ht.
    rewrite zset_in_range by lia. eexists; split; [reflexivity|]. split; [rewrite upd_length; exact L|].
    intros i Hi. unfold hit. rewrite existsb_app. cbn [existsb]. destruct (Nat.eq_dec (Z.to_nat (t - 1)) i) as [<-|D].
    + rewrite Common.nth_error_upd_same by lia. rewrite (proj2 (Z.eqb_eq _ _)) by lia. now rewrite orb_true_r.
    + rewrite Common.nth_error_upd_other by (exact D || congruence). rewrite (N i Hi). unfold hit.
      rewrite (proj2 (Z.eqb_neq (Z.of_nat i + 1) t)) by lia. now rewrite !orb_false_r.
  - exists mk. split; [exact E|]. split; [exact I1|exact I2].
Qed.
Lemma tag_outside : forall m maxAttr tags f t, In t tags -> ~ 1 <= t <= maxAttr -> childElements m maxAttr tags f = UB.
Proof.
  intros m maxAttr tags f t Ht N. unfold childElements, buildSurfaceMarker.
  enough (G : forall mk, length mk = Z.to_nat maxAttr -> foldM (fun m t => zset m (t - 1) 1) tags mk = UB) by (rewrite G; [reflexivity|apply repeat_length]).
  induction tags as [|x r IH]; intros mk L; [contradiction|]. cbn [foldM].
  destruct (zset mk (x - 1) 1) as [mk'| |] eqn:E; cbn [bind]; try reflexivity.
  - destruct (zset_ok _ _ _ _ E) as (B & ->). destruct Ht as [->|Ht]; [lia|]. apply IH; [exact Ht|]. rewrite upd_length. exact L.
  - exfalso. revert E. unfold zset. destruct (x - 1 <? 0); [discriminate|]. destruct (_ <? _)%nat; discriminate.
Qed.

(** ** The marked boundary elements *)
Lemma hit_one : forall tags i, hit tags i = 1 <-> In (Z.of_nat i + 1) tags.
Proof.
  intros tags i. unfold hit. destruct (existsb (Z.eqb (Z.of_nat i + 1)) tags) eqn:E.
  - split; [|reflexivity]. intros _. apply existsb_exists in E. destruct E as (x & Hx & Q). apply Z.eqb_eq in Q. now subst.
  - split; [discriminate|]. intros H. exfalso. rewrite <- not_true_iff_false in E. apply E. apply existsb_exists. eexists; split; [exact H|]. apply Z.eqb_refl.
Qed.
Lemma marked_tags : forall m maxAttr tags mk z, (forall b, In b (m_bdr m) -> 1 <= b_attr b <= maxAttr) -> length mk = Z.to_nat maxAttr ->
  (forall i, (i < Z.to_nat maxAttr)%nat -> nth_error mk i = Some (hit tags i)) ->
  (In z (marked m mk) <-> exists be b, z = Z.of_nat be /\ nth_error (m_bdr m) be = Some b /\ In (b_attr b) tags).
Proof.
  intros m maxAttr tags mk z C L N. unfold marked. rewrite filter_In, in_zseq. unfold markedB.
  assert (Q : forall b, In b (m_bdr m) -> nth_error mk (Z.to_nat (b_attr b - 1)) = Some (hit tags (Z.to_nat (b_attr b - 1))) /\
     (hit tags (Z.to_nat (b_attr b - 1)) = 1 <-> In (b_attr b) tags)).
  { intros b Hb. specialize (C b Hb). split; [apply N; lia|]. rewrite hit_one. replace (Z.of_nat (Z.to_nat (b_attr b - 1)) + 1) with (b_attr b) by lia. tauto. }
  split.
  - intros (Hz & M). exists (Z.to_nat z). destruct (nth_error (m_bdr m) (Z.to_nat z)) as [b|] eqn:E; [|discriminate].
    exists b. destruct (Q b (nth_error_In _ _ E)) as (Q1 & Q2). rewrite Q1 in M. apply Z.eqb_eq in M. repeat split; [lia|apply Q2, M].
  - intros (be & b & -> & E & Hin). assert (be < length (m_bdr m))%nat by (apply nth_error_Some; congruence). split; [lia|].
    rewrite Nat2Z.id, E. destruct (Q b (nth_error_In _ _ E)) as (Q1 & Q2). rewrite Q1. apply Z.eqb_eq, Q2, Hin.
Qed.
Lemma zget_nat : forall {A} (l : list A) i a, zget l (Z.of_nat i) = Ok a <-> nth_error l i = Some a.
Proof. intros A l i a. rewrite zget_ok, Nat2Z.id. split; [tauto|]. intros H; split; [lia|exact H]. Qed.
Lemma tagged_inherits : forall m maxAttr tags mk f i, (forall b, In b (m_bdr m) -> 1 <= b_attr b <= maxAttr) -> length mk = Z.to_nat maxAttr ->
  (forall i, (i < Z.to_nat maxAttr)%nat -> nth_error mk i = Some (hit tags i)) ->
  (onTagged m tags f i <-> exists be, In be (marked m mk) /\ inherits (fa_f2b f) (fa_cf2b f) (fa_map f) be (Z.of_nat i)).
Proof.
  intros m maxAttr tags mk f i C L N. split.
  - intros (be & b & face & cface & E1 & E2 & E3 & E4 & E5). exists (Z.of_nat be). split.
    + apply (marked_tags m maxAttr tags mk _ C L N). exists be, b. auto.
    + exists (Z.of_nat face), (Z.of_nat cface). rewrite !zget_nat. repeat split; auto. lia.
  - intros (z & M & pf & cf & A & B & D & _). apply (marked_tags m maxAttr tags mk _ C L N) in M. destruct M as (be & b & -> & E & Hin).
    pose proof (proj1 (zget_ok _ _ _) A) as (P1 & A'). pose proof (proj1 (zget_ok _ _ _) B) as (P2 & B'). pose proof (proj1 (zget_ok _ _ _) D) as (_ & D').
    exists be, b, (Z.to_nat pf), (Z.to_nat cf). rewrite Z2Nat.id by exact P1. auto.
Qed.

(** ** The elements of the child *)
Lemma child_ok : forall m maxAttr tags f, goodFamily m maxAttr f -> goodTags maxAttr tags ->
  exists a, childElements m maxAttr tags f = Ok (map (fun p => mkBE (fst p) (snd p)) (combine a (fa_rule f))) /\ length a = length (fa_attr f) /\
    forall i, (i < length (fa_attr f))%nat -> (onTagged m tags f i -> nth_error a i = Some 201) /\ (~ onTagged m tags f i -> nth_error a i = nth_error (fa_attr f) i).
Proof.
  intros m maxAttr tags f (C & O & N & L & B & _) T. unfold childElements. destruct (marker_tags maxAttr tags T) as (mk & E & Lm & Nm). rewrite E. cbn [bind].
  destruct (setChild_ok m mk (fa_f2b f) (fa_cf2b f) (fa_map f) (fa_attr f) ntff) as (a & Ea & La & Ha); auto.
  - intros b Hb. specialize (C b Hb). lia.
  - intros i j v Hv Hi Hj. apply zget_ok in Hi as [Pi Hi]. apply zget_ok in Hj as [Pj Hj]. assert (Z.to_nat i = Z.to_nat j) by (apply (O _ _ v); auto). lia.
  - rewrite Ea. cbn [bind]. exists a. split; [reflexivity|]. split; [exact La|]. intros i Hi.
    destruct (Ha (Z.of_nat i)) as (H1 & H2); [lia|]. pose proof (tagged_inherits m maxAttr tags mk f i C Lm Nm) as Q. split.
    + intros H. apply zget_nat. apply H1, Q, H.
    + intros H. assert (G : zget a (Z.of_nat i) = zget (fa_attr f) (Z.of_nat i)).
      { apply H2. intros be Hb Hinh. apply H, Q. exists be; auto. }
      assert (Hl : (i < length a)%nat) by lia. apply nth_error_Some in Hl. destruct (nth_error a i) as [x|] eqn:Ex; [|congruence].
      apply zget_nat in Ex. rewrite G in Ex. apply zget_nat in Ex. congruence.
Qed.
Lemma points_pick : forall a rules, surfacePoints (map (fun p => mkBE (fst p) (snd p)) (combine a rules)) = pick (map (Z.eqb 201) a) rules.
Proof.
  induction a as [|x a IH]; intros [|r rules]; try reflexivity. cbn [combine map fst snd surfacePoints pick]. rewrite IH. f_equal.
  destruct (Z.eq_dec x 201) as [->|D]; [reflexivity|]. destruct (Z.eqb_spec 201 x); [congruence|reflexivity].
Qed.
Lemma in_combine_nth : forall {A B} (l : list A) (r : list B) i x, length r = length l -> nth_error l i = Some x -> exists y, In (x, y) (combine l r).
Proof.
  induction l as [|a l IH]; intros [|b r] [|i] x L E; cbn in *; try discriminate.
  - injection E as ->. exists b; auto.
  - destruct (IH r i x) as (y & Hy); [lia|exact E|]. exists y; auto.
Qed.

Lemma surface_ok : forall dim m maxAttr tags f, goodFamily m maxAttr f -> goodTags maxAttr tags ->
  ~ In 201 (fa_attr f) -> (exists i, onTagged m tags f i) ->
  exists sel, length sel = length (fa_attr f) /\ (forall i, nth_error sel i = Some true <-> onTagged m tags f i) /\
    let pts := pick sel (fa_rule f) in
    (Forall (regular dim) pts -> exists A, exportSurface dim m maxAttr tags f = Ok (length pts, A) /\ describes dim pts (a_pos A) (a_nor A) (a_wei A)).
Proof.
  intros dim m maxAttr tags f G T N (i0 & H0). destruct (child_ok m maxAttr tags f G T) as (a & E & L & Ha).
  destruct G as (C & O & Nd & L2 & B & L3 & P).
  assert (R : forall i, onTagged m tags f i -> (i < length (fa_attr f))%nat).
  { intros i (be & b & face & cface & _ & _ & _ & _ & Q). apply nth_error_In in Q. apply B in Q. lia. }
  assert (K : forall i, nth_error a i = Some 201 <-> onTagged m tags f i).
  { intros i. split.
    - intros Q. assert (Hi : (i < length (fa_attr f))%nat) by (rewrite <- L; apply nth_error_Some; congruence).
      destruct (classic (onTagged m tags f i)) as [Y|Y]; [exact Y|]. exfalso. apply N. destruct (Ha i Hi) as (_ & H2).
      rewrite H2 in Q by exact Y. exact (nth_error_In _ _ Q).
    - intros Q. apply (Ha i (R i Q)), Q. }
  exists (map (Z.eqb 201) a). split; [rewrite map_length; exact L|]. split.
  - intros i. rewrite <- K, nth_error_map. destruct (nth_error a i) as [x|]; cbn [option_map]; [|split; discriminate].
    destruct (Z.eqb_spec 201 x) as [<-|D]; split; congruence.
  - cbv zeta. intros Rg. unfold exportSurface. rewrite E. cbn [bind].
    set (els := map (fun p => mkBE (fst p) (snd p)) (combine a (fa_rule f))) in *.
    assert (HS : hasSurface els).
    { split.
      - intros e He. apply in_map_iff in He. destruct He as ((x & r) & <- & Hin). cbn [be_attr fst]. apply in_combine_l in Hin.
        apply In_nth_error in Hin. destruct Hin as (i & Hi). assert (Hl : (i < length (fa_attr f))%nat) by (rewrite <- L; apply nth_error_Some; congruence).
        destruct (classic (onTagged m tags f i)) as [Y|Y].
        + apply K in Y. rewrite Hi in Y. injection Y as ->. lia.
        + destruct (Ha i Hl) as (_ & H2). rewrite H2 in Hi by exact Y. apply P. exact (nth_error_In _ _ Hi).
      - apply K in H0. destruct (in_combine_nth a (fa_rule f) i0 201) as (y & Hy); [lia|exact H0|].
        exists (mkBE 201 y). split; [|cbn; lia]. apply in_map_iff. exists (201, y). auto. }
    rewrite count_ok by exact HS. cbn [bind]. pose proof (points_pick a (fa_rule f)) as PP. fold els in PP.
    destruct (geometry_ok dim els HS) as (A & EA & D); [rewrite PP; exact Rg|]. rewrite EA. cbn [bind]. rewrite PP in *. exists A. auto.
Qed.

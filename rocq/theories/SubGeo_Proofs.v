From Coq Require Import ZArith List Bool Reals Lra Lia Permutation.
From Verif Require Import Common Conn_Model Sub_Model Sub_Spec Sub_Proofs.
Import ListNotations.
Local Open Scope R_scope.

(** ** The plane *)
Definition suml (l : list R) : R := fold_right Rplus 0 l.
Definition lin (t : point) (p : point) : R := let '(tx, ty, _) := t in let '(px, py, _) := p in tx * py - ty * px.
Lemma lin_fold : forall t ps acc, lin t (fold_left padd3 ps acc) = lin t acc + suml (map (lin t) ps).
Proof.
  intros [[tx ty] tz] ps. induction ps as [|p ps IH]; intros acc; cbn [fold_left map suml fold_right]; [lra|]. rewrite IH.
  destruct p as [[px py] pz_], acc as [[ax ay] az]. cbn [lin padd3]. unfold suml. lra.
Qed.
Lemma side_lin : forall a b p, sideOf a b p = lin (psub b a) p - lin (psub b a) a.
Proof. intros [[ax ay] az] [[bx by_] bz] [[px py] pz_]. cbn [sideOf lin psub]. ring. Qed.
Lemma suml_side : forall a b ps, suml (map (sideOf a b) ps) = suml (map (lin (psub b a)) ps) - INR (length ps) * lin (psub b a) a.
Proof.
  intros a b ps. induction ps as [|p ps IH]; [cbn; lra|]. change (length (p :: ps)) with (S (length ps)). rewrite S_INR. cbn [map suml fold_right].
  fold (suml (map (sideOf a b) ps)). fold (suml (map (lin (psub b a)) ps)). rewrite IH, side_lin. ring.
Qed.
Lemma side_mean : forall a b ps, ps <> [] -> INR (length ps) * sideOf a b (mean ps) = suml (map (sideOf a b) ps).
Proof.
  intros a b ps H. assert (N : INR (length ps) <> 0) by (destruct ps; [contradiction|]; apply not_0_INR; discriminate).
  rewrite suml_side, side_lin. unfold mean. pose proof (lin_fold (psub b a) ps (0, 0, 0)) as E.
  destruct (fold_left padd3 ps (0, 0, 0)) as [[sx sy] sz]. destruct (psub b a) as [[tx ty] tz]. cbn [lin pscal] in *. 
  replace (suml (map (lin (tx, ty, tz)) ps)) with (tx * sy - ty * sx) by lra. destruct a as [[ax ay] az]. field. exact N.
Qed.
Lemma suml_nonneg : forall l, (forall x, In x l -> 0 <= x) -> 0 <= suml l.
Proof. induction l as [|x l IH]; intros H; cbn [suml fold_right]; [lra|]. fold (suml l). specialize (IH (fun y Hy => H y (or_intror Hy))). specialize (H x (or_introl eq_refl)). lra. Qed.
Lemma suml_pos : forall l, (forall x, In x l -> 0 <= x) -> (exists x, In x l /\ 0 < x) -> 0 < suml l.
Proof.
  induction l as [|x l IH]; intros H [y [Hy P]]; [destruct Hy|]. cbn [suml fold_right]. fold (suml l).
  pose proof (H x (or_introl eq_refl)) as Hx. pose proof (suml_nonneg l (fun y Hy => H y (or_intror Hy))).
  destruct Hy as [<-|Hy]; [lra|]. assert (0 < suml l) by (apply IH; [intros z Hz; apply H; right; exact Hz|exists y; split; assumption]). lra.
Qed.
Lemma suml_opp : forall l, suml (map Ropp l) = - suml l.
Proof. induction l as [|x l IH]; cbn [map suml fold_right]; [lra|]. fold (suml (map Ropp l)). fold (suml l). rewrite IH. lra. Qed.

Lemma mapM_all : forall {A B} (f : A -> res B) (l : list A) ys, mapM f l = Ok ys -> Forall2 (fun x y => f x = Ok y) l ys.
Proof.
  intros A B f l. induction l as [|x l IH]; intros ys H; cbn [mapM] in H; [injection H as <-; constructor|].
  destruct (f x) as [y| |] eqn:E; [|discriminate H|discriminate H]. cbn [bind] in H. destruct (mapM f l) as [zs| |]; [|discriminate H|discriminate H]. cbn [bind] in H.
  injection H as <-. constructor; [exact E|apply IH; reflexivity].
Qed.
Lemma F2_in_r : forall {A B} (P : A -> B -> Prop) l ys y, Forall2 P l ys -> In y ys -> exists x, In x l /\ P x y.
Proof. intros A B P l ys y F. induction F; intros H'; [destruct H'|]. destruct H' as [<-|H']; [eexists; split; [left; reflexivity|eassumption]|]. destruct (IHF H') as [z [Hz Pz]]. exists z. split; [right; exact Hz|exact Pz]. Qed.
Lemma F2_in_l : forall {A B} (P : A -> B -> Prop) l ys x, Forall2 P l ys -> In x l -> exists y, In y ys /\ P x y.
Proof. intros A B P l ys x F. induction F; intros H'; [destruct H'|]. destruct H' as [<-|H']; [eexists; split; [left; reflexivity|eassumption]|]. destruct (IHF H') as [z [Hz Pz]]. exists z. split; [right; exact Hz|exact Pz]. Qed.

Lemma left_mean : forall m a b vs p, allLeft m a b vs -> (ps <- mapM (zget (m_coord m)) vs ;; Ok (mean ps)) = Ok p -> 0 < sideOf a b p.
Proof.
  intros m a b vs p [H [v [q [Hv [Hq Hp]]]]] E. destruct (mapM (zget (m_coord m)) vs) as [ps| |] eqn:Eps; cbn [bind] in E; [|discriminate E|discriminate E]. injection E as <-.
  apply mapM_all in Eps. destruct (F2_in_l _ _ _ _ Eps Hv) as [q' [Hq' Eq']]. rewrite Hq in Eq'. injection Eq' as <-.
  assert (N : ps <> []) by (intros ->; destruct Hq'). assert (P : 0 < INR (length ps)) by (apply lt_0_INR; destruct ps; [contradiction|cbn; lia]).
  apply Rmult_lt_reg_l with (INR (length ps)); [exact P|]. rewrite Rmult_0_r, side_mean by exact N. apply suml_pos.
  - intros x Hx. apply in_map_iff in Hx as [r [<- Hr]]. destruct (F2_in_r _ _ _ _ Eps Hr) as [w [Hw Ew]]. apply (H w r Hw Ew).
  - exists (sideOf a b q). split; [apply in_map; exact Hq'|exact Hp].
Qed.
Lemma right_mean : forall m a b vs p, allRight m a b vs -> (ps <- mapM (zget (m_coord m)) vs ;; Ok (mean ps)) = Ok p -> sideOf a b p < 0.
Proof.
  intros m a b vs p [H [v [q [Hv [Hq Hp]]]]] E. destruct (mapM (zget (m_coord m)) vs) as [ps| |] eqn:Eps; cbn [bind] in E; [|discriminate E|discriminate E]. injection E as <-.
  apply mapM_all in Eps. destruct (F2_in_l _ _ _ _ Eps Hv) as [q' [Hq' Eq']]. rewrite Hq in Eq'. injection Eq' as <-.
  assert (N : ps <> []) by (intros ->; destruct Hq'). assert (P : 0 < INR (length ps)) by (apply lt_0_INR; destruct ps; [contradiction|cbn; lia]).
  apply Rmult_lt_reg_l with (INR (length ps)); [exact P|]. rewrite Rmult_0_r, side_mean by exact N. rewrite <- (Ropp_involutive (suml _)), <- suml_opp.
  apply Ropp_lt_gt_0_contravar. apply suml_pos.
  - intros x Hx. apply in_map_iff in Hx as [y [<- Hy]]. apply in_map_iff in Hy as [r [<- Hr]]. destruct (F2_in_r _ _ _ _ Eps Hr) as [w [Hw Ew]]. specialize (H w r Hw Ew). lra.
  - exists (- sideOf a b q). split; [apply in_map; apply in_map; exact Hq'|lra].
Qed.

Lemma ccw_orientation : forall m be, m_dim m = 2%Z -> ccwFace m be -> forall o, faceOrientation m be = Ok o -> 0 < o.
Proof.
  intros m be D [f [e1 [e2 [i [j [rest [a [b [vs1 [HB [Hfv [-> [Ha [Hb [Hv1 [HL HR]]]]]]]]]]]]]]]] o Ho.
  unfold faceOrientation in Ho. rewrite D in Ho. cbn [Z.eqb Pos.eqb] in Ho. destruct HB as [bd [Hbd [<- Hf]]].
  unfold baryVector, faceTrans in Ho. rewrite Hbd in Ho. cbn [bind] in Ho. rewrite Hf in Ho. cbn [bind] in Ho.
  destruct (baryElem m e1) as [p1| |] eqn:E1; cbn [bind] in Ho; [|discriminate Ho|discriminate Ho].
  assert (S1 : 0 < sideOf a b p1). { apply (left_mean m a b vs1 p1 HL). unfold baryElem in E1. rewrite Hv1 in E1. exact E1. }
  destruct (if (0 <=? e2)%Z then baryElem m e2 else baryFace m (b_face bd)) as [p2| |] eqn:E2; cbn [bind] in Ho; [|discriminate Ho|discriminate Ho].
  assert (S2 : sideOf a b p2 <= 0).
  { destruct (Z.leb_spec 0 e2).
    - destruct HR as [vs2 [Hv2 HR]]; [assumption|]. left. apply (right_mean m a b vs2 p2 HR). unfold baryElem in E2. rewrite Hv2 in E2. exact E2.
    - right. unfold baryFace in E2. rewrite Hfv in E2. cbn [bind mapM] in E2. rewrite Ha, Hb in E2. cbn [bind] in E2. injection E2 as <-.
      destruct a as [[ax ay] az], b as [[bx by_] bz]. unfold mean. cbn [length fold_left padd3 pscal sideOf INR]. field. }
  unfold tangent2D, faceVertex in Ho. rewrite Hbd in Ho. cbn [bind] in Ho. rewrite Hfv in Ho. cbn [bind] in Ho.
  change (zget [i; j] 0) with (Ok i) in Ho. change (zget [i; j] 1) with (Ok j) in Ho. cbn [bind] in Ho. rewrite Ha, Hb in Ho. cbn [bind] in Ho. injection Ho as <-.
  destruct a as [[ax ay] az], b as [[bx by_] bz], p1 as [[x1 y1] z1], p2 as [[x2 y2] z2]. cbn [psub flat pcross pz sideOf] in *. lra.
Qed.
Lemma ccw_not_tf : forall m be d, m_dim m = 2%Z -> ccwFace m be -> elem1IsTF2D m be = Ok d -> d = false.
Proof.
  intros m be d D C H. unfold elem1IsTF2D in H. destruct (faceOrientation m be) as [o| |] eqn:E; cbn [bind] in H; [|discriminate H|discriminate H].
  pose proof (ccw_orientation m be D C o E). destruct (Rle_dec 0 o); [congruence|lra].
Qed.
Lemma ccw_choice : forall m marker be, m_dim m = 2%Z -> ccwFace m be -> choice m marker be = false.
Proof.
  intros m marker be D C. unfold choice. rewrite D. cbn [Z.eqb Pos.eqb]. destruct (elem1IsTF2D m be) as [d| |] eqn:E; [|reflexivity|reflexivity].
  apply (ccw_not_tf m be d D C E).
Qed.

(** ** Space: the nearer of the two barycentres to the centre is in the total field *)
Lemma tf3_iff : forall m c be f e1 e2 p1 p2, beside m be f e1 e2 -> (0 <= e2)%Z -> baryElem m e1 = Ok p1 -> baryElem m e2 = Ok p2 ->
  exists d, elem1IsTF3D m c be = Ok d /\ (d = true <-> 0 < pdot (psub p2 p1) (psub (pscal (/ 2) (padd3 p1 p2)) c)).
Proof.
  intros m c be f e1 e2 p1 p2 [b [Hb [<- Hf]]] G E1 E2. unfold elem1IsTF3D, faceTrans. rewrite Hb. cbn [bind]. rewrite Hf. cbn [bind]. rewrite E1. cbn [bind].
  destruct (Z.leb_spec 0 e2); [|lia]. rewrite E2. cbn [bind]. eexists. split; [reflexivity|].
  assert (Q : distSq p2 c - distSq p1 c = 2 * pdot (psub p2 p1) (psub (pscal (/ 2) (padd3 p1 p2)) c)).
  { destruct p1 as [[x1 y1] z1], p2 as [[x2 y2] z2], c as [[cx cy] cz]. unfold distSq. cbn [psub pdot pscal padd3]. field. }
  destruct (Rlt_dec (distSq p1 c) (distSq p2 c)); split; intros H1; try reflexivity; try discriminate H1; lra.
Qed.
Lemma tf3_straight : forall m c be f e1 e2 p1 p2 n k, beside m be f e1 e2 -> (0 <= e2)%Z -> baryElem m e1 = Ok p1 -> baryElem m e2 = Ok p2 ->
  psub p2 p1 = pscal k n -> 0 < k -> pdot n (psub (pscal (/ 2) (padd3 p1 p2)) c) <> 0 ->
  exists d, elem1IsTF3D m c be = Ok d /\ (d = true <-> 0 < pdot n (psub (pscal (/ 2) (padd3 p1 p2)) c)).
Proof.
  intros m c be f e1 e2 p1 p2 n k HB G E1 E2 S K N. destruct (tf3_iff m c be f e1 e2 p1 p2 HB G E1 E2) as [d [Ed Hd]]. exists d. split; [exact Ed|]. rewrite Hd, S.
  set (w := psub (pscal (/ 2) (padd3 p1 p2)) c). assert (Q : pdot (pscal k n) w = k * pdot n w) by (destruct n as [[nx ny] nz], w as [[wx wy] wz]; cbn [pscal pdot]; ring).
  rewrite Q. split; intros H; [|apply Rmult_lt_0_compat; assumption]. destruct (Rle_lt_dec (pdot n w) 0) as [L|L]; [|exact L]. nra.
Qed.

(** ** Far field *)
Local Open Scope Z_scope.
(** The pair recorded for a face. *)
Definition ntffPair (m : mesh) (be : Z) (neg : bool) (p : Z * Z) : Prop :=
  exists f e1 e2 l1, beside m be f e1 e2 /\ localFace m e1 f l1 /\
   ((0 <= e2 /\ exists l2, localFace m e2 f l2 /\ p = (if neg then e2 else e1, if m_dim m =? 2 then l1 else l2)) \/ (e2 < 0 /\ p = (e1, l1))).
Definition neg (m : mesh) (be : Z) : bool := match faceOrientation m be with Ok o => if Rle_dec 0 o then false else true | _ => false end.
Definition ntffStep (m : mesh) (s : list Z * list (Z * Z)) (be : Z) := if m_dim m =? 2 then ntff2D m s be else ntff3D m s be.

Lemma orientation_ok : forall m be, wfMesh m -> wfGeo m -> m_dim m = 2 \/ m_dim m = 3 -> (exists b, zget (m_bdr m) be = Ok b) -> exists o, faceOrientation m be = Ok o.
Proof.
  intros m be W G D [b Hb]. unfold faceOrientation. destruct (bdr_beside m be b W Hb) as [e1 [e2 Hf]]. destruct (faceTrans_beside m be b e1 e2 Hb Hf) as [HT _].
  destruct (bary2_ok m be b e1 e2 W G Hb Hf) as [p1 [p2 [E1 E2]]].
  assert (BV : baryVector m be = Ok (psub p2 p1)) by (unfold baryVector; rewrite Hb; cbn [bind]; rewrite HT; cbn [bind]; rewrite E1; cbn [bind]; rewrite E2; reflexivity).
  rewrite BV. cbn [bind]. destruct (faceVertex_ok m be b 0 W G Hb) as [v0 V0]; [lia|]. destruct (faceVertex_ok m be b 1 W G Hb) as [v1 V1]; [lia|].
  destruct D as [D|D]; rewrite D; cbn [Z.eqb Pos.eqb].
  - unfold tangent2D. rewrite V0. cbn [bind]. rewrite V1. eexists. reflexivity.
  - unfold normal3D. rewrite Hb. cbn [bind]. destruct (wf_bdr m W be b Hb) as [v [Hv _]]. rewrite Hv. cbn [bind]. rewrite V0. cbn [bind]. rewrite V1. cbn [bind].
    destruct (Nat.eqb_spec (length v) 4) as [L|L].
    + destruct G as [_ [G2 _]]. unfold faceVertex. rewrite Hb. cbn [bind]. rewrite Hv. cbn [bind]. destruct (zget_some v 3) as [x Hx]; [lia|]. rewrite Hx. cbn [bind].
      destruct (zget_some (m_coord m) x) as [v2 V2]; [apply (G2 v); [apply (zget_in _ _ _ Hv)|apply (zget_in _ _ _ Hx)]|]. rewrite V2. eexists. reflexivity.
    + destruct (faceVertex_ok m be b 2 W G Hb) as [v2 V2]; [lia|]. rewrite V2. eexists. reflexivity.
Qed.
Lemma ntffStep_ok : forall m s be, wfMesh m -> wfGeo m -> m_dim m = 2 \/ m_dim m = 3 -> (exists b, zget (m_bdr m) be = Ok b) -> length (fst s) = length (m_everts m) ->
  exists a p, ntffStep m s be = Ok (a, snd s ++ [p]) /\ length a = length (m_everts m) /\ ntffPair m be (neg m be) p.
Proof.
  intros m s be W G D Hb La. destruct (orientation_ok m be W G D Hb) as [o Ho]. destruct Hb as [b Hb].
  destruct (bdr_beside m be b W Hb) as [e1 [e2 Hf]]. destruct (faceTrans_beside m be b e1 e2 Hb Hf) as [HT HB].
  destruct (wf_face m W _ _ _ Hf) as [H1 [H2 [Hne [[l1 L1] Hl2]]]]. unfold numElems in H1, H2.
  unfold neg. rewrite Ho. set (k := if Rle_dec 0 o then false else true).
  assert (NF : forall l e, localFace m e (b_face b) l -> (l =? NotFound) = false).
  { intros l e [fs [_ E]]. apply zget_len in E. apply Z.eqb_neq. unfold NotFound. lia. }
  unfold ntffStep. destruct (Z.leb_spec 0 e2) as [G2|G2].
  - destruct (Hl2 G2) as [l2 L2].
    assert (ST : (if m_dim m =? 2 then ntff2D m s be else ntff3D m s be) = ntffPrepare s e1 e2 (if m_dim m =? 2 then l1 else l2) k).
    { destruct (m_dim m =? 2).
      - unfold ntff2D. rewrite Ho. cbn [bind]. rewrite HT. cbn [bind]. fold k. rewrite (infoOf_ok m be e1 l1 b k W Hb L1). reflexivity.
      - unfold ntff3D. rewrite Ho. cbn [bind]. rewrite HT. cbn [bind]. destruct (Z.leb_spec 0 e2); [|lia]. fold k. rewrite (infoOf_ok m be e2 l2 b k W Hb L2). reflexivity. }
    rewrite ST. set (l := if m_dim m =? 2 then l1 else l2). assert (Nl : (l =? NotFound) = false) by (unfold l; destruct (m_dim m =? 2); [apply (NF l1 e1 L1)|apply (NF l2 e2 L2)]).
    unfold ntffPrepare. rewrite Nl. cbn [negb]. destruct (Z.leb_spec 0 e2); [|lia]. rewrite andb_true_r. destruct k; cbn [negb].
    + rewrite zset_spec by lia. cbn [bind]. eexists. exists (e2, l). split; [reflexivity|]. split; [rewrite upd_length; exact La|].
      exists (b_face b), e1, e2, l1. split; [exact HB|]. split; [exact L1|]. left. split; [exact G2|]. exists l2. split; [exact L2|reflexivity].
    + rewrite zset_spec by lia. cbn [bind]. eexists. exists (e1, l). split; [reflexivity|]. split; [rewrite upd_length; exact La|].
      exists (b_face b), e1, e2, l1. split; [exact HB|]. split; [exact L1|]. left. split; [exact G2|]. exists l2. split; [exact L2|reflexivity].
  - assert (ST : exists k', (if m_dim m =? 2 then ntff2D m s be else ntff3D m s be) = ntffPrepare s e1 e2 l1 k').
    { destruct (m_dim m =? 2).
      - exists k. unfold ntff2D. rewrite Ho. cbn [bind]. rewrite HT. cbn [bind]. fold k. rewrite (infoOf_ok m be e1 l1 b k W Hb L1). reflexivity.
      - exists false. unfold ntff3D. rewrite Ho. cbn [bind]. rewrite HT. cbn [bind]. destruct (Z.leb_spec 0 e2); [lia|]. rewrite (infoOf_ok m be e1 l1 b false W Hb L1). reflexivity. }
    destruct ST as [k' ST]. rewrite ST. unfold ntffPrepare. rewrite (NF l1 e1 L1). cbn [negb]. destruct (Z.leb_spec 0 e2); [lia|]. rewrite andb_false_r.
    assert (PP : ntffPair m be k (e1, l1)) by (exists (b_face b), e1, e2, l1; split; [exact HB|]; split; [exact L1|]; right; split; [lia|reflexivity]).
    destruct k'; cbn [negb].
    + cbn [bind]. exists (fst s), (e1, l1). split; [reflexivity|]. split; [exact La|exact PP].
    + rewrite zset_spec by lia. cbn [bind]. eexists. exists (e1, l1). split; [reflexivity|]. split; [rewrite upd_length; exact La|exact PP].
Qed.
Lemma ntff_ok : forall m marker attrs, wfMesh m -> wfGeo m -> covers m marker -> m_dim m = 2 \/ m_dim m = 3 -> length attrs = length (m_everts m) -> marked m marker <> [] ->
  exists a ps, ntffSubMesher m marker attrs = Ok (a, ps) /\ Forall2 (fun be p => ntffPair m be (neg m be) p) (marked m marker) ps.
Proof.
  intros m marker attrs W G C D La NE. unfold ntffSubMesher.
  assert (ED : (m_dim m =? 2) || (m_dim m =? 3) = true) by (destruct D as [D|D]; rewrite D; reflexivity). rewrite ED.
  assert (F : forall l s, (forall be, In be l -> exists b, zget (m_bdr m) be = Ok b) -> length (fst s) = length (m_everts m) ->
    exists a ps, foldM (ntffStep m) l s = Ok (a, snd s ++ ps) /\ Forall2 (fun be p => ntffPair m be (neg m be) p) l ps).
  { induction l as [|be l IH]; intros s Hl L; [exists (fst s), []; rewrite app_nil_r; destruct s; split; [reflexivity|constructor]|].
    destruct (ntffStep_ok m s be W G D (Hl be (or_introl eq_refl)) L) as [a1 [p [E1 [L1 P1]]]].
    destruct (IH (a1, snd s ++ [p])) as [a [ps [E P]]]; [intros x Hx; apply Hl; right; exact Hx|exact L1|].
    exists a, (p :: ps). cbn [foldM]. rewrite E1. cbn [bind]. rewrite E. cbn [snd]. rewrite <- app_assoc. split; [reflexivity|constructor; assumption]. }
  destruct (F (marked m marker) (attrs, []) (marked_ok m marker) La) as [a [ps [E P]]]. exists a, ps.
  pose proof (foldM_filter m marker (ntffStep m) (numBdr m) (attrs, []) C (numBdr_ok m)) as Q. unfold ntffStep at 1 in Q. rewrite Q.
  change (filter (markedB m marker) (numBdr m)) with (marked m marker). rewrite E. cbn [bind snd app]. destruct ps as [|p ps]; [inversion P as [Q'|]; congruence|].
  split; [reflexivity|exact P].
Qed.

(** In the plane, with counter-clockwise faces, the pairs are right. *)
Lemma ntff2_right : forall m be p, m_dim m = 2 -> ccwFace m be -> ntffPair m be (neg m be) p -> rightPair m be p.
Proof.
  intros m be p D C [f [e1 [e2 [l1 [HB [L1 H]]]]]].
  assert (N : neg m be = false).
  { unfold neg. destruct (faceOrientation m be) as [o| |] eqn:E; [|reflexivity|reflexivity]. pose proof (ccw_orientation m be D C o E). destruct (Rle_dec 0 o); [reflexivity|lra]. }
  rewrite N, D in H. cbn [Z.eqb Pos.eqb] in H. exists f, e1, e2. split; [exact HB|]. destruct H as [[_ [l2 [_ ->]]]|[_ ->]]; cbn [fst snd]; auto.
Qed.
Lemma ntff3_iff : forall m be p f e1 e2 l1 l2, wfMesh m -> m_dim m = 3 -> beside m be f e1 e2 -> 0 <= e2 -> localFace m e1 f l1 -> localFace m e2 f l2 ->
  ntffPair m be (neg m be) p -> (rightPair m be p <-> (neg m be = true \/ l1 = l2)).
Proof.
  intros m be p f e1 e2 l1 l2 W D HB G L1 L2 [f' [e1' [e2' [l1' [HB' [L1' H]]]]]]. destruct (beside_fun _ _ _ _ _ _ _ _ HB HB') as [<- [<- <-]].
  assert (UL : forall e l l', localFace m e f l -> localFace m e f l' -> l = l').
  { intros e l l' A B. destruct HB as [b [Hb [Ef _]]]. destruct (wf_bdr m W be b Hb) as [v [Hv _]]. rewrite Ef in Hv. apply (wf_distinct m W e l l' f f v v A B Hv Hv). reflexivity. }
  assert (NE : e1 <> e2) by (destruct HB as [b [_ [_ Hf]]]; apply (wf_face m W) in Hf; tauto).
  destruct H as [[_ [l2' [L2' ->]]]|[Q _]]; [|lia]. rewrite D. cbn [Z.eqb Pos.eqb]. rewrite (UL e2 l2' l2 L2' L2). split.
  - intros [f' [x [y [HB2 [_ L]]]]]. destruct (beside_fun _ _ _ _ _ _ _ _ HB HB2) as [<- [<- <-]]. cbn [fst snd] in L. destruct (neg m be); [left; reflexivity|right].
    apply (UL e1 l1 l2 L1 L).
  - intros [N|N].
    + rewrite N. exists f, e1, e2. split; [exact HB|]. cbn [fst snd]. auto.
    + subst l2. exists f, e1, e2. split; [exact HB|]. cbn [fst snd]. destruct (neg m be); auto.
Qed.

From Coq Require Import ZArith List Bool Reals Lra Lia.
From Verif Require Import Common Conn_Model Sub_Model Sub_Spec Sub_Proofs SubGeo_Proofs.
Import ListNotations.
Local Open Scope Z_scope.

Lemma fold_sum : forall (ps : list point) x y z, fold_left padd3 ps (x, y, z) =
  ((x + fold_right Rplus 0 (map (fun p => fst (fst p)) ps), y + fold_right Rplus 0 (map (fun p => snd (fst p)) ps), z + fold_right Rplus 0 (map (fun p : point => snd p) ps))%R).
Proof.
  induction ps as [|[[a b] c] ps IH]; intros x y z; cbn [fold_left map fold_right fst snd padd3]; [f_equal; [f_equal|]; ring|]. rewrite IH. f_equal; [f_equal|]; ring.
Qed.
Lemma mean_is : forall ps, ps <> [] -> isMean ps (mean ps).
Proof.
  intros ps H. assert (N : INR (length ps) <> 0%R) by (destruct ps; [contradiction|]; apply not_0_INR; discriminate).
  unfold mean. rewrite fold_sum. unfold isMean, pscal. rewrite !Rplus_0_l. repeat split; field; exact N.
Qed.
Lemma mean_unique : forall ps c, ps <> [] -> isMean ps c -> c = mean ps.
Proof.
  intros ps [[x y] z] H [Hx [Hy Hz]]. assert (N : INR (length ps) <> 0%R) by (destruct ps; [contradiction|]; apply not_0_INR; discriminate).
  unfold mean. rewrite fold_sum. unfold pscal. rewrite !Rplus_0_l, <- Hx, <- Hy, <- Hz. f_equal; [f_equal|]; field; exact N.
Qed.
Lemma F2_fun : forall m vs ps qs, pointsOf m vs ps -> pointsOf m vs qs -> ps = qs.
Proof.
  intros m vs. induction vs as [|v vs IH]; intros ps qs A B; inversion A; subst; inversion B; subst; [reflexivity|]. f_equal; [congruence|apply IH; assumption].
Qed.
Lemma bary_ok : forall m e p, isBary m e p -> baryElem m e = Ok p.
Proof.
  intros m e p [vs [ps [Hv [Nv [Hp Hm]]]]]. unfold baryElem. rewrite Hv. cbn [bind].
  assert (E : mapM (zget (m_coord m)) vs = Ok ps). { clear -Hp. induction Hp as [|v q vs ps H F IH]; [reflexivity|]. cbn [mapM]. rewrite H, IH. reflexivity. }
  rewrite E. cbn [bind]. f_equal. symmetry. apply mean_unique; [|exact Hm]. intros ->. inversion Hp; subst. contradiction.
Qed.
Lemma listSet_spec : forall vs acc, NoDup acc -> NoDup (listSet acc vs) /\ forall v, In v (listSet acc vs) <-> In v acc \/ In v vs.
Proof.
  induction vs as [|x vs IH]; intros acc N; cbn [listSet]; [split; [exact N|intros v; cbn [In]; tauto]|].
  destruct (existsb (Z.eqb x) acc) eqn:E.
  - apply existsb_exists in E as [y [Hy E]]. apply Z.eqb_eq in E. subst y. destruct (IH acc N) as [A B]. split; [exact A|]. intros v. rewrite B. cbn [In]. split; [tauto|]. intros [H|[<-|H]]; tauto.
  - assert (Nx : ~ In x acc). { intros Hx. assert (existsb (Z.eqb x) acc = true) by (apply existsb_exists; exists x; split; [exact Hx|apply Z.eqb_refl]). congruence. }
    destruct (IH (acc ++ [x])) as [A B].
    + rewrite <- (rev_involutive (acc ++ [x])). apply NoDup_rev. rewrite rev_app_distr. cbn [rev app]. constructor; [rewrite <- in_rev; exact Nx|apply NoDup_rev; exact N].
    + split; [exact A|]. intros v. rewrite B, in_app_iff. cbn [In]. tauto.
Qed.
Lemma centre_spec : forall m marker c, covers m marker -> wfGeo m -> tfsfCenter m marker = Ok c -> (exists be b v, In be (marked m marker) /\ zget (m_bdr m) be = Ok b /\ In v (b_verts b)) -> isCentre m marker c.
Proof.
  intros m marker c C G E [be0 [b0 [v0 [H1 [H2 H3]]]]]. unfold tfsfCenter in E.
  rewrite (foldM_filter m marker (fun acc be => b <- zget (m_bdr m) be ;; Ok (listSet acc (b_verts b)))) in E by (exact C || apply numBdr_ok).
  change (filter (markedB m marker) (numBdr m)) with (marked m marker) in E.
  assert (H : forall l acc, NoDup acc -> (forall be, In be l -> exists b, zget (m_bdr m) be = Ok b) ->
    exists vs, foldM (fun acc be => b <- zget (m_bdr m) be ;; Ok (listSet acc (b_verts b))) l acc = Ok vs /\ NoDup vs /\
      forall v, In v vs <-> In v acc \/ exists be b, In be l /\ zget (m_bdr m) be = Ok b /\ In v (b_verts b)).
  { induction l as [|be l IH]; intros acc N Hl.
    - exists acc. split; [reflexivity|]. split; [exact N|]. intros v. split; [tauto|]. intros [Q|[be [b [[] _]]]]. exact Q.
    - cbn [foldM]. destruct (Hl be (or_introl eq_refl)) as [b Hb]. rewrite Hb. cbn [bind]. destruct (listSet_spec (b_verts b) acc N) as [N' S'].
      destruct (IH (listSet acc (b_verts b)) N') as [vs [E' [Nv Sv]]]; [intros x Hx; apply Hl; right; exact Hx|]. exists vs. split; [exact E'|]. split; [exact Nv|].
      intros v. rewrite Sv, S'. split.
      + intros [[Q|Q]|[x [b' [Hx [Hb' Q]]]]]; [left; exact Q|right; exists be, b; split; [left; reflexivity|auto]|right; exists x, b'; split; [right; exact Hx|auto]].
      + intros [Q|[x [b' [[<-|Hx] [Hb' Q]]]]]; [tauto| |right; exists x, b'; auto]. rewrite Hb in Hb'. injection Hb' as <-. tauto. }
  destruct (H (marked m marker) [] (NoDup_nil Z) (marked_ok m marker)) as [vs [E' [Nv Sv]]]. rewrite E' in E. cbn [bind] in E.
  destruct (mapM (zget (m_coord m)) vs) as [ps| |] eqn:Ep; cbn [bind] in E; [|discriminate E|discriminate E].
  apply mapM_all in Ep. exists vs, ps. split; [exact Nv|]. split; [intros v; rewrite Sv; cbn [In]; tauto|]. split; [exact Ep|].
  assert (Nn : ps <> []).
  { assert (Hv : In v0 vs) by (apply Sv; right; exists be0, b0; auto). intros ->. inversion Ep; subst. destruct Hv. }
  destruct ps as [|p ps]; [contradiction|]. cbn [length Nat.eqb] in E. injection E as <-. apply mean_is. discriminate.
Qed.
Lemma centre_unique_len : forall m marker c c', (exists be b v, In be (marked m marker) /\ zget (m_bdr m) be = Ok b /\ In v (b_verts b)) -> isCentre m marker c -> isCentre m marker c' -> c = c'.
Proof.
  intros m marker c c' [be0 [b0 [v0 [H1 [H2 H3]]]]] [vs [ps [N [S [P M]]]]] [vs' [ps' [N' [S' [P' M']]]]].
  assert (Pm : Permutation.Permutation vs vs') by (apply Permutation.NoDup_Permutation; [exact N|exact N'|intros v; rewrite S, S'; tauto]).
  assert (Hv : In v0 vs) by (apply S; exists be0, b0; auto).
  assert (PP : Permutation.Permutation ps ps').
  { clear -Pm P P'. revert ps ps' P P'. induction Pm; intros ps ps' P P'.
    - inversion P; inversion P'; subst. constructor.
    - inversion P; subst. inversion P'; subst. match goal with A : zget _ _ = Ok ?a, B : zget _ _ = Ok ?b |- Permutation.Permutation (?a :: _) (?b :: _) => rewrite A in B; injection B as <- end. constructor. apply IHPm; assumption.
    - inversion P as [|? ? ? ? A1 R1]; subst. inversion R1 as [|? ? ? ? A2 R2]; subst. inversion P' as [|? ? ? ? B1 Q1]; subst. inversion Q1 as [|? ? ? ? B2 Q2]; subst.
      rewrite A1 in B2. injection B2 as <-. rewrite A2 in B1. injection B1 as <-. rewrite (F2_fun m _ _ _ R2 Q2). constructor.
    - assert (X : exists qs, pointsOf m l' qs).
      { assert (Y : forall v, In v l' -> exists q, zget (m_coord m) v = Ok q). { intros v Hv. apply (Permutation.Permutation_in v (Permutation.Permutation_sym Pm1)) in Hv. destruct (F2_in_l _ _ _ _ P Hv) as [q [_ E]]. exists q. exact E. }
        clear -Y. induction l' as [|v l IH]; [exists []; constructor|]. destruct (Y v (or_introl eq_refl)) as [q E]. destruct IH as [qs Q]; [intros w Hw; apply Y; right; exact Hw|]. exists (q :: qs). constructor; assumption. }
      destruct X as [qs X]. apply Permutation.perm_trans with qs; [apply IHPm1; assumption|apply IHPm2; assumption]. }
  assert (Np : ps <> []) by (intros ->; inversion P; subst; destruct Hv).
  assert (Np' : ps' <> []) by (intros ->; apply Permutation.Permutation_sym, Permutation.Permutation_nil in PP; contradiction).
  rewrite (mean_unique ps c Np M). apply eq_sym. apply mean_unique; [exact Np|].
  assert (SP : forall (g : point -> R), fold_right Rplus 0%R (map g ps') = fold_right Rplus 0%R (map g ps)).
  { intros g. clear -PP. induction PP; cbn [map fold_right]; [reflexivity|rewrite IHPP; reflexivity|ring|congruence]. }
  destruct c' as [[x y] z]. destruct M' as [A [B D]]. rewrite <- (Permutation.Permutation_length PP) in A, B, D. unfold isMean. rewrite <- !SP. auto.
Qed.

(** ** Which side each element is put on *)
Lemma side_lists : forall m marker attrs s, wfMesh m -> wfGeo m -> covers m marker -> m_dim m = 2 \/ m_dim m = 3 -> length attrs = length (m_everts m) -> tfsfSubMesher m marker attrs = Ok s ->
  forall be f e1 e2, In be (marked m marker) -> beside m be f e1 e2 ->
   (exists l, In (e1, l) (if choice m marker be then t_tf s else t_sf s)) /\ (0 <= e2 -> exists l, In (e2, l) (if choice m marker be then t_sf s else t_tf s)).
Proof.
  intros m marker attrs s W G C D La E be f e1 e2 Hin HB. destruct (tfsf_ok m marker attrs W G C D La) as [s' [cs [E' [F [T [S _]]]]]]. rewrite E in E'. injection E' as <-. rewrite T, S.
  pose proof (fun e t => in_concat_sided m (choice m marker) (marked m marker) cs e t F) as K.
  assert (X : forall t e, onSide m (choice m marker) be e t -> exists l, In (e, l) (if t : bool then concat (map fst cs) else concat (map snd cs))).
  { intros t e H. destruct (proj2 (K e t)) as [l Hl]; [exists be; split; assumption|]. exists l. destruct t; exact Hl. }
  split.
  - destruct (X (choice m marker be) e1) as [l Hl]; [exists f, e1, e2; split; [exact HB|]; left; split; reflexivity|]. exists l. destruct (choice m marker be); exact Hl.
  - intros Ge. destruct (X (negb (choice m marker be)) e2) as [l Hl]; [exists f, e1, e2; split; [exact HB|]; right; auto|]. exists l. destruct (choice m marker be); exact Hl.
Qed.
Lemma side2_ok : forall m marker attrs s, wfMesh m -> wfGeo m -> covers m marker -> m_dim m = 2 -> length attrs = length (m_everts m) -> tfsfSubMesher m marker attrs = Ok s ->
  forall be f e1 e2, In be (marked m marker) -> ccwFace m be -> beside m be f e1 e2 -> (exists l, In (e1, l) (t_sf s)) /\ (0 <= e2 -> exists l, In (e2, l) (t_tf s)).
Proof.
  intros m marker attrs s W G C D La E be f e1 e2 Hin Hc HB. pose proof (side_lists m marker attrs s W G C (or_introl D) La E be f e1 e2 Hin HB) as H.
  rewrite (ccw_choice m marker be D Hc) in H. exact H.
Qed.
Lemma side3_ok : forall m marker attrs s c, wfMesh m -> wfGeo m -> covers m marker -> m_dim m = 3 -> length attrs = length (m_everts m) -> tfsfSubMesher m marker attrs = Ok s -> isCentre m marker c ->
  forall be f e1 e2 p1 p2 n, In be (marked m marker) -> beside m be f e1 e2 -> 0 <= e2 -> isBary m e1 p1 -> isBary m e2 p2 -> straight n p1 p2 ->
  ((0 < along n c (middle p1 p2))%R -> (exists l, In (e1, l) (t_tf s)) /\ exists l, In (e2, l) (t_sf s)) /\
  ((along n c (middle p1 p2) < 0)%R -> (exists l, In (e1, l) (t_sf s)) /\ exists l, In (e2, l) (t_tf s)).
Proof.
  intros m marker attrs s c W G C D La E Hc be f e1 e2 p1 p2 n Hin HB Ge B1 B2 St.
  destruct (side_lists m marker attrs s W G C (or_intror D) La E be f e1 e2 Hin HB) as [S1 S2]. specialize (S2 Ge).
  assert (NE : exists be b v, In be (marked m marker) /\ zget (m_bdr m) be = Ok b /\ In v (b_verts b)).
  { destruct HB as [b [Hb [Ef Hf]]]. destruct (wf_bdr m W be b Hb) as [v [Hv Pv]]. destruct G as [_ [_ [G3 _]]]. specialize (G3 v (zget_in _ _ _ Hv)). rewrite D in G3.
    destruct v as [|x v]; [cbn in G3; lia|]. exists be, b, x. split; [exact Hin|]. split; [exact Hb|]. apply (Permutation.Permutation_in x (Permutation.Permutation_sym Pv)). left. reflexivity. }
  destruct (center_ok m marker C G) as [c' Ec]. pose proof (centre_spec m marker c' C G Ec NE) as Hc'. pose proof (centre_unique_len m marker c c' NE Hc Hc') as ->.
  apply bary_ok in B1. apply bary_ok in B2. destruct (tf3_iff m c' be f e1 e2 p1 p2 HB Ge B1 B2) as [d [Ed Hd]].
  assert (Ch : choice m marker be = d) by (unfold choice; rewrite D; cbn [Z.eqb Pos.eqb]; rewrite Ec; cbn [bind]; rewrite Ed; reflexivity). rewrite Ch in S1, S2. clear Ch Ed.
  destruct St as [k [Kp St]].
  assert (Q : pdot (psub p2 p1) (psub (pscal (/ 2) (padd3 p1 p2)) c') = (k * along n c' (middle p1 p2))%R).
  { destruct n as [[nx ny] nz], p1 as [[x1 y1] z1], p2 as [[x2 y2] z2], c' as [[cx cy] cz]. destruct St as [Sx [Sy Sz]]. cbn [pdot psub pscal padd3 along middle]. rewrite Sx, Sy, Sz. field. }
  rewrite Q in Hd. split; intros H.
  - assert (d = true) by (apply Hd; apply Rmult_lt_0_compat; assumption). subst d. split; assumption.
  - assert (d = false). { destruct d; [|reflexivity]. assert (0 < k * along n c' (middle p1 p2))%R by (apply Hd; reflexivity). nra. } subst d. split; assumption.
Qed.

(** ** Far field *)
Lemma ntff_same : forall m be p, ntffPair m be (neg m be) p ->
  (forall f e1 e2, beside m be f e1 e2 -> e2 < 0 \/ exists l, localFace m e1 f l /\ localFace m e2 f l) -> wfMesh m -> rightPair m be p.
Proof.
  intros m be p [f [e1 [e2 [l1 [HB [L1 H]]]]]] K W. exists f, e1, e2. split; [exact HB|]. destruct H as [[G [l2 [L2 ->]]]|[_ ->]]; [|cbn [fst snd]; auto].
  destruct (K f e1 e2 HB) as [Q|[l [A B]]]; [lia|].
  assert (UL : forall e l l', localFace m e f l -> localFace m e f l' -> l = l').
  { intros e x x' X X'. destruct HB as [b [Hb [Ef _]]]. destruct (wf_bdr m W be b Hb) as [v [Hv _]]. rewrite Ef in Hv. apply (wf_distinct m W e x x' f f v v X X' Hv Hv). reflexivity. }
  rewrite (UL e1 l1 l L1 A), (UL e2 l2 l L2 B). cbn [fst snd]. split; [destruct (neg m be); auto|]. destruct (m_dim m =? 2), (neg m be); assumption.
Qed.
Lemma F2_imp : forall {A B} (P Q : A -> B -> Prop) l ys, (forall a b, In a l -> P a b -> Q a b) -> Forall2 P l ys -> Forall2 Q l ys.
Proof.
  intros A B P Q l ys H F. induction F; [constructor|]. constructor; [apply H; [left; reflexivity|assumption]|]. apply IHF. intros a b Ha. apply H. right. exact Ha.
Qed.
Lemma ntff2_ok : forall m marker attrs, wfMesh m -> wfGeo m -> covers m marker -> m_dim m = 2 -> length attrs = length (m_everts m) -> marked m marker <> [] -> (forall be, In be (marked m marker) -> ccwFace m be) ->
  exists a ps, ntffSubMesher m marker attrs = Ok (a, ps) /\ Forall2 (rightPair m) (marked m marker) ps.
Proof.
  intros m marker attrs W G C D La NE Hc. destruct (ntff_ok m marker attrs W G C (or_introl D) La NE) as [a [ps [E F]]]. exists a, ps. split; [exact E|].
  revert F. apply F2_imp. intros be p Hb P. apply ntff2_right; [exact D|apply Hc; exact Hb|exact P].
Qed.
Lemma ntff3_ok : forall m marker attrs, wfMesh m -> wfGeo m -> covers m marker -> m_dim m = 2 \/ m_dim m = 3 -> length attrs = length (m_everts m) -> marked m marker <> [] ->
  (forall be f e1 e2, In be (marked m marker) -> beside m be f e1 e2 -> e2 < 0 \/ exists l, localFace m e1 f l /\ localFace m e2 f l) ->
  exists a ps, ntffSubMesher m marker attrs = Ok (a, ps) /\ Forall2 (rightPair m) (marked m marker) ps.
Proof.
  intros m marker attrs W G C D La NE Hc. destruct (ntff_ok m marker attrs W G C D La NE) as [a [ps [E F]]]. exists a, ps. split; [exact E|].
  revert F. apply F2_imp. intros be p Hb P. apply ntff_same; [exact P|intros f e1 e2; apply Hc; exact Hb|exact W].
Qed.
(** The element of each pair is one beside the face, and the pair is a face of one of the two. *)
Lemma ntff_sides : forall m marker attrs, wfMesh m -> wfGeo m -> covers m marker -> m_dim m = 2 \/ m_dim m = 3 -> length attrs = length (m_everts m) -> marked m marker <> [] ->
  exists a ps, ntffSubMesher m marker attrs = Ok (a, ps) /\
   Forall2 (fun be p => exists f e1 e2, beside m be f e1 e2 /\ (fst p = e1 \/ 0 <= e2 /\ fst p = e2) /\ (localFace m e1 f (snd p) \/ 0 <= e2 /\ localFace m e2 f (snd p))) (marked m marker) ps.
Proof.
  intros m marker attrs W G C D La NE. destruct (ntff_ok m marker attrs W G C D La NE) as [a [ps [E F]]]. exists a, ps. split; [exact E|].
  revert F. apply F2_imp. intros be p Hb [f [e1 [e2 [l1 [HB [L1 H]]]]]]. exists f, e1, e2. split; [exact HB|]. destruct H as [[Ge [l2 [L2 ->]]]|[_ ->]]; cbn [fst snd].
  - split; [destruct (neg m be); auto|destruct (m_dim m =? 2); auto].
  - auto.
Qed.

(** The sub-meshes that are created. *)
Lemma meshes_lists : forall (m : mesh) (marker attrs : list Z) (s : tfsf), wfMesh m -> wfGeo m -> covers m marker -> m_dim m = 2 \/ m_dim m = 3 ->
  length attrs = length (m_everts m) -> (forall a, In a attrs -> a <> TotalFieldMarker /\ a <> ScatteredFieldMarker) ->
  tfsfSubMesher m marker attrs = Ok s -> (forall e l l', In (e, l) (t_tf s) -> In (e, l') (t_sf s) -> False) ->
  (t_tf s = [] /\ tfMesh s = None \/ exists d, tfMesh s = Some d /\ d <> [] /\ forall e, In e d <-> exists l, In (e, l) (t_tf s)) /\
  (t_sf s = [] /\ sfMesh s = None \/ exists d, sfMesh s = Some d /\ d <> [] /\ forall e, In e d <-> exists l, In (e, l) (t_sf s)).
Proof.
  intros m marker attrs s W G C D La Ha E X. pose proof (domains_lists m marker attrs s W G C D La Ha E X) as Q.
  unfold tfMesh, sfMesh. split.
  - destruct (t_tf s) as [|[e0 l0] t] eqn:T; [left; auto|]. right. eexists. split; [reflexivity|]. split.
    + intros N. destruct (Q e0) as [[_ Q1] _]. rewrite N in Q1. apply Q1. exists l0. now left.
    + intros e. apply (Q e).
  - destruct (t_sf s) as [|[e0 l0] t] eqn:T; [left; auto|]. right. eexists. split; [reflexivity|]. split.
    + intros N. destruct (Q e0) as [_ [_ Q1]]. rewrite N in Q1. apply Q1. exists l0. now left.
    + intros e. apply (Q e).
Qed.
Lemma ntff_none : forall m marker attrs, covers m marker -> marked m marker = [] \/ m_dim m <> 2 /\ m_dim m <> 3 -> ntffSubMesher m marker attrs = Throw.
Proof.
  intros m marker attrs C Q. unfold ntffSubMesher. destruct ((m_dim m =? 2) || (m_dim m =? 3)) eqn:ED; [|reflexivity].
  destruct Q as [N|[N2 N3]].
  - pose proof (foldM_filter m marker (ntffStep m) (numBdr m) (attrs, []) C (numBdr_ok m)) as Q. unfold ntffStep at 1 in Q. rewrite Q.
    change (filter (markedB m marker) (numBdr m)) with (marked m marker). rewrite N. reflexivity.
  - apply orb_true_iff in ED. destruct ED as [ED|ED]; apply Z.eqb_eq in ED; contradiction.
Qed.

(** Proofs for C36 to C38: piecewise vectors, markers, boundary assignment. *)
From Coq Require Import String ZArith List Bool Reals Lia Lra.
From Verif Require Import Common Setup_Model Setup_Spec Setup_Proofs.
Import ListNotations.
Local Open Scope Z_scope.

(** ** Piecewise vectors *)
Lemma size_bound : forall (mats : list (Z * material)) s0,
  s0 <= fold_left (fun size p => if size <=? fst p then fst p else size) mats s0 /\
  (forall p, In p mats -> fst p <= fold_left (fun size p => if size <=? fst p then fst p else size) mats s0) /\
  (fold_left (fun size p => if size <=? fst p then fst p else size) mats s0 = s0 \/
   exists p, In p mats /\ fst p = fold_left (fun size p => if size <=? fst p then fst p else size) mats s0).
Proof.
  induction mats as [|q t IH]; intros s0; cbn [fold_left].
  - split; [lia|]. split; [intros p []|left; reflexivity].
  - destruct (IH (if s0 <=? fst q then fst q else s0)) as (H1 & H2 & H3).
    destruct (s0 <=? fst q) eqn:E; [apply Z.leb_le in E|apply Z.leb_gt in E].
    + split; [lia|]. split; [intros p [<-|I]; [lia|auto]|]. destruct H3 as [H3|(p & I & H3)]; right.
      * exists q. split; [left; reflexivity|lia].
      * exists p. split; [right; exact I|exact H3].
    + split; [lia|]. split; [intros p [<-|I]; [lia|auto]|]. destruct H3 as [H3|(p & I & H3)]; [left; exact H3|right].
      exists p. split; [right; exact I|exact H3].
Qed.
Lemma zget_repeat : forall (n : nat) (v : R) i, 0 <= i < Z.of_nat n -> zget (repeat v n) i = Ok v.
Proof.
  intros n v i H. unfold zget. replace (i <? 0) with false by (symmetry; apply Z.ltb_ge; lia).
  rewrite (nth_error_nth' _ v) by (rewrite repeat_length; lia). rewrite nth_repeat. reflexivity.
Qed.
Lemma zset_get : forall {A} (l : list A) i v, 0 <= i < Z.of_nat (length l) ->
  exists l', zset l i v = Ok l' /\ length l' = length l /\ zget l' i = Ok v /\ forall j, j <> i -> zget l' j = zget l j.
Proof.
  intros A l i v H. unfold zset. replace (i <? 0) with false by (symmetry; apply Z.ltb_ge; lia).
  replace (Z.to_nat i <? length l)%nat with true by (symmetry; apply Nat.ltb_lt; lia).
  eexists. split; [reflexivity|]. split; [apply upd_length|]. split.
  - unfold zget. replace (i <? 0) with false by (symmetry; apply Z.ltb_ge; lia). rewrite nth_error_upd_same by lia. reflexivity.
  - intros j Hj. unfold zget. destruct (j <? 0) eqn:E; [reflexivity|]. apply Z.ltb_ge in E. rewrite nth_error_upd_other by lia. reflexivity.
Qed.
Lemma fill_loop : forall (get : material -> R) (mats : list (Z * material)) (v : list R), ascending mats ->
  (forall p, In p mats -> 1 <= fst p <= Z.of_nat (length v)) ->
  exists v', foldM (fun v p => zset v (fst p - 1) (get (snd p))) mats v = Ok v' /\ length v' = length v /\
    (forall t m, In (t, m) mats -> zget v' (t - 1) = Ok (get m)) /\
    (forall j, (forall m, ~ In (j + 1, m) mats) -> zget v' j = zget v j).
Proof.
  intros get mats. induction mats as [|[t m] r IH]; intros v Ha Hb; cbn [foldM].
  - exists v. split; [reflexivity|]. split; [reflexivity|]. split; [intros ? ? []|reflexivity].
  - inversion Ha as [|? ? ? Hlt Hr]; subst. pose proof (Hb (t, m) (or_introl eq_refl)) as Ht. cbn [fst snd] in *.
    destruct (zset_get v (t - 1) (get m) ltac:(lia)) as (v1 & E1 & L1 & G1 & O1). rewrite E1. cbn [bind].
    destruct (IH v1 Hr) as (v' & E & L & G & O).
    { intros p I. rewrite L1. apply Hb. right. exact I. }
    exists v'. split; [exact E|]. split; [congruence|]. split.
    + intros t' m' [I|I]; [|apply G; exact I]. injection I as <- <-. rewrite O; [exact G1|].
      intros m' I. specialize (Hlt _ _ I). lia.
    + intros j Hj. rewrite O by (intros m' I; apply (Hj m'); right; exact I). apply O1. intros X. apply (Hj m). left. f_equal. lia.
Qed.
Lemma fill_vector : forall get mats, ascending mats -> Forall (fun p => 1 <= fst p) mats ->
  exists v, fillVector get mats = Ok v /\
    (forall t m, In (t, m) mats -> pwEval v t = Ok (get m)) /\
    (forall t, (forall m, ~ In (t, m) mats) -> pwEval v t = Ok 0%R \/ pwEval v t = UB) /\
    (forall t, pwEval v t <> UB <-> 1 <= t /\ exists p, In p mats /\ t <= fst p).
Proof.
  intros get mats Ha Hp. unfold fillVector, initialiseGeomTagVector.
  destruct (size_bound mats 0) as (H1 & H2 & H3). fold (geomTagSize mats) in H1, H2, H3.
  rewrite Forall_forall in Hp.
  destruct (fill_loop get mats (repeat 0%R (Z.to_nat (geomTagSize mats))) Ha) as (v & E & L & G & O).
  { intros p I. rewrite repeat_length. specialize (Hp p I). specialize (H2 p I). lia. }
  rewrite repeat_length in L. exists v. split; [exact E|]. split; [exact G|]. split.
  - intros t Ht. unfold pwEval. rewrite O by (intros m; replace (t - 1 + 1) with t by lia; apply Ht).
    destruct (Z_lt_dec (t - 1) 0); [right; unfold zget; replace (t - 1 <? 0) with true by (symmetry; apply Z.ltb_lt; lia); reflexivity|].
    destruct (Z_lt_dec (t - 1) (geomTagSize mats)); [left; apply zget_repeat; lia|right; apply zget_oob; rewrite repeat_length; lia].
  - intros t. unfold pwEval. split.
    + intros N. destruct (Z_le_dec 1 t) as [Y|Y].
      * split; [exact Y|]. destruct (Z_le_dec t (geomTagSize mats)) as [Y2|Y2].
        -- destruct H3 as [H3|(p & I & H3)]; [lia|]. exists p. split; [exact I|lia].
        -- exfalso. apply N. apply zget_oob. lia.
      * exfalso. apply N. apply zget_oob. lia.
    + intros (Y & p & I & Hle) N. specialize (H2 p I). destruct (zget_in_range v (t - 1) ltac:(lia)) as (x & X & _). congruence.
Qed.

(** ** Markers *)
Lemma get_set_same : forall mk c b v, hasMarker c -> getMarker (setMarker mk c b v) c b = Ok v.
Proof. intros [] c b v [H1 H2]; destruct c, b; try reflexivity; congruence. Qed.
Lemma get_set_other : forall mk c c' b v, c <> c' -> getMarker (setMarker mk c b v) c' b = getMarker mk c' b.
Proof. intros [] c c' b v H; destruct c, c', b; try reflexivity; congruence. Qed.
Lemma get_set_side : forall mk c c' b v, mapped c' -> getMarker (setMarker mk c b v) c' (negb b) = getMarker mk c' (negb b).
Proof. intros [] c c' b v [->|[->|[->| ->]]]; destruct c, b; reflexivity. Qed.
Lemma get_ok : forall mk c b, hasMarker c -> exists m, getMarker mk c b = Ok m.
Proof. intros [] c b [H1 H2]; destruct c; cbn [getMarker]; try congruence; eauto. Qed.
Lemma cond_dec : forall a b : cond, {a = b} + {a <> b}.
Proof. decide equality. Qed.

(** Every marker is absent or has the full size. *)
Definition sized (n : Z) (b : bool) (mk : markers) : Prop :=
  forall c m, getMarker mk c b = Ok m -> m = [] \/ Z.of_nat (length m) = n.
(** State of the markers of one side after the entries [gt]. *)
Definition markedSide (n : Z) (b : bool) (gt : list (Z * cond)) (mk : markers) : Prop :=
  forall c, mapped c -> exists m, getMarker mk c b = Ok m /\
    (m = [] /\ (forall t, ~ In (t, c) gt) \/ marks n gt c m /\ exists t, In (t, c) gt).

Lemma marker_step : forall battrs n b mk tag c done, arrayMax battrs = Ok n ->
  sized n b mk -> markedSide n b done mk -> 1 <= tag <= n -> hasMarker c ->
  exists mk', (m0 <- getMarker mk c b ;;
    m1 <- (if (length m0 =? 0)%nat then s <- arrayMax battrs ;; initMarker s else Ok m0) ;;
    m2 <- zset m1 (tag - 1) 1 ;;
    Ok (setMarker mk c b m2)) = Ok mk' /\ sized n b mk' /\ markedSide n b (done ++ [(tag, c)]) mk' /\
    forall c', mapped c' -> getMarker mk' c' (negb b) = getMarker mk c' (negb b).
Proof.
  intros battrs n b mk tag c done Hn Hs Hm Ht Hc.
  destruct (get_ok mk c b Hc) as (m0 & E0). rewrite E0. cbn [bind].
  assert (X : exists m1, (if (length m0 =? 0)%nat then s <- arrayMax battrs ;; initMarker s else Ok m0) = Ok m1 /\
    Z.of_nat (length m1) = n /\ (m0 = [] /\ m1 = repeat 0 (Z.to_nat n) \/ m0 <> [] /\ m1 = m0)).
  { destruct m0 as [|a t]; cbn [length Nat.eqb].
    - rewrite Hn. cbn [bind]. unfold initMarker. replace (n <? 0) with false by (symmetry; apply Z.ltb_ge; lia).
      eexists. split; [reflexivity|]. split; [rewrite repeat_length; lia|]. left. auto.
    - eexists. split; [reflexivity|]. destruct (Hs c _ E0) as [Y|Y]; [discriminate|]. split; [exact Y|]. right. split; [discriminate|reflexivity]. }
  destruct X as (m1 & E1 & L1 & C1). rewrite E1. cbn [bind].
  destruct (zset_get m1 (tag - 1) 1 ltac:(lia)) as (m2 & E2 & L2 & G2 & O2). rewrite E2. cbn [bind].
  eexists. split; [reflexivity|]. split; [|split].
  - intros c' m' E'. destruct (cond_dec c c') as [<-|N].
    + rewrite (get_set_same mk c b m2 Hc) in E'. injection E' as <-. right. lia.
    + rewrite (get_set_other mk c c' b m2 N) in E'. apply (Hs c' m' E').
  - intros c' Hc'. destruct (cond_dec c c') as [<-|N].
    + exists m2. split; [apply get_set_same; exact Hc|]. right. split.
      * split; [lia|]. intros k Hk. destruct (Z.eq_dec k (tag - 1)) as [->|Nk].
        -- left. split; [exact G2|]. apply in_or_app. right. left. f_equal. lia.
        -- rewrite (O2 k Nk). destruct (Hm c Hc') as (m0' & E0' & D). rewrite E0 in E0'. injection E0' as <-.
           assert (NI : In (k + 1, c) (done ++ [(tag, c)]) <-> In (k + 1, c) done).
           { rewrite in_app_iff. cbn [In]. split; [intros [I|[I|[]]]; [exact I|injection I as I; lia]|auto]. }
           destruct C1 as [(-> & ->)|(N0 & ->)].
           ++ right. destruct D as [(_ & D)|((LD & _) & _)]; [|cbn [length] in LD; lia].
              split; [|rewrite NI; apply D].
              unfold zget. replace (k <? 0) with false by (symmetry; apply Z.ltb_ge; lia).
              rewrite (nth_error_nth' _ 0) by (rewrite repeat_length; lia). rewrite nth_repeat. reflexivity.
           ++ destruct D as [(D & _)|((_ & D) & _)]; [contradiction|]. rewrite NI. apply D. exact Hk.
      * exists tag. apply in_or_app. right. left. reflexivity.
    + rewrite (get_set_other mk c c' b m2 N). destruct (Hm c' Hc') as (m & E & D). exists m. split; [exact E|].
      assert (NI : forall t, In (t, c') (done ++ [(tag, c)]) <-> In (t, c') done).
      { intros t. rewrite in_app_iff. cbn [In]. split; [intros [I|[I|[]]]; [exact I|congruence]|auto]. }
      destruct D as [(D1 & D2)|((D0 & D1) & t & D2)].
      * left. split; [exact D1|]. intros t. rewrite NI. apply D2.
      * right. split; [|exists t; apply NI; exact D2]. split; [exact D0|]. intros k Hk. rewrite NI. apply D1. exact Hk.
  - intros c' Hc'. apply get_set_side. exact Hc'.
Qed.

Lemma marker_loop : forall battrs n b gt mk, arrayMax battrs = Ok n -> tagsFit n gt -> sized n b mk ->
  (forall c, mapped c -> getMarker mk c b = Ok []) ->
  exists mk', assembleGeomTagToTypeMap battrs gt b mk = Ok mk' /\ sized n b mk' /\ markedSide n b gt mk' /\
    forall c', mapped c' -> getMarker mk' c' (negb b) = getMarker mk c' (negb b).
Proof.
  intros battrs n b gt mk Hn Hf Hs H0. unfold assembleGeomTagToTypeMap.
  destruct (foldM_inv (fun mk p => let (tag, c) := (p : Z * cond) in
    if tag <=? 0 then Throw else
    m0 <- getMarker mk c b ;;
    m1 <- (if (length m0 =? 0)%nat then s <- arrayMax battrs ;; initMarker s else Ok m0) ;;
    m2 <- zset m1 (tag - 1) 1 ;;
    Ok (setMarker mk c b m2))
    (fun done mk' => sized n b mk' /\ markedSide n b done mk' /\ forall c', mapped c' -> getMarker mk' c' (negb b) = getMarker mk c' (negb b))
    gt mk) as (mk' & E & I).
  - split; [exact Hs|]. split; [|reflexivity]. intros c Hc. exists []. split; [apply H0; exact Hc|]. left. split; [reflexivity|intros t []].
  - intros done [tag c] rest mk1 Eg (S1 & M1 & O1).
    assert (Hin : In (tag, c) gt) by (rewrite Eg; apply in_or_app; right; left; reflexivity).
    destruct (proj1 (Forall_forall _ _) Hf _ Hin) as (Ht & Hc). cbn [fst snd] in Ht, Hc.
    replace (tag <=? 0) with false by (symmetry; apply Z.leb_gt; lia).
    destruct (marker_step battrs n b mk1 tag c done Hn S1 M1 Ht Hc) as (mk2 & E2 & S2 & M2 & O2).
    exists mk2. split; [exact E2|]. split; [exact S2|]. split; [exact M2|]. intros c' Hc'. rewrite O2, O1 by exact Hc'. reflexivity.
  - exists mk'. split; [exact E|exact I].
Qed.

Lemma in_maps : forall mk b c m, In (c, m) (if (b : bool) then intBdrToMarkerMap mk else bdrToMarkerMap mk) <-> mapped c /\ getMarker mk c b = Ok m /\ m <> [].
Proof.
  intros mk b c m.
  assert (G : forall l : list (cond * marker), In (c, m) (keepNonEmpty l) <-> In (c, m) l /\ m <> []).
  { intros l. unfold keepNonEmpty. rewrite filter_In. cbn [snd].
    split; intros [I N]; (split; [exact I|]); [intros ->; discriminate N|destruct m; [congruence|reflexivity]]. }
  unfold intBdrToMarkerMap, bdrToMarkerMap, mapped. split.
  - intros I. destruct b; apply G in I; destruct I as [I N]; cbn [In] in I; decompose [or] I; try contradiction;
      match goal with X : (_, _) = (_, _) |- _ => injection X as <- <- end; cbn [getMarker]; auto 8.
  - intros ([->|[->|[->| ->]]] & E & N); destruct b; cbn [getMarker] in E; injection E as <-; apply G; (split; [|exact N]); cbn [In]; auto.
Qed.

Lemma model_markers : forall gt2m gt2b gt2ib battrs n, arrayMax battrs = Ok n -> tagsFit n gt2b -> tagsFit n gt2ib ->
  exists md, newModel gt2m gt2b gt2ib battrs = Ok md /\ md_bdr md = gt2b /\ md_int md = gt2ib /\
    forall c, mapped c ->
      (forall m, In (c, m) (bdrToMarkerMap (md_mk md)) -> marks n gt2b c m) /\
      ((exists m, In (c, m) (bdrToMarkerMap (md_mk md))) <-> exists t, In (t, c) gt2b) /\
      (forall m, In (c, m) (intBdrToMarkerMap (md_mk md)) -> marks n gt2ib c m) /\
      ((exists m, In (c, m) (intBdrToMarkerMap (md_mk md))) <-> exists t, In (t, c) gt2ib).
Proof.
  intros gt2m gt2b gt2ib battrs n Hn F1 F2. unfold newModel.
  assert (X : exists mats, (match gt2m with [] => v <- buildVacuumMaterial ;; Ok [(1, v)] | _ => Ok gt2m end) = Ok mats).
  { destruct gt2m; [|eauto]. unfold buildVacuumMaterial. rewrite new_ok; [cbn [bind]; eauto|]. unfold physical. cbn [m_eps m_mu m_sigma]. lra. }
  destruct X as (mats & ->). cbn [bind].
  assert (S0 : forall b, sized n b noMarkers) by (intros b c m E; destruct c, b; cbn [getMarker noMarkers] in E; try discriminate; injection E as <-; left; reflexivity).
  assert (Z0 : forall b c, mapped c -> getMarker noMarkers c b = Ok []) by (intros b c [->|[->|[->| ->]]]; destruct b; reflexivity).
  destruct (marker_loop battrs n false gt2b noMarkers Hn F1 (S0 false) (Z0 false)) as (mk1 & E1 & S1 & M1 & O1). rewrite E1. cbn [bind].
  cbn [negb] in O1.
  assert (Hmk1 : forall c, mapped c -> getMarker mk1 c true = Ok []) by (intros c Hc; rewrite (O1 c Hc); apply Z0; exact Hc).
  assert (S1' : sized n true mk1).
  { intros c m E. destruct (cond_dec c TotalFieldIn) as [->|N]; [apply (S1 TotalFieldIn m); exact E|].
    destruct c; cbn [getMarker] in E; try discriminate; try congruence.
    - pose proof (Hmk1 PEC ltac:(unfold mapped; auto)) as X. cbn [getMarker] in X. left. congruence.
    - pose proof (Hmk1 PMC ltac:(unfold mapped; auto)) as X. cbn [getMarker] in X. left. congruence.
    - pose proof (Hmk1 SMA ltac:(unfold mapped; auto)) as X. cbn [getMarker] in X. left. congruence.
    - pose proof (Hmk1 SGBC ltac:(unfold mapped; auto)) as X. cbn [getMarker] in X. left. congruence. }
  destruct (marker_loop battrs n true gt2ib mk1 Hn F2 S1' Hmk1) as (mk2 & E2 & S2 & M2 & O2). rewrite E2. cbn [bind].
  eexists. split; [reflexivity|]. split; [reflexivity|]. split; [reflexivity|]. cbn [md_mk]. intros c Hc.
  assert (Hout : getMarker mk2 c false = getMarker mk1 c false) by (apply (O2 c Hc)).
  split; [|split; [|split]].
  - intros m I. apply (in_maps mk2 false c m) in I. destruct I as (_ & E & N). rewrite Hout in E. destruct (M1 c Hc) as (m' & E' & D).
    rewrite E in E'. injection E' as <-. destruct D as [(D & _)|(D & _)]; [contradiction|exact D].
  - destruct (M1 c Hc) as (m' & E' & D). split.
    + intros (m & I). apply (in_maps mk2 false c m) in I. destruct I as (_ & E & N). rewrite Hout, E' in E. injection E as ->.
      destruct D as [(D & _)|(_ & D)]; [contradiction|exact D].
    + intros (t & I). exists m'. apply (in_maps mk2 false c m'). split; [exact Hc|]. rewrite Hout. split; [exact E'|].
      destruct D as [(_ & D)|((D & _) & _)]; [destruct (D t I)|]. intros ->. cbn [length] in D.
      destruct (proj1 (Forall_forall _ _) F1 _ I) as (Q & _). cbn [fst] in Q. lia.
  - intros m I. apply (in_maps mk2 true c m) in I. destruct I as (_ & E & N). destruct (M2 c Hc) as (m' & E' & D).
    rewrite E in E'. injection E' as <-. destruct D as [(D & _)|(D & _)]; [contradiction|exact D].
  - destruct (M2 c Hc) as (m' & E' & D). split.
    + intros (m & I). apply (in_maps mk2 true c m) in I. destruct I as (_ & E & N). rewrite E' in E. injection E as ->.
      destruct D as [(D & _)|(_ & D)]; [contradiction|exact D].
    + intros (t & I). exists m'. apply (in_maps mk2 true c m'). split; [exact Hc|]. split; [exact E'|].
      destruct D as [(_ & D)|((D & _) & _)]; [destruct (D t I)|]. intros ->. cbn [length] in D.
      destruct (proj1 (Forall_forall _ _) F2 _ I) as (Q & _). cbn [fst] in Q. lia.
Qed.
(** What is refused, what is undefined. *)
Lemma marker_bad_tag : forall battrs gt b mk tag c rest, gt = (tag, c) :: rest -> tag <= 0 ->
  assembleGeomTagToTypeMap battrs gt b mk = Throw.
Proof.
  intros. subst. unfold assembleGeomTagToTypeMap. cbn [foldM]. replace (tag <=? 0) with true by (symmetry; apply Z.leb_le; lia). reflexivity.
Qed.

(** ** Boundary assignment *)
Lemma assign_named : forall s c, assignBdrCond s = Ok c <-> condNamed s c.
Proof.
  intros s c. unfold assignBdrCond, condNamed.
  destruct (String.eqb_spec s "PEC"); [subst; split; [intros X; injection X as <-; auto|intros D; decompose [or and] D; subst; try discriminate; reflexivity]|].
  destruct (String.eqb_spec s "PMC"); [subst; split; [intros X; injection X as <-; auto|intros D; decompose [or and] D; subst; try discriminate; reflexivity]|].
  destruct (String.eqb_spec s "SMA"); [subst; split; [intros X; injection X as <-; auto|intros D; decompose [or and] D; subst; try discriminate; reflexivity]|].
  destruct (String.eqb_spec s "SGBC"); [subst; split; [intros X; injection X as <-; auto 6|intros D; decompose [or and] D; subst; try discriminate; reflexivity]|].
  split; [discriminate|intros D; decompose [or and] D; contradiction].
Qed.
Lemma interior_scan : forall sm tag l1 l2, length l1 = length l2 ->
  Forall (fun b => b = -1 \/ 0 <= b < Z.of_nat (length (sm_bdrAttr sm))) l1 ->
  exists i, tagOnInterior sm tag (combine l1 l2) = Ok i /\
    (i = true <-> exists f b, nth_error l1 f = Some b /\ b <> -1 /\ nth_error l2 f = Some true /\ zget (sm_bdrAttr sm) b = Ok tag).
Proof.
  intros sm tag l1. induction l1 as [|b t IH]; intros [|i l2] L Hb; cbn [length] in L; try lia.
  - cbn [combine tagOnInterior]. exists false. split; [reflexivity|]. split; [discriminate|].
    intros (f & b & E & _). destruct f; discriminate.
  - inversion Hb as [|? ? H1 H2]; subst. destruct (IH l2 ltac:(lia) H2) as (r & E & V). cbn [combine tagOnInterior].
    assert (Shift : (exists f b', nth_error (b :: t) f = Some b' /\ b' <> -1 /\ nth_error (i :: l2) f = Some true /\ zget (sm_bdrAttr sm) b' = Ok tag) <->
              (b <> -1 /\ i = true /\ zget (sm_bdrAttr sm) b = Ok tag) \/ r = true).
    { rewrite V. split.
      - intros (f & b' & X1 & X2 & X3 & X4). destruct f as [|f]; cbn [nth_error] in *; [left; injection X1 as <-; injection X3 as ->; auto|right; exists f, b'; auto].
      - intros [(X1 & -> & X3)|(f & b' & X)]; [exists 0%nat, b; cbn [nth_error]; auto|exists (S f), b'; exact X]. }
    destruct (b =? -1) eqn:Eb.
    + apply Z.eqb_eq in Eb. exists r. split; [exact E|]. rewrite Shift. split; [auto|intros [(X & _)|X]; [contradiction|exact X]].
    + apply Z.eqb_neq in Eb. destruct H1 as [H1|H1]; [contradiction|].
      destruct (zget_in_range (sm_bdrAttr sm) b H1) as (att & Ea & _). rewrite Ea. cbn [bind].
      destruct ((att =? tag) && i) eqn:C.
      * apply andb_prop in C. destruct C as [C1 ->]. apply Z.eqb_eq in C1. subst att. exists true. split; [reflexivity|]. rewrite Shift. split; auto.
      * exists r. split; [exact E|]. rewrite Shift. split; [auto|]. intros [(_ & -> & X)|X]; [|exact X].
        rewrite Ea in X. injection X as ->. rewrite Z.eqb_refl in C. discriminate.
Qed.

(** Invariant of the loop: conditions of the first entry, interior flags. *)
Definition condState (sm : smesh) (l : list (list Z * string)) (st : list (Z * cond) * list (Z * bool)) : Prop :=
  ascending (fst st) /\ ascending (snd st) /\
  (forall t c, mfind t (fst st) = Some c <-> exists s, firstFor t l = Some s /\ condNamed s c) /\
  (forall t i, mfind t (snd st) = Some i <-> listed t l /\ (i = true <-> onInterior sm t)).
Lemma firstFor_app : forall {A} t (l1 l2 : list (list Z * A)),
  firstFor t (l1 ++ l2) = match firstFor t l1 with Some a => Some a | None => firstFor t l2 end.
Proof. intros A t l1 l2. induction l1 as [|[ts a] r IH]; cbn [app firstFor]; [reflexivity|]. destruct (existsb (Z.eqb t) ts); auto. Qed.
Lemma bool_iff_unique : forall (a b : bool) P, (a = true <-> P) -> (b = true <-> P) -> a = b.
Proof. intros [] [] P H1 H2; intuition. Qed.

Lemma tag_step : forall sm l st ts s c tag, wfSM sm -> condNamed s c -> condState sm (l ++ [(ts, s)]) st ->
  (forall s', firstFor tag l = Some s' -> exists c', condNamed s' c') ->
  exists st', (c <- assignBdrCond s ;;
        i <- tagOnInterior sm tag (combine (sm_f2b sm) (sm_inter sm)) ;;
        let ints := memplace tag false (snd st) in
        Ok (memplace tag c (fst st), if (i : bool) then massign tag true ints else ints)) = Ok st' /\
    condState sm (l ++ [(ts ++ [tag], s)]) st'.
Proof.
  intros sm l st ts s c tag (W1 & W2) Hc (A1 & A2 & V1 & V2) Hok.
  rewrite (proj2 (assign_named s c) Hc). cbn [bind].
  destruct (interior_scan sm tag (sm_f2b sm) (sm_inter sm) W1 W2) as (i & Ei & Vi). rewrite Ei. cbn [bind].
  eexists. split; [reflexivity|]. cbv zeta.
  assert (Ex : forall q, existsb (Z.eqb q) (ts ++ [tag]) = existsb (Z.eqb q) ts || (q =? tag))
    by (intros q; rewrite existsb_app; cbn [existsb]; rewrite orb_false_r; reflexivity).
  assert (Functional : forall s0 c1 c2, condNamed s0 c1 -> condNamed s0 c2 -> c1 = c2).
  { intros s0 c1 c2 H1 H2. apply assign_named in H1. apply assign_named in H2. congruence. }
  assert (Asc2 : ascending (if i then massign tag true (memplace tag false (snd st)) else memplace tag false (snd st))).
  { destruct i; [apply asc_assign|]; apply asc_emplace; exact A2. }
  split; [apply asc_emplace; exact A1|]. split; [exact Asc2|]. cbn [fst snd]. split.
  - intros q d. rewrite (mfind_emplace tag q c (fst st) A1), firstFor_app. cbn [firstFor]. rewrite Ex.
    specialize (V1 q). setoid_rewrite firstFor_app in V1. cbn [firstFor] in V1.
    destruct (firstFor q l) as [s'|] eqn:El.
    + destruct (mfind q (fst st)) as [b|] eqn:Em.
      * split; [intros X; injection X as <-; apply V1; reflexivity|intros X; f_equal].
        destruct (proj1 (V1 b) eq_refl) as (s1 & Y1 & Y2). destruct X as (s2 & Y3 & Y4). assert (s1 = s2) by congruence. subst s2. eapply Functional; eauto.
      * split.
        -- destruct (q =? tag) eqn:Q; [|discriminate]. apply Z.eqb_eq in Q. subst q. destruct (Hok s' El) as (c' & Hc').
           assert (None = Some c') by (apply V1; exists s'; auto). discriminate.
        -- intros X. assert (None = Some d) by (apply V1; exact X). discriminate.
    + destruct (mfind q (fst st)) as [b|] eqn:Em.
      * destruct (proj1 (V1 b) eq_refl) as (s1 & Y1 & Y2). destruct (existsb (Z.eqb q) ts) eqn:T; [|discriminate]. cbn [orb].
        split; [intros X; injection X as <-; exists s1; auto|intros (s2 & Y3 & Y4)]. f_equal. injection Y1 as <-. injection Y3 as <-. eapply Functional; eauto.
      * destruct (existsb (Z.eqb q) ts) eqn:T.
        -- exfalso. assert (None = Some c) by (apply V1; exists s; auto). discriminate.
        -- cbn [orb]. destruct (q =? tag); [|split; [discriminate|intros (s2 & Y & _); discriminate]].
           split; [intros X; injection X as <-; exists s; auto|intros (s2 & Y3 & Y4)]. injection Y3 as <-. f_equal. eapply Functional; eauto.
  - intros q j.
    assert (L : listed q (l ++ [(ts ++ [tag], s)]) <-> listed q (l ++ [(ts, s)]) \/ q = tag).
    { split.
      - intros (ts' & a & I & T). apply in_app_or in I. destruct I as [I|[I|[]]].
        + left. exists ts', a. split; [apply in_or_app; left; exact I|exact T].
        + injection I as <- <-. apply in_app_or in T. destruct T as [T|[T|[]]]; [left|right; auto]. exists ts, s. split; [apply in_or_app; right; left; reflexivity|exact T].
      - intros [(ts' & a & I & T)| ->].
        + apply in_app_or in I. destruct I as [I|[I|[]]].
          * exists ts', a. split; [apply in_or_app; left; exact I|exact T].
          * injection I as <- <-. exists (ts ++ [tag]), s. split; [apply in_or_app; right; left; reflexivity|apply in_or_app; left; exact T].
        + exists (ts ++ [tag]), s. split; [apply in_or_app; right; left; reflexivity|apply in_or_app; right; left; reflexivity]. }
    rewrite L. specialize (V2 q).
    assert (F : mfind q (if i then massign tag true (memplace tag false (snd st)) else memplace tag false (snd st)) =
            if q =? tag then Some i else mfind q (snd st)).
    { destruct i.
      - rewrite mfind_assign, (mfind_emplace _ _ _ _ A2). destruct (q =? tag) eqn:Q; [reflexivity|]. destruct (mfind q (snd st)); reflexivity.
      - rewrite (mfind_emplace _ _ _ _ A2). destruct (q =? tag) eqn:Q; [|destruct (mfind q (snd st)); reflexivity].
        apply Z.eqb_eq in Q. subst q. destruct (mfind tag (snd st)) as [b|] eqn:B; [|reflexivity].
        destruct (proj1 (V2 b) eq_refl) as (_ & Y). f_equal. apply (bool_iff_unique b false (onInterior sm tag) Y Vi). }
    rewrite F. destruct (q =? tag) eqn:Q.
    + apply Z.eqb_eq in Q. subst q. split.
      * intros X. injection X as <-. split; [right; reflexivity|exact Vi].
      * intros (_ & Y). f_equal. apply (bool_iff_unique i j (onInterior sm tag)); [exact Vi|exact Y].
    + apply Z.eqb_neq in Q. rewrite V2. split; [intros (Y1 & Y2); auto|intros ([Y1|Y1] & Y2); [auto|contradiction]].
Qed.

Lemma state_nil_entry : forall sm l st s, condState sm l st -> condState sm (l ++ [([], s)]) st.
Proof.
  intros sm l st s (A1 & A2 & V1 & V2). split; [exact A1|]. split; [exact A2|]. split.
  - intros t c. rewrite V1. setoid_rewrite firstFor_app. cbn [firstFor existsb]. destruct (firstFor t l); reflexivity.
  - intros t i. rewrite V2. assert (L : listed t (l ++ [([], s)]) <-> listed t l).
    { split; intros (ts & a & I & T); exists ts, a; (split; [|exact T]).
      - apply in_app_or in I. destruct I as [I|[I|[]]]; [exact I|]. injection I as <- <-. destruct T.
      - apply in_or_app. left. exact I. }
    rewrite L. reflexivity.
Qed.
Lemma tags_loop : forall sm l s c, wfSM sm -> condNamed s c ->
  (forall ts' s', In (ts', s') l -> exists c', condNamed s' c') ->
  forall rest ts st, condState sm (l ++ [(ts, s)]) st ->
  exists st', foldM (fun st tag =>
        c <- assignBdrCond s ;;
        i <- tagOnInterior sm tag (combine (sm_f2b sm) (sm_inter sm)) ;;
        let ints := memplace tag false (snd st) in
        Ok (memplace tag c (fst st), if (i : bool) then massign tag true ints else ints)) rest st = Ok st' /\
    condState sm (l ++ [(ts ++ rest, s)]) st'.
Proof.
  intros sm l s c W Hc Hl. induction rest as [|tag rest IH]; intros ts st Hst; cbn [foldM].
  - exists st. split; [reflexivity|]. rewrite app_nil_r. exact Hst.
  - destruct (tag_step sm l st ts s c tag W Hc Hst) as (st1 & E1 & S1).
    { intros s' F. apply listed_first in F. destruct F as (ts' & I & _). apply (Hl _ _ I). }
    cbv beta zeta in E1. rewrite E1. cbn [bind]. destruct (IH (ts ++ [tag]) st1 S1) as (st' & E & S'). exists st'. split; [exact E|].
    rewrite <- app_assoc in S'. exact S'.
Qed.
Lemma conds_loop : forall sm bs, wfSM sm -> Forall entryOk bs ->
  exists st, loadConds sm bs = Ok st /\ condState sm (condsIn bs) st.
Proof.
  intros sm bs W Hb. unfold loadConds, condsIn.
  assert (G : forall bs' l st, Forall entryOk bs' -> condState sm l st -> (forall ts' s', In (ts', s') l -> exists c', condNamed s' c') ->
    exists st', foldM (fun st e => match be_tags e, be_type e with
    | Some tags, Some ty =>
      foldM (fun st tag =>
        c <- assignBdrCond ty ;;
        i <- tagOnInterior sm tag (combine (sm_f2b sm) (sm_inter sm)) ;;
        let ints := memplace tag false (snd st) in
        Ok (memplace tag c (fst st), if (i : bool) then massign tag true ints else ints)) tags st
    | _, _ => Throw
    end) bs' st = Ok st' /\
    condState sm (l ++ flat_map (fun e => match be_tags e, be_type e with Some ts, Some s => [(ts, s)] | _, _ => [] end) bs') st').
  { induction bs' as [|e r IH]; intros l st Hr Hst Hl; cbn [foldM flat_map].
    - exists st. split; [reflexivity|]. rewrite app_nil_r. exact Hst.
    - inversion Hr as [|? ? He Hr']; subst. destruct He as (t & ts & s & c & E1 & E2 & Hc). rewrite E1, E2.
      destruct (tags_loop sm l s c W Hc Hl (t :: ts) [] st (state_nil_entry _ _ _ s Hst)) as (st1 & F1 & S1).
      cbv beta zeta in F1. cbv beta zeta. rewrite F1. cbn [bind app] in *.
      destruct (IH (l ++ [(t :: ts, s)]) st1 Hr' S1) as (st' & F & S').
      { intros ts' s' I. apply in_app_or in I. destruct I as [I|[I|[]]]; [eauto|]. injection I as <- <-. eauto. }
      exists st'. split; [exact F|]. rewrite <- app_assoc in S'. exact S'. }
  apply (G bs [] ([], []) Hb); [|intros ? ? []].
  split; [constructor|]. split; [constructor|]. cbn [fst snd mfind firstFor]. split.
  - intros t c. split; [discriminate|intros (s & X & _); discriminate].
  - intros t i. split; [discriminate|intros ((ts & a & [] & _) & _)].
Qed.
Lemma check_ok : forall bs, Forall entryOk bs -> checkBoundaryInputProperties bs = Ok tt.
Proof.
  intros bs H. unfold checkBoundaryInputProperties. induction H as [|e r (t & ts & s & c & E1 & E2 & Hc) Hr IH]; cbn [foldM]; [reflexivity|].
  rewrite E1, E2. exact IH.
Qed.

(** The final split. *)
Lemma split_loop : forall cs is r, ascending is -> (forall k i, In (k, i) is -> forall p, In p (fst r ++ snd r) -> fst p < k) ->
  ascending (fst r) -> ascending (snd r) ->
  let r' := fold_left (fun r p =>
    let c := match mfind (fst p) cs with Some c => c | None => PEC end in
    if (snd p : bool) then (fst r, memplace (fst p) c (snd r)) else (memplace (fst p) c (fst r), snd r)) is r in
  ascending (fst r') /\ ascending (snd r') /\
  (forall t c, mfind t (fst r') = Some c <-> mfind t (fst r) = Some c \/ mfind t is = Some false /\ c = match mfind t cs with Some c => c | None => PEC end) /\
  (forall t c, mfind t (snd r') = Some c <-> mfind t (snd r) = Some c \/ mfind t is = Some true /\ c = match mfind t cs with Some c => c | None => PEC end).
Proof.
  intros cs is. induction is as [|[k i] t IH]; intros r Ha Hlt A1 A2; cbv zeta; cbn [fold_left].
  - split; [exact A1|]. split; [exact A2|]. cbn [mfind]. split; intros; split; auto; intros [X|(X & _)]; auto; discriminate.
  - inversion Ha as [|? ? ? Hk Ht]; subst. cbn [fst snd].
    set (c0 := match mfind k cs with Some c => c | None => PEC end).
    set (r1 := if i then (fst r, memplace k c0 (snd r)) else (memplace k c0 (fst r), snd r)).
    assert (B1 : ascending (fst r1)) by (unfold r1; destruct i; cbn [fst]; [exact A1|apply asc_emplace; exact A1]).
    assert (B2 : ascending (snd r1)) by (unfold r1; destruct i; cbn [snd]; [apply asc_emplace; exact A2|exact A2]).
    assert (L1 : forall k' i', In (k', i') t -> forall p, In p (fst r1 ++ snd r1) -> fst p < k').
    { intros k' i' I p J. specialize (Hk _ _ I).
      assert (D : p = (k, c0) \/ In p (fst r ++ snd r)).
      { unfold r1 in J. apply in_app_or in J. destruct i; cbn [fst snd] in J; destruct J as [J|J]; try (apply in_emplace in J; destruct J as [J|J]); auto; right; apply in_or_app; auto. }
      destruct D as [->|D]; [cbn [fst]; lia|]. apply (Hlt k' i' (or_intror I) p D). }
    assert (N1 : forall p, In p (fst r ++ snd r) -> fst p < k) by (intros p J; apply (Hlt k i (or_introl eq_refl) p J)).
    assert (F1 : mfind k (fst r) = None).
    { destruct (mfind k (fst r)) eqn:X; [|reflexivity]. apply mfind_in in X. pose proof (N1 _ (in_or_app _ _ _ (or_introl X))) as Y. cbn [fst] in Y. lia. }
    assert (F2 : mfind k (snd r) = None).
    { destruct (mfind k (snd r)) eqn:X; [|reflexivity]. apply mfind_in in X. pose proof (N1 _ (in_or_app _ _ _ (or_intror X))) as Y. cbn [fst] in Y. lia. }
    assert (F3 : mfind k t = None).
    { destruct (mfind k t) eqn:X; [|reflexivity]. apply mfind_in in X. specialize (Hk _ _ X). lia. }
    destruct (IH r1 Ht L1 B1 B2) as (C1 & C2 & V1 & V2). cbv zeta in *. split; [exact C1|]. split; [exact C2|].
    split; intros q c.
    + rewrite V1. unfold r1. destruct i; cbn [fst mfind].
      * destruct (q =? k) eqn:Q; [|reflexivity]. apply Z.eqb_eq in Q. subst q. rewrite F3. split; intros [X|(X & _)]; auto; discriminate.
      * rewrite (mfind_emplace _ _ _ _ A1). destruct (q =? k) eqn:Q.
        -- apply Z.eqb_eq in Q. subst q. rewrite F1, F3. fold c0. split; [intros [X|(X & _)]; [injection X as <-; auto|discriminate]|].
           intros [X|(_ & ->)]; [discriminate|left; reflexivity].
        -- destruct (mfind q (fst r)); reflexivity.
    + rewrite V2. unfold r1. destruct i; cbn [snd mfind].
      * rewrite (mfind_emplace _ _ _ _ A2). destruct (q =? k) eqn:Q.
        -- apply Z.eqb_eq in Q. subst q. rewrite F2, F3. fold c0. split; [intros [X|(X & _)]; [injection X as <-; auto|discriminate]|].
           intros [X|(_ & ->)]; [discriminate|left; reflexivity].
        -- destruct (mfind q (snd r)); reflexivity.
      * destruct (q =? k) eqn:Q; [|reflexivity]. apply Z.eqb_eq in Q. subst q. rewrite F3. split; intros [X|(X & _)]; auto; discriminate.
Qed.
Lemma boundary_assign : forall bs sm, wfSM sm -> Forall entryOk bs ->
  exists gb gi, assembleAttributeToBoundary bs sm = Ok (gb, gi) /\ ascending gb /\ ascending gi /\
    (forall t c, mfind t gb = Some c <-> (exists s, firstFor t (condsIn bs) = Some s /\ condNamed s c) /\ ~ onInterior sm t) /\
    (forall t c, mfind t gi = Some c <-> (exists s, firstFor t (condsIn bs) = Some s /\ condNamed s c) /\ onInterior sm t).
Proof.
  intros bs sm W Hb. unfold assembleAttributeToBoundary. rewrite (check_ok bs Hb). cbn [bind].
  destruct (conds_loop sm bs W Hb) as (st & E & A1 & A2 & V1 & V2). rewrite E. cbn [bind]. unfold splitConds.
  destruct (split_loop (fst st) (snd st) ([], []) A2) as (C1 & C2 & W1 & W2); [intros ? ? ? ? []|constructor|constructor|]. cbv zeta in *.
  destruct (fold_left _ (snd st) ([], [])) as [gb gi]. cbn [fst snd mfind] in *.
  exists gb, gi. split; [reflexivity|]. split; [exact C1|]. split; [exact C2|].
  assert (L : forall t, listed t (condsIn bs) <-> exists c, mfind t (fst st) = Some c).
  { intros t. split.
    - intros H. apply first_listed in H. destruct H as (s & F). pose proof F as F'. apply listed_first in F'. destruct F' as (ts & I & T).
      unfold condsIn in I. apply in_flat_map in I. destruct I as (e & Ie & I). rewrite Forall_forall in Hb. destruct (Hb e Ie) as (t0 & ts0 & s0 & c & X1 & X2 & X3).
      rewrite X1, X2 in I. destruct I as [I|[]]. injection I as <- <-. exists c. apply V1. exists s0. auto.
    - intros (c & F). apply V1 in F. destruct F as (s & F & _). apply first_listed. eauto. }
  split; intros t c.
  - rewrite W1. split.
    + intros [X|(X & ->)]; [discriminate|]. apply V2 in X. destruct X as (X1 & X2). apply L in X1. destruct X1 as (c & X1). rewrite X1.
      split; [apply V1; exact X1|]. intros O. destruct X2 as (_ & X2). specialize (X2 O). discriminate.
    + intros (X & O). apply V1 in X. right. split; [|rewrite X; reflexivity]. apply V2. split; [apply L; eauto|]. split; [discriminate|contradiction].
  - rewrite W2. split.
    + intros [X|(X & ->)]; [discriminate|]. apply V2 in X. destruct X as (X1 & X2). apply L in X1. destruct X1 as (c & X1). rewrite X1.
      split; [apply V1; exact X1|]. apply X2. reflexivity.
    + intros (X & O). apply V1 in X. right. split; [|rewrite X; reflexivity]. apply V2. split; [apply L; eauto|]. split; auto.
Qed.
(** Entries that are not well formed are refused. *)
Lemma boundary_refused : forall bs sm, wfSM sm -> ~ Forall entryOk bs -> assembleAttributeToBoundary bs sm = Throw.
Proof.
  intros bs sm W N. unfold assembleAttributeToBoundary.
  assert (C : checkBoundaryInputProperties bs = Throw \/ (checkBoundaryInputProperties bs = Ok tt /\
     Forall (fun e => exists t ts s, be_tags e = Some (t :: ts) /\ be_type e = Some s) bs)).
  { unfold checkBoundaryInputProperties. clear N. induction bs as [|e r IH]; cbn [foldM]; [right; split; [reflexivity|constructor]|].
    destruct (be_tags e) as [[|t ts]|] eqn:E1; [left; reflexivity| |left; reflexivity].
    destruct (be_type e) as [s|] eqn:E2; [|left; reflexivity]. cbn [bind]. destruct IH as [IH|(IH & F)]; [left; exact IH|right].
    split; [exact IH|]. constructor; [|exact F]. exists t, ts, s. auto. }
  destruct C as [->|(-> & F)]; [reflexivity|]. cbn [bind].
  assert (L : loadConds sm bs = Throw).
  { unfold loadConds. generalize (@nil (Z * cond), @nil (Z * bool)). revert N. induction F as [|e r (t & ts & s & E1 & E2) Fr IH]; intros N st; [exfalso; apply N; constructor|].
    cbn [foldM]. rewrite E1, E2. destruct (assignBdrCond s) as [c| |] eqn:A.
    - assert (G : forall l st, (exists st', foldM (fun st tag =>
        c <- Ok c ;; i <- tagOnInterior sm tag (combine (sm_f2b sm) (sm_inter sm)) ;;
        let ints := memplace tag false (snd st) in
        Ok (memplace tag c (fst st), if (i : bool) then massign tag true ints else ints)) l st = Ok st')).
      { destruct W as (W1 & W2). induction l as [|x l IHl]; intros st0; cbn [foldM bind]; [eauto|].
        destruct (interior_scan sm x (sm_f2b sm) (sm_inter sm) W1 W2) as (i & Ei & _). rewrite Ei. cbn [bind]. apply IHl. }
      destruct (G (t :: ts) st) as (st' & Gs). cbn [foldM bind] in Gs |- *. rewrite Gs. cbn [bind]. apply IH. intros Fr'. apply N. constructor; [|exact Fr'].
      exists t, ts, s, c. split; [exact E1|]. split; [exact E2|]. apply assign_named. exact A.
    - cbn [foldM bind]. reflexivity.
    - exfalso. unfold assignBdrCond in A. repeat match type of A with (if ?x then _ else _) = _ => destruct x end; discriminate. }
  rewrite L. reflexivity.
Qed.

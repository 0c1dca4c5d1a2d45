From Coq Require Import String List ZArith Reals Lia Lra Bool ZifyBool.
From Flocq Require Import Core.
From Verif Require Import Common Probe_Model Setup_Model Geo_Model Time_Model Input_Model Input_Spec Input_Proofs.
Import ListNotations.
Open Scope Z_scope.

Lemma doubleOr_iff : forall j k d v, doubleOr j k d = Ok v <-> optionIs number j k d v.
Proof.
  intros j k d v. unfold doubleOr, optionIs. destruct (contains j k) eqn:E.
  - apply contains_true in E as (x & G & ->). cbn [bind]. rewrite jdouble_ok. split.
    + intros H; left; eauto.
    + intros [(y & G' & H)|[Ab _]]; [|destruct (Ab x G)]. rewrite (given_fun _ _ _ _ G G'); exact H.
  - apply contains_false in E. split.
    + intros [= <-]; right; auto.
    + intros [(y & G' & H)|[_ ->]]; [destruct (E y G')|reflexivity].
Qed.
Lemma sizeOr_iff : forall j k d v, sizeOr j k d = Ok v <-> optionIs whole64 j k d v.
Proof.
  intros j k d v. unfold sizeOr, optionIs. destruct (contains j k) eqn:E.
  - apply contains_true in E as (x & G & ->). cbn [bind]. rewrite jsizet_ok. split.
    + intros H; left; eauto.
    + intros [(y & G' & H)|[Ab _]]; [|destruct (Ab x G)]. rewrite (given_fun _ _ _ _ G G'); exact H.
  - apply contains_false in E. split.
    + intros [= <-]; right; auto.
    + intros [(y & G' & H)|[_ ->]]; [destruct (E y G')|reflexivity].
Qed.

Lemma Z0si_pos : (0 < freeSpaceImpedanceSI)%R.
Proof. unfold freeSpaceImpedanceSI, vacuumPermeabilitySI, speedOfLightSI. pose proof PI_RGT_0. lra. Qed.
Lemma mu0_pos : (0 < vacuumPermeabilitySI)%R.
Proof. unfold vacuumPermeabilitySI. pose proof PI_RGT_0. lra. Qed.
Lemma eps0_pos : (0 < vacuumPermittivitySI)%R.
Proof. unfold vacuumPermittivitySI. lra. Qed.

Lemma newMaterial_ok : forall e m s mat, newMaterial e m s = Ok mat <-> (1 <= e /\ 1 <= m /\ 0 <= s)%R /\ mat = mkMat e m s.
Proof.
  intros e m s mat. unfold newMaterial.
  destruct (Rlt_dec e 1); [split; [discriminate|intros [? _]; lra]|].
  destruct (Rlt_dec m 1); [split; [discriminate|intros [? _]; lra]|].
  destruct (Rlt_dec s 0); [split; [discriminate|intros [? _]; lra]|].
  split; [intros [= <-]; repeat split; lra|intros [_ ->]; reflexivity].
Qed.

(** Everything the parser computes, from its own formulas. *)
Lemma parse_iff : forall f j L, parseSGBCLayer f j = Ok L <->
  exists eps mu sigma width n segs order,
    layerIn j eps mu sigma width /\
    autoSegments f (mu * vacuumPermeabilitySI) (eps * vacuumPermittivitySI) sigma width (autoOrder f sigma (eps * vacuumPermittivitySI)) = Ok n /\
    optionIs whole64 j "num_of_segments" n segs /\
    optionIs whole64 j "order" (autoOrder f sigma (eps * vacuumPermittivitySI)) order /\
    L = mkSL (mkLayer (mkMat eps mu (sigma * freeSpaceImpedanceSI)) width (Z.to_nat segs) (Z.to_nat order))
             (nSkinDepths f (mu * vacuumPermeabilitySI) sigma width).
Proof.
  intros f j L. unfold parseSGBCLayer. split.
  - intros H. apply bind_ok in H as (eps & He & H). apply bind_ok in H as (mu & Hm & H).
    destruct (contains j "bulk_conductivity") eqn:Es; cbn [negb] in H; [|discriminate].
    apply contains_true in Es as (js & Gs & Ejs). rewrite Ejs in H. cbn [bind] in H.
    apply bind_ok in H as (sigma & Hs & H). apply bind_ok in H as (mat & Hmat & H).
    destruct (contains j "material_width") eqn:Ew; cbn [negb] in H; [|discriminate].
    apply contains_true in Ew as (jw & Gw & Ejw). rewrite Ejw in H. cbn [bind] in H.
    apply bind_ok in H as (width & Hw & H). apply bind_ok in H as (n & Hn & H).
    apply bind_ok in H as (segs & Hg & H). apply bind_ok in H as (order & Ho & H). injection H as <-.
    apply doubleOr_iff in He. apply doubleOr_iff in Hm. apply jdouble_ok in Hs. apply jdouble_ok in Hw.
    apply newMaterial_ok in Hmat as [(P1 & P2 & P3) ->]. apply sizeOr_iff in Hg. apply sizeOr_iff in Ho.
    exists eps, mu, sigma, width, n, segs, order.
    assert (P4 : (0 <= sigma)%R).
    { destruct (Rlt_le_dec sigma 0) as [N|]; [|assumption]. pose proof Z0si_pos.
      pose proof (Rmult_lt_compat_r _ _ _ H N) as Q. rewrite Rmult_0_l in Q. lra. }
    split; [constructor; eauto|]. auto.
  - intros (eps & mu & sigma & width & n & segs & order & [He Hm (js & Gs & Hs) (jw & Gw & Hw) (P1 & P2 & P3)] & Hn & Hg & Ho & ->).
    apply doubleOr_iff in He. apply doubleOr_iff in Hm. apply jdouble_ok in Hs. apply jdouble_ok in Hw.
    apply sizeOr_iff in Hg. apply sizeOr_iff in Ho.
    rewrite He, Hm. cbn [bind].
    destruct (given_contains _ _ _ Gs) as [-> ->]. cbn [negb bind]. rewrite Hs. cbn [bind].
    rewrite (proj2 (newMaterial_ok eps mu (sigma * freeSpaceImpedanceSI) _)
      (conj (conj P1 (conj P2 (Rmult_le_pos _ _ P3 (Rlt_le _ _ Z0si_pos)))) eq_refl)). cbn [bind].
    destruct (given_contains _ _ _ Gw) as [-> ->]. cbn [negb bind]. rewrite Hw. cbn [bind].
    rewrite Hn. cbn [bind]. rewrite Hg. cbn [bind]. rewrite Ho. reflexivity.
Qed.

Lemma optionIs_fun : forall {A} (spec : json -> A -> Prop) j k d v w,
  (forall x a b, spec x a -> spec x b -> a = b) -> optionIs spec j k d v -> optionIs spec j k d w -> v = w.
Proof.
  intros A spec j k d v w F [(x & G & S)|[Ab ->]] [(y & G' & S')|[Ab' ->]].
  - rewrite (given_fun _ _ _ _ G G') in S. eapply F; eassumption.
  - destruct (Ab' x G).
  - destruct (Ab y G').
  - reflexivity.
Qed.
Lemma number_fun : forall x a b, number x a -> number x b -> a = b.
Proof. intros x a b H1 H2. destruct H1; inversion H2; reflexivity. Qed.
Lemma layerIn_fun : forall j e m s w e' m' s' w', layerIn j e m s w -> layerIn j e' m' s' w' -> e = e' /\ m = m' /\ s = s' /\ w = w'.
Proof.
  intros * [He Hm (x & Gx & Nx) (y & Gy & Ny) _] [He' Hm' (x' & Gx' & Nx') (y' & Gy' & Ny') _].
  rewrite (given_fun _ _ _ _ Gx' Gx) in Nx'. rewrite (given_fun _ _ _ _ Gy' Gy) in Ny'.
  repeat split; eauto using optionIs_fun, number_fun.
Qed.

(** The cell count. *)
Lemma order_range : forall f s e, autoOrder f s e = 2 \/ autoOrder f s e = 3 \/ autoOrder f s e = 4.
Proof.
  intros f s e. unfold autoOrder. 
  match goal with |- context [if ?a then 2 else _] => destruct a; [auto|] end.
  match goal with |- context [if ?a then 4 else _] => destruct a; auto end.
Qed.
Lemma ceil20 : forall o, o = 2 \/ o = 3 \/ o = 4 -> exists k, Zceil (20 / IZR o) = k /\ 0 < k /\ 20 <= k * o.
Proof.
  intros o [-> | [-> | ->]].
  - exists 10. split; [apply Zceil_imp; rewrite minus_IZR; lra|lia].
  - exists 7. split; [apply Zceil_imp; rewrite minus_IZR; lra|lia].
  - exists 5. split; [apply Zceil_imp; rewrite minus_IZR; lra|lia].
Qed.
Lemma wavelength_is : forall f e m, (0 < f)%R -> (0 < e)%R -> (0 < m)%R ->
  (0 < wavelength f m e /\ wavelength f m e * wavelength f m e * (f * f) * (m * e) = 1)%R.
Proof.
  intros f e m Hf He Hm. assert (P : (0 < m * e)%R) by (apply Rmult_lt_0_compat; assumption).
  pose proof (sqrt_lt_R0 _ P) as S. pose proof (sqrt_sqrt (m * e) (Rlt_le _ _ P)) as Q.
  unfold wavelength. split.
  - apply Rdiv_lt_0_compat; [lra|]. apply Rmult_lt_0_compat; assumption.
  - rewrite <- Q at 3. field. split; lra.
Qed.
Lemma skin_is : forall f m s, (0 < f)%R -> (0 < m)%R -> (0 < s)%R ->
  (0 < skinDepth f m s /\ skinDepth f m s * skinDepth f m s * (PI * f * m * s) = 1)%R.
Proof.
  intros f m s Hf Hm Hs. assert (P : (0 < PI * f * m * s)%R) by (do 3 (apply Rmult_lt_0_compat; [|assumption]); exact PI_RGT_0).
  pose proof (sqrt_lt_R0 _ P) as S. pose proof (sqrt_sqrt _ (Rlt_le _ _ P)) as Q.
  unfold skinDepth. split.
  - apply Rdiv_lt_0_compat; [lra|assumption].
  - rewrite <- Q at 3. field. lra.
Qed.
Lemma pos_sq_eq : forall a b : R, (0 < a -> 0 < b -> a * a = b * b -> a = b)%R.
Proof.
  intros a b Ha Hb E. assert (Q : ((a - b) * (a + b) = 0)%R) by (replace ((a-b)*(a+b))%R with (a*a - b*b)%R by ring; lra).
  apply Rmult_integral in Q as [Q|Q]; lra.
Qed.
Lemma wavelength_uniq : forall f e m lam, (0 < f)%R -> (1 <= e)%R -> (1 <= m)%R ->
  isWavelength f e m lam -> lam = wavelength f (m * vacuumPermeabilitySI) (e * vacuumPermittivitySI).
Proof.
  intros f e m lam Hf He Hm [P E]. pose proof mu0_pos as M. pose proof eps0_pos as V.
  assert (Pm : (0 < m * vacuumPermeabilitySI)%R) by (apply Rmult_lt_0_compat; lra).
  assert (Pe : (0 < e * vacuumPermittivitySI)%R) by (apply Rmult_lt_0_compat; lra).
  destruct (wavelength_is f _ _ Hf Pe Pm) as [P' E']. apply pos_sq_eq; [assumption|assumption|].
  assert (Q : (0 < f * f * (m * vacuumPermeabilitySI * (e * vacuumPermittivitySI)))%R) by (apply Rmult_lt_0_compat; apply Rmult_lt_0_compat; assumption).
  apply (Rmult_eq_reg_r (f * f * (m * vacuumPermeabilitySI * (e * vacuumPermittivitySI)))); [|lra].
  rewrite <- !Rmult_assoc in *. congruence.
Qed.
Lemma skin_uniq : forall f m s d, (0 < f)%R -> (1 <= m)%R -> (0 < s)%R ->
  isSkinDepth f m s d -> d = skinDepth f (m * vacuumPermeabilitySI) s.
Proof.
  intros f m s d Hf Hm Hs [P E]. pose proof mu0_pos as M.
  assert (Pm : (0 < m * vacuumPermeabilitySI)%R) by (apply Rmult_lt_0_compat; lra).
  destruct (skin_is f _ _ Hf Pm Hs) as [P' E']. apply pos_sq_eq; [assumption|assumption|].
  assert (Q : (0 < PI * f * (m * vacuumPermeabilitySI) * s)%R) by (do 3 (apply Rmult_lt_0_compat; [|assumption]); exact PI_RGT_0).
  apply (Rmult_eq_reg_r (PI * f * (m * vacuumPermeabilitySI) * s)); [|lra].
  congruence.
Qed.

Lemma ceil_int_ok : forall x n, ceil_int x = Ok n <-> (IZR n - 1 < x <= IZR n)%R /\ -2147483648 <= n <= 2147483647.
Proof.
  intros x n. unfold ceil_int. split.
  - destruct ((-2147483648 <=? Zceil x) && (Zceil x <=? 2147483647)) eqn:E; [|discriminate]. intros [= <-].
    split; [|lia]. pose proof (Zceil_lb x). pose proof (Zceil_ub x). lra.
  - intros [A B]. assert (Zceil x = n) as -> by (apply Zceil_imp; rewrite minus_IZR; lra).
    destruct ((-2147483648 <=? n) && (n <=? 2147483647)) eqn:E; [reflexivity|lia].
Qed.

(** Below the bound of 1000 cells the layer is resolved. *)
Theorem resolution : forall f j L eps mu sigma width, (0 < f)%R ->
  parseSGBCLayer f j = Ok L -> absent j "num_of_segments" -> absent j "order" -> layerIn j eps mu sigma width -> (0 < width)%R ->
  (4 <= l_segs (sl_layer L) <= 1000)%nat /\
  ((l_segs (sl_layer L) < 1000)%nat ->
   resolves f eps mu sigma (l_order (sl_layer L)) (width / INR (l_segs (sl_layer L)))).
Proof.
  intros f j L eps mu sigma width Hf H An Ao HL Hw. apply parse_iff in H as (e' & m' & s' & w' & n & segs & order & HL' & Hn & Hg & Ho & ->).
  destruct (layerIn_fun _ _ _ _ _ _ _ _ _ HL HL') as (<- & <- & <- & <-). clear HL'.
  destruct Hg as [(x & G & _)|[_ ->]]; [destruct (An x G)|]. destruct Ho as [(x & G & _)|[_ ->]]; [destruct (Ao x G)|].
  cbn [sl_layer l_segs l_order]. pose proof (li_phys _ _ _ _ _ HL) as (P1 & P2 & P3).
  set (o := autoOrder f sigma (eps * vacuumPermittivitySI)) in *.
  pose proof (order_range f sigma (eps * vacuumPermittivitySI)) as Ro. fold o in Ro.
  destruct (ceil20 o Ro) as (k & Ek & Kp & K20).
  unfold autoSegments in Hn. destruct (Req_EM_T f 0) as [F0|_]; [lra|]. apply bind_ok in Hn as (c & Hc & Hn). injection Hn as <-.
  apply ceil_int_ok in Hc as [Hc _].
  split; [lia|]. intros Lt. assert (Cn : c <= Z.min 1000 (Z.max 4 c)) by lia.
  set (n := Z.min 1000 (Z.max 4 c)) in *. assert (N4 : 4 <= n) by lia.
  assert (Nr : INR (Z.to_nat n) = IZR n) by (rewrite INR_IZR_INZ, Z2Nat.id by lia; reflexivity). rewrite Nr.
  pose proof mu0_pos as M. pose proof eps0_pos as V.
  assert (Pm : (0 < mu * vacuumPermeabilitySI)%R) by (apply Rmult_lt_0_compat; lra).
  assert (Pe : (0 < eps * vacuumPermittivitySI)%R) by (apply Rmult_lt_0_compat; lra).
  set (wv := (wavelength f (mu * vacuumPermeabilitySI) (eps * vacuumPermittivitySI) / IZR k)%R).
  assert (Wp : (0 < wavelength f (mu * vacuumPermeabilitySI) (eps * vacuumPermittivitySI))%R) by (apply (wavelength_is f _ _ Hf Pe Pm)).
  assert (Kr : (0 < IZR k)%R) by (apply IZR_lt; lia).
  set (T := targetDx f (mu * vacuumPermeabilitySI) (eps * vacuumPermittivitySI) sigma o) in *.
  assert (Tw : (0 < T <= wv)%R /\ ((0 < sigma)%R -> (T <= skinDepth f (mu * vacuumPermeabilitySI) sigma / 2)%R)).
  { assert (Wv : (0 < wv)%R) by (apply Rdiv_lt_0_compat; assumption).
    unfold T, targetDx. rewrite Ek. fold wv. destruct (Rlt_dec 0 sigma) as [Sp|Sn]; [|split; [lra|intros; lra]].
    destruct (Rlt_dec 0 f) as [_|]; [|lra].
    pose proof (proj1 (skin_is f _ _ Hf Pm Sp)) as Sk.
    pose proof (Rmin_l wv (skinDepth f (mu * vacuumPermeabilitySI) sigma / 2)).
    pose proof (Rmin_r wv (skinDepth f (mu * vacuumPermeabilitySI) sigma / 2)).
    split; [split; [apply Rmin_glb_lt; lra|assumption]|intros; assumption]. }
  destruct Tw as [[Tp Tv] Ts].
  assert (NR : (4 <= IZR n)%R) by (apply IZR_le; lia).
  assert (Hh : (width / IZR n <= T)%R).
  { assert (A1 : (width / T <= IZR n)%R) by (eapply Rle_trans; [apply Hc|apply IZR_le; exact Cn]).
    apply (Rmult_le_compat_r T) in A1; [|lra]. unfold Rdiv in A1. rewrite Rmult_assoc, Rinv_l, Rmult_1_r in A1 by lra.
    apply (Rmult_le_reg_r (IZR n)); [lra|]. unfold Rdiv. rewrite Rmult_assoc, Rinv_l, Rmult_1_r by lra. lra. }
  split.
  - intros lam Hl. apply wavelength_uniq in Hl; [|assumption..]. rewrite Hl.
    assert (Io : INR (Z.to_nat o) = IZR o) by (rewrite INR_IZR_INZ, Z2Nat.id by lia; reflexivity). rewrite Io.
    set (W := wavelength f (mu * vacuumPermeabilitySI) (eps * vacuumPermittivitySI)) in *.
    assert (E1 : (wv * IZR k = W)%R) by (unfold wv; field; lra).
    assert (A2 : (20 <= IZR k * IZR o)%R) by (rewrite <- mult_IZR; apply IZR_le; lia).
    assert (Wv : (0 < wv)%R) by (apply Rdiv_lt_0_compat; assumption).
    apply Rle_trans with (wv * 20)%R; [apply Rmult_le_compat_r; lra|].
    rewrite <- E1, Rmult_assoc. apply Rmult_le_compat_l; lra.
  - intros d Sp Hd. apply skin_uniq in Hd; [|assumption..]. rewrite Hd. specialize (Ts Sp). lra.
Qed.

(** Never finer than the coarser of four cells and what the target asks for. *)
Theorem coarsest : forall f j L eps mu sigma width (n : nat), (0 < f)%R ->
  parseSGBCLayer f j = Ok L -> absent j "num_of_segments" -> absent j "order" -> layerIn j eps mu sigma width ->
  (4 <= n)%nat ->
  (width / INR n <= wavelength f (mu * vacuumPermeabilitySI) (eps * vacuumPermittivitySI) / IZR (Zceil (20 / INR (l_order (sl_layer L)))))%R ->
  ((0 < sigma)%R -> (width / INR n <= skinDepth f (mu * vacuumPermeabilitySI) sigma / 2)%R) ->
  (l_segs (sl_layer L) <= n)%nat.
Proof.
  intros f j L eps mu sigma width n Hf H An Ao HL N4 Hw1 Hs1. apply parse_iff in H as (e' & m' & s' & w' & n' & segs & order & HL' & Hn & Hg & Ho & ->).
  destruct (layerIn_fun _ _ _ _ _ _ _ _ _ HL HL') as (<- & <- & <- & <-). clear HL'.
  destruct Hg as [(x & G & _)|[_ ->]]; [destruct (An x G)|]. destruct Ho as [(x & G & _)|[_ ->]]; [destruct (Ao x G)|].
  cbn [sl_layer l_segs l_order] in *. pose proof (li_phys _ _ _ _ _ HL) as (P1 & P2 & P3).
  set (o := autoOrder f sigma (eps * vacuumPermittivitySI)) in *.
  pose proof (order_range f sigma (eps * vacuumPermittivitySI)) as Ro. fold o in Ro.
  destruct (ceil20 o Ro) as (k & Ek & Kp & K20).
  assert (Io : INR (Z.to_nat o) = IZR o) by (rewrite INR_IZR_INZ, Z2Nat.id by lia; reflexivity). rewrite Io, Ek in Hw1.
  unfold autoSegments in Hn. destruct (Req_EM_T f 0) as [F0|_]; [lra|]. apply bind_ok in Hn as (c & Hc & Hn). injection Hn as <-.
  apply ceil_int_ok in Hc as [Hc _].
  pose proof mu0_pos as M. pose proof eps0_pos as V.
  assert (Pm : (0 < mu * vacuumPermeabilitySI)%R) by (apply Rmult_lt_0_compat; lra).
  assert (Pe : (0 < eps * vacuumPermittivitySI)%R) by (apply Rmult_lt_0_compat; lra).
  assert (Wp : (0 < wavelength f (mu * vacuumPermeabilitySI) (eps * vacuumPermittivitySI))%R) by (apply (wavelength_is f _ _ Hf Pe Pm)).
  assert (Kr : (0 < IZR k)%R) by (apply IZR_lt; lia).
  set (T := targetDx f (mu * vacuumPermeabilitySI) (eps * vacuumPermittivitySI) sigma o) in *.
  assert (NR : (4 <= INR n)%R) by (change 4%R with (IZR 4); rewrite INR_IZR_INZ; apply IZR_le; lia).
  assert (TT : (0 < T)%R /\ (width / INR n <= T)%R).
  { set (wv := (wavelength f (mu * vacuumPermeabilitySI) (eps * vacuumPermittivitySI) / IZR k)%R) in *.
    assert (Wv : (0 < wv)%R) by (apply Rdiv_lt_0_compat; assumption).
    unfold T, targetDx. rewrite Ek. fold wv. destruct (Rlt_dec 0 sigma) as [Sp|Sn]; [|split; assumption].
    destruct (Rlt_dec 0 f) as [_|]; [|lra].
    pose proof (proj1 (skin_is f _ _ Hf Pm Sp)) as Sk. specialize (Hs1 Sp).
    split; [apply Rmin_glb_lt; lra|apply Rmin_glb; assumption]. }
  destruct TT as [Tp Th].
  assert (A1 : (width / T <= INR n)%R).
  { apply (Rmult_le_reg_r T); [lra|]. unfold Rdiv at 1. rewrite Rmult_assoc, Rinv_l, Rmult_1_r by lra.
    apply (Rmult_le_compat_r (INR n)) in Th; [|lra]. unfold Rdiv in Th. rewrite Rmult_assoc, Rinv_l, Rmult_1_r in Th by lra. lra. }
  assert (C : c <= Z.of_nat n).
  { assert (A2 : (IZR c < IZR (Z.of_nat n) + 1)%R) by (rewrite INR_IZR_INZ in A1; lra).
    rewrite <- plus_IZR in A2. apply lt_IZR in A2. lia. }
  lia.
Qed.

(** The order by loss tangent. *)
Theorem order_regime : forall f j L eps mu sigma width, (0 < f)%R ->
  parseSGBCLayer f j = Ok L -> absent j "order" -> layerIn j eps mu sigma width ->
  let T := (sigma / (f * (eps * vacuumPermittivitySI)))%R in
  ((100 < T)%R -> l_order (sl_layer L) = 2%nat) /\
  ((T < 1 / 10 /\ sigma < 1 / 1000)%R -> l_order (sl_layer L) = 4%nat) /\
  ((T <= 100 /\ (1 / 10 <= T \/ 1 / 1000 <= sigma))%R -> l_order (sl_layer L) = 3%nat).
Proof.
  intros f j L eps mu sigma width Hf H Ao HL T. apply parse_iff in H as (e' & m' & s' & w' & n & segs & order & HL' & Hn & Hg & Ho & ->).
  destruct (layerIn_fun _ _ _ _ _ _ _ _ _ HL HL') as (<- & <- & <- & <-). clear HL'.
  destruct Ho as [(x & G & _)|[_ ->]]; [destruct (Ao x G)|]. cbn [sl_layer l_order]. pose proof (li_phys _ _ _ _ _ HL) as (P1 & P2 & P3).
  pose proof eps0_pos as V.
  assert (Pe : (0 < f * (eps * vacuumPermittivitySI))%R) by (apply Rmult_lt_0_compat; [|apply Rmult_lt_0_compat]; lra).
  assert (T0 : sigma = 0%R -> T = 0%R) by (intros ->; unfold T, Rdiv; apply Rmult_0_l).
  assert (Tn : (0 <= T)%R) by (apply Rmult_le_pos; [exact P3|left; apply Rinv_0_lt_compat; exact Pe]).
  unfold autoOrder. fold T. destruct (Rlt_dec 0 sigma) as [Sp|Sn].
  - destruct (Req_EM_T f 0) as [F0|_]; [exfalso; lra|]. destruct (Rlt_dec 100 T) as [A|A].
    { split; [|split]; intros; [reflexivity|exfalso; lra|exfalso; lra]. }
    destruct (Rlt_dec T (/ 10)) as [B|B]; cbn [andb].
    { destruct (Rlt_dec sigma (/ 1000)) as [C|C]; (split; [|split]); intros; first [exfalso; lra | reflexivity]. }
    split; [|split]; intros; first [exfalso; lra | reflexivity].
  - assert (S0 : sigma = 0%R) by lra. specialize (T0 S0). cbn [andb].
    destruct (Rlt_dec sigma (/ 1000)) as [C|C]; (split; [|split]); intros; first [exfalso; lra | reflexivity].
Qed.

(** Every physical layer that can be meshed is accepted. *)
Theorem layer_total : forall f j eps mu sigma width, (0 < f)%R -> layerIn j eps mu sigma width -> (0 <= width)%R ->
  fits whole64 j "num_of_segments" -> fits whole64 j "order" ->
  (forall lam, isWavelength f eps mu lam -> width * 10 <= lam * 2147483647)%R ->
  (forall d, (0 < sigma)%R -> isSkinDepth f mu sigma d -> width * 2 <= d * 2147483647)%R ->
  exists L, parseSGBCLayer f j = Ok L.
Proof.
  intros f j eps mu sigma width Hf HL Hw Fs Fo Bl Bd. pose proof (li_phys _ _ _ _ _ HL) as (P1 & P2 & P3).
  pose proof mu0_pos as M. pose proof eps0_pos as V.
  assert (Pm : (0 < mu * vacuumPermeabilitySI)%R) by (apply Rmult_lt_0_compat; lra).
  assert (Pe : (0 < eps * vacuumPermittivitySI)%R) by (apply Rmult_lt_0_compat; lra).
  set (o := autoOrder f sigma (eps * vacuumPermittivitySI)).
  pose proof (order_range f sigma (eps * vacuumPermittivitySI)) as Ro. fold o in Ro.
  assert (Dec : forall k (d : Z), fits whole64 j k -> exists v, optionIs whole64 j k d v).
  { intros k d F. destruct (contains j k) eqn:E.
    - apply contains_true in E as (x & G & _). destruct (F x G) as (v & Hv). exists v. left. eauto.
    - apply contains_false in E. exists d. right. auto. }
  destruct (ceil20 o Ro) as (k & Ek & Kp & _).
  assert (K10 : k <= 10).
  { rewrite <- Ek. destruct Ro as [-> | [-> | ->]]; apply Zceil_glb; lra. }
  pose proof (wavelength_is f _ _ Hf Pe Pm) as [Wp We].
  specialize (Bl (wavelength f (mu * vacuumPermeabilitySI) (eps * vacuumPermittivitySI)) (conj Wp We)).
  set (W := wavelength f (mu * vacuumPermeabilitySI) (eps * vacuumPermittivitySI)) in *.
  assert (Kr : (0 < IZR k <= 10)%R) by (split; [apply IZR_lt; lia|apply IZR_le; lia]).
  set (T := targetDx f (mu * vacuumPermeabilitySI) (eps * vacuumPermittivitySI) sigma o).
  assert (HT : (0 < T /\ width <= T * 2147483647)%R).
  { assert (A : (0 < W / IZR k /\ width <= W / IZR k * 2147483647)%R).
    { split; [apply Rdiv_lt_0_compat; lra|].
      apply (Rmult_le_reg_r (IZR k)); [lra|]. replace (W / IZR k * 2147483647 * IZR k)%R with (W * 2147483647)%R by (field; lra).
      apply Rle_trans with (width * 10)%R; [apply Rmult_le_compat_l; lra|exact Bl]. }
    unfold T, targetDx. rewrite Ek. fold W. destruct (Rlt_dec 0 sigma) as [Sp|]; [|exact A]. destruct (Rlt_dec 0 f); [|exact A].
    pose proof (skin_is f _ _ Hf Pm Sp) as [Sk Se]. specialize (Bd _ Sp (conj Sk Se)).
    unfold Rmin. destruct (Rle_dec (W / IZR k) (skinDepth f (mu * vacuumPermeabilitySI) sigma / 2)); [exact A|lra]. }
  assert (Hn : exists n, autoSegments f (mu * vacuumPermeabilitySI) (eps * vacuumPermittivitySI) sigma width o = Ok n).
  { unfold autoSegments. destruct (Req_EM_T f 0); [lra|]. fold T.
    assert (C : 0 <= Zceil (width / T) <= 2147483647).
    { split.
      - apply le_IZR. eapply Rle_trans; [|apply Zceil_ub]. apply Rmult_le_pos; [exact Hw|left; apply Rinv_0_lt_compat; lra].
      - apply Zceil_glb. apply (Rmult_le_reg_r T); [lra|]. replace (width / T * T)%R with width by (field; lra). lra. }
    unfold ceil_int. destruct ((-2147483648 <=? Zceil (width / T)) && (Zceil (width / T) <=? 2147483647)) eqn:E; [|lia]. cbn [bind]. eauto. }
  destruct Hn as (n & Hn). destruct (Dec "num_of_segments"%string n Fs) as (sg & Hs). destruct (Dec "order"%string o Fo) as (od & Hod).
  eexists. apply parse_iff. exists eps, mu, sigma, width, n, sg, od. split; [exact HL|]. split; [exact Hn|]. split; [exact Hs|]. split; [exact Hod|reflexivity].
Qed.

(** What an accepted layer says of its input, whatever the frequency. *)
Theorem layer_sound : forall f j L, parseSGBCLayer f j = Ok L ->
  exists eps mu sigma width, layerIn j eps mu sigma width /\
    l_mat (sl_layer L) = mkMat eps mu (sigma * freeSpaceImpedanceSI) /\ l_width (sl_layer L) = width /\
    (forall n, (exists x, given j "num_of_segments" x /\ whole64 x n) -> l_segs (sl_layer L) = Z.to_nat n) /\
    (forall n, (exists x, given j "order" x /\ whole64 x n) -> l_order (sl_layer L) = Z.to_nat n) /\
    ((0 < f)%R -> (0 < sigma)%R -> forall d, isSkinDepth f mu sigma d -> (sl_nskin L * d = width)%R).
Proof.
  intros f j L H. apply parse_iff in H as (eps & mu & sigma & width & n & segs & order & HL & Hn & Hg & Ho & ->).
  assert (Wf : forall x a b, whole64 x a -> whole64 x b -> a = b).
  { intros x a b Ha Hb. apply jsizet_ok in Ha. apply jsizet_ok in Hb. congruence. }
  exists eps, mu, sigma, width. cbn [sl_layer l_mat l_width l_segs l_order sl_nskin].
  split; [exact HL|]. split; [reflexivity|]. split; [reflexivity|].
  split; [intros m Hm; f_equal; apply (optionIs_fun whole64 _ _ _ _ _ Wf Hg); left; exact Hm|].
  split; [intros m Hm; f_equal; apply (optionIs_fun whole64 _ _ _ _ _ Wf Ho); left; exact Hm|].
  intros Hf Sp d Hd. pose proof (li_phys _ _ _ _ _ HL) as (P1 & P2 & P3).
  unfold nSkinDepths. destruct (Rlt_dec 0 sigma); [|lra]. destruct (Rlt_dec 0 f); [|lra].
  rewrite (skin_uniq f mu sigma d Hf P2 Sp Hd). pose proof mu0_pos.
  assert (Pm : (0 < mu * vacuumPermeabilitySI)%R) by (apply Rmult_lt_0_compat; lra).
  pose proof (proj1 (skin_is f _ _ Hf Pm Sp)). field. lra.
Qed.

(** The check on the evolved eigenvalues and the largest moduli. *)
From Coq Require Import ZArith List Bool Reals Lia Lra.
From Verif Require Import Common Setup_Model Spectral_Model Spectral_Spec.
Import ListNotations.
Local Open Scope Z_scope.

Lemma cmod2_nn : forall z, (0 <= cmod2 z)%R.
Proof. intros [a b]. unfold cmod2. cbn [fst snd]. nra. Qed.

Lemma modulus_sqrt : forall z, modulus z = sqrt (cmod2 z).
Proof. reflexivity. Qed.

Lemma modulus_nn : forall z, (0 <= modulus z)%R.
Proof. intros. apply sqrt_pos. Qed.

Lemma modulus_lt : forall z w, (modulus z < modulus w <-> cmod2 z < cmod2 w)%R.
Proof.
  intros z w. rewrite !modulus_sqrt. split; intros L.
  - apply sqrt_lt_0_alt. exact L.
  - apply sqrt_lt_1_alt. split; [apply cmod2_nn|exact L].
Qed.

Lemma modulus_zero : forall z, modulus z = 0%R <-> z = (0%R, 0%R).
Proof.
  intros [a b]. split.
  - intros E. rewrite modulus_sqrt in E. apply sqrt_eq_0 in E; [|apply cmod2_nn]. unfold cmod2 in E. cbn [fst snd] in E.
    assert (a = 0)%R by nra. assert (b = 0)%R by nra. now subst.
  - intros E. inversion E. unfold modulus. cbn [fst snd]. rewrite Rmult_0_l, Rplus_0_l. apply sqrt_0.
Qed.

Lemma modulus_ratio : forall z w, w <> (0%R, 0%R) -> (1 < modulus z / modulus w <-> cmod2 w < cmod2 z)%R.
Proof.
  intros z w Nz. rewrite <- modulus_lt.
  assert (P : (0 < modulus w)%R).
  { destruct (modulus_nn w) as [L|E]; [exact L|]. exfalso. apply Nz. apply modulus_zero. now symmetry. }
  assert (Q : (modulus z = modulus z / modulus w * modulus w)%R) by (field; lra).
  split; intros L.
  - rewrite Q. nra.
  - apply Rmult_lt_reg_r with (modulus w); [exact P|]. rewrite <- Q. lra.
Qed.

Lemma zget_nth' : forall (l : list R) i, (i < length l)%nat -> zget l (Z.of_nat i) = Ok (nth i l 0%R).
Proof.
  intros l i L. apply zget_ok. split; [lia|]. rewrite Nat2Z.id. now apply nth_error_nth'.
Qed.

Lemma stab_iter : forall (step : list R -> list R) ev l,
  length (step (map fst ev)) = length ev -> length (step (map snd ev)) = length ev ->
  (forall i, In i l -> 0 <= i < Z.of_nat (length ev)) ->
  foldM (fun _ i =>
    rp <- zget (map fst ev) i ;; ip <- zget (map snd ev) i ;;
    r <- zget (step (map fst ev)) i ;; m <- zget (step (map snd ev)) i ;;
    (if nonZero (modulus (rp, ip))
    then if Rlt_dec 1 (modulus (r, m) / modulus (rp, ip)) then Throw else Ok tt
    else Ok tt)) l tt =
  if forallb (fun i => let z := nth (Z.to_nat i) ev (0, 0)%R in
       if nonZero (modulus z)
       then if Rlt_dec 1 (modulus (nth (Z.to_nat i) (step (map fst ev)) 0, nth (Z.to_nat i) (step (map snd ev)) 0)%R / modulus z) then false else true
       else true) l then Ok tt else Throw.
Proof.
  intros step ev l L1 L2. induction l as [|i l IH]; intros Hl; [reflexivity|].
  cbn [foldM forallb].
  assert (Hi : 0 <= i < Z.of_nat (length ev)) by (apply Hl; now left).
  assert (Ei : i = Z.of_nat (Z.to_nat i)) by lia.
  assert (Z1 : zget (map fst ev) i = Ok (fst (nth (Z.to_nat i) ev (0, 0)%R))).
  { rewrite Ei at 1. rewrite zget_nth' by (rewrite map_length; lia). f_equal. apply (map_nth fst ev (0, 0)%R). }
  assert (Z2 : zget (map snd ev) i = Ok (snd (nth (Z.to_nat i) ev (0, 0)%R))).
  { rewrite Ei at 1. rewrite zget_nth' by (rewrite map_length; lia). f_equal. apply (map_nth snd ev (0, 0)%R). }
  assert (Z3 : zget (step (map fst ev)) i = Ok (nth (Z.to_nat i) (step (map fst ev)) 0%R)).
  { rewrite Ei at 1. apply zget_nth'. lia. }
  assert (Z4 : zget (step (map snd ev)) i = Ok (nth (Z.to_nat i) (step (map snd ev)) 0%R)).
  { rewrite Ei at 1. apply zget_nth'. lia. }
  rewrite Z1, Z2, Z3, Z4. cbn [bind].
  replace (fst (nth (Z.to_nat i) ev (0%R, 0%R)), snd (nth (Z.to_nat i) ev (0%R, 0%R))) with (nth (Z.to_nat i) ev (0%R, 0%R))
    by (destruct (nth (Z.to_nat i) ev (0%R, 0%R)); reflexivity).
  cbv zeta.
  destruct (nonZero (modulus (nth (Z.to_nat i) ev (0%R, 0%R)))).
  - destruct (Rlt_dec 1 _); cbn [bind andb]; [reflexivity|]. apply IH. intros; apply Hl; now right.
  - cbn [bind andb]. apply IH. intros; apply Hl; now right.
Qed.

Lemma stability_check : forall step ev,
  length (step (map fst ev)) = length ev -> length (step (map snd ev)) = length ev ->
  (evaluateStability step ev = Ok tt /\ stayed step ev) \/ (evaluateStability step ev = Throw /\ ~ stayed step ev).
Proof.
  intros step ev L1 L2. unfold evaluateStability. cbv zeta.
  rewrite L1, (stab_iter step ev (zseq (length ev)) L1 L2) by (intros i Hi; apply in_zseq in Hi; lia).
  match goal with |- context [forallb ?p ?l] => destruct (forallb p l) eqn:Q end.
  - left. split; [reflexivity|]. intros k z Hk Nz.
    rewrite forallb_forall in Q.
    assert (Lk : (k < length ev)%nat) by (apply nth_error_Some; congruence).
    assert (Ik : In (Z.of_nat k) (zseq (length ev))) by (apply in_zseq; lia). specialize (Q (Z.of_nat k) Ik). cbv zeta in Q.
    rewrite Nat2Z.id in Q. rewrite (nth_error_nth ev k _ Hk) in Q.
    unfold nonZero in Q. destruct (Req_EM_T (modulus z) 0) as [E|_]; [exfalso; apply Nz; now apply modulus_zero|].
    destruct (Rlt_dec 1 _) as [|G]; [discriminate|].
    rewrite modulus_ratio in G by exact Nz. lra.
  - right. split; [reflexivity|]. intros S.
    enough (F : forallb (fun i => let z := nth (Z.to_nat i) ev (0, 0)%R in
       if nonZero (modulus z)
       then if Rlt_dec 1 (modulus (nth (Z.to_nat i) (step (map fst ev)) 0, nth (Z.to_nat i) (step (map snd ev)) 0)%R / modulus z) then false else true
       else true) (zseq (length ev)) = true) by congruence.
    apply forallb_forall. intros i Hi. apply in_zseq in Hi. cbv zeta.
    assert (Hk : nth_error ev (Z.to_nat i) = Some (nth (Z.to_nat i) ev (0, 0)%R)) by (apply nth_error_nth'; lia).
    unfold nonZero. destruct (Req_EM_T _ 0) as [|Nz]; [reflexivity|].
    assert (Nz' : nth (Z.to_nat i) ev (0, 0)%R <> (0, 0)%R) by (intros E; apply Nz; now apply modulus_zero).
    destruct (Rlt_dec 1 _) as [G|]; [|reflexivity].
    rewrite modulus_ratio in G by exact Nz'. specialize (S _ _ Hk Nz'). lra.
Qed.

Lemma analysis_check : forall eigs step ne,
  (forall e, length (step e (map fst (eigs e))) = length (eigs e) /\ length (step e (map snd (eigs e))) = length (eigs e)) ->
  (performSpectralAnalysis eigs step ne = Ok tt <-> forall e, 0 <= e < Z.of_nat ne -> stayed (step e) (eigs e)) /\
  (performSpectralAnalysis eigs step ne = Ok tt \/ performSpectralAnalysis eigs step ne = Throw).
Proof.
  intros eigs step ne L. unfold performSpectralAnalysis.
  assert (G : forall l, 
    (foldM (fun _ e => evaluateStability (step e) (eigs e)) l tt = Ok tt <-> forall e, In e l -> stayed (step e) (eigs e)) /\
    (foldM (fun _ e => evaluateStability (step e) (eigs e)) l tt = Ok tt \/ foldM (fun _ e => evaluateStability (step e) (eigs e)) l tt = Throw)).
  { induction l as [|e l [IH1 IH2]]; [split; [split; [intros _ e []|reflexivity]|now left]|].
    cbn [foldM]. destruct (L e) as [La Lb].
    destruct (stability_check (step e) (eigs e) La Lb) as [[E S]|[E S]]; rewrite E; cbn [bind].
    - split; [|exact IH2]. rewrite IH1. split.
      + intros H e' [<-|I]; auto.
      + intros H e' I. apply H. now right.
    - split; [|now right]. split; [discriminate|]. intros H. exfalso. apply S, H. now left. }
  destruct (G (zseq ne)) as [G1 G2]. split; [|exact G2]. rewrite G1. split.
  - intros H e He. apply H. apply in_zseq. lia.
  - intros H e He. apply H. apply in_zseq in He. lia.
Qed.

(** The largest moduli. *)
Lemma highest_max : forall ev,
  (forall z, In z ev -> (cmod2 z <= cmod2 (calcHighestModulus ev))%R) /\
  (In (calcHighestModulus ev) ev \/ calcHighestModulus ev = (0, 0)%R /\ forall z, In z ev -> z = (0, 0)%R).
Proof.
  intros ev. unfold calcHighestModulus.
  set (g := fun r z : R * R => if Rlt_dec (modulus r) (modulus z) then z else r).
  assert (G : forall l r, (cmod2 r <= cmod2 (fold_left g l r))%R /\
     (forall z, In z l -> (cmod2 z <= cmod2 (fold_left g l r))%R) /\ (fold_left g l r = r \/ In (fold_left g l r) l)).
  { induction l as [|z l IH]; intros r; [cbn [fold_left]; split; [lra|]; split; [intros z []|now left]|].
    cbn [fold_left]. destruct (IH (g r z)) as (I1 & I2 & I3).
    assert (Gz : (cmod2 r <= cmod2 (g r z) /\ cmod2 z <= cmod2 (g r z))%R /\ (g r z = r \/ g r z = z)).
    { unfold g. destruct (Rlt_dec (modulus r) (modulus z)) as [Q|Q]; rewrite modulus_lt in Q; (split; [lra|auto]). }
    destruct Gz as [[G1 G2] G3]. split; [lra|]. split.
    - intros w [<-|I]; [lra|auto].
    - destruct I3 as [->|I3]; [|right; now right]. destruct G3 as [->| ->]; [now left|right; now left]. }
  destruct (G ev (0, 0)%R) as (_ & I2 & I3). split; [exact I2|].
  destruct I3 as [E|I]; [|now left]. rewrite E in *.
  right. split; [reflexivity|]. intros [a b] I. specialize (I2 _ I). unfold cmod2 in I2. cbn [fst snd] in I2.
  assert (a = 0)%R by nra. assert (b = 0)%R by nra. now subst.
Qed.

Lemma find_max : forall ev, (forall z, In z ev -> (cmod2 z <= 1)%R) ->
  (forall z, In z ev -> (sqrt (cmod2 z) <= findMaxEigenvalueModulus ev)%R) /\
  ((exists z, In z ev /\ findMaxEigenvalueModulus ev = sqrt (cmod2 z)) \/ ev = []).
Proof.
  intros ev Hev. unfold findMaxEigenvalueModulus.
  set (g := fun (r : R) (z : R * R) => if Rle_dec (modulus z) 1 then if Rle_dec r (modulus z) then modulus z else r else r).
  assert (G : forall l r, (forall z, In z l -> (cmod2 z <= 1)%R) -> (0 <= r)%R -> (r <= fold_left g l r)%R /\
     (forall z, In z l -> (sqrt (cmod2 z) <= fold_left g l r)%R) /\ (fold_left g l r = r \/ exists z, In z l /\ fold_left g l r = sqrt (cmod2 z))).
  { induction l as [|z l IH]; intros r Hl Hr; [cbn [fold_left]; split; [lra|]; split; [intros z []|now left]|].
    cbn [fold_left].
    assert (Gz : (r <= g r z /\ sqrt (cmod2 z) <= g r z)%R /\ (g r z = r \/ g r z = sqrt (cmod2 z))).
    { unfold g. rewrite !modulus_sqrt.
      destruct (Rle_dec (sqrt (cmod2 z)) 1) as [_|Q].
      - destruct (Rle_dec r (sqrt (cmod2 z))); (split; [lra|auto]).
      - exfalso. apply Q. rewrite <- sqrt_1. apply sqrt_le_1_alt. apply Hl. now left. }
    destruct Gz as [[G1 G2] G3].
    destruct (IH (g r z)) as (I1 & I2 & I3); [intros; apply Hl; now right|lra|].
    split; [lra|]. split.
    - intros w [<-|I]; [lra|auto].
    - destruct I3 as [->|(w & Iw & ->)]; [|right; exists w; split; [now right|reflexivity]].
      destruct G3 as [->| ->]; [now left|right; exists z; split; [now left|reflexivity]]. }
  destruct (G ev 0%R Hev ltac:(lra)) as (I1 & I2 & I3). split; [exact I2|].
  destruct ev as [|z0 t]; [now right|]. left.
  destruct I3 as [E|I3]; [|exact I3]. exists z0. split; [now left|].
  rewrite E in *. specialize (I2 z0 (or_introl eq_refl)). pose proof (sqrt_pos (cmod2 z0)). lra.
Qed.

(** Attributes, conditions and materials of the sub-mesh of an element. *)
Lemma spectral_bdr : forall dim elemType nbe, regular dim elemType nbe ->
  exists battrs conds, spectralBdrAttributes elemType nbe = Ok battrs /\ assignAttToBdrByDimForSpectral dim elemType = Ok conds /\
    length battrs = nbe /\ map fst conds = battrs /\ (forall a, In a battrs <-> 1 <= a <= Z.of_nat nbe) /\ (forall p, In p conds -> snd p = SMA).
Proof.
  intros dim elemType nbe [E|[E|[E|[E|E]]]]; inversion E; subst; do 2 eexists;
  (split; [reflexivity|]); (split; [reflexivity|]); (split; [reflexivity|]); (split; [reflexivity|]);
  (split; [intros a; cbn [map zseq seq In]; lia|]); intros p Ip; cbn in Ip; intuition (subst; reflexivity).
Qed.

Lemma spectral_material : forall isE dim elemType nbe att, regular dim elemType nbe ->
  spectralCoefficient isE elemType dim nbe att = if att =? 1 then Ok 1%R else UB.
Proof.
  intros isE dim elemType nbe att R.
  assert (V : buildVacuumMaterial = Ok (mkMat 1 1 0)).
  { unfold buildVacuumMaterial, newMaterial. repeat (destruct (Rlt_dec _ _); [lra|]). reflexivity. }
  assert (F : forall m : mdl, md_mat m = [(1, mkMat 1 1 0)] ->
      (v <- buildEpsMuPiecewiseVector isE (md_mat m) ;; pwEval v att) = if att =? 1 then Ok 1%R else UB).
  { intros m ->. unfold buildEpsMuPiecewiseVector, fillVector, pwEval.
    assert (L : forall get, foldM (fun v p => zset v (fst p - 1) (get (snd p))) [(1, mkMat 1 1 0)] (initialiseGeomTagVector [(1, mkMat 1 1 0)]) = Ok [get (mkMat 1 1 0)]) by reflexivity.
    rewrite L. cbn [bind].
    replace ((if isE then m_eps else m_mu) (mkMat 1 1 0)) with 1%R by (destruct isE; reflexivity).
    destruct (Z.eqb_spec att 1) as [->|N]; [reflexivity|]. apply zget_oob. cbn [length]. lia. }
  destruct R as [E|[E|[E|[E|E]]]]; inversion E; subst; unfold spectralCoefficient;
    cbn [spectralBdrAttributes assignAttToBdrByDimForSpectral Z.leb Z.eqb Z.compare Pos.compare Pos.compare_cont Pos.eqb andb bind];
    unfold newModel; rewrite V; cbn [bind];
    match goal with |- context [assembleGeomTagToTypeMap ?b ?g false noMarkers] =>
      let r := eval vm_compute in (assembleGeomTagToTypeMap b g false noMarkers) in
      change (assembleGeomTagToTypeMap b g false noMarkers) with r end; cbn [bind];
    match goal with |- context [assembleGeomTagToTypeMap ?b ?g true ?m] =>
      change (assembleGeomTagToTypeMap b g true m) with (Ok m) end; cbn [bind]; apply F; reflexivity.
Qed.

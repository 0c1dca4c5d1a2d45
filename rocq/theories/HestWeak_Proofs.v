(** The stored element satisfies the discrete identities of the scheme. *)
From Coq Require Import ZArith List Bool Reals Lia Lra Sorted.
From Verif Require Import Common Geo_Spec Face_Model Face_Spec Face_Proofs Nodal_Model Nodal_Spec NodalEnergy_Spec Step_Model Conn_Model Conn_Spec.
From Verif Require Import Nodal_Proofs NodalMult_Proofs NodalEnergy_Proofs GlobalEnergy_Proofs FaceLoad_Proofs Hest_Model Hest_Spec Hest_Proofs HestElem_Proofs.
Import ListNotations.
Local Open Scope R_scope.

Lemma unit3_sq : forall dim q, geoDim dim q -> 0 < weightOf q -> sq (unit3 q) = 1.
Proof.
  intros dim q H W. destruct q as [x|a b|a0 a1 a2 b0 b1 b2]; cbn [geoDim] in H; [destruct H| |];
    unfold unit3, sq, dotp; cbn [calculateNormal nth].
  - assert (E : weightOf (G2 a b) * weightOf (G2 a b) = a * a + b * b).
    { cbn [weightOf]. apply sqrt_sqrt. nra. }
    set (w := weightOf (G2 a b)) in *. transitivity ((a * a + b * b) / (w * w)); [field; lra|]. rewrite <- E. field. lra.
  - assert (E : weightOf (G3 a0 a1 a2 b0 b1 b2) * weightOf (G3 a0 a1 a2 b0 b1 b2) =
      (a1 * b2 - a2 * b1) * (a1 * b2 - a2 * b1) + (a2 * b0 - a0 * b2) * (a2 * b0 - a0 * b2) + (a0 * b1 - a1 * b0) * (a0 * b1 - a1 * b0)).
    { cbn [weightOf]. rewrite sqrt_sqrt; [ring|].
      replace ((a0 * a0 + a1 * a1 + a2 * a2) * (b0 * b0 + b1 * b1 + b2 * b2) - (a0 * b0 + a1 * b1 + a2 * b2) * (a0 * b0 + a1 * b1 + a2 * b2))
        with ((a1 * b2 - a2 * b1) * (a1 * b2 - a2 * b1) + (a2 * b0 - a0 * b2) * (a2 * b0 - a0 * b2) + (a0 * b1 - a1 * b0) * (a0 * b1 - a1 * b0)) by ring.
      pose proof (Rle_0_sqr (a1 * b2 - a2 * b1)). pose proof (Rle_0_sqr (a2 * b0 - a0 * b2)). pose proof (Rle_0_sqr (a0 * b1 - a1 * b0)). unfold Rsqr in *. lra. }
    set (w := weightOf (G3 a0 a1 a2 b0 b1 b2)) in *.
    transitivity (((a1 * b2 - a2 * b1) * (a1 * b2 - a2 * b1) + (a2 * b0 - a0 * b2) * (a2 * b0 - a0 * b2) + (a0 * b1 - a1 * b0) * (a0 * b1 - a1 * b0)) / (w * w)); [field; lra|].
    rewrite <- E. field. lra.
Qed.

Lemma F2_nth : forall {A B} (P : A -> B -> Prop) a b da db, Forall2 P a b -> forall k, (k < length a)%nat -> P (nth k a da) (nth k b db).
Proof.
  intros A B P a b da db H. induction H as [|x y l l' H0 HT IH]; intros [|k] Hk; cbn [length] in Hk; try lia; cbn [nth]; [exact H0|].
  apply IH. lia.
Qed.

Lemma interp_value : forall NF nf nodes el, elFlux el = (NF * nf)%nat -> forall f q h, (f < NF)%nat ->
  sumN (elFlux el) (fun i => (if (i / nf =? f)%nat then sh1 q (nth (i mod nf) (nth f nodes []) 0%nat) else 0) * h i) =
  sumN nf (fun b => sh1 q (nth b (nth f nodes []) 0%nat) * h (f * nf + b)%nat).
Proof.
  intros NF nf nodes el Hflux f q h Hf. rewrite Hflux, sumN_blocks.
  transitivity (sumN NF (fun f' => if (f' =? f)%nat then sumN nf (fun b => sh1 q (nth b (nth f nodes []) 0%nat) * h (f' * nf + b)%nat) else 0)).
  - apply sumN_ext. intros f' Hf'. destruct (f' =? f)%nat eqn:E.
    + apply sumN_ext. intros b Hb. replace (f' * nf + b)%nat with (b + f' * nf)%nat by lia.
      rewrite Nat.div_add, Nat.div_small, Nat.mod_add, Nat.mod_small by lia. cbn [plus]. rewrite E. reflexivity.
    + apply sumN_zero. intros b Hb. replace (f' * nf + b)%nat with (b + f' * nf)%nat by lia.
      rewrite Nat.div_add, Nat.div_small by lia. cbn [plus]. rewrite E. ring.
  - rewrite sumN_delta by exact Hf. reflexivity.
Qed.

Section Weak.
Variables (inv : nat -> mat -> mat) (fc : fecol) (dim : Z) (t : etype) (nf : nat) (nodes : list (list nat)).
Hypothesis Hsup : supported t dim.
Hypothesis Hshape : refShape fc t nf nodes.
Let n := fc_n fc t.
Let NF := length (fc_faces fc t).
Hypothesis Hinv : isInverse n (scaledMass fc t (refDet t)) (inv n (scaledMass fc t (refDet t))).
Variables (Mi L : emat) (g : gelem).
Hypothesis Vm : forall i j, (i < n)%nat -> (j < n)%nat -> e_at Mi i j = inv n (scaledMass fc t (refDet t)) i j.
Hypothesis Rl : e_r L = n.
Hypothesis Cl : e_c L = (NF * nf)%nat.
Hypothesis Vl : forall i f b, (i < n)%nat -> (f < NF)%nat -> (b < nf)%nat ->
  e_at L i (f * nf + b)%nat = sumN n (fun k => e_at Mi i k * (faceScale t * overlap (faceN fc t f) k (nth b (nth f nodes []) 0%nat))).
Hypothesis Hg : straight fc dim t g.
Variables (s : nodal) (el : helem).
Hypothesis Hlift : nd_lift s = rowsOf L.
Hypothesis Hsize : elSize el = n.
Hypothesis Hflux : elFlux el = (NF * nf)%nat.
Hypothesis Hdir : forall d i j, (d < 3)%nat -> (i < n)%nat -> (j < n)%nat ->
  entry (dirMat el d) i j = sumN n (fun k => e_at Mi i k * e_at (derivMatrix fc dim g d) k j) * kappa t * refDet t / ge_det g.
Hypothesis Hnor : forall f b, (f < NF)%nat -> (b < nf)%nat -> elNormal el (f * nf + b) = unit3 (geoN g f).
Hypothesis Hfs : forall f b, (f < NF)%nat -> (b < nf)%nat -> nth (f * nf + b) (el_fscale el) 0 = weightOf (geoN g f) * 2 / ge_det g.

Lemma refDet_pos : 0 < refDet t.
Proof. destruct Hsup as [[-> _]|[[-> _]|[-> _]]]; cbn [refDet]; lra. Qed.

Lemma mass_cancel : forall y j, (j < n)%nat ->
  sumN n (fun k => ownMass fc t g j k * sumN n (fun m => e_at Mi k m * y m)) = ge_det g / refDet t * y j.
Proof.
  intros y j Hj. pose proof refDet_pos as Hr.
  transitivity (ge_det g / refDet t * sumN n (fun m => sumN n (fun k => scaledMass fc t (refDet t) j k * inv n (scaledMass fc t (refDet t)) k m) * y m)).
  - rewrite <- sumN_scal.
    transitivity (sumN n (fun k => sumN n (fun m => ge_det g / refDet t * (scaledMass fc t (refDet t) j k * inv n (scaledMass fc t (refDet t)) k m * y m)))).
    + apply sumN_ext. intros k Hk. rewrite <- sumN_scal. apply sumN_ext. intros m Hm. rewrite Vm by assumption. unfold ownMass. unfold scaledMass at 2. field. lra.
    + rewrite sumN_swap. apply sumN_ext. intros m Hm. rewrite <- sumN_scal_r, <- sumN_scal. apply sumN_ext. intros k Hk. ring.
  - f_equal. transitivity (sumN n (fun m => if (m =? j)%nat then y m else 0)).
    + apply sumN_ext. intros m Hm. rewrite Hinv by assumption. rewrite Nat.eqb_sym. destruct (m =? j)%nat; ring.
    + rewrite sumN_delta by exact Hj. reflexivity.
Qed.

Lemma form_cancel : forall v y z, (forall k, (k < n)%nat -> z k = sumN n (fun m => e_at Mi k m * y m)) ->
  form el (ownMass fc t g) v z = sumN n (fun j => v j * (ge_det g / refDet t * y j)).
Proof.
  intros v y z Hz. unfold form. rewrite Hsize. apply sumN_ext. intros j Hj. rewrite <- mass_cancel by exact Hj.
  rewrite <- sumN_scal. apply sumN_ext. intros k Hk. rewrite Hz by exact Hk. ring.
Qed.

(** Derivatives: the element's own matrices, times [kappa]. *)
Lemma weak_derivative : forall d v u, (d < 3)%nat ->
  form el (ownMass fc t g) (onEl el v) (diff el d u) =
  kappa t * sumN n (fun j => sumN n (fun l => onEl el v j * e_at (derivMatrix fc dim g d) j l * onEl el u l)).
Proof.
  intros d v u Hd. pose proof refDet_pos as Hr. pose proof (st_det _ _ _ _ Hg) as Hp.
  rewrite (form_cancel _ (fun m => kappa t * refDet t / ge_det g * sumN n (fun l => e_at (derivMatrix fc dim g d) m l * onEl el u l))).
  - rewrite <- sumN_scal. apply sumN_ext. intros j Hj.
    transitivity (kappa t * (onEl el v j * sumN n (fun l => e_at (derivMatrix fc dim g d) j l * onEl el u l))); [field; lra|].
    f_equal. rewrite <- sumN_scal. apply sumN_ext. intros l _. ring.
  - intros k Hk. unfold diff. rewrite Hsize.
    transitivity (sumN n (fun l => sumN n (fun m => e_at Mi k m * (kappa t * refDet t / ge_det g * (e_at (derivMatrix fc dim g d) m l * onEl el u l))))).
    + apply sumN_ext. intros l Hl. rewrite Hdir by assumption. fold (onEl el u l).
      transitivity (sumN n (fun k0 => e_at Mi k k0 * e_at (derivMatrix fc dim g d) k0 l) * (kappa t * refDet t / ge_det g * onEl el u l)); [unfold onEl; field; lra|].
      rewrite <- sumN_scal_r. apply sumN_ext. intros m _. ring.
    + rewrite sumN_swap. apply sumN_ext. intros m _. rewrite <- !sumN_scal. reflexivity.
Qed.

Definition faceInt (f : nat) (v : nat -> R) (h : nat -> R) : R :=
  suml (fun q => q_w q * weightOf (geoN g f) * / 2 * sumN n (fun k => sh1 q k * v k) *
                 sumN nf (fun b => sh1 q (nth b (nth f nodes []) 0%nat) * h (f * nf + b)%nat)) (f_pts (faceN fc t f)).

Lemma scale_id : 2 * faceScale t / refDet t = kappa t / 2.
Proof. destruct Hsup as [[-> _]|[[-> _]|[-> _]]]; cbn [faceScale refDet kappa]; field. Qed.

(** Lifting: half of the face integral, times [kappa]. *)
Lemma weak_lift : forall v h, form el (ownMass fc t g) (onEl el v) (lift1 s el h) = kappa t * sumN NF (fun f => faceInt f (onEl el v) h).
Proof.
  intros v h. pose proof refDet_pos as Hr. pose proof (st_det _ _ _ _ Hg) as Hp.
  set (z := fun m => sumN NF (fun f => sumN nf (fun b => faceScale t * overlap (faceN fc t f) m (nth b (nth f nodes []) 0%nat) * (weightOf (geoN g f) / ge_det g * h (f * nf + b)%nat)))).
  rewrite (form_cancel _ z).
  - transitivity (sumN n (fun j => sumN NF (fun f => sumN nf (fun b => suml (fun q => kappa t * (q_w q * weightOf (geoN g f) * / 2 * (sh1 q j * onEl el v j) * (sh1 q (nth b (nth f nodes []) 0%nat) * h (f * nf + b)%nat))) (f_pts (faceN fc t f)))))).
    + apply sumN_ext. intros j Hj. unfold z. rewrite <- Rmult_assoc. rewrite <- sumN_scal. apply sumN_ext. intros f Hf. rewrite <- sumN_scal. apply sumN_ext. intros b Hb.
      unfold overlap.
      transitivity (onEl el v j * (faceScale t / refDet t) * (weightOf (geoN g f) * h (f * nf + b)%nat) * suml (fun q => q_w q * 2 * (sh1 q j * sh1 q (nth b (nth f nodes []) 0%nat))) (f_pts (faceN fc t f))); [field; lra|].
      rewrite <- suml_scal. apply suml_ext. intros q _. pose proof scale_id as K.
      replace (faceScale t / refDet t) with (kappa t / 4) by (replace (faceScale t / refDet t) with (2 * faceScale t / refDet t / 2) by (field; lra); rewrite K; field). field.
    + rewrite sumN_swap, <- sumN_scal. apply sumN_ext. intros f Hf. unfold faceInt. rewrite <- suml_scal.
      transitivity (suml (fun q => sumN n (fun j => sumN nf (fun b => kappa t * (q_w q * weightOf (geoN g f) * / 2 * (sh1 q j * onEl el v j) * (sh1 q (nth b (nth f nodes []) 0%nat) * h (f * nf + b)%nat))))) (f_pts (faceN fc t f))).
      * rewrite <- sumN_suml_swap. apply sumN_ext. intros j _. rewrite <- sumN_suml_swap. reflexivity.
      * apply suml_ext. intros q _.
        transitivity (sumN n (fun j => (sh1 q j * onEl el v j) * (kappa t * (q_w q * weightOf (geoN g f) * / 2) * sumN nf (fun b => sh1 q (nth b (nth f nodes []) 0%nat) * h (f * nf + b)%nat)))).
        -- apply sumN_ext. intros j _.
           transitivity (sh1 q j * onEl el v j * (kappa t * (q_w q * weightOf (geoN g f) * / 2)) * sumN nf (fun b => sh1 q (nth b (nth f nodes []) 0%nat) * h (f * nf + b)%nat)); [|ring].
           rewrite <- sumN_scal. apply sumN_ext. intros b _. ring.
        -- rewrite sumN_scal_r. ring.
  - intros k Hk. unfold lift1. rewrite Hflux, sumN_blocks. unfold z.
    transitivity (sumN NF (fun f => sumN nf (fun b => sumN n (fun m => e_at Mi k m * (faceScale t * overlap (faceN fc t f) m (nth b (nth f nodes []) 0%nat) * (weightOf (geoN g f) / ge_det g * h (f * nf + b)%nat)))))).
    + apply sumN_ext. intros f Hf. apply sumN_ext. intros b Hb. rewrite Hlift, rows_entry by (rewrite ?Rl, ?Cl; nia).
      rewrite Vl, Hfs by assumption. rewrite <- sumN_scal_r. apply sumN_ext. intros m _. field. lra.
    + transitivity (sumN NF (fun f => sumN n (fun m => e_at Mi k m * sumN nf (fun b => faceScale t * overlap (faceN fc t f) m (nth b (nth f nodes []) 0%nat) * (weightOf (geoN g f) / ge_det g * h (f * nf + b)%nat))))).
      * apply sumN_ext. intros f Hf. rewrite sumN_swap. apply sumN_ext. intros m _. rewrite <- sumN_scal. reflexivity.
      * rewrite sumN_swap. apply sumN_ext. intros m _. rewrite <- sumN_scal. reflexivity.
Qed.

Lemma nodes_of : forall f, (f < NF)%nat -> faceHas n (faceN fc t f) (nth f nodes []) /\ length (nth f nodes []) = nf.
Proof.
  intros f Hf. exact (F2_nth _ _ _ (mkFace 0 None []) [] Hshape f Hf).
Qed.


Hypothesis Hlists : listsFaces s fc t nf nodes el.

Lemma trace_value : forall f q v, (f < NF)%nat -> In q (f_pts (faceN fc t f)) ->
  sumN nf (fun b => sh1 q (nth b (nth f nodes []) 0%nat) * v (fst (pairAt s (elPos el (f * nf + b))))) =
  sumN n (fun k => sh1 q k * onEl el v k).
Proof.
  intros f q v Hf Hq. destruct (nodes_of f Hf) as [[_ [_ [_ [S0 [B0 [Z0 _]]]]]] Hl].
  rewrite <- (sumN_nodes n (nth f nodes []) (fun k => sh1 q k * onEl el v k) S0 B0).
  - rewrite Hl. apply sumN_ext. intros b Hb. rewrite Hlists by assumption. reflexivity.
  - intros k Hk HN. rewrite (Z0 q k Hq Hk HN). ring.
Qed.

Lemma element_discretises : discretises s (fun i j => ownMass fc t g i j / kappa t) el (sidesOf fc t nf nodes g el).
Proof.
  assert (Hk : 0 < kappa t) by (destruct Hsup as [[-> _]|[[-> _]|[-> _]]]; cbn [kappa]; lra).
  assert (FK : forall v y, form el (fun i j => ownMass fc t g i j / kappa t) v y = form el (ownMass fc t g) v y / kappa t).
  { intros v y. unfold form, Rdiv. rewrite <- sumN_scal_r. apply sumN_ext. intros j _. rewrite <- sumN_scal_r. apply sumN_ext. intros; ring. }
  assert (SU : forall (F : side -> R), suml F (sidesOf fc t nf nodes g el) =
    sumN NF (fun f => suml (fun q => F {| sd_el := el; sd_w := q_w q * weightOf (geoN g f); sd_n := unit3 (geoN g f);
                     sd_phi := fun i => if (i / nf =? f)%nat then sh1 q (nth (i mod nf) (nth f nodes []) 0%nat) else 0 |}) (f_pts (faceN fc t f)))).
  { intros F. unfold sidesOf. rewrite suml_flat_map. rewrite <- suml_seq. apply suml_ext. intros f _. apply suml_map. }
  pose proof (st_geo _ _ _ _ Hg) as GG. rewrite Forall_forall in GG.
  split; [|split].
  - intros a Ha. unfold sidesOf in Ha. apply in_flat_map in Ha as [f [Hf Ha]]. apply in_seq in Hf. apply in_map_iff in Ha as [q [<- Hq]].
    cbn [sd_el sd_n sd_phi]. split; [reflexivity|].
    assert (I : In (geoN g f) (ge_geo g)) by (apply nth_In; rewrite (st_faces _ _ _ _ Hg); lia). destruct (GG _ I) as [GD GW].
    split; [apply (unit3_sq dim); assumption|]. intros i Hi Hp. rewrite Hflux in Hi.
    destruct (i / nf =? f)%nat eqn:E; [|exfalso; apply Hp; reflexivity]. apply Nat.eqb_eq in E.
    assert (nf <> 0)%nat by nia. rewrite (Nat.div_mod i nf) by assumption. rewrite E, Nat.mul_comm. apply Hnor; [unfold NF; lia|].
    apply Nat.mod_upper_bound. assumption.
  - intros d Hd v u. rewrite !FK, !weak_derivative by exact Hd. rewrite SU.
    transitivity (sumN n (fun j => sumN n (fun l => onEl el v j * onEl el u l * (e_at (derivMatrix fc dim g d) j l + e_at (derivMatrix fc dim g d) l j)))).
    + transitivity (sumN n (fun j => sumN n (fun l => onEl el v j * e_at (derivMatrix fc dim g d) j l * onEl el u l)) + sumN n (fun j => sumN n (fun l => onEl el u j * e_at (derivMatrix fc dim g d) j l * onEl el v l))); [field; lra|].
      rewrite (sumN_swap n n (fun j l => onEl el u j * _ * onEl el v l)). rewrite <- sumN_plus. apply sumN_ext. intros j _. rewrite <- sumN_plus. apply sumN_ext. intros l _. ring.
    + cbn [derivMatrix e_at]. destruct (dim <=? Z.of_nat d)%Z eqn:E.
      * apply Z.leb_le in E.
        rewrite (sumN_zero n) by (intros; apply sumN_zero; intros; unfold mzero; ring). symmetry. apply sumN_zero. intros f Hf.
        assert (I : In (geoN g f) (ge_geo g)) by (apply nth_In; rewrite (st_faces _ _ _ _ Hg); exact Hf). destruct (GG _ I) as [GD GW].
        assert (U : pick (unit3 (geoN g f)) (Z.of_nat d) = 0).
        { destruct (geoN g f) as [x|a b|a0 a1 a2 b0 b1 b2]; cbn [geoDim] in GD; [destruct GD| |]; subst dim; assert (d = 2%nat \/ (d > 2)%nat) as [->|] by lia; try lia.
          unfold unit3. cbn [pick Z.of_nat Z.eqb Pos.of_succ_nat Pos.succ Pos.eqb calculateNormal nth]. unfold Rdiv. ring. }
        transitivity (0 * suml (fun _ => 1) (f_pts (faceN fc t f))); [|ring]. rewrite <- suml_scal. apply suml_ext. intros q _. cbn [sd_w sd_n]. rewrite U. ring.
      * apply Z.leb_gt in E.
        transitivity (sumN n (fun j => sumN n (fun l => sumN NF (fun f => suml (fun q => onEl el v j * onEl el u l * (q_w q * nth d (calculateNormal (geoN g f)) 0 * (sh1 q j * sh1 q l))) (f_pts (faceN fc t f)))))).
        -- apply sumN_ext. intros j Hj. apply sumN_ext. intros l Hl. rewrite (st_parts _ _ _ _ Hg) by assumption. rewrite suml_seq, <- sumN_scal. apply sumN_ext. intros f _. rewrite <- suml_scal. reflexivity.
        -- transitivity (sumN NF (fun f => sumN n (fun j => sumN n (fun l => suml (fun q => onEl el v j * onEl el u l * (q_w q * nth d (calculateNormal (geoN g f)) 0 * (sh1 q j * sh1 q l))) (f_pts (faceN fc t f)))))).
           { transitivity (sumN n (fun j => sumN NF (fun f => sumN n (fun l => suml (fun q => onEl el v j * onEl el u l * (q_w q * nth d (calculateNormal (geoN g f)) 0 * (sh1 q j * sh1 q l))) (f_pts (faceN fc t f)))))).
             - apply sumN_ext. intros j _. apply sumN_swap.
             - apply sumN_swap. }
           apply sumN_ext. intros f Hf.
           assert (I : In (geoN g f) (ge_geo g)) by (apply nth_In; rewrite (st_faces _ _ _ _ Hg); exact Hf). destruct (GG _ I) as [GD GW].
           assert (U : weightOf (geoN g f) * pick (unit3 (geoN g f)) (Z.of_nat d) = nth d (calculateNormal (geoN g f)) 0).
           { unfold unit3. destruct d as [|[|[|d]]]; [| | |lia]; cbn [pick Z.of_nat Z.eqb Pos.of_succ_nat Pos.succ Pos.eqb]; field; lra. }
           transitivity (suml (fun q => sumN n (fun j => sumN n (fun l => onEl el v j * onEl el u l * (q_w q * nth d (calculateNormal (geoN g f)) 0 * (sh1 q j * sh1 q l))))) (f_pts (faceN fc t f))).
           { rewrite <- sumN_suml_swap. apply sumN_ext. intros j _. rewrite <- sumN_suml_swap. reflexivity. }
           apply suml_ext. intros q Hq. unfold trace, interp. cbn [sd_el sd_w sd_n sd_phi].
           rewrite !(interp_value NF nf nodes el Hflux) by exact Hf. rewrite !(trace_value f q) by assumption. rewrite (Rmult_assoc (q_w q)), U.
           transitivity (sumN n (fun j => (sh1 q j * onEl el v j) * (q_w q * nth d (calculateNormal (geoN g f)) 0 * sumN n (fun k => sh1 q k * onEl el u k)))).
           { apply sumN_ext. intros j _. transitivity (sh1 q j * onEl el v j * (q_w q * nth d (calculateNormal (geoN g f)) 0) * sumN n (fun k => sh1 q k * onEl el u k)); [|ring].
             rewrite <- sumN_scal. apply sumN_ext. intros; ring. }
           rewrite sumN_scal_r. ring.
  - intros v h. rewrite FK, weak_lift, SU. transitivity (sumN NF (fun f => faceInt f (onEl el v) h)); [field; lra|].
    apply sumN_ext. intros f Hf. unfold faceInt. apply suml_ext. intros q Hq. unfold trace, interp. cbn [sd_el sd_w sd_n sd_phi].
    rewrite !(interp_value NF nf nodes el Hflux) by exact Hf. rewrite (trace_value f q) by assumption. reflexivity.
Qed.
End Weak.

From Coq Require Import ZArith List Bool Reals Lia Lra Permutation.
From Verif Require Import Common Geo_Spec Nodal_Model Nodal_Spec Nodal_Proofs NodalMult_Proofs NodalEnergy_Spec.
Import ListNotations.
Local Open Scope R_scope.

(** ** Pointwise algebra *)
Ltac v3s := repeat match goal with v : v3 |- _ => destruct v as [[? ?] ?] end.
Ltac unv := unfold sideRate, hatE, hatH, outflow, tang, subp, sq, addp, scalep, crossp, dotp, pick in *.

Lemma tang_normal : forall n v, sq n = 1 -> dotp n (tang n v) = 0.
Proof.
  intros n v H. assert (E : dotp n (tang n v) = dotp n v * (1 - sq n)) by (v3s; unv; ring). rewrite E, H. ring.
Qed.
Lemma cross_normal : forall n v, dotp n (crossp n v) = 0.
Proof. intros. v3s. unv. ring. Qed.
Lemma dotp_add : forall n a b, dotp n (addp a b) = dotp n a + dotp n b.
Proof. intros. v3s. unv. ring. Qed.
Lemma dotp_scale : forall n k b, dotp n (scalep k b) = k * dotp n b.
Proof. intros. v3s. unv. ring. Qed.

Lemma flux_tangential : forall alpha n dE dH, sq n = 1 -> dotp n (hatE alpha n dE dH) = 0 /\ dotp n (hatH alpha n dE dH) = 0.
Proof.
  intros al n dE dH H. unfold hatE, hatH. rewrite !dotp_add, !dotp_scale, !cross_normal, !tang_normal by exact H. split; ring.
Qed.

(** E . tang(n,E) = |tang(n,E)|^2 for unit n *)
Lemma sq_tang : forall n v, sq n = 1 -> sq (tang n v) = dotp v (tang n v).
Proof.
  intros n v H. assert (E : sq (tang n v) = dotp v (tang n v) - dotp n v * dotp n (tang n v)) by (v3s; unv; ring).
  rewrite E, tang_normal by exact H. ring.
Qed.

Lemma interior_rate : forall alpha n E1 H1 E2 H2, sq n = 1 ->
  sideRate alpha n E1 H1 (subp E2 E1) (subp H2 H1) + sideRate alpha (scalep (-1) n) E2 H2 (subp E1 E2) (subp H1 H2) =
  - (alpha / 2) * (sq (tang n (subp E2 E1)) + sq (tang n (subp H2 H1))).
Proof.
  intros al n E1 H1 E2 H2 Hn. rewrite !sq_tang by exact Hn. clear Hn. v3s. unv. field.
Qed.

Lemma outer_PEC : forall alpha n E H, sq n = 1 -> sideRate alpha n E H (scalep (-2) E) (0, 0, 0) = - alpha * sq (tang n E).
Proof. intros al n E H Hn. rewrite !sq_tang by exact Hn. clear Hn. v3s. unv. field. Qed.
Lemma outer_PMC : forall alpha n E H, sq n = 1 -> sideRate alpha n E H (0, 0, 0) (scalep (-2) H) = - alpha * sq (tang n H).
Proof. intros al n E H Hn. rewrite !sq_tang by exact Hn. clear Hn. v3s. unv. field. Qed.
Lemma outer_SMA : forall alpha n E H, alpha <> 0 -> sq n = 1 ->
  sideRate alpha n E H (scalep (- / alpha) E) (scalep (- / alpha) H) = (/ alpha - 1) * outflow n E H - / 2 * (sq (tang n E) + sq (tang n H)).
Proof. intros al n E H Ha Hn. rewrite !sq_tang by exact Hn. clear Hn. v3s. unv. field. exact Ha. Qed.
Lemma outer_iPEC : forall alpha n E H, sq n = 1 ->
  sideRate alpha n E H (scalep (-1) E) (0, 0, 0) = - / 2 * outflow n E H - alpha / 2 * sq (tang n E).
Proof. intros al n E H Hn. rewrite !sq_tang by exact Hn. clear Hn. v3s. unv. field. Qed.
Lemma outer_iPMC : forall alpha n E H, sq n = 1 ->
  sideRate alpha n E H (0, 0, 0) (scalep (-1) H) = - / 2 * outflow n E H - alpha / 2 * sq (tang n H).
Proof. intros al n E H Hn. rewrite !sq_tang by exact Hn. clear Hn. v3s. unv. field. Qed.
Lemma outer_iSMA : forall alpha n E H, sq n = 1 ->
  sideRate alpha n E H (scalep (- / 2) E) (scalep (- / 2) H) = - / 2 * outflow n E H - alpha / 4 * (sq (tang n E) + sq (tang n H)).
Proof. intros al n E H Hn. rewrite !sq_tang by exact Hn. clear Hn. v3s. unv. field. Qed.

Lemma sq_nonneg : forall v, 0 <= sq v.
Proof. intros v. v3s. unv. nra. Qed.

Lemma outflow_tang : forall n E H, sq n = 1 -> outflow n E H = outflow n (tang n E) (tang n H).
Proof. intros n E H Hn. v3s. unv. ring. Qed.

Lemma outflow_bound : forall n E H, sq n = 1 -> Rabs (outflow n E H) <= / 2 * (sq (tang n E) + sq (tang n H)).
Proof.
  intros n E H Hn. rewrite (outflow_tang n E H Hn).
  generalize (tang n E) (tang n H) (tang_normal n E Hn) (tang_normal n H Hn). clear E H. intros E H NE NH.
  (* n.(E x H) = E.(H x n), |H x n|^2 = |H|^2 since n.H = 0 *)
  assert (A : outflow n E H = dotp E (crossp H n)) by (v3s; unv; ring).
  assert (B : sq (crossp H n) = sq H).
  { assert (sq (crossp H n) = sq H * sq n - dotp n H * dotp n H) by (v3s; unv; ring). rewrite H0, Hn, NH. ring. }
  rewrite A, <- B. pose proof (sq_nonneg (subp E (crossp H n))) as P1. pose proof (sq_nonneg (addp E (crossp H n))) as P2.
  generalize dependent (crossp H n). intros w _ _ P1 P2.
  assert (Q1 : sq (subp E w) = sq E + sq w - 2 * dotp E w) by (v3s; unv; ring).
  assert (Q2 : sq (addp E w) = sq E + sq w + 2 * dotp E w) by (v3s; unv; ring).
  apply Rabs_le. lra.
Qed.

Lemma SMA_absorbs : forall alpha n E H, / 2 <= alpha -> sq n = 1 ->
  (/ alpha - 1) * outflow n E H - / 2 * (sq (tang n E) + sq (tang n H)) <= 0.
Proof.
  intros al n E H Ha Hn. pose proof (outflow_bound n E H Hn) as B. set (T := / 2 * (sq (tang n E) + sq (tang n H))) in *.
  assert (I : 0 < / al <= 2).
  { split; [apply Rinv_0_lt_compat; lra|]. rewrite <- (Rinv_inv 2). apply Rinv_le_contravar; lra. }
  assert (K : Rabs (/ al - 1) <= 1) by (apply Rabs_le; lra).
  pose proof (Rabs_pos (outflow n E H)). pose proof (Rabs_pos (/ al - 1)).
  assert (Rabs ((/ al - 1) * outflow n E H) <= 1 * T).
  { rewrite Rabs_mult. apply Rmult_le_compat; assumption. }
  pose proof (Rle_abs ((/ al - 1) * outflow n E H)). lra.
Qed.

(** ** Sums *)
Lemma suml_sumN : forall n f, sumN n f = suml f (seq 0 n).
Proof. reflexivity. Qed.
Lemma suml_plus : forall {A} (f g : A -> R) l, suml (fun a => f a + g a) l = suml f l + suml g l.
Proof. intros A f g l. unfold suml. induction l as [|a t IH]; cbn [map fold_right]; [|rewrite IH]; ring. Qed.
Lemma suml_scal : forall {A} k (f : A -> R) l, suml (fun a => k * f a) l = k * suml f l.
Proof. intros A k f l. unfold suml. induction l as [|a t IH]; cbn [map fold_right]; [|rewrite IH]; ring. Qed.
Lemma suml_swap : forall {A B} (f : A -> B -> R) l m, suml (fun a => suml (f a) m) l = suml (fun b => suml (fun a => f a b) l) m.
Proof.
  intros A B f l m. induction l as [|a t IH].
  - unfold suml at 1. cbn [map fold_right]. symmetry. unfold suml. cbn [map fold_right].
    induction m; cbn [map fold_right]; [|rewrite IHm]; ring.
  - unfold suml at 1. cbn [map fold_right]. change (fold_right Rplus 0 (map (fun a => suml (f a) m) t)) with (suml (fun a => suml (f a) m) t).
    rewrite IH, <- suml_plus. apply suml_ext. reflexivity.
Qed.
Lemma suml_perm : forall {A} (f : A -> R) l l', Permutation l l' -> suml f l = suml f l'.
Proof. intros A f l l' H. unfold suml. induction H; cbn [map fold_right]; lra. Qed.
Lemma suml_nonpos : forall {A} (f : A -> R) l, (forall a, In a l -> f a <= 0) -> suml f l <= 0.
Proof.
  intros A f l H. unfold suml. induction l as [|a t IH]; cbn [map fold_right]; [lra|].
  pose proof (H a (or_introl eq_refl)). pose proof (IH (fun b Hb => H b (or_intror Hb))). lra.
Qed.
Lemma sumN_plus : forall n f g, sumN n (fun i => f i + g i) = sumN n f + sumN n g.
Proof. intros. rewrite !suml_sumN. apply suml_plus. Qed.
Lemma sumN_scal : forall n k f, sumN n (fun i => k * f i) = k * sumN n f.
Proof. intros. rewrite !suml_sumN. apply suml_scal. Qed.

Lemma form_plus : forall el M v y z, form el M v (fun k => y k + z k) = form el M v y + form el M v z.
Proof.
  intros. unfold form. rewrite <- sumN_plus. apply sumN_ext. intros j _. rewrite <- sumN_plus. apply sumN_ext. intros k _. ring.
Qed.
Lemma form_scal : forall el M v a y, form el M v (fun k => a * y k) = a * form el M v y.
Proof.
  intros. unfold form. rewrite <- sumN_scal. apply sumN_ext. intros j _. rewrite <- sumN_scal. apply sumN_ext. intros k _. ring.
Qed.
Lemma form_ext : forall el M v y z, (forall k, (k < elSize el)%nat -> y k = z k) -> form el M v y = form el M v z.
Proof. intros el M v y z H. unfold form. apply sumN_ext. intros j _. apply sumN_ext. intros k Hk. rewrite H by exact Hk. reflexivity. Qed.

Lemma interp_ext : forall a g h, (forall i, (i < elFlux (sd_el a))%nat -> sd_phi a i <> 0 -> g i = h i) -> interp a g = interp a h.
Proof.
  intros a g h H. unfold interp. apply sumN_ext. intros i Hi. destruct (Req_dec (sd_phi a i) 0) as [E|E]; [rewrite E; ring|].
  rewrite H by assumption. reflexivity.
Qed.
Lemma interp_plus : forall a g h, interp a (fun i => g i + h i) = interp a g + interp a h.
Proof. intros. unfold interp. rewrite <- sumN_plus. apply sumN_ext. intros. ring. Qed.
Lemma interp_scal : forall a k g, interp a (fun i => k * g i) = k * interp a g.
Proof. intros. unfold interp. rewrite <- sumN_scal. apply sumN_ext. intros. ring. Qed.

Definition interp3 (a : side) (g : nat -> v3) : v3 :=
  (interp a (fun i => pick (g i) 0), interp a (fun i => pick (g i) 1), interp a (fun i => pick (g i) 2)).

Lemma interp_lin3 : forall a k0 k1 k2 (g : nat -> v3),
  interp a (fun i => k0 * pick (g i) 0 + k1 * pick (g i) 1 + k2 * pick (g i) 2) =
  k0 * pick (interp3 a g) 0 + k1 * pick (interp3 a g) 1 + k2 * pick (interp3 a g) 2.
Proof. intros. rewrite !interp_plus, !interp_scal. reflexivity. Qed.

(** Interpolating a linear combination of jumps with constant coefficients. *)
Lemma interp_hat : forall a alpha n (eE eH : nat -> v3),
  interp3 a (fun i => hatE alpha n (eE i) (eH i)) = hatE alpha n (interp3 a eE) (interp3 a eH) /\
  interp3 a (fun i => hatH alpha n (eE i) (eH i)) = hatH alpha n (interp3 a eE) (interp3 a eH).
Proof.
  intros a al [[n0 n1] n2] eE eH.
  assert (P : forall c0 c1 c2 k0 k1 k2 (g : nat -> R), (forall i, g i = (c0 * pick (eE i) 0 + c1 * pick (eE i) 1 + c2 * pick (eE i) 2) + (k0 * pick (eH i) 0 + k1 * pick (eH i) 1 + k2 * pick (eH i) 2)) ->
     interp a g = (c0 * pick (interp3 a eE) 0 + c1 * pick (interp3 a eE) 1 + c2 * pick (interp3 a eE) 2) + (k0 * pick (interp3 a eH) 0 + k1 * pick (interp3 a eH) 1 + k2 * pick (interp3 a eH) 2)).
  { intros. rewrite (interp_ext a g _ (fun i _ _ => H i)), interp_plus, !interp_lin3. reflexivity. }
  split; unfold interp3 at 1.
  - rewrite (P (al * (1 - n0 * n0)) (al * (- n0 * n1)) (al * (- n0 * n2)) 0 (- n2) n1 (fun i => pick (hatE al (n0, n1, n2) (eE i) (eH i)) 0)).
    2:{ intros i. destruct (eE i) as [[? ?] ?], (eH i) as [[? ?] ?]. unv. cbn [Z.eqb Pos.eqb]. ring. }
    rewrite (P (al * (- n1 * n0)) (al * (1 - n1 * n1)) (al * (- n1 * n2)) n2 0 (- n0) (fun i => pick (hatE al (n0, n1, n2) (eE i) (eH i)) 1)).
    2:{ intros i. destruct (eE i) as [[? ?] ?], (eH i) as [[? ?] ?]. unv. cbn [Z.eqb Pos.eqb]. ring. }
    rewrite (P (al * (- n2 * n0)) (al * (- n2 * n1)) (al * (1 - n2 * n2)) (- n1) n0 0 (fun i => pick (hatE al (n0, n1, n2) (eE i) (eH i)) 2)).
    2:{ intros i. destruct (eE i) as [[? ?] ?], (eH i) as [[? ?] ?]. unv. cbn [Z.eqb Pos.eqb]. ring. }
    destruct (interp3 a eE) as [[? ?] ?], (interp3 a eH) as [[? ?] ?]. unv. cbn [Z.eqb Pos.eqb]. apply v3_eq; ring.
  - rewrite (P 0 n2 (- n1) (al * (1 - n0 * n0)) (al * (- n0 * n1)) (al * (- n0 * n2)) (fun i => pick (hatH al (n0, n1, n2) (eE i) (eH i)) 0)).
    2:{ intros i. destruct (eE i) as [[? ?] ?], (eH i) as [[? ?] ?]. unv. cbn [Z.eqb Pos.eqb]. ring. }
    rewrite (P (- n2) 0 n0 (al * (- n1 * n0)) (al * (1 - n1 * n1)) (al * (- n1 * n2)) (fun i => pick (hatH al (n0, n1, n2) (eE i) (eH i)) 1)).
    2:{ intros i. destruct (eE i) as [[? ?] ?], (eH i) as [[? ?] ?]. unv. cbn [Z.eqb Pos.eqb]. ring. }
    rewrite (P n1 (- n0) 0 (al * (- n2 * n0)) (al * (- n2 * n1)) (al * (1 - n2 * n2)) (fun i => pick (hatH al (n0, n1, n2) (eE i) (eH i)) 2)).
    2:{ intros i. destruct (eE i) as [[? ?] ?], (eH i) as [[? ?] ?]. unv. cbn [Z.eqb Pos.eqb]. ring. }
    destruct (interp3 a eE) as [[? ?] ?], (interp3 a eH) as [[? ?] ?]. unv. cbn [Z.eqb Pos.eqb]. apply v3_eq; ring.
Qed.

(** ** One element *)
Section Energy.
Variable s : nodal.
Variable u : Z -> Z -> R.

Definition sdJE (a : side) : v3 := interp3 a (dE s u (sd_el a)).
Definition sdJH (a : side) : v3 := interp3 a (dH s u (sd_el a)).

Lemma element_rate : forall M el sds o, discretises s M el sds ->
  (forall k, (k < elSize el)%nat -> E3 o (elDof el k) = rhsE s u el k /\ H3 o (elDof el k) = rhsH s u el k) ->
  suml (fun c => form el M (onEl el (u c)) (onEl el (o c))) [0; 1; 2; 3; 4; 5]%Z =
  suml (fun a => sd_w a * sideRate (nd_alpha s) (sd_n a) (trE s u a) (trH s u a) (sdJE a) (sdJH a)) sds.
Proof.
  intros M el sds o (Hs & HD & HL) Ho.
  set (fE := fun i => hatE (nd_alpha s) (elNormal el i) (dE s u el i) (dH s u el i)).
  set (fH := fun i => hatH (nd_alpha s) (elNormal el i) (dE s u el i) (dH s u el i)).
  pose (D := fun d c => diff el d (u c)).
  assert (C : forall c y1 y2 q, (forall k, (k < elSize el)%nat -> o c (elDof el k) = y1 k + (- 1) * y2 k + q k) ->
     form el M (onEl el (u c)) (onEl el (o c)) = form el M (onEl el (u c)) y1 - form el M (onEl el (u c)) y2 + form el M (onEl el (u c)) q).
  { intros c y1 y2 q H. rewrite (form_ext el M _ (onEl el (o c)) (fun k => y1 k + (- 1) * y2 k + q k)) by (intros k Hk; apply H, Hk).
    rewrite !form_plus, form_scal. ring. }
  unfold suml at 1. cbn [map fold_right].
  rewrite (C 0%Z (D 1%nat 5%Z) (D 2%nat 4%Z) (lift1 s el (fun i => pick (fE i) 0))).
  2:{ intros k Hk. destruct (Ho k Hk) as [A _]. unfold E3, rhsE, curl, lifted, addp in A. apply (f_equal (fun t : v3 => fst (fst t))) in A. cbn [fst] in A.
      rewrite A. unfold D, diff, deriv, lift1. change (3 + 2)%Z with 5%Z. change (3 + 1)%Z with 4%Z. unfold fE. ring. }
  rewrite (C 1%Z (D 2%nat 3%Z) (D 0%nat 5%Z) (lift1 s el (fun i => pick (fE i) 1))).
  2:{ intros k Hk. destruct (Ho k Hk) as [A _]. unfold E3, rhsE, curl, lifted, addp in A. apply (f_equal (fun t : v3 => snd (fst t))) in A. cbn [fst snd] in A.
      rewrite A. unfold D, diff, deriv, lift1. change (3 + 2)%Z with 5%Z. change (3 + 1)%Z with 4%Z. unfold fE. ring. }
  rewrite (C 2%Z (D 0%nat 4%Z) (D 1%nat 3%Z) (lift1 s el (fun i => pick (fE i) 2))).
  2:{ intros k Hk. destruct (Ho k Hk) as [A _]. unfold E3, rhsE, curl, lifted, addp in A. apply (f_equal (fun t : v3 => snd t)) in A. cbn [fst snd] in A.
      rewrite A. unfold D, diff, deriv, lift1. change (3 + 2)%Z with 5%Z. change (3 + 1)%Z with 4%Z. unfold fE. ring. }
  rewrite (C 3%Z (D 2%nat 1%Z) (D 1%nat 2%Z) (lift1 s el (fun i => pick (fH i) 0))).
  2:{ intros k Hk. destruct (Ho k Hk) as [_ A]. unfold H3, rhsH, curl, lifted, addp, scalep in A. apply (f_equal (fun t : v3 => fst (fst t))) in A. cbn [fst snd] in A.
      rewrite A. unfold D, diff, deriv, lift1. change (0 + 2)%Z with 2%Z. change (0 + 1)%Z with 1%Z. unfold fH. ring. }
  rewrite (C 4%Z (D 0%nat 2%Z) (D 2%nat 0%Z) (lift1 s el (fun i => pick (fH i) 1))).
  2:{ intros k Hk. destruct (Ho k Hk) as [_ A]. unfold H3, rhsH, curl, lifted, addp, scalep in A. apply (f_equal (fun t : v3 => snd (fst t))) in A. cbn [fst snd] in A.
      rewrite A. unfold D, diff, deriv, lift1. change (0 + 2)%Z with 2%Z. change (0 + 1)%Z with 1%Z. unfold fH. ring. }
  rewrite (C 5%Z (D 1%nat 0%Z) (D 0%nat 1%Z) (lift1 s el (fun i => pick (fH i) 2))).
  2:{ intros k Hk. destruct (Ho k Hk) as [_ A]. unfold H3, rhsH, curl, lifted, addp, scalep in A. apply (f_equal (fun t : v3 => snd t)) in A. cbn [fst snd] in A.
      rewrite A. unfold D, diff, deriv, lift1. change (0 + 2)%Z with 2%Z. change (0 + 1)%Z with 1%Z. unfold fH. ring. }
  rewrite !HL. unfold D.
  pose proof (HD 1%nat ltac:(lia) (u 0%Z) (u 5%Z)) as P1. pose proof (HD 2%nat ltac:(lia) (u 0%Z) (u 4%Z)) as P2.
  pose proof (HD 2%nat ltac:(lia) (u 1%Z) (u 3%Z)) as P3. pose proof (HD 0%nat ltac:(lia) (u 1%Z) (u 5%Z)) as P4.
  pose proof (HD 0%nat ltac:(lia) (u 2%Z) (u 4%Z)) as P5. pose proof (HD 1%nat ltac:(lia) (u 2%Z) (u 3%Z)) as P6.
  match type of P1 with _ = ?S1 => match type of P2 with _ = ?S2 => match type of P3 with _ = ?S3 => match type of P4 with _ = ?S4 => match type of P5 with _ = ?S5 => match type of P6 with _ = ?S6 =>
    transitivity (S1 + (-1) * S2 + S3 + (-1) * S4 + S5 + (-1) * S6 +
      (suml (fun a => sd_w a * / 2 * trace s a (u 0%Z) * interp a (fun i => pick (fE i) 0)) sds +
       suml (fun a => sd_w a * / 2 * trace s a (u 1%Z) * interp a (fun i => pick (fE i) 1)) sds +
       suml (fun a => sd_w a * / 2 * trace s a (u 2%Z) * interp a (fun i => pick (fE i) 2)) sds +
       suml (fun a => sd_w a * / 2 * trace s a (u 3%Z) * interp a (fun i => pick (fH i) 0)) sds +
       suml (fun a => sd_w a * / 2 * trace s a (u 4%Z) * interp a (fun i => pick (fH i) 1)) sds +
       suml (fun a => sd_w a * / 2 * trace s a (u 5%Z) * interp a (fun i => pick (fH i) 2)) sds))
  end end end end end end; [lra|].
  rewrite <- !suml_scal, <- !suml_plus. apply suml_ext. intros a Ha.
  destruct (Hs a Ha) as (Ea & Hn & Hc).
  assert (KE : interp3 a fE = hatE (nd_alpha s) (sd_n a) (sdJE a) (sdJH a)).
  { unfold sdJE, sdJH. rewrite <- (proj1 (interp_hat a (nd_alpha s) (sd_n a) _ _)). rewrite Ea. unfold interp3.
    apply v3_eq; apply interp_ext; intros i Hi Hp; unfold fE; rewrite Hc by (rewrite Ea in Hi; assumption); reflexivity. }
  assert (KH : interp3 a fH = hatH (nd_alpha s) (sd_n a) (sdJE a) (sdJH a)).
  { unfold sdJE, sdJH. rewrite <- (proj2 (interp_hat a (nd_alpha s) (sd_n a) _ _)). rewrite Ea. unfold interp3.
    apply v3_eq; apply interp_ext; intros i Hi Hp; unfold fH; rewrite Hc by (rewrite Ea in Hi; assumption); reflexivity. }
  unfold sideRate. rewrite <- KE, <- KH. unfold interp3, trE, trH, outflow, dotp, crossp.
  destruct (sd_n a) as [[n0 n1] n2]. unfold pick at 1 2 3 4 5 6. cbn [Z.of_nat Pos.of_succ_nat Pos.succ Z.eqb Pos.eqb]. ring.
Qed.

(** ** Faces *)
Definition cE (k : kind) : R * R :=
  match k with KInterior => (-1, 1) | KPEC => (-2, 0) | KPMC => (0, 0) | KSMA => (- / nd_alpha s, 0) | KiPEC => (-1, 0) | KiPMC => (0, 0) | KiSMA => (- / 2, 0) end.
Definition cH (k : kind) : R * R :=
  match k with KInterior => (-1, 1) | KPEC => (0, 0) | KPMC => (-2, 0) | KSMA => (- / nd_alpha s, 0) | KiPEC => (0, 0) | KiPMC => (-1, 0) | KiSMA => (- / 2, 0) end.

Lemma ghostE_lin : forall k X Y, subp (ghostE (nd_alpha s) k X Y) X = addp (scalep (fst (cE k)) X) (scalep (snd (cE k)) Y).
Proof. intros k X Y. v3s. destruct k; cbn [ghostE cE fst snd]; unv; apply v3_eq; lra. Qed.
Lemma ghostH_lin : forall k X Y, subp (ghostH (nd_alpha s) k X Y) X = addp (scalep (fst (cH k)) X) (scalep (snd (cH k)) Y).
Proof. intros k X Y. v3s. destruct k; cbn [ghostH cH fst snd]; unv; apply v3_eq; lra. Qed.

Definition nbE (a : side) : v3 := (traceN s a (u 0%Z), traceN s a (u 1%Z), traceN s a (u 2%Z)).
Definition nbH (a : side) : v3 := (traceN s a (u 3%Z), traceN s a (u 4%Z), traceN s a (u 5%Z)).

Lemma sd_jump : forall k a, onKind s k a ->
  sdJE a = addp (scalep (fst (cE k)) (trE s u a)) (scalep (snd (cE k)) (nbE a)) /\
  sdJH a = addp (scalep (fst (cH k)) (trH s u a)) (scalep (snd (cH k)) (nbH a)).
Proof.
  intros k a Hk.
  assert (P : forall (c : Z) (al be : R) (g : nat -> R), (forall i, (i < elFlux (sd_el a))%nat -> sd_phi a i <> 0 ->
     g i = al * u c (fst (pairAt s (elPos (sd_el a) i))) + be * u c (snd (pairAt s (elPos (sd_el a) i)))) ->
     interp a g = al * trace s a (u c) + be * traceN s a (u c)).
  { intros c al be g H. rewrite (interp_ext a g _ H), interp_plus, !interp_scal. reflexivity. }
  unfold sdJE, sdJH, interp3, trE, trH, nbE, nbH, addp, scalep.
  split; apply v3_eq; apply P; intros i Hi Hp; destruct (Hk i Hi Hp) as (K & IE & IH);
    unfold dE, dH, jumpE, jumpH; cbv zeta; rewrite K, ?IE, ?IH, ?ghostE_lin, ?ghostH_lin; unfold E3, H3, addp, scalep, pick; cbn [Z.eqb Pos.eqb]; ring.
Qed.

Lemma scale0 : forall v, scalep 0 v = (0, 0, 0).
Proof. intros v. v3s. unv. apply v3_eq; ring. Qed.
Lemma addp0 : forall v, addp v (0, 0, 0) = v.
Proof. intros v. v3s. unv. apply v3_eq; ring. Qed.
Lemma sub_as : forall a b, addp (scalep (-1) a) (scalep 1 b) = subp b a.
Proof. intros a b. v3s. unv. apply v3_eq; ring. Qed.

Definition sdRate (a : side) : R := sideRate (nd_alpha s) (sd_n a) (trE s u a) (trH s u a) (sdJE a) (sdJH a).

Lemma face_rate : forall f, faceOk s f -> (forall a, In a (faceSides f) -> sq (sd_n a) = 1) -> (nd_alpha s = 0 -> forall a, f <> Outer KSMA a) ->
  suml (fun a => sd_w a * sdRate a) (faceSides f) = faceWeight f * faceRate s u f.
Proof.
  intros [a b|k a] Hf Hn Ha.
  - destruct Hf as (Ew & En & Tab & Tba & Ka & Kb). destruct (sd_jump _ _ Ka) as [A1 A2]. destruct (sd_jump _ _ Kb) as [B1 B2].
    unfold faceSides, suml, faceWeight, faceRate, sdRate. cbn [map fold_right].
    rewrite A1, A2, B1, B2. cbn [cE cH fst snd]. rewrite !sub_as. unfold nbE, nbH. rewrite !Tab, !Tba. fold (trE s u a) (trH s u a) (trE s u b) (trH s u b).
    rewrite En, <- Ew. rewrite <- interior_rate by (apply Hn; left; reflexivity). ring.
  - destruct Hf as (Kk & Ka). destruct (sd_jump _ _ Ka) as [A1 A2]. pose proof (Hn a (or_introl eq_refl)) as Hna.
    unfold faceSides, suml, faceWeight, faceRate, sdRate. cbn [map fold_right]. rewrite A1, A2. cbv zeta.
    destruct k; cbn [cE cH fst snd]; rewrite ?scale0, ?addp0.
    + contradiction Kk. reflexivity.
    + rewrite outer_PEC by exact Hna. ring.
    + rewrite outer_PMC by exact Hna. ring.
    + rewrite outer_SMA; [ring| |exact Hna]. intros E. apply (Ha E a). reflexivity.
    + rewrite outer_iPEC by exact Hna. ring.
    + rewrite outer_iPMC by exact Hna. ring.
    + rewrite outer_iSMA by exact Hna. ring.
Qed.

End Energy.

Lemma suml_flat_map : forall {A B} (f : B -> R) (g : A -> list B) l, suml f (flat_map g l) = suml (fun a => suml f (g a)) l.
Proof.
  intros A B f g l. induction l as [|a t IH]; [reflexivity|]. cbn [flat_map]. rewrite suml_app, IH. reflexivity.
Qed.

(** No absorbing face when alpha = 0. *)
Definition noSMA0 (s : nodal) (fps : list facept) : Prop := nd_alpha s = 0 -> forall a, ~ In (Outer KSMA a) fps.

Theorem energy_balance : forall s mass sides fps x out,
  wfNodal s -> length x = Z.to_nat (6 * nd_N s) -> nodalMult s x = Ok out ->
  discretised s mass sides fps -> noSMA0 s fps ->
  energyRate s mass (comp6 (nd_N s) x) (comp6 (nd_N s) out) =
  suml (fun f => faceWeight f * faceRate s (comp6 (nd_N s) x) f) fps.
Proof.
  intros s mass sides fps x out Hw Hx Hout (HD & HP & HF) H0.
  destruct (nodal_value s x Hw Hx) as (out' & E & _ & V & _). rewrite Hout in E. injection E as <-.
  set (u := comp6 (nd_N s) x) in *. set (o := comp6 (nd_N s) out) in *. unfold energyRate.
  rewrite Forall_forall in HD, HF.
  rewrite (suml_ext _ (fun el => suml (fun a => sd_w a * sdRate s u a) (sides el))).
  2:{ intros el Hel. apply element_rate; [apply HD, Hel|]. intros k Hk. apply V; assumption. }
  rewrite <- suml_flat_map, (suml_perm _ _ _ HP), suml_flat_map. apply suml_ext. intros f Hf.
  apply face_rate; [apply HF, Hf| |].
  - intros a Ha.
    assert (Hin : In a (flat_map sides (nd_lin s))).
    { eapply Permutation_in; [apply Permutation_sym, HP|]. apply in_flat_map. exists f. split; assumption. }
    apply in_flat_map in Hin. destruct Hin as (el & Hel & Hs). destruct (HD el Hel) as (Q & _). destruct (Q a Hs) as (_ & Hn & _). exact Hn.
  - intros Ea a ->. exact (H0 Ea a Hf).
Qed.

(** Conditions whose faces cannot add energy. *)
Definition passiveFace (s : nodal) (f : facept) : Prop :=
  match f with Inner _ _ => True | Outer KPEC _ => True | Outer KPMC _ => True | Outer KSMA _ => / 2 <= nd_alpha s | Outer _ _ => False end.

Lemma face_unit : forall s mass sides fps f a, discretised s mass sides fps -> In f fps -> In a (faceSides f) -> sq (sd_n a) = 1.
Proof.
  intros s mass sides fps f a (HD & HP & _) Hf Ha. rewrite Forall_forall in HD.
  assert (Hin : In a (flat_map sides (nd_lin s))).
  { eapply Permutation_in; [apply Permutation_sym, HP|]. apply in_flat_map. exists f. split; assumption. }
  apply in_flat_map in Hin. destruct Hin as (el & Hel & Hs). destruct (HD el Hel) as (Q & _). destruct (Q a Hs) as (_ & Hn & _). exact Hn.
Qed.

Theorem energy_never_grows : forall s mass sides fps x out,
  wfNodal s -> length x = Z.to_nat (6 * nd_N s) -> nodalMult s x = Ok out ->
  discretised s mass sides fps -> 0 <= nd_alpha s ->
  Forall (fun f => 0 <= faceWeight f /\ passiveFace s f) fps ->
  energyRate s mass (comp6 (nd_N s) x) (comp6 (nd_N s) out) <= 0.
Proof.
  intros s mass sides fps x out Hw Hx Ho HD Ha HP. rewrite Forall_forall in HP.
  rewrite (energy_balance s mass sides fps) by (assumption || (intros E a Hin; destruct (HP _ Hin) as [_ P]; cbn [passiveFace] in P; lra)).
  apply suml_nonpos. intros f Hf. destruct (HP f Hf) as [Hwt Hp].
  assert (faceRate s (comp6 (nd_N s) x) f <= 0).
  { destruct f as [a b|k a]; cbn [faceRate]; cbv zeta.
    - pose proof (sq_nonneg (tang (sd_n a) (subp (trE s (comp6 (nd_N s) x) b) (trE s (comp6 (nd_N s) x) a)))).
      pose proof (sq_nonneg (tang (sd_n a) (subp (trH s (comp6 (nd_N s) x) b) (trH s (comp6 (nd_N s) x) a)))). nra.
    - pose proof (sq_nonneg (tang (sd_n a) (trE s (comp6 (nd_N s) x) a))).
      pose proof (sq_nonneg (tang (sd_n a) (trH s (comp6 (nd_N s) x) a))).
      destruct k; cbn [passiveFace] in Hp; try contradiction; try nra.
      apply SMA_absorbs; [exact Hp|]. apply (face_unit s mass sides fps (Outer KSMA a)); [exact HD|exact Hf|left; reflexivity]. }
  nra.
Qed.

Theorem energy_conserved : forall s mass sides fps x out,
  wfNodal s -> length x = Z.to_nat (6 * nd_N s) -> nodalMult s x = Ok out ->
  discretised s mass sides fps -> nd_alpha s = 0 ->
  Forall (fun f => match f with Inner _ _ => True | Outer KPEC _ => True | Outer KPMC _ => True | _ => False end) fps ->
  energyRate s mass (comp6 (nd_N s) x) (comp6 (nd_N s) out) = 0.
Proof.
  intros s mass sides fps x out Hw Hx Ho HD Ha HP. rewrite Forall_forall in HP.
  rewrite (energy_balance s mass sides fps) by (assumption || (intros E a Hin; exact (HP _ Hin))).
  rewrite (suml_ext _ (fun _ => 0 * 0)).
  - rewrite suml_scal. ring.
  - intros f Hf. pose proof (HP f Hf) as Hp. destruct f as [a b|k a]; cbn [faceRate]; cbv zeta; rewrite Ha; [lra|]. destruct k; try contradiction; lra.
Qed.

(** ** Along a trajectory *)
Lemma form_sym : forall el M v y, (forall j k, M j k = M k j) -> form el M v y = form el M y v.
Proof.
  intros el M v y H. unfold form. rewrite !suml_sumN.
  transitivity (suml (fun j => suml (fun k => v j * M j k * y k) (seq 0 (elSize el))) (seq 0 (elSize el))); [reflexivity|].
  rewrite suml_swap. apply suml_ext. intros j _. apply suml_ext. intros k _. rewrite (H k j). ring.
Qed.

Lemma dsuml : forall {A} (f : A -> R -> R) (f' : A -> R) t l, (forall a, In a l -> derivable_pt_lim (f a) t (f' a)) ->
  derivable_pt_lim (fun t => suml (fun a => f a t) l) t (suml f' l).
Proof.
  intros A f f' t l H. unfold suml. induction l as [|a r IH]; cbn [map fold_right].
  - apply (derivable_pt_lim_const 0).
  - apply (derivable_pt_lim_plus (f a) (fun t => fold_right Rplus 0 (map (fun a => f a t) r))).
    + apply H. left. reflexivity.
    + apply IH. intros b Hb. apply H. right. exact Hb.
Qed.

Lemma dform : forall el M (v v' : R -> nat -> R) t, (forall j k, M j k = M k j) ->
  (forall k, (k < elSize el)%nat -> derivable_pt_lim (fun t => v t k) t (v' t k)) ->
  derivable_pt_lim (fun t => form el M (v t) (v t)) t (2 * form el M (v t) (v' t)).
Proof.
  intros el M v v' t Hs Hd.
  assert (E : 2 * form el M (v t) (v' t) = form el M (v' t) (v t) + form el M (v t) (v' t)) by (rewrite (form_sym el M (v' t)) by exact Hs; ring).
  rewrite E. clear E.
  assert (E : form el M (v' t) (v t) + form el M (v t) (v' t) =
     suml (fun j => suml (fun k => v' t j * M j k * v t k + v t j * M j k * v' t k) (seq 0 (elSize el))) (seq 0 (elSize el))).
  { unfold form. rewrite <- sumN_plus. apply suml_ext. intros j _. rewrite <- sumN_plus. reflexivity. }
  rewrite E. unfold form.
  apply (dsuml (fun j t => sumN (elSize el) (fun k => v t j * M j k * v t k))). intros j Hj. apply in_seq in Hj.
  apply (dsuml (fun k t => v t j * M j k * v t k)). intros k Hk. apply in_seq in Hk.
  apply (derivable_pt_lim_mult (fun t => v t j * M j k) (fun t => v t k)); [|apply Hd; lia].
  replace (v' t j * M j k) with (v' t j * M j k + v t j * 0) by ring.
  apply (derivable_pt_lim_mult (fun t => v t j) (fun _ => M j k)); [apply Hd; lia|apply derivable_pt_lim_const].
Qed.

(** A curve of states whose derivative is the operator's output. *)
Definition solves (s : nodal) (x : R -> list R) : Prop :=
  forall t, length (x t) = Z.to_nat (6 * nd_N s) /\ exists out, nodalMult s (x t) = Ok out /\
    forall i, (i < length (x t))%nat -> derivable_pt_lim (fun t => nth i (x t) 0) t (nth i out 0).

Lemma denergy : forall s mass x, wfNodal s -> solves s x -> (forall el j k, mass el j k = mass el k j) -> forall t out,
  nodalMult s (x t) = Ok out ->
  derivable_pt_lim (fun t => energyOf s mass (comp6 (nd_N s) (x t))) t (energyRate s mass (comp6 (nd_N s) (x t)) (comp6 (nd_N s) out)).
Proof.
  intros s mass x Hw Hs Hm t out Ho. destruct (Hs t) as (Hl & out' & Ho' & Hd). rewrite Ho in Ho'. injection Ho' as <-.
  unfold energyOf, energyRate. set (N := nd_N s) in *.
  match goal with |- derivable_pt_lim _ _ ?r => replace r with (/ 2 * (2 * r)) by field end.
  apply (derivable_pt_lim_scal (fun t => suml (fun el => suml (fun c => form el (mass el) (onEl el (comp6 N (x t) c)) (onEl el (comp6 N (x t) c))) [0; 1; 2; 3; 4; 5]%Z) (nd_lin s)) (/ 2)).
  rewrite <- suml_scal.
  apply (dsuml (fun el t => suml (fun c => form el (mass el) (onEl el (comp6 N (x t) c)) (onEl el (comp6 N (x t) c))) [0; 1; 2; 3; 4; 5]%Z)). intros el Hel.
  rewrite <- suml_scal.
  apply (dsuml (fun c t => form el (mass el) (onEl el (comp6 N (x t) c)) (onEl el (comp6 N (x t) c)))). intros c Hc.
  apply (dform el (mass el) (fun t => onEl el (comp6 N (x t) c)) (fun _ => onEl el (comp6 N out c))); [apply Hm|].
  intros k Hk. unfold onEl, comp6. apply Hd. rewrite Hl.
  destruct Hw as (_ & _ & _ & _ & _ & _ & _ & _ & _ & _ & Hwf & _). rewrite Forall_forall in Hwf. destruct (Hwf el Hel) as (_ & Hdof & _).
  destruct (Hdof k Hk) as (_ & Hr & _). unfold inR in Hr. fold N in Hr. cbn [In] in Hc.
  assert (0 <= c < 6)%Z by lia. nia.
Qed.

Theorem energy_decays : forall s mass sides fps x,
  wfNodal s -> solves s x -> (forall el j k, mass el j k = mass el k j) ->
  discretised s mass sides fps -> 0 <= nd_alpha s -> Forall (fun f => 0 <= faceWeight f /\ passiveFace s f) fps ->
  forall t1 t2, t1 <= t2 -> energyOf s mass (comp6 (nd_N s) (x t2)) <= energyOf s mass (comp6 (nd_N s) (x t1)).
Proof.
  intros s mass sides fps x Hw Hs Hm HD Ha HP t1 t2 Ht.
  set (en := fun t => energyOf s mass (comp6 (nd_N s) (x t))).
  assert (pr : derivable en).
  { intros t. exists (energyRate s mass (comp6 (nd_N s) (x t)) (comp6 (nd_N s) (match nodalMult s (x t) with Ok o => o | _ => [] end))).
    destruct (Hs t) as (_ & out & Ho & _). apply (denergy s mass x Hw Hs Hm t). rewrite Ho. reflexivity. }
  destruct (Rle_lt_or_eq_dec _ _ Ht) as [Hlt| ->]; [|right; reflexivity].
  change (en t2 <= en t1).
  apply (nonpos_derivative_1 en pr); [|exact Ht].
  intros t. destruct (Hs t) as (Hl & out & Ho & _).
  rewrite (derive_pt_eq_0 en t _ (pr t) (denergy s mass x Hw Hs Hm t out Ho)).
  apply (energy_never_grows s mass sides fps); assumption.
Qed.

(** ** Statements on the model's own functions *)
Lemma flux_no_normal : forall s F el i fl nx ny nz, nodeFlux s F el i = Ok fl ->
  fget (el_nor el) 0 i = Ok nx -> fget (el_nor el) 1 i = Ok ny -> fget (el_nor el) 2 i = Ok nz ->
  nx * nx + ny * ny + nz * nz = 1 ->
  exists ex ey ez hx hy hz, fl = [ex; ey; ez; hx; hy; hz] /\
    nx * ex + ny * ey + nz * ez = 0 /\ nx * hx + ny * hy + nz * hz = 0.
Proof.
  intros s F el i fl nx ny nz H H0 H1 H2 Hu. unfold nodeFlux in H. unfold xyz in H. cbn [mapM] in H.
  rewrite H0, H1, H2 in H. cbn [bind] in H.
  set (p := (el_id el * Z.of_nat (length (el_fscale el)) + i)%Z) in H.
  destruct (fget F 0 p) as [e0| |]; cbn [bind] in H; try discriminate H.
  destruct (fget F 1 p) as [e1| |]; cbn [bind] in H; try discriminate H.
  destruct (fget F 2 p) as [e2| |]; cbn [bind] in H; try discriminate H.
  destruct (fget F (3 + 0) p) as [h0| |]; cbn [bind] in H; try discriminate H.
  destruct (fget F (3 + 1) p) as [h1| |]; cbn [bind] in H; try discriminate H.
  destruct (fget F (3 + 2) p) as [h2| |]; cbn [bind] in H; try discriminate H.
  injection H as <-. do 6 eexists. split; [reflexivity|].
  pose proof (flux_tangential (nd_alpha s) (nx, ny, nz) (e0, e1, e2) (h0, h1, h2) Hu) as [A B].
  split; [rewrite <- A|rewrite <- B]; unfold fluxE, fluxH, ndot, at3;
  repeat match goal with
        | |- context [(?a mod 3)%Z] => let v := eval compute in (a mod 3)%Z in change (a mod 3)%Z with v
        | |- context [Z.to_nat ?z] => let v := eval compute in (Z.to_nat z) in change (Z.to_nat z) with v
        end; cbn [nth]; unv; ring.
Qed.

(** Energy gained at one side of a face with the fluxes as the code computes them. *)
Definition codeSide (alpha : R) (n E H je jh : v3) : R :=
  - outflow n E H +
  / 2 * (pick E 0 * fluxE alpha (listp n) (listp je) (listp jh) 0 + pick E 1 * fluxE alpha (listp n) (listp je) (listp jh) 1 +
         pick E 2 * fluxE alpha (listp n) (listp je) (listp jh) 2 +
         (pick H 0 * fluxH alpha (listp n) (listp je) (listp jh) 0 + pick H 1 * fluxH alpha (listp n) (listp je) (listp jh) 1 +
          pick H 2 * fluxH alpha (listp n) (listp je) (listp jh) 2)).

Lemma codeSide_eq : forall alpha n E H je jh, codeSide alpha n E H je jh = sideRate alpha n E H je jh.
Proof.
  intros. v3s. unfold codeSide, listp, fluxE, fluxH, ndot, at3.
  repeat match goal with
        | |- context [(?a mod 3)%Z] => let v := eval compute in (a mod 3)%Z in change (a mod 3)%Z with v
        | |- context [Z.to_nat ?z] => let v := eval compute in (Z.to_nat z) in change (Z.to_nat z) with v
        end; cbn [nth]; unv; cbn [Z.eqb Pos.eqb]; ring.
Qed.

Lemma code_interior : forall alpha n E1 H1 E2 H2, sq n = 1 ->
  codeSide alpha n E1 H1 (subp E2 E1) (subp H2 H1) + codeSide alpha (scalep (-1) n) E2 H2 (subp E1 E2) (subp H1 H2) =
  - (alpha / 2) * (sq (tang n (subp E2 E1)) + sq (tang n (subp H2 H1))).
Proof. intros. rewrite !codeSide_eq. apply interior_rate. assumption. Qed.

Lemma code_interior_sign : forall alpha n E1 H1 E2 H2, sq n = 1 -> 0 <= alpha ->
  codeSide alpha n E1 H1 (subp E2 E1) (subp H2 H1) + codeSide alpha (scalep (-1) n) E2 H2 (subp E1 E2) (subp H1 H2) <= 0 /\
  (alpha = 0 -> codeSide alpha n E1 H1 (subp E2 E1) (subp H2 H1) + codeSide alpha (scalep (-1) n) E2 H2 (subp E1 E2) (subp H1 H2) = 0).
Proof.
  intros al n E1 H1 E2 H2 Hn Ha. rewrite code_interior by exact Hn.
  pose proof (sq_nonneg (tang n (subp E2 E1))). pose proof (sq_nonneg (tang n (subp H2 H1))).
  split; [nra|]. intros ->. lra.
Qed.

(** Jumps at boundary nodes, as the code leaves them. *)
Lemma boundary_jumps : forall s x, wfNodal s -> length x = Z.to_nat (6 * nd_N s) ->
  exists F, (J0 <- initJumps s x ;; J1 <- applyBoundary s x J0 ;; evaluateTFSF s J1) = Ok F /\
  forall q d, (0 <= q < Z.of_nat (length (nd_global s)))%Z -> (0 <= d < 3)%Z ->
    inCurved s (fst (pairAt s q)) = false -> incE s q = (0, 0, 0) -> incH s q = (0, 0, 0) ->
    let e := comp6 (nd_N s) x d (fst (pairAt s q)) in let h := comp6 (nd_N s) x (3 + d) (fst (pairAt s q)) in
    exists je jh, fget F d q = Ok je /\ fget F (3 + d) q = Ok jh /\
    match kindAt (nd_bdr s) q with
    | KInterior => je = comp6 (nd_N s) x d (snd (pairAt s q)) - e /\ jh = comp6 (nd_N s) x (3 + d) (snd (pairAt s q)) - h
    | KPEC => (e + (e + je)) / 2 = 0 /\ jh = 0
    | KPMC => je = 0 /\ (h + (h + jh)) / 2 = 0
    | KSMA => je = - e / nd_alpha s /\ jh = - h / nd_alpha s
    | KiPEC => e + je = 0 /\ jh = 0
    | KiPMC => je = 0 /\ h + jh = 0
    | KiSMA => e + je = e / 2 /\ h + jh = h / 2
    end.
Proof.
  intros s x Hw Hx. destruct (jumps_ok s x Hx Hw) as (F & gg & EF & HF & Hj). exists F. split; [exact EF|].
  intros q d Hq Hd Hc IE IH e h. destruct (Hj q Hq Hc) as [A B].
  exists (gg d q), (gg (3 + d)%Z q).
  split; [apply (fget_rep (length (nd_global s)) F gg); (assumption || lia)|]. split; [apply (fget_rep (length (nd_global s)) F gg); (assumption || lia)|].
  unfold jumpE in A. unfold jumpH in B. rewrite IE in A. rewrite IH in B. rewrite ghostE_lin in A. rewrite ghostH_lin in B. unfold e, h.
  unfold E3, H3, addp, scalep in A, B. injection A as A0 A1 A2. injection B as B0 B1 B2.
  assert (Hdd : (d = 0 \/ d = 1 \/ d = 2)%Z) by lia.
  assert (Hgoal : gg d q = fst (cE s (kindAt (nd_bdr s) q)) * comp6 (nd_N s) x d (fst (pairAt s q)) + snd (cE s (kindAt (nd_bdr s) q)) * comp6 (nd_N s) x d (snd (pairAt s q)) /\
    gg (3 + d)%Z q = fst (cH s (kindAt (nd_bdr s) q)) * comp6 (nd_N s) x (3 + d) (fst (pairAt s q)) + snd (cH s (kindAt (nd_bdr s) q)) * comp6 (nd_N s) x (3 + d) (snd (pairAt s q))).
  { decompose [or] Hdd; subst d; repeat match goal with |- context [(3 + ?z)%Z] => let v := eval compute in (3 + z)%Z in change (3 + z)%Z with v end;
    split; rewrite ?A0, ?A1, ?A2, ?B0, ?B1, ?B2; ring. }
  destruct Hgoal as [GE GH]. rewrite GE, GH.
  destruct (kindAt (nd_bdr s) q); cbn [cE cH fst snd]; split; unfold Rdiv; lra.
Qed.

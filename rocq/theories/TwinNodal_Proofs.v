(** The nodal operator in weak form, against any test function. *)
From Coq Require Import ZArith List Bool Reals Lia Lra.
From Verif Require Import Common Geo_Spec Nodal_Model Nodal_Spec NodalEnergy_Spec Setup_Model Twin_Spec.
From Verif Require Import Nodal_Proofs NodalMult_Proofs NodalEnergy_Proofs.
Import ListNotations.
Local Open Scope R_scope.

(** Face term of the nodal operator, from the state it puts across the face. *)
Definition nodalTerm (alpha : R) (k : kind) (n E H E' H' : v3) : v3 * v3 :=
  (scalep (/ 2) (hatE alpha n (subp (ghostE alpha k E E') E) (subp (ghostH alpha k H H') H)),
   scalep (/ 2) (hatH alpha n (subp (ghostE alpha k E E') E) (subp (ghostH alpha k H H') H))).
Definition plus2 (p q : v3 * v3) : v3 * v3 := (addp (fst p) (fst q), addp (snd p) (snd q)).
Lemma pick_add : forall a b d, pick (addp a b) d = pick a d + pick b d.
Proof. intros a b d. v3s. unv. destruct (d =? 0)%Z; [ring|]. destruct (d =? 1)%Z; ring. Qed.
Lemma pick_scale : forall k a d, pick (scalep k a) d = k * pick a d.
Proof. intros k a d. v3s. unv. destruct (d =? 0)%Z; [ring|]. destruct (d =? 1)%Z; ring. Qed.
Lemma row_plus : forall p q g d, rowOf (plus2 p q) g d = rowOf p g d + rowOf q g d.
Proof. intros p q g d. unfold rowOf, plus2. cbn [fst snd]. destruct (g =? 0)%Z; apply pick_add. Qed.

Ltac v3f := cbv [nodalTerm plus2 upwind atPEC atPMC atSMA excess zero3 ghostE ghostH hatE hatH tang subp addp scalep dotp crossp innerTerm outerTerm condOf fst snd]; f_equal; apply v3_eq.
Lemma inner_terms : forall alpha k n E H E' H', innerKind k ->
  nodalTerm alpha k n E H E' H' = plus2 (innerTerm alpha (condOf k) n E H E' H') (excess alpha k n E H).
Proof.
  intros al k n E H E' H' Hk. v3s. destruct k; try destruct Hk; cbn [condOf innerTerm]; v3f; field.
Qed.
Lemma outer_terms : forall alpha k n E H E' H', ~ innerKind k -> (k = KSMA -> alpha <> 0) ->
  nodalTerm alpha k n E H E' H' = plus2 (outerTerm alpha (condOf k) n E H) (excess alpha k n E H).
Proof.
  intros al k n E H E' H' Hk Ha. v3s. destruct k; try (exfalso; apply Hk; exact I); cbn [condOf outerTerm]; try (specialize (Ha eq_refl)); v3f; field; exact Ha.
Qed.

Section Weak.
Variable s : nodal.
Variable u : Z -> Z -> R.
Definition sideTerm (a : side) : v3 * v3 :=
  (scalep (/ 2) (hatE (nd_alpha s) (sd_n a) (sdJE s u a) (sdJH s u a)), scalep (/ 2) (hatH (nd_alpha s) (sd_n a) (sdJE s u a) (sdJH s u a))).
Lemma side_term : forall k a, onKind s k a ->
  sideTerm a = nodalTerm (nd_alpha s) k (sd_n a) (trE s u a) (trH s u a) (nbE s u a) (nbH s u a).
Proof.
  intros k a Hk. destruct (sd_jump s u k a Hk) as [A B]. unfold sideTerm, nodalTerm. rewrite A, B, <- !(ghostE_lin s), <- !(ghostH_lin s). reflexivity.
Qed.

Lemma element_weak : forall M el sds o, discretises s M el sds ->
  (forall k, (k < elSize el)%nat -> E3 o (elDof el k) = rhsE s u el k /\ H3 o (elDof el k) = rhsH s u el k) ->
  forall v g d, (g = 0 \/ g = 1)%Z -> (0 <= d < 3)%Z ->
  form el M (onEl el v) (onEl el (o (3 * g + d)%Z)) =
  (if (g =? 0)%Z then 1 else -1) *
    (form el M (onEl el v) (diff el (Z.to_nat ((d + 1) mod 3)) (u (3 * (1 - g) + (d + 2) mod 3)%Z)) -
     form el M (onEl el v) (diff el (Z.to_nat ((d + 2) mod 3)) (u (3 * (1 - g) + (d + 1) mod 3)%Z))) +
  suml (fun a => sd_w a * (trace s a v * rowOf (sideTerm a) g d)) sds.
Proof.
  intros M el sds o (Hs & HD & HL) Ho v g d Hg Hd.
  set (fE := fun i => hatE (nd_alpha s) (elNormal el i) (dE s u el i) (dH s u el i)).
  set (fH := fun i => hatH (nd_alpha s) (elNormal el i) (dE s u el i) (dH s u el i)).
  assert (C : forall c y1 y2 q k0, (forall k, (k < elSize el)%nat -> o c (elDof el k) = k0 * (y1 k - y2 k) + q k) ->
     form el M (onEl el v) (onEl el (o c)) = k0 * (form el M (onEl el v) y1 - form el M (onEl el v) y2) + form el M (onEl el v) q).
  { intros c y1 y2 q k0 H. rewrite (form_ext el M _ (onEl el (o c)) (fun k => k0 * y1 k + (- k0) * y2 k + q k)) by (intros k Hkk; unfold onEl; rewrite (H k Hkk); ring).
    rewrite !form_plus, !form_scal. ring. }
  assert (Sd : forall a, In a sds -> interp3 a fE = scalep 2 (fst (sideTerm a)) /\ interp3 a fH = scalep 2 (snd (sideTerm a))).
  { intros a Ha. destruct (Hs a Ha) as (Ea & Hn & Hc). 
    assert (P2 : forall w, w = scalep 2 (scalep (/ 2) w)) by (intros w; v3s; unfold scalep; apply v3_eq; field).
    unfold sideTerm. cbn [fst snd]. rewrite <- !P2. unfold sdJE, sdJH.
    rewrite <- (proj1 (interp_hat a (nd_alpha s) (sd_n a) _ _)), <- (proj2 (interp_hat a (nd_alpha s) (sd_n a) _ _)). rewrite Ea. unfold interp3.
    split; apply v3_eq; apply interp_ext; intros i Hi Hp; unfold fE, fH; rewrite Hc by (rewrite Ea in Hi; assumption); reflexivity. }
  assert (LF : forall d, (0 <= d < 3)%Z -> form el M (onEl el v) (lift1 s el (fun i => pick (fE i) d)) = suml (fun a => sd_w a * (trace s a v * rowOf (sideTerm a) 0 d)) sds /\
     form el M (onEl el v) (lift1 s el (fun i => pick (fH i) d)) = suml (fun a => sd_w a * (trace s a v * rowOf (sideTerm a) 1 d)) sds).
  { intros e He. rewrite !HL. assert (e = 0 \/ e = 1 \/ e = 2)%Z as He' by lia.
    split; apply suml_ext; intros a Ha; destruct (Sd a Ha) as [P Q]; unfold rowOf; cbn [Z.eqb].
    - assert (R : interp a (fun i => pick (fE i) e) = pick (interp3 a fE) e) by (destruct He' as [->|[->| ->]]; reflexivity). rewrite R, P, pick_scale. field.
    - assert (R : interp a (fun i => pick (fH i) e) = pick (interp3 a fH) e) by (destruct He' as [->|[->| ->]]; reflexivity). rewrite R, Q, pick_scale. field. }
  assert (Hd' : (d = 0 \/ d = 1 \/ d = 2)%Z) by lia.
  destruct Hg as [->| ->]; destruct Hd' as [->|[->| ->]];
    repeat match goal with |- context [((?a) mod 3)%Z] => let v := eval compute in (a mod 3)%Z in change (a mod 3)%Z with v end;
    repeat match goal with |- context [(3 * ?a + ?b)%Z] => let v := eval compute in (3 * a + b)%Z in change (3 * a + b)%Z with v end;
    cbn [Z.eqb]; (first [rewrite <- (proj1 (LF 0%Z ltac:(lia)))|rewrite <- (proj1 (LF 1%Z ltac:(lia)))|rewrite <- (proj1 (LF 2%Z ltac:(lia)))|rewrite <- (proj2 (LF 0%Z ltac:(lia)))|rewrite <- (proj2 (LF 1%Z ltac:(lia)))|rewrite <- (proj2 (LF 2%Z ltac:(lia)))]);
    apply C; intros k Hkk; destruct (Ho k Hkk) as [A B]; clear LF Sd C;
    unfold E3, rhsE, curl, lifted, addp, scalep in A; unfold H3, rhsH, curl, lifted, addp, scalep in B;
    injection A as A0 A1 A2; injection B as B0 B1 B2;
    unfold diff, lift1, deriv, fE, fH in *; change (3 + 2)%Z with 5%Z in *; change (3 + 1)%Z with 4%Z in *; change (0 + 2)%Z with 2%Z in *; change (0 + 1)%Z with 1%Z in *;
    change (Z.to_nat 0) with 0%nat; change (Z.to_nat 1) with 1%nat; change (Z.to_nat 2) with 2%nat.
  all: first [rewrite A0 | rewrite A1 | rewrite A2 | rewrite B0 | rewrite B1 | rewrite B2]; ring.
Qed.
End Weak.

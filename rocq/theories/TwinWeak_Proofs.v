(** The assembled operator in weak form, against any test function. *)
From Coq Require Import ZArith List Bool Reals Lia Lra.
From Verif Require Import Common Csr_Model Geo_Spec Nodal_Model Nodal_Spec NodalEnergy_Spec Face_Model Face_Spec Face_Proofs Step_Model Setup_Model Setup_Spec Assembly_Model Assembly_Spec Form_Model Form_Spec Global_Spec Twin_Spec.
From Verif Require Import Nodal_Proofs NodalMult_Proofs NodalEnergy_Proofs GlobalEnergy_Proofs GlobalBalance_Proofs.
Import ListNotations.
Local Open Scope R_scope.

Section Weak.
Variables (N : nat) (m : fmesh) (dim : Z) (alpha : R) (gb gi : list (Z * cond)) (ob ib : list (cond * marker)) (Mass MInv D : Z -> mat) (MSigma : mat) (sm : marker).
Hypothesis HS : dgSpace N m dim Mass MInv D.
Hypothesis HT : tables m gb gi ob ib.

Lemma term_point : forall x v g d fi F q, (g = 0 \/ g = 1)%Z -> (0 <= d < 3)%Z -> nth_error (fm_faces m) fi = Some F -> In q (f_pts (mf_face F)) ->
  rowPoint N m alpha gb gi x (fun _ _ => v) g d fi F q = faceTerm N alpha m gb gi x v g d fi F q.
Proof.
  intros x v g d fi F q Hg Hd E I.
  assert (O2 : isInteriorFace F = false -> forall w, t2 F w q = 0) by (intros X w; apply outer_side2; exact X).
  unfold rowPoint, rowJump, rowPen, faceTerm. cbv zeta.
  assert (EI : isInteriorFace F = match f_el2 (mf_face F) with Some _ => true | None => false end) by reflexivity.
  unfold Opt, Ppt, OIpt, PIpt, pf, cf. rewrite EI in *.
  assert (Hd' : (d = 0 \/ d = 1 \/ d = 2)%Z) by lia.
  destruct (f_el2 (mf_face F)) as [n2|]; destruct (faceKind m gb gi fi F) as [[]|] eqn:K; try (apply kind_mapped in K; discriminate); clear K;
    destruct Hg as [->| ->]; destruct Hd' as [->|[->| ->]];
    repeat match goal with |- context [((?a) mod 3)%Z] => let v := eval compute in (a mod 3)%Z in change (a mod 3)%Z with v end;
    change (1 - 0)%Z with 1%Z; change (1 - 1)%Z with 0%Z; unfold sgn; cbn [Z.eqb innerTerm outerTerm]; clear EI;
    try (rewrite !(O2 eq_refl) in *);
    unfold rowOf, atPEC, atPMC, atSMA, upwind, zero3, hatE, hatH, tang, subp, addp, scalep, normalAt, fieldAt, dotp, crossp, nk, pick; cbn [fst snd Z.eqb Pos.eqb];
    change (Z.to_nat 0) with 0%nat; change (Z.to_nat 1) with 1%nat; change (Z.to_nat 2) with 2%nat;
    unfold t1, t2 in *; try (rewrite !(O2 eq_refl)); try field.
Qed.

Theorem weak : exists A, theOperator N m dim alpha ob ib MInv D MSigma sm = Ok A /\ forall x, length x = (6 * N)%nat -> exists y, applies A N x y /\
  forall v g d, (g = 0 \/ g = 1)%Z -> (0 <= d < 3)%Z ->
    mform N (Mass g) v (fld N y g d) =
    weakCurl N dim D x v g d + facesum m (faceTerm N alpha m gb gi x v g d) - (if (g =? 0)%Z then mform N MSigma v (fld N x 0 d) else 0).
Proof.
  destruct (operator_rows N m dim alpha ob ib Mass MInv D MSigma sm HS) as [A [EA H]]. exists A. split; [exact EA|]. intros x Hx.
  destruct (H x Hx) as [y [Hy V]]. exists y. split; [exact Hy|]. intros v g d Hg Hd.
  rewrite (mform_ext N _ _ (fld N y g d) (rhs (factoryRows N m dim alpha ob ib MInv D MSigma sm) dim (Z.of_nat N) 0 (hasInt ib) x g d)) by (intros i Hi; apply V; lia).
  etransitivity; [exact (rhs_rows N m dim alpha gb gi ob ib Mass MInv D MSigma sm HS HT x (fun _ _ => v) g d Hg Hd)|].
  rewrite (facesum_ext m _ (faceTerm N alpha m gb gi x v g d)) by (intros; apply term_point; assumption).
  unfold curlForm, dform, weakCurl, sgn. cbv zeta. destruct Hg as [->| ->]; cbn [Z.eqb]; ring.
Qed.
End Weak.

(** The bound of the operator from inverse and trace inequalities. *)
From Coq Require Import ZArith List Bool Reals Lia Lra Psatz.
From Verif Require Import Common Csr_Model Geo_Spec Face_Model Face_Spec Nodal_Spec Nodal_Proofs NodalMult_Proofs NodalEnergy_Spec NodalEnergy_Proofs Setup_Model Setup_Spec Assembly_Model Form_Model Form_Spec Global_Spec Global_Proofs GlobalEnergy_Proofs GlobalBalance_Proofs Twin_Spec TwinWeak_Proofs Ode_Spec Cfl_Spec.
Import ListNotations.
Local Open Scope R_scope.

(** Half of lam |z|^2 + |w|^2 / lam. *)
Definition half (l a b : R) : R := / 2 * (l * a + / l * b).
Lemma half_le : forall l a b a' b', 0 < l -> a <= a' -> b <= b' -> half l a b <= half l a' b'.
Proof.
  intros l a b a' b' Hl Ha Hb. unfold half. assert (l * a <= l * a') by (apply Rmult_le_compat_l; lra).
  assert (/ l * b <= / l * b') by (apply Rmult_le_compat_l; [left; apply Rinv_0_lt_compat; exact Hl|exact Hb]). lra.
Qed.
Lemma young1 : forall l x y, 0 < l -> x * y <= half l (x * x) (y * y).
Proof.
  intros l x y Hl. unfold half. pose proof (Rle_0_sqr (l * x - y)) as H. unfold Rsqr in H. apply Rmult_le_reg_l with l; [exact Hl|].
  replace (l * (/ 2 * (l * (x * x) + / l * (y * y)))) with (/ 2 * (l * l * (x * x) + y * y)) by (field; lra). nra.
Qed.
Lemma young : forall l z w, 0 < l -> dotp z w <= half l (sq z) (sq w).
Proof.
  intros l ((a & b) & c) ((u & v) & w) Hl. unfold sq, dotp.
  pose proof (young1 l a u Hl). pose proof (young1 l b v Hl). pose proof (young1 l c w Hl). unfold half in *. lra.
Qed.
(** From squares. *)
Lemma young_sq : forall l c p a b, 0 < l -> 0 <= c -> 0 <= a -> 0 <= b -> p * p <= c * c * a * b -> Rabs p <= c * half l a b.
Proof.
  intros l c p a b Hl Hc Ha Hb H. assert (Hi : 0 < / l) by (apply Rinv_0_lt_compat; exact Hl).
  assert (P : 0 <= c * half l a b). { apply Rmult_le_pos; [exact Hc|]. unfold half. assert (0 <= l * a) by (apply Rmult_le_pos; lra). assert (0 <= / l * b) by (apply Rmult_le_pos; lra). lra. }
  apply (Rsqr_incr_0 (Rabs p)); [|apply Rabs_pos|exact P]. rewrite <- Rsqr_abs. unfold Rsqr, half.
  set (s := l * a) in *. set (t := / l * b) in *. assert (E : a * b = s * t) by (unfold s, t; field; lra).
  clearbody s t. pose proof (Rle_0_sqr (s - t)) as Q. unfold Rsqr in Q. pose proof (Rle_0_sqr c) as Q2. unfold Rsqr in Q2. apply (Rle_trans _ _ _ H).
  replace (c * c * a * b) with (c * c * (a * b)) by ring. rewrite E.
  replace (c * (/ 2 * (s + t)) * (c * (/ 2 * (s + t)))) with (c * c * (/ 4 * ((s + t) * (s + t)))) by field.
  apply Rmult_le_compat_l; [exact Q2|]. lra.
Qed.
Lemma sq_cross : forall n w, sq n = 1 -> sq (crossp n w) <= sq w.
Proof.
  intros ((a & b) & c) ((u & v) & w) U. unfold sq, crossp, dotp in *. pose proof (Rle_0_sqr (a * u + b * v + c * w)) as H. unfold Rsqr in H.
  match goal with |- ?x <= _ => replace x with ((a * a + b * b + c * c) * (u * u + v * v + w * w) - (a * u + b * v + c * w) * (a * u + b * v + c * w)) by ring end. rewrite U. lra.
Qed.
Lemma sq_tangle : forall n w, sq n = 1 -> sq (tang n w) <= sq w.
Proof.
  intros ((a & b) & c) ((u & v) & w) U. unfold sq, tang, subp, addp, scalep, dotp in *. pose proof (Rle_0_sqr (a * u + b * v + c * w)) as H. unfold Rsqr in H.
  match goal with |- ?x <= _ => replace x with ((u * u + v * v + w * w) - 2 * ((a * u + b * v + c * w) * (a * u + b * v + c * w)) + (a * u + b * v + c * w) * (a * u + b * v + c * w) * (a * a + b * b + c * c)) by ring end. rewrite U. lra.
Qed.
Lemma sq_add : forall a b, sq (addp a b) <= 2 * (sq a + sq b).
Proof.
  intros ((a & b) & c) ((u & v) & w). unfold sq, addp, dotp. pose proof (Rle_0_sqr (a - u)) as H1. pose proof (Rle_0_sqr (b - v)) as H2. pose proof (Rle_0_sqr (c - w)) as H3. unfold Rsqr in *. lra.
Qed.
Lemma sq_sub : forall a b, sq (subp a b) <= 2 * (sq a + sq b).
Proof.
  intros ((a & b) & c) ((u & v) & w). unfold sq, subp, scalep, addp, dotp. pose proof (Rle_0_sqr (a + u)) as H1. pose proof (Rle_0_sqr (b + v)) as H2. pose proof (Rle_0_sqr (c + w)) as H3. unfold Rsqr in *. lra.
Qed.

(** Both equations against the test fields [ZE], [ZH]. *)
Definition both (ZE ZH : v3) (p : v3 * v3) : R := dotp ZE (fst p) + dotp ZH (snd p).
Ltac coords := repeat match goal with v : v3 |- _ => let a := fresh in let b := fresh in let c := fresh in destruct v as ((a & b) & c) end.
Lemma neg_dot : forall a b, dotp (scalep (-1) a) b = dotp a (scalep (-1) b).
Proof. intros. coords. unfold dotp, scalep. ring. Qed.
Lemma neg_out : forall a b, dotp (scalep (-1) a) b = - dotp a b.
Proof. intros. coords. unfold dotp, scalep. ring. Qed.
Lemma neg_sq : forall a, sq (scalep (-1) a) = sq a.
Proof. intros. coords. unfold sq, dotp, scalep. ring. Qed.
Lemma neg_unit : forall n, sq n = 1 -> sq (scalep (-1) n) = 1.
Proof. intros n U. rewrite neg_sq. exact U. Qed.
Section Point.
Variable alpha l : R.
Hypothesis A0 : 0 <= alpha.
Hypothesis L0 : 0 < l.
Variable n : v3.
Hypothesis U : sq n = 1.
Lemma pair_cross : forall ZE ZH E H, dotp ZE (scalep (-1) (crossp n H)) + dotp ZH (crossp n E) <= half l (sq ZE + sq ZH) (sq E + sq H).
Proof.
  intros ZE ZH E H. pose proof (young l (scalep (-1) ZE) (crossp n H) L0) as P1. pose proof (young l ZH (crossp n E) L0) as P2.
  assert (E1 : dotp (scalep (-1) ZE) (crossp n H) = dotp ZE (scalep (-1) (crossp n H))) by apply neg_dot.
  assert (E2 : sq (scalep (-1) ZE) = sq ZE) by apply neg_sq. rewrite E1, E2 in P1.
  pose proof (half_le l (sq ZE) (sq (crossp n H)) (sq ZE) (sq H) L0 (Rle_refl _) (sq_cross n H U)). pose proof (half_le l (sq ZH) (sq (crossp n E)) (sq ZH) (sq E) L0 (Rle_refl _) (sq_cross n E U)).
  unfold half in *. lra.
Qed.
Lemma one_tang : forall Z E, - dotp Z (tang n E) <= half l (sq Z) (sq E).
Proof.
  intros Z E. pose proof (young l (scalep (-1) Z) (tang n E) L0) as P1.
  assert (E1 : dotp (scalep (-1) Z) (tang n E) = - dotp Z (tang n E)) by apply neg_out.
  assert (E2 : sq (scalep (-1) Z) = sq Z) by apply neg_sq. rewrite E1, E2 in P1.
  pose proof (half_le l (sq Z) (sq (tang n E)) (sq Z) (sq E) L0 (Rle_refl _) (sq_tangle n E U)). lra.
Qed.
Lemma half_pos : forall a b, 0 <= a -> 0 <= b -> 0 <= half l a b.
Proof. intros a b Ha Hb. unfold half. assert (0 < / l) by (apply Rinv_0_lt_compat; exact L0). assert (0 <= l * a) by (apply Rmult_le_pos; lra). assert (0 <= / l * b) by (apply Rmult_le_pos; lra). lra. Qed.
End Point.
Section Terms.
Variable alpha l : R.
Hypothesis A0 : 0 <= alpha.
Hypothesis L0 : 0 < l.
Lemma scal_dot : forall k a b, dotp a (scalep k b) = k * dotp a b.
Proof. intros. coords. unfold dotp, scalep. ring. Qed.
Lemma add_dot : forall a b c, dotp a (addp b c) = dotp a b + dotp a c.
Proof. intros. coords. unfold dotp, addp. ring. Qed.
Lemma sub_dot : forall a b c, dotp a (subp b c) = dotp a b - dotp a c.
Proof. intros. coords. unfold dotp, subp, addp, scalep. ring. Qed.
Lemma wall_bound : forall n c ZE ZH E H, sq n = 1 -> mappedb c = true ->
  both ZE ZH (match c with PEC => atPEC alpha n E H | PMC => atPMC alpha n E H | SMA => atSMA n E H | _ => (zero3, zero3) end) <= (1 + alpha) * half l (sq ZE + sq ZH) (sq E + sq H).
Proof.
  intros n c ZE ZH E H U _.
  assert (PE := half_pos l L0 (sq ZE + sq ZH) (sq E + sq H)). pose proof (sq_nonneg ZE). pose proof (sq_nonneg ZH). pose proof (sq_nonneg E). pose proof (sq_nonneg H). specialize (PE ltac:(lra) ltac:(lra)).
  pose proof (pair_cross l L0 n U) as PC. pose proof (one_tang l L0 n U) as OT.
  assert (Z3 : sq (0,0,0) = 0) by (unfold sq, dotp; ring).
  assert (D0 : forall a, dotp (0,0,0) a = 0) by (intros; coords; unfold dotp; ring).
  pose proof (OT ZE E) as O1. pose proof (OT ZH H) as O2. pose proof (PC ZE ZH E H) as P1.
  pose proof (PC (0,0,0) ZH E H) as P2. pose proof (PC ZE (0,0,0) E H) as P3. rewrite Z3, D0 in P2, P3. rewrite !scal_dot in *.
  assert (HM : forall a b, a <= sq ZE + sq ZH -> b <= sq E + sq H -> half l a b <= half l (sq ZE + sq ZH) (sq E + sq H)) by (intros; apply half_le; assumption).
  pose proof (HM (sq ZE) (sq E) ltac:(lra) ltac:(lra)) as M1. pose proof (HM (sq ZH) (sq H) ltac:(lra) ltac:(lra)) as M2.
  pose proof (HM (0 + sq ZH) (sq E + sq H) ltac:(lra) ltac:(lra)) as M3. pose proof (HM (sq ZE + 0) (sq E + sq H) ltac:(lra) ltac:(lra)) as M4.
  assert (HS : half l (sq ZE) (sq E) + half l (sq ZH) (sq H) = half l (sq ZE + sq ZH) (sq E + sq H)) by (unfold half; ring).
  set (h := half l (sq ZE + sq ZH) (sq E + sq H)) in *.
  unfold both, atPEC, atPMC, atSMA, zero3; destruct c; cbn [fst snd]; rewrite ?scal_dot, ?add_dot, ?sub_dot;
    try (assert (D1 : forall a, dotp a (0,0,0) = 0) by (intros; coords; unfold dotp; ring); rewrite !D1; assert (0 <= (1 + alpha) * h) by (apply Rmult_le_pos; lra); lra).
  - set (t := dotp ZE (tang n E)) in *. assert (- alpha * t <= alpha * h) by (replace (- alpha * t) with (alpha * - t) by ring; apply Rmult_le_compat_l; lra). lra.
  - set (t := dotp ZH (tang n H)) in *. assert (- alpha * t <= alpha * h) by (replace (- alpha * t) with (alpha * - t) by ring; apply Rmult_le_compat_l; lra). lra.
  - assert (0 <= alpha * h) by (apply Rmult_le_pos; lra). lra.
Qed.
Lemma inner_bound : forall n ZE1 ZH1 ZE2 ZH2 E1 H1 E2 H2, sq n = 1 ->
  both ZE1 ZH1 (upwind alpha n E1 H1 E2 H2) + both ZE2 ZH2 (upwind alpha (scalep (-1) n) E2 H2 E1 H1) <=
  (1 + alpha) * half l (sq ZE1 + sq ZH1 + (sq ZE2 + sq ZH2)) (sq E1 + sq H1 + (sq E2 + sq H2)).
Proof.
  intros n ZE1 ZH1 ZE2 ZH2 E1 H1 E2 H2 U.
  pose proof (pair_cross l L0 n U (scalep (-1) (addp ZE1 ZE2)) (scalep (-1) (addp ZH1 ZH2)) (subp E2 E1) (subp H2 H1)) as P1.
  pose proof (one_tang l L0 n U (scalep (-1) (subp ZE1 ZE2)) (subp E2 E1)) as P2. pose proof (one_tang l L0 n U (scalep (-1) (subp ZH1 ZH2)) (subp H2 H1)) as P3.
  assert (NS := neg_sq). rewrite (NS (addp ZE1 ZE2)), (NS (addp ZH1 ZH2)) in P1. rewrite NS in P2, P3.
  set (z := sq ZE1 + sq ZH1 + (sq ZE2 + sq ZH2)). set (w := sq E1 + sq H1 + (sq E2 + sq H2)).
  pose proof (sq_sub E2 E1). pose proof (sq_sub H2 H1). pose proof (sq_add ZE1 ZE2). pose proof (sq_add ZH1 ZH2). pose proof (sq_sub ZE1 ZE2). pose proof (sq_sub ZH1 ZH2).
  pose proof (half_le l (sq (addp ZE1 ZE2) + sq (addp ZH1 ZH2)) (sq (subp E2 E1) + sq (subp H2 H1)) (2 * z) (2 * w) L0 ltac:(unfold z; lra) ltac:(unfold w; lra)) as M1.
  pose proof (half_le l (sq (subp ZE1 ZE2) + sq (subp ZH1 ZH2)) (sq (subp E2 E1) + sq (subp H2 H1)) (2 * z) (2 * w) L0 ltac:(unfold z; lra) ltac:(unfold w; lra)) as M2.
  assert (E : both ZE1 ZH1 (upwind alpha n E1 H1 E2 H2) + both ZE2 ZH2 (upwind alpha (scalep (-1) n) E2 H2 E1 H1) =
    / 2 * (dotp (scalep (-1) (addp ZE1 ZE2)) (scalep (-1) (crossp n (subp H2 H1))) + dotp (scalep (-1) (addp ZH1 ZH2)) (crossp n (subp E2 E1))) +
    / 2 * (alpha * (- dotp (scalep (-1) (subp ZE1 ZE2)) (tang n (subp E2 E1)) + - dotp (scalep (-1) (subp ZH1 ZH2)) (tang n (subp H2 H1))))).
  { clear. coords. unfold both, upwind, hatE, hatH, tang, subp, addp, scalep, crossp, dotp. cbn [fst snd]. field. }
  rewrite E.
  assert (HH : half l (2 * z) (2 * w) = 2 * half l z w) by (unfold half; ring). rewrite HH in M1, M2.
  match goal with |- / 2 * ?a + / 2 * (alpha * ?b) <= _ => assert (Q1 : a <= 2 * half l z w) by lra; assert (Q2 : b <= 2 * half l z w) end.
  { assert (HS : half l (sq (subp ZE1 ZE2)) (sq (subp E2 E1)) + half l (sq (subp ZH1 ZH2)) (sq (subp H2 H1)) = half l (sq (subp ZE1 ZE2) + sq (subp ZH1 ZH2)) (sq (subp E2 E1) + sq (subp H2 H1))) by (unfold half; ring). lra. }
  match goal with |- / 2 * ?a + / 2 * (alpha * ?b) <= _ => assert (alpha * b <= alpha * (2 * half l z w)) by (apply Rmult_le_compat_l; assumption) end. lra.
Qed.
End Terms.

(** ** The whole operator *)
Section Whole.
Variable N : nat.
Variable m : fmesh.
Variable dim : Z.
Variable alpha : R.
Variable gb gi : list (Z * cond).
Variable ob ib : list (cond * marker).
Variable Mass MInv D : Z -> mat.
Variable MSigma : mat.
Variable sm : marker.
Hypothesis S : dgSpace N m dim Mass MInv D.
Hypothesis T : tables m gb gi ob ib.
Hypothesis MF : massForm N Mass.
Hypothesis Wt : nonnegWeights m.
Hypothesis A0 : 0 <= alpha.
Variable Cd Tr Sg : R.
Hypothesis HD : derivBound N dim Mass D Cd.
Hypothesis HT : traceBound N m Mass Tr.
Hypothesis HS : lossBound N Mass MSigma Sg.
Definition opBound : R := IZR dim * Cd + (1 + alpha) * Tr + Sg.

Definition comps (h : Z -> Z -> R) : R := suml (fun g => suml (fun d => h g d) [0; 1; 2]%Z) [0; 1]%Z.
Lemma comps_eq : forall h, comps h = h 0%Z 0%Z + h 0%Z 1%Z + h 0%Z 2%Z + (h 1%Z 0%Z + h 1%Z 1%Z + h 1%Z 2%Z).
Proof. intros h. unfold comps, suml. cbn [map fold_right]. ring. Qed.
Notation sides F v q := (side1 (mf_face F) (local F v) q * side1 (mf_face F) (local F v) q + side2 (mf_face F) (local F v) q * side2 (mf_face F) (local F v) q).

Lemma point_bound : forall l x z fi F q, 0 < l -> nth_error (fm_faces m) fi = Some F -> In q (f_pts (mf_face F)) ->
  comps (fun g d => faceTerm N alpha m gb gi x (fld N z g d) g d fi F q) <=
  (1 + alpha) * half l (comps (fun g d => sides F (fld N z g d) q)) (comps (fun g d => sides F (fld N x g d) q)).
Proof.
  intros l x z fi F q L0 EF I. pose proof (point_unit N m dim Mass MInv D S fi F q EF I) as U. rewrite !comps_eq.
  set (ZE1 := fieldAt side1 N z 0 F q). set (ZH1 := fieldAt side1 N z 1 F q). set (ZE2 := fieldAt side2 N z 0 F q). set (ZH2 := fieldAt side2 N z 1 F q).
  set (E1 := fieldAt side1 N x 0 F q). set (H1 := fieldAt side1 N x 1 F q). set (E2 := fieldAt side2 N x 0 F q). set (H2 := fieldAt side2 N x 1 F q).
  match goal with |- _ <= (1 + alpha) * half l ?a ?b => replace a with (sq ZE1 + sq ZH1 + (sq ZE2 + sq ZH2)) by (unfold ZE1, ZH1, ZE2, ZH2, fieldAt, sq, dotp; ring); replace b with (sq E1 + sq H1 + (sq E2 + sq H2)) by (unfold E1, H1, E2, H2, fieldAt, sq, dotp; ring) end.
  unfold faceTerm. cbv zeta. fold E1 H1 E2 H2.
  assert (KM := kind_mapped m gb gi fi F).
  assert (RB : forall a b c a' b' c' p, a * rowOf p 0 0 + b * rowOf p 0 1 + c * rowOf p 0 2 + (a' * rowOf p 1 0 + b' * rowOf p 1 1 + c' * rowOf p 1 2) = both (a, b, c) (a', b', c') p).
  { intros a b c a' b' c' (((p1 & p2) & p3) & ((p4 & p5) & p6)). unfold rowOf, both, pick, dotp. cbn. ring. }
  pose proof (sq_nonneg ZE1) as n1. pose proof (sq_nonneg ZH1) as n2. pose proof (sq_nonneg ZE2) as n3. pose proof (sq_nonneg ZH2) as n4.
  pose proof (sq_nonneg E1) as n5. pose proof (sq_nonneg H1) as n6. pose proof (sq_nonneg E2) as n7. pose proof (sq_nonneg H2) as n8.
  destruct (f_el2 (mf_face F)) as [k2|] eqn:E2F.
  - match goal with |- ?s <= _ => replace s with (both ZE1 ZH1 (innerTerm alpha (faceKind m gb gi fi F) (normalAt q) E1 H1 E2 H2) + both ZE2 ZH2 (innerTerm alpha (faceKind m gb gi fi F) (scalep (-1) (normalAt q)) E2 H2 E1 H1)) end.
    2:{ unfold ZE1, ZH1, ZE2, ZH2, fieldAt. rewrite <- !RB. ring. }
    destruct (faceKind m gb gi fi F) as [c|] eqn:K; cbn [innerTerm].
    + specialize (KM c eq_refl).
      pose proof (wall_bound alpha l A0 L0 (normalAt q) c ZE1 ZH1 E1 H1 U KM) as B1.
      pose proof (wall_bound alpha l A0 L0 (scalep (-1) (normalAt q)) c ZE2 ZH2 E2 H2 (neg_unit (normalAt q) U) KM) as B2.
      assert (HH : half l (sq ZE1 + sq ZH1 + (sq ZE2 + sq ZH2)) (sq E1 + sq H1 + (sq E2 + sq H2)) = half l (sq ZE1 + sq ZH1) (sq E1 + sq H1) + half l (sq ZE2 + sq ZH2) (sq E2 + sq H2)) by (unfold half; ring).
      rewrite HH. destruct c; cbn [innerTerm]; lra.
    + apply (inner_bound alpha l A0 L0). exact U.
  - match goal with |- ?s <= _ => replace s with (both ZE1 ZH1 (outerTerm alpha (faceKind m gb gi fi F) (normalAt q) E1 H1)) end.
    2:{ unfold ZE1, ZH1, fieldAt. rewrite <- !RB. ring. }
    assert (Mn : half l (sq ZE1 + sq ZH1) (sq E1 + sq H1) <= half l (sq ZE1 + sq ZH1 + (sq ZE2 + sq ZH2)) (sq E1 + sq H1 + (sq E2 + sq H2))) by (apply half_le; lra).
    assert (Mn' : (1 + alpha) * half l (sq ZE1 + sq ZH1) (sq E1 + sq H1) <= (1 + alpha) * half l (sq ZE1 + sq ZH1 + (sq ZE2 + sq ZH2)) (sq E1 + sq H1 + (sq E2 + sq H2))) by (apply Rmult_le_compat_l; lra).
    eapply Rle_trans; [|exact Mn'].
    assert (P0 : 0 <= (1 + alpha) * half l (sq ZE1 + sq ZH1) (sq E1 + sq H1)) by (apply Rmult_le_pos; [lra|apply half_pos; lra]).
    destruct (faceKind m gb gi fi F) as [c|] eqn:K; cbn [outerTerm].
    + specialize (KM c eq_refl). pose proof (wall_bound alpha l A0 L0 (normalAt q) c ZE1 ZH1 E1 H1 U KM) as B1.
      destruct c; cbn [outerTerm]; try exact B1.
      pose proof (inner_bound alpha l A0 L0 (normalAt q) ZE1 ZH1 zero3 zero3 E1 H1 zero3 zero3 U) as B2.
      assert (Z0 : sq zero3 = 0) by (unfold sq, zero3, dotp; ring). assert (Z1 : forall p, both zero3 zero3 p = 0) by (intros (a & b); unfold both, zero3, dotp; coords; cbn; ring).
      rewrite Z0, Z1 in B2. replace (sq ZE1 + sq ZH1 + (0 + 0)) with (sq ZE1 + sq ZH1) in B2 by ring. replace (sq E1 + sq H1 + (0 + 0)) with (sq E1 + sq H1) in B2 by ring. lra.
    + unfold both, zero3. cbn [fst snd]. assert (D1 : forall a, dotp a (0,0,0) = 0) by (intros; coords; unfold dotp; ring). rewrite !D1. lra.
Qed.

Lemma facesum_mono : forall h h', (forall fi F q, nth_error (fm_faces m) fi = Some F -> In q (f_pts (mf_face F)) -> h fi F q <= h' fi F q) -> facesum m h <= facesum m h'.
Proof.
  intros h h' H. assert (Q : facesum m (fun fi F q => h fi F q + -1 * h' fi F q) <= 0) by (apply (facesum_nonpos N m dim Mass MInv D S); [exact Wt|]; intros fi F q E I; specialize (H fi F q E I); lra).
  rewrite facesum_plus, facesum_scal in Q. lra.
Qed.
Lemma comps_facesum : forall h, comps (fun g d => facesum m (h g d)) = facesum m (fun fi F q => comps (fun g d => h g d fi F q)).
Proof.
  intros h. rewrite comps_eq. rewrite <- !facesum_plus. apply facesum_ext. intros. rewrite comps_eq. reflexivity.
Qed.
Lemma comps_mono : forall h h', (forall g d, (g = 0 \/ g = 1)%Z -> (0 <= d < 3)%Z -> h g d <= h' g d) -> comps h <= comps h'.
Proof. intros h h' H. rewrite !comps_eq. pose proof (H 0 0 ltac:(lia) ltac:(lia))%Z. pose proof (H 0 1 ltac:(lia) ltac:(lia))%Z. pose proof (H 0 2 ltac:(lia) ltac:(lia))%Z. pose proof (H 1 0 ltac:(lia) ltac:(lia))%Z. pose proof (H 1 1 ltac:(lia) ltac:(lia))%Z. pose proof (H 1 2 ltac:(lia) ltac:(lia))%Z. lra. Qed.
Lemma comps_scal : forall c h, comps (fun g d => c * h g d) = c * comps h.
Proof. intros. rewrite !comps_eq. ring. Qed.
Lemma rate_comps : forall x y, fieldRate N Mass x y = comps (fun g d => mform N (Mass g) (fld N x g d) (fld N y g d)).
Proof. reflexivity. Qed.
Notation nz x := (fieldRate N Mass x x).
Lemma face_bound : forall l x z, 0 < l ->
  comps (fun g d => facesum m (faceTerm N alpha m gb gi x (fld N z g d) g d)) <= (1 + alpha) * Tr * half l (nz z) (nz x).
Proof.
  intros l x z L0. rewrite comps_facesum. apply (Rle_trans _ (facesum m (fun fi F q => (1 + alpha) * half l (comps (fun g d => sides F (fld N z g d) q)) (comps (fun g d => sides F (fld N x g d) q))))).
  { apply facesum_mono. intros fi F q E I. apply point_bound; assumption. }
  rewrite facesum_scal, Rmult_assoc. apply Rmult_le_compat_l; [lra|]. unfold half. rewrite facesum_scal, facesum_plus, !facesum_scal, <- !comps_facesum.
  assert (Q : forall w, comps (fun g d => facesum m (fun _ F q => sides F (fld N w g d) q)) <= Tr * nz w).
  { intros w. rewrite rate_comps, <- comps_scal. apply comps_mono. intros g d Hg Hd. apply HT. exact Hg. }
  pose proof (Q z) as Qz. pose proof (Q x) as Qx. assert (0 < / l) by (apply Rinv_0_lt_compat; exact L0).
  pose proof (Rmult_le_compat_l l _ _ (Rlt_le _ _ L0) Qz). pose proof (Rmult_le_compat_l (/ l) _ _ (Rlt_le _ _ H) Qx). lra.
Qed.
Lemma curl_bound : forall l x z, 0 < l -> comps (fun g d => weakCurl N dim D x (fld N z g d) g d) <= IZR dim * Cd * half l (nz z) (nz x).
Proof.
  intros l x z L0. destruct HD as (C0 & HD'). destruct MF as (_ & MP).
  set (pt := fun k v w => if (k <? dim)%Z then mform N (D k) v w else 0).
  assert (B : forall k g v w, (0 <= k < dim)%Z -> (g = 0 \/ g = 1)%Z -> Rabs (pt k v w) <= Cd * half l (mform N (Mass g) v v) (mform N (Mass (1 - g)%Z) w w)).
  { intros k g v w Hk Hg. unfold pt. replace (k <? dim)%Z with true by (symmetry; apply Z.ltb_lt; lia). apply young_sq; [exact L0|exact C0|apply MP|apply MP|]. apply HD'; assumption. }
  set (M := fun w g d => mform N (Mass g) (fld N w g d) (fld N w g d)).
  assert (MN : forall w g d, 0 <= M w g d) by (intros; apply MP).
  assert (B1 : forall k d e g, (0 <= k < dim)%Z -> (g = 0 \/ g = 1)%Z -> pt k (fld N z g d) (fld N x (1 - g)%Z e) <= Cd * half l (M z g d) (M x (1 - g)%Z e) /\ - pt k (fld N z g d) (fld N x (1 - g)%Z e) <= Cd * half l (M z g d) (M x (1 - g)%Z e)).
  { intros k d e g Hk Hg. pose proof (B k g (fld N z g d) (fld N x (1 - g)%Z e) Hk Hg) as Q. fold (M z g d) in Q. fold (M x (1 - g)%Z e) in Q.
    unfold Rabs in Q. destruct (Rcase_abs _); split; lra. }
  assert (HC : Cd * half l (nz z) (nz x) = Cd * (half l (M z 0%Z 0%Z) (M x 0%Z 0%Z) + half l (M z 0%Z 1%Z) (M x 0%Z 1%Z) + half l (M z 0%Z 2%Z) (M x 0%Z 2%Z) + half l (M z 1%Z 0%Z) (M x 1%Z 0%Z) + half l (M z 1%Z 1%Z) (M x 1%Z 1%Z) + half l (M z 1%Z 2%Z) (M x 1%Z 2%Z))).
  { rewrite !rate_comps, !comps_eq. unfold half, M. ring. }
  assert (P : forall k, (0 <= k < 3)%Z -> forall d e, (d <> e)%Z -> (0 <= d < 3)%Z -> (0 <= e < 3)%Z -> (0 <= k < dim)%Z ->
    forall s, s = 1 \/ s = -1 ->
    s * (pt k (fld N z 0 d) (fld N x 1 e) - pt k (fld N z 0 e) (fld N x 1 d)) - s * (pt k (fld N z 1 d) (fld N x 0 e) - pt k (fld N z 1 e) (fld N x 0 d)) <= Cd * half l (nz z) (nz x)).
  { intros k _ d e Hde Hd He Hk s Hs.
    destruct (B1 k d e 0%Z Hk ltac:(lia)) as (p1 & p2). destruct (B1 k e d 0%Z Hk ltac:(lia)) as (p3 & p4).
    destruct (B1 k d e 1%Z Hk ltac:(lia)) as (p5 & p6). destruct (B1 k e d 1%Z Hk ltac:(lia)) as (p7 & p8).
    change (1 - 0)%Z with 1%Z in *. change (1 - 1)%Z with 0%Z in *.
    assert (R : s * (pt k (fld N z 0 d) (fld N x 1 e) - pt k (fld N z 0 e) (fld N x 1 d)) - s * (pt k (fld N z 1 d) (fld N x 0 e) - pt k (fld N z 1 e) (fld N x 0 d)) <=
      Cd * (half l (M z 0%Z d) (M x 1%Z e) + half l (M z 0%Z e) (M x 1%Z d) + half l (M z 1%Z d) (M x 0%Z e) + half l (M z 1%Z e) (M x 0%Z d))).
    { destruct Hs as [->| ->]; lra. }
    apply (Rle_trans _ _ _ R). rewrite HC. apply Rmult_le_compat_l; [exact C0|].
    assert (L1 : 0 < / l) by (apply Rinv_0_lt_compat; exact L0).
    assert (HP : forall a b, 0 <= a -> 0 <= b -> 0 <= half l a b) by (intros; apply half_pos; assumption).
    assert (X : half l (M z 0%Z d) (M x 1%Z e) + half l (M z 0%Z e) (M x 1%Z d) + half l (M z 1%Z d) (M x 0%Z e) + half l (M z 1%Z e) (M x 0%Z d) =
      half l (M z 0%Z d) (M x 0%Z d) + half l (M z 0%Z e) (M x 0%Z e) + half l (M z 1%Z d) (M x 1%Z d) + half l (M z 1%Z e) (M x 1%Z e)) by (unfold half; ring).
    rewrite X. pose proof (HP _ _ (MN z 0 0) (MN x 0 0))%Z. pose proof (HP _ _ (MN z 0 1) (MN x 0 1))%Z. pose proof (HP _ _ (MN z 0 2) (MN x 0 2))%Z.
    pose proof (HP _ _ (MN z 1 0) (MN x 1 0))%Z. pose proof (HP _ _ (MN z 1 1) (MN x 1 1))%Z. pose proof (HP _ _ (MN z 1 2) (MN x 1 2))%Z.
    assert (d = 0 \/ d = 1 \/ d = 2)%Z as [->|[->| ->]] by lia; (assert (e = 0 \/ e = 1 \/ e = 2)%Z as [->|[->| ->]] by lia); try lia; lra. }
  assert (E : comps (fun g d => weakCurl N dim D x (fld N z g d) g d) =
    (-1 * (pt 0%Z (fld N z 0 1) (fld N x 1 2) - pt 0%Z (fld N z 0 2) (fld N x 1 1)) - -1 * (pt 0%Z (fld N z 1 1) (fld N x 0 2) - pt 0%Z (fld N z 1 2) (fld N x 0 1))) +
    (1 * (pt 1%Z (fld N z 0 0) (fld N x 1 2) - pt 1%Z (fld N z 0 2) (fld N x 1 0)) - 1 * (pt 1%Z (fld N z 1 0) (fld N x 0 2) - pt 1%Z (fld N z 1 2) (fld N x 0 0))) +
    (-1 * (pt 2%Z (fld N z 0 0) (fld N x 1 1) - pt 2%Z (fld N z 0 1) (fld N x 1 0)) - -1 * (pt 2%Z (fld N z 1 0) (fld N x 0 1) - pt 2%Z (fld N z 1 1) (fld N x 0 0)))).
  { rewrite comps_eq. unfold weakCurl. cbv zeta.
    repeat match goal with |- context [((?a) mod 3)%Z] => let v := eval compute in (a mod 3)%Z in change (a mod 3)%Z with v end.
    change (1 - 0)%Z with 1%Z. change (1 - 1)%Z with 0%Z. cbn [Z.eqb]. unfold pt. ring. }
  rewrite E. clear E.
  assert (Dm : (1 <= dim <= 3)%Z) by (destruct S as (Q & _); exact Q).
  assert (Z0 : forall k, (dim <= k)%Z -> forall v w, pt k v w = 0) by (intros k Hk v w; unfold pt; replace (k <? dim)%Z with false by (symmetry; apply Z.ltb_ge; lia); reflexivity).
  pose proof (P 0%Z ltac:(lia) 1%Z 2%Z ltac:(lia) ltac:(lia) ltac:(lia) ltac:(lia) (-1) ltac:(auto)) as P0. cbv beta in P0.
  assert (dim = 1 \/ dim = 2 \/ dim = 3)%Z as [Ed|[Ed|Ed]] by lia.
  - rewrite !(Z0 1%Z ltac:(lia)), !(Z0 2%Z ltac:(lia)). rewrite Ed. lra.
  - pose proof (P 1%Z ltac:(lia) 0%Z 2%Z ltac:(lia) ltac:(lia) ltac:(lia) ltac:(lia) 1 ltac:(auto)) as P1.
    rewrite !(Z0 2%Z ltac:(lia)). rewrite Ed. lra.
  - pose proof (P 1%Z ltac:(lia) 0%Z 2%Z ltac:(lia) ltac:(lia) ltac:(lia) ltac:(lia) 1 ltac:(auto)) as P1.
    pose proof (P 2%Z ltac:(lia) 0%Z 1%Z ltac:(lia) ltac:(lia) ltac:(lia) ltac:(lia) (-1) ltac:(auto)) as P2. rewrite Ed. lra.
Qed.
Lemma nz_pos : forall x, 0 <= nz x.
Proof. intros x. rewrite rate_comps, comps_eq. destruct MF as (_ & MP). pose proof (MP 0%Z (fld N x 0 0)). pose proof (MP 0%Z (fld N x 0 1)). pose proof (MP 0%Z (fld N x 0 2)). pose proof (MP 1%Z (fld N x 1 0)). pose proof (MP 1%Z (fld N x 1 1)). pose proof (MP 1%Z (fld N x 1 2)). lra. Qed.
Lemma loss_bound : forall l x z, 0 < l -> comps (fun g d => - (if (g =? 0)%Z then mform N MSigma (fld N z g d) (fld N x 0 d) else 0)) <= Sg * half l (nz z) (nz x).
Proof.
  intros l x z L0. destruct HS as (S0 & HS'). destruct MF as (_ & MP).
  assert (B : forall v u, - mform N MSigma v u <= Sg * half l (mform N (Mass 0%Z) v v) (mform N (Mass 0%Z) u u)).
  { intros v u. pose proof (young_sq l Sg (mform N MSigma v u) _ _ L0 S0 (MP 0%Z v) (MP 0%Z u) (HS' v u)) as Q. unfold Rabs in Q. destruct (Rcase_abs _); lra. }
  apply (Rle_trans _ (comps (fun g d => Sg * half l (mform N (Mass g) (fld N z g d) (fld N z g d)) (mform N (Mass g) (fld N x g d) (fld N x g d))))).
  - apply comps_mono. intros g d [->| ->] Hd; cbn [Z.eqb]; [apply B|]. rewrite Ropp_0. apply Rmult_le_pos; [exact S0|]. apply half_pos; [exact L0|apply MP|apply MP].
  - rewrite comps_scal. apply Rmult_le_compat_l; [exact S0|]. rewrite !rate_comps, !comps_eq. unfold half. lra.
Qed.
Lemma opBound_pos : 0 <= opBound.
Proof.
  unfold opBound. destruct HD as (C0 & _). destruct HT as (T0 & _). destruct HS as (S0 & _). assert (0 <= IZR dim) by (apply IZR_le; destruct S as (Q & _); lia).
  assert (0 <= IZR dim * Cd) by (apply Rmult_le_pos; lra). assert (0 <= (1 + alpha) * Tr) by (apply Rmult_le_pos; lra). lra.
Qed.
Theorem op_bounded : exists A, theOperator N m dim alpha ob ib MInv D MSigma sm = Ok A /\ boundedBy A N Mass opBound.
Proof.
  destruct (weak N m dim alpha gb gi ob ib Mass MInv D MSigma sm S T) as (A & EA & W). exists A. split; [exact EA|].
  intros x y Hx Hy. destruct (W x Hx) as (y' & Hy' & V). rewrite <- (applies_unique N A x y y' Hy Hy') in V. clear y' Hy'.
  assert (Q : forall l, 0 < l -> nz y <= opBound * half l (nz y) (nz x)).
  { intros l L0. rewrite (rate_comps y y) at 1.
    rewrite comps_eq. rewrite !V by lia. cbn [Z.eqb].
    pose proof (curl_bound l x y L0) as B1. pose proof (face_bound l x y L0) as B2. pose proof (loss_bound l x y L0) as B3. rewrite !comps_eq in B1, B2, B3. cbn [Z.eqb] in B3.
    unfold opBound. lra. }
  unfold fieldEnergy. pose proof opBound_pos as K0. pose proof (nz_pos x). pose proof (nz_pos y). set (K := opBound) in *. set (a := nz y) in *. set (b := nz x) in *. clearbody a b K.
  destruct (Req_EM_T K 0) as [->|NK].
  - specialize (Q 1 Rlt_0_1). lra.
  - assert (KP : 0 < K) by lra. specialize (Q (/ K) (Rinv_0_lt_compat _ KP)). unfold half in Q. rewrite Rinv_inv in Q.
    replace (K * (/ 2 * (/ K * a + K * b))) with (/ 2 * a + / 2 * (K * K * b)) in Q by (field; lra). lra.
Qed.
End Whole.

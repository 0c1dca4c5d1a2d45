(** Waves between two conducting walls, and what the automatic step does to them. *)
From Coq Require Import ZArith List Bool Reals Lia Lra Psatz.
From Verif Require Import Common Csr_Model Geo_Spec Face_Model Face_Spec Face_Proofs Nodal_Spec Nodal_Proofs NodalMult_Proofs NodalEnergy_Spec NodalEnergy_Proofs Setup_Model Setup_Spec Assembly_Model Form_Model Form_Spec Global_Spec Global_Proofs GlobalEnergy_Proofs GlobalBalance_Proofs Twin_Spec TwinWeak_Proofs Step_Model Step_Spec StepLine_Proofs Time_Model Ode_Model Ode_Spec Ode_Proofs OdeRk_Proofs OdeStep_Proofs OdeRun_Proofs OdeFin_Proofs OdeEx_Proofs Cfl_Spec CflBound_Proofs CflLine_Proofs CflFin_Proofs.
Import ListNotations.
Local Open Scope R_scope.

Section Wave.
Variable n : nat.
Variable h : R.
Hypothesis n0 : (0 < n)%nat.
Hypothesis h0 : 0 < h.
Notation N := (2 * n)%nat.
Notation m := (lineMesh n (endWalls n) [1%Z]).
Notation gb := [(1%Z, PEC)].
Notation ob := [(PEC, [1%Z])].
Notation Mass := (lineMass (fun _ => h) vacuum).
Notation Inv := (lineInv (fun _ => h) vacuum).
Lemma w_tags : lineTags n (endWalls n) [1%Z].
Proof.
  split; [|split].
  - cbn. constructor; [cbn; lia|]. constructor; [cbn; lia|constructor].
  - constructor; [lia|constructor].
  - repeat constructor; cbn; auto; lia.
Qed.
Lemma w_tables : tables m gb [] ob [].
Proof.
  split; [|split; [|split]].
  - constructor; [|constructor]. intros k a [].
  - constructor.
  - change (markerSize (fm_battrs m)) with 1%Z. split; [cbn; repeat (constructor; [cbn; intuition discriminate|]); constructor|split].
    + intros c mk [H|[]]; injection H as <- <-; (split; [unfold mapped; auto 10|]); (split; [reflexivity|]); intros k Hk.
      assert (k = 0)%Z as -> by lia. left. split; [reflexivity|cbn; auto].
    + intros a c _ [H|[]]; injection H as _ <-; eexists; cbn; auto.
  - change (markerSize (fm_battrs m)) with 1%Z. split; [constructor|split].
    + intros c mk [].
    + intros a c Mc [].
Qed.
Lemma w_kind_left : faceKind m gb [] 0 leftFace = Some PEC.
Proof. reflexivity. Qed.
Lemma w_kind_right : faceKind m gb [] n (rightFace n) = Some PEC.
Proof. unfold faceKind, tagOf, endWalls. cbn [fm_bdr lineMesh find snd fst]. destruct n as [|p]; [lia|]. cbn [Nat.eqb]. rewrite Nat.eqb_refl. reflexivity. Qed.
Lemma w_kind_mid : forall k, (k < n - 1)%nat -> faceKind m gb [] (k + 1) (midFace (k + 1)) = None.
Proof.
  intros k Hk. unfold faceKind, tagOf, endWalls. cbn [fm_bdr lineMesh find snd fst]. rewrite Nat.add_1_r. cbn [Nat.eqb].
  replace (n =? S k)%nat with false by (symmetry; apply Nat.eqb_neq; lia). reflexivity.
Qed.
Lemma w_reflecting : reflecting m gb [].
Proof.
  intros fi F E. destruct (face_cases n (endWalls n) [1%Z] n0 fi F E) as [(-> & ->)|[(Hk & ->)|(-> & ->)]].
  - cbn [f_el2 leftFace mf_face]. left. apply w_kind_left.
  - cbn [f_el2 midFace mf_face]. left. replace fi with ((fi - 1) + 1)%nat by lia. apply w_kind_mid. lia.
  - cbn [f_el2 rightFace mf_face]. left. apply w_kind_right.
Qed.
Lemma w_passive : passive m gb [].
Proof.
  intros fi F E. pose proof (w_reflecting fi F E) as Q. destruct (f_el2 (mf_face F)).
  - destruct Q as [->|[->| ->]]; discriminate.
  - destruct Q as [->| ->]; discriminate.
Qed.
Lemma w_h : forall k, (k < n)%nat -> h <= (fun _ : nat => h) k. Proof. intros. lra. Qed.
Lemma w_w : forall g k, 1 <= vacuum g k. Proof. intros. unfold vacuum. lra. Qed.
Definition w_space := line_space n (endWalls n) [1%Z] (fun _ => h) vacuum h n0 w_tags h0 w_h w_w.
Definition w_mass := line_mass n (fun _ => h) vacuum h h0 w_h w_w.
Definition w_coercive := line_coercive n (fun _ => h) vacuum h h0 w_h w_w.

(** ** States *)
Lemma state_len : forall a b, length (lineState n a b) = (6 * N)%nat.
Proof. intros. unfold lineState. rewrite map_length, seq_length. reflexivity. Qed.
Lemma state_fld : forall a b g d k, (g = 0 \/ g = 1)%Z -> (0 <= d < 3)%Z -> (k < N)%nat ->
  fld N (lineState n a b) g d k = if (3 * g + d =? 1)%Z then a k else if (3 * g + d =? 5)%Z then b k else 0.
Proof.
  intros a b g d k Hg Hd Hk. unfold fld, lineState. set (c := Z.to_nat (3 * g + d)). assert (Hc : (c < 6)%nat) by (unfold c; lia).
  replace (Z.to_nat ((3 * g + d) * Z.of_nat N + Z.of_nat k)) with (c * N + k)%nat by (unfold c; nia).
  assert (B : (c * N + k < 6 * N)%nat) by nia.
  set (G := fun r => _). rewrite (nth_indep _ 0 (G 0%nat)) by (rewrite map_length, seq_length; exact B). rewrite map_nth, seq_nth by exact B. rewrite Nat.add_0_l. unfold G.
  assert (D1 : ((c * N + k) / N = c)%nat) by (rewrite Nat.div_add_l by lia; rewrite Nat.div_small by exact Hk; lia).
  assert (D2 : ((c * N + k) mod N = k)%nat) by (rewrite Nat.add_comm, Nat.mod_add by lia; apply Nat.mod_small; exact Hk).
  rewrite D1, D2. unfold c.
  destruct (Z.eqb_spec (3 * g + d) 1) as [E|E]; [rewrite E; reflexivity|]. destruct (Z.eqb_spec (3 * g + d) 5) as [E'|E']; [rewrite E'; reflexivity|].
  replace (Z.to_nat (3 * g + d) =? 1)%nat with false by (symmetry; apply Nat.eqb_neq; lia). replace (Z.to_nat (3 * g + d) =? 5)%nat with false by (symmetry; apply Nat.eqb_neq; lia). reflexivity.
Qed.
Lemma fld_ext : forall x y : list R, length x = (6 * N)%nat -> length y = (6 * N)%nat -> (forall g d k, (g = 0 \/ g = 1)%Z -> (0 <= d < 3)%Z -> (k < N)%nat -> fld N x g d k = fld N y g d k) -> x = y.
Proof.
  intros x y Lx Ly H. apply (nth_ext _ _ 0 0); [congruence|]. intros r Hr. rewrite Lx in Hr.
  set (c := (r / N)%nat). set (k := (r mod N)%nat). assert (Hk : (k < N)%nat) by (apply Nat.mod_upper_bound; lia). assert (Er : (r = N * c + k)%nat) by (apply Nat.div_mod; lia). assert (Hc : (c < 6)%nat) by (apply Nat.div_lt_upper_bound; lia).
  clearbody c k. specialize (H (Z.of_nat (c / 3)) (Z.of_nat (c mod 3)) k). unfold fld in H.
  assert (c = 0 \/ c = 1 \/ c = 2 \/ c = 3 \/ c = 4 \/ c = 5)%nat as Cs by lia.
  replace (Z.to_nat ((3 * Z.of_nat (c / 3) + Z.of_nat (c mod 3)) * Z.of_nat N + Z.of_nat k)) with r in H.
  - apply H; [| |exact Hk]; destruct Cs as [->|[->|[->|[->|[->| ->]]]]]; cbn; lia.
  - pose proof (Nat.div_mod c 3 ltac:(lia)). set (p := (c / 3)%nat) in *. set (q := (c mod 3)%nat) in *. clearbody p q. nia.
Qed.

(** ** The operator on such states *)
Section Apply.
Variable alpha : R.
Variable a b : nat -> R.
Notation x := (lineState n a b).
Notation EL g F q := (fieldAt side1 N x g F q).
Notation ER g F q := (fieldAt side2 N x g F q).
Lemma at_left : fieldAt side1 N x 0 leftFace qL = (0, a 0%nat, 0) /\ fieldAt side1 N x 1 leftFace qL = (0, 0, b 0%nat).
Proof. unfold fieldAt. rewrite !(fun v => proj1 (s_left v)). rewrite !state_fld by (auto; lia). split; reflexivity. Qed.
Lemma at_right : fieldAt side1 N x 0 (rightFace n) qR = (0, a (2 * (n - 1) + 1)%nat, 0) /\ fieldAt side1 N x 1 (rightFace n) qR = (0, 0, b (2 * (n - 1) + 1)%nat).
Proof. unfold fieldAt. rewrite !(fun v => proj1 (s_right n v)). rewrite !state_fld by (auto; lia). split; reflexivity. Qed.
Lemma at_mid : forall k, (k < n - 1)%nat ->
  fieldAt side1 N x 0 (midFace (k + 1)) qM = (0, a (2 * k + 1)%nat, 0) /\ fieldAt side1 N x 1 (midFace (k + 1)) qM = (0, 0, b (2 * k + 1)%nat) /\
  fieldAt side2 N x 0 (midFace (k + 1)) qM = (0, a (2 * (k + 1))%nat, 0) /\ fieldAt side2 N x 1 (midFace (k + 1)) qM = (0, 0, b (2 * (k + 1))%nat).
Proof. intros k Hk. unfold fieldAt. rewrite !(fun v => proj1 (s_mid n n0 k v)), !(fun v => proj2 (s_mid n n0 k v)). rewrite !state_fld by (auto; lia). repeat split; reflexivity. Qed.
(** What the faces add to the rows of E_y and of H_z; nothing to the others. *)
Definition faceE (v : nat -> R) : R :=
  - alpha * (v 0%nat * a 0%nat) +
  sumN (n - 1) (fun k => / 2 * (v (2 * k + 1)%nat * (b (2 * k + 1)%nat - b (2 * (k + 1))%nat + alpha * (a (2 * (k + 1))%nat - a (2 * k + 1)%nat)) +
                                v (2 * (k + 1))%nat * (b (2 * k + 1)%nat - b (2 * (k + 1))%nat + alpha * (a (2 * k + 1)%nat - a (2 * (k + 1))%nat)))) +
  - alpha * (v (2 * (n - 1) + 1)%nat * a (2 * (n - 1) + 1)%nat).
Definition faceH (v : nat -> R) : R :=
  - (v 0%nat * a 0%nat) +
  sumN (n - 1) (fun k => / 2 * (v (2 * k + 1)%nat * (a (2 * k + 1)%nat - a (2 * (k + 1))%nat + alpha * (b (2 * (k + 1))%nat - b (2 * k + 1)%nat)) +
                                v (2 * (k + 1))%nat * (a (2 * k + 1)%nat - a (2 * (k + 1))%nat + alpha * (b (2 * k + 1)%nat - b (2 * (k + 1))%nat)))) +
  v (2 * (n - 1) + 1)%nat * a (2 * (n - 1) + 1)%nat.
Lemma faces_rows : forall v g d, (g = 0 \/ g = 1)%Z -> (0 <= d < 3)%Z ->
  facesum m (faceTerm N alpha m gb [] x v g d) = if (3 * g + d =? 1)%Z then faceE v else if (3 * g + d =? 5)%Z then faceH v else 0.
Proof.
  intros v g d Hg Hd. rewrite (line_facesum n (endWalls n) [1%Z] n0).
  destruct (nrmM) as (NM & NR). pose proof nrmL as NL.
  assert (TL : faceTerm N alpha m gb [] x v g d 0 leftFace qL = v 0%nat * rowOf (atPEC alpha (-1, 0, 0) (0, a 0%nat, 0) (0, 0, b 0%nat)) g d).
  { unfold faceTerm. cbv zeta. change (f_el2 (mf_face leftFace)) with (@None nat). cbv iota. rewrite w_kind_left. destruct at_left as (E1 & E2). rewrite E1, E2, NL, (proj1 (s_left v)). reflexivity. }
  assert (TR : faceTerm N alpha m gb [] x v g d n (rightFace n) qR = v (2 * (n - 1) + 1)%nat * rowOf (atPEC alpha (1, 0, 0) (0, a (2 * (n - 1) + 1)%nat, 0) (0, 0, b (2 * (n - 1) + 1)%nat)) g d).
  { unfold faceTerm. cbv zeta. change (f_el2 (mf_face (rightFace n))) with (@None nat). cbv iota. rewrite w_kind_right. destruct at_right as (E1 & E2). rewrite E1, E2, NR, (proj1 (s_right n v)). reflexivity. }
  assert (TM : forall k, (k < n - 1)%nat -> faceTerm N alpha m gb [] x v g d (k + 1) (midFace (k + 1)) qM =
    v (2 * k + 1)%nat * rowOf (upwind alpha (1, 0, 0) (0, a (2 * k + 1)%nat, 0) (0, 0, b (2 * k + 1)%nat) (0, a (2 * (k + 1))%nat, 0) (0, 0, b (2 * (k + 1))%nat)) g d +
    v (2 * (k + 1))%nat * rowOf (upwind alpha (scalep (-1) (1, 0, 0)) (0, a (2 * (k + 1))%nat, 0) (0, 0, b (2 * (k + 1))%nat) (0, a (2 * k + 1)%nat, 0) (0, 0, b (2 * k + 1)%nat)) g d).
  { intros k Hk. unfold faceTerm. cbv zeta. change (f_el2 (mf_face (midFace (k + 1)))) with (Some 2%nat). cbv iota. rewrite (w_kind_mid k Hk). destruct (at_mid k Hk) as (E1 & E2 & E3 & E4). rewrite E1, E2, E3, E4, NM, (proj1 (s_mid n n0 k v)), (proj2 (s_mid n n0 k v)). reflexivity. }
  rewrite TL, TR. rewrite (sumN_ext (n - 1) _ _ TM). clear TL TR TM.
  unfold faceE, faceH.
  assert (d = 0 \/ d = 1 \/ d = 2)%Z as Ds by lia.
  destruct Hg as [->| ->], Ds as [->|[->| ->]]; cbn [Z.add Z.mul Z.eqb Pos.eqb Pos.mul Pos.add];
    unfold rowOf, atPEC, upwind, hatE, hatH, tang, crossp, scalep, subp, addp, dotp; cbn [Z.eqb fst snd pick].
  all: match goal with |- ?l + sumN _ ?s + ?r = 0 => rewrite (sumN_zero _ s) by (intros; unfold pick; cbn; field); unfold pick; cbn; ring
                     | |- ?l + sumN _ ?s + ?r = ?l' + sumN _ ?s' + ?r' => rewrite (sumN_ext _ s s') by (intros; unfold pick; cbn; field); unfold pick; cbn; ring end.
Qed.
Lemma curl_rows : forall v g d, (g = 0 \/ g = 1)%Z -> (0 <= d < 3)%Z ->
  weakCurl N 1 lineD x v g d = if (3 * g + d =? 1)%Z then - sumN n (fun k => (v (2 * k)%nat + v (2 * k + 1)%nat) / 2 * (b (2 * k + 1)%nat - b (2 * k)%nat))
    else if (3 * g + d =? 5)%Z then - sumN n (fun k => (v (2 * k)%nat + v (2 * k + 1)%nat) / 2 * (a (2 * k + 1)%nat - a (2 * k)%nat)) else 0.
Proof.
  intros v g d Hg Hd. assert (d = 0 \/ d = 1 \/ d = 2)%Z as Ds by lia.
  assert (Z0 : forall g' d', (g' = 0 \/ g' = 1)%Z -> (0 <= d' < 3)%Z -> (3 * g' + d' <> 1)%Z -> (3 * g' + d' <> 5)%Z -> mform N (lineD 0%Z) v (fld N x g' d') = 0).
  { intros g' d' Hg' Hd' A1 A2. rewrite (mform_ext N _ v _ (fun _ => 0)). { rewrite d_form. apply sumN_zero. intros. ring. }
    intros i Hi. rewrite state_fld by assumption. apply Z.eqb_neq in A1, A2. rewrite A1, A2. reflexivity. }
  assert (ZA : mform N (lineD 0%Z) v (fld N x 0 1) = sumN n (fun k => (v (2 * k)%nat + v (2 * k + 1)%nat) / 2 * (a (2 * k + 1)%nat - a (2 * k)%nat))).
  { rewrite (mform_ext N _ v _ a) by (intros i Hi; rewrite state_fld by (auto; lia); reflexivity). apply d_form. }
  assert (ZB : mform N (lineD 0%Z) v (fld N x 1 2) = sumN n (fun k => (v (2 * k)%nat + v (2 * k + 1)%nat) / 2 * (b (2 * k + 1)%nat - b (2 * k)%nat))).
  { rewrite (mform_ext N _ v _ b) by (intros i Hi; rewrite state_fld by (auto; lia); reflexivity). apply d_form. }
  unfold weakCurl. cbv zeta.
  destruct Hg as [->| ->], Ds as [->|[->| ->]];
    repeat match goal with |- context [(?t mod 3)%Z] => let r := eval compute in (t mod 3)%Z in change (t mod 3)%Z with r end;
    repeat match goal with |- context [(1 - ?t)%Z] => let r := eval compute in (1 - t)%Z in change (1 - t)%Z with r end;
    cbn [Z.add Z.mul Z.eqb Z.ltb Z.compare Pos.compare Pos.compare_cont Pos.eqb Pos.mul Pos.add];
    rewrite ?ZA, ?ZB, ?Z0 by (auto; lia); ring.
Qed.
Lemma wave_applies : forall a' b',
  (forall v, - sumN n (fun k => (v (2 * k)%nat + v (2 * k + 1)%nat) / 2 * (b (2 * k + 1)%nat - b (2 * k)%nat)) + faceE v = mform N (Mass 0%Z) v a') ->
  (forall v, - sumN n (fun k => (v (2 * k)%nat + v (2 * k + 1)%nat) / 2 * (a (2 * k + 1)%nat - a (2 * k)%nat)) + faceH v = mform N (Mass 1%Z) v b') ->
  forall A, theOperator N m 1 alpha ob [] Inv lineD noLoss [] = Ok A -> applies A N x (lineState n a' b').
Proof.
  intros a' b' HE HH A EA.
  destruct (weak N m 1 alpha gb [] ob [] Mass Inv lineD noLoss [] w_space w_tables) as (A' & EA' & W).
  assert (A' = A) by congruence. subst A'. clear EA'. destruct (W x (state_len a b)) as (y & Hy & V). replace (lineState n a' b') with y; [exact Hy|].
  apply fld_ext; [apply Hy|apply state_len|]. intros g d k Hg Hd Hk.
  assert (L : forall v u, mform N noLoss v u = 0). { intros v u. unfold mform, noLoss. apply sumN_zero. intros i _. rewrite (sumN_zero N) by (intros; ring). ring. }
  set (df := fun i => fld N y g d i - fld N (lineState n a' b') g d i).
  assert (Q : mform N (Mass g) df df = 0).
  { assert (E : mform N (Mass g) df df = mform N (Mass g) df (fld N y g d) + -1 * mform N (Mass g) df (fld N (lineState n a' b') g d)).
    { rewrite <- mform_scal, <- mform_plus. apply mform_ext. intros i _. unfold df. ring. }
    rewrite E, (V df g d Hg Hd), faces_rows, curl_rows by assumption. rewrite L.
    assert (X : mform N (Mass g) df (fld N (lineState n a' b') g d) = if (3 * g + d =? 1)%Z then mform N (Mass 0%Z) df a' else if (3 * g + d =? 5)%Z then mform N (Mass 1%Z) df b' else 0).
    { destruct (Z.eqb_spec (3 * g + d) 1) as [E1|E1]; [|destruct (Z.eqb_spec (3 * g + d) 5) as [E2|E2]].
      - assert (g = 0)%Z by lia. subst g. apply mform_ext. intros i Hi. rewrite state_fld by assumption. rewrite E1. reflexivity.
      - assert (g = 1)%Z by lia. subst g. apply mform_ext. intros i Hi. rewrite state_fld by assumption. rewrite E2. reflexivity.
      - rewrite (mform_ext N _ df _ (fun _ => 0)). { rewrite mass_form. apply sumN_zero. intros. ring. } intros i Hi. rewrite state_fld by assumption. apply Z.eqb_neq in E1, E2. rewrite E1, E2. reflexivity. }
    rewrite X. destruct (3 * g + d =? 1)%Z; [rewrite <- HE|destruct (3 * g + d =? 5)%Z; [rewrite <- HH|]]; destruct (g =? 0)%Z; ring. }
  destruct w_coercive as (C0 & C). specialize (C g df). rewrite Q in C.
  assert (Z0 : sumN N (fun i => df i * df i) <= 0) by nra.
  assert (P : forall p, 0 <= sumN p (fun i => df i * df i)). { intros p. rewrite <- (sumN_zero p (fun _ => 0)) by reflexivity. apply sumN_mono. intros i _. apply Rle_0_sqr. }
  assert (K : forall p, sumN p (fun i => df i * df i) <= 0 -> forall i, (i < p)%nat -> df i = 0).
  { induction p as [|p IH]; intros Hp i Hi; [lia|]. rewrite sumN_S in Hp. pose proof (P p). pose proof (Rle_0_sqr (df p)) as S. unfold Rsqr in S. destruct (Nat.eq_dec i p) as [->|Ni].
    - assert (df p * df p = 0) by lra. apply Rmult_integral in H0. tauto.
    - apply IH; [lra|lia]. }
  specialize (K N Z0 k Hk). unfold df in K. lra.
Qed.
End Apply.

(** ** Two waves *)
Lemma saw_even : forall k, saw (2 * k) = -1.
Proof. intros k. unfold saw. rewrite Nat.even_mul. reflexivity. Qed.
Lemma saw_odd : forall k, saw (2 * k + 1) = 1.
Proof. intros k. unfold saw. rewrite Nat.even_add, Nat.even_mul. reflexivity. Qed.
Lemma alt_even : forall k, alternating (2 * k) = (-1) ^ k.
Proof. intros k. unfold alternating. f_equal. rewrite Nat.mul_comm. apply Nat.div_mul. lia. Qed.
Lemma alt_odd : forall k, alternating (2 * k + 1) = (-1) ^ k.
Proof. intros k. unfold alternating. f_equal. rewrite Nat.mul_comm, Nat.div_add_l by lia. change (1 / 2)%nat with 0%nat. lia. Qed.
Lemma saw_rate : forall A, theOperator N m 1 1 ob [] Inv lineD noLoss [] = Ok A -> applies A N (sawWave n) (lineState n (fun i => - 6 / h * saw i) (fun _ => 0)).
Proof.
  apply wave_applies; intros v.
  - unfold faceE. rewrite mass_form. rewrite (sumN_zero n) by (intros; ring). rewrite Ropp_0, Rplus_0_l.
    rewrite (sumN_ext (n - 1) _ (fun k => - v (2 * k + 1)%nat + v (2 * (k + 1))%nat)) by (intros k _; rewrite saw_odd, saw_even; field).
    change (saw 0) with (-1). rewrite saw_odd.
    rewrite (sumN_ext n _ (fun k => v (2 * k)%nat + - v (2 * k + 1)%nat)) by (intros k _; rewrite saw_odd, saw_even; unfold vacuum; field; lra).
    rewrite <- (regroup n n0 (fun k => - v (2 * k + 1)%nat) (fun k => v (2 * k)%nat)). change (2 * 0)%nat with 0%nat. ring.
  - unfold faceH. rewrite mass_form.
    match goal with |- - sumN n ?f + _ = _ => rewrite (sumN_ext n f (fun k => v (2 * k)%nat + v (2 * k + 1)%nat)) by (intros k _; rewrite saw_odd, saw_even; field) end.
    rewrite (sumN_ext (n - 1) _ (fun k => v (2 * k + 1)%nat + v (2 * (k + 1))%nat)) by (intros k _; rewrite saw_odd, saw_even; field).
    change (saw 0) with (-1). rewrite saw_odd.
    match goal with |- _ = sumN n ?f => rewrite (sumN_zero n f) by (intros; ring) end.
    rewrite <- (regroup n n0 (fun k => v (2 * k + 1)%nat) (fun k => v (2 * k)%nat)). change (2 * 0)%nat with 0%nat. ring.
Qed.
Notation sgn k := ((-1) ^ k).
Lemma sgn_next : forall k, sgn (k + 1) = - sgn k.
Proof. intros k. rewrite Nat.add_1_r. cbn [pow]. ring. Qed.
Definition altSaw (i : nat) : R := alternating i * saw i.
Lemma alt_rate : forall A, theOperator N m 1 0 ob [] Inv lineD noLoss [] = Ok A -> applies A N (alternatingWave n) (lineState n (fun _ => 0) (fun i => 6 / h * altSaw i)).
Proof.
  apply wave_applies; intros v.
  - unfold faceE. rewrite mass_form. rewrite (sumN_zero n) by (intros; ring). rewrite (sumN_zero (n - 1)) by (intros; ring). rewrite (sumN_zero n) by (intros; ring). ring.
  - unfold faceH. rewrite mass_form. match goal with |- - sumN n ?f + _ = _ => rewrite (sumN_zero n f) by (intros k _; rewrite alt_odd, alt_even; ring) end.
    rewrite (sumN_ext (n - 1) _ (fun k => sgn k * v (2 * k + 1)%nat + - sgn (k + 1) * v (2 * (k + 1))%nat)) by (intros k _; rewrite alt_odd, alt_even, sgn_next; field).
    change (alternating 0) with 1. rewrite alt_odd.
    rewrite (sumN_ext n _ (fun k => - sgn k * v (2 * k)%nat + sgn k * v (2 * k + 1)%nat)) by (intros k _; unfold altSaw; rewrite saw_odd, saw_even, alt_odd, alt_even; unfold vacuum; field; lra).
    rewrite <- (regroup n n0 (fun k => sgn k * v (2 * k + 1)%nat) (fun k => - sgn k * v (2 * k)%nat)). change (2 * 0)%nat with 0%nat. cbn [pow]. ring.
Qed.
Lemma altSaw_rate : forall c A, theOperator N m 1 0 ob [] Inv lineD noLoss [] = Ok A -> applies A N (lineState n (fun _ => 0) (fun i => c * altSaw i)) (lineState n (fun i => - 2 / h * c * alternating i) (fun _ => 0)).
Proof.
  intros c. apply wave_applies; intros v.
  - unfold faceE. rewrite mass_form. rewrite (sumN_zero (n - 1)) by (intros k _; unfold altSaw; rewrite saw_odd, saw_even, alt_odd, alt_even, sgn_next; ring).
    match goal with |- - sumN n ?f + _ = _ => rewrite (sumN_ext n f (fun k => -1 * (- (c * sgn k * (v (2 * k)%nat + v (2 * k + 1)%nat))))) by (intros k _; unfold altSaw; rewrite saw_odd, saw_even, alt_odd, alt_even; field) end.
    rewrite sumN_scal.
    match goal with |- _ = sumN n ?f => rewrite (sumN_ext n f (fun k => - (c * sgn k * (v (2 * k)%nat + v (2 * k + 1)%nat)))) by (intros k _; rewrite alt_odd, alt_even; unfold vacuum; field; lra) end. ring.
  - unfold faceH. rewrite mass_form. rewrite (sumN_zero n) by (intros; ring). rewrite (sumN_zero (n - 1)) by (intros; ring). rewrite (sumN_zero n) by (intros; ring). ring.
Qed.
Definition wave (p q : R) : list R := lineState n (fun i => p * alternating i) (fun i => q * altSaw i).
Lemma wave_rate : forall p q A, theOperator N m 1 0 ob [] Inv lineD noLoss [] = Ok A -> applies A N (wave p q) (wave (- 2 / h * q) (6 / h * p)).
Proof.
  intros p q. apply wave_applies; intros v.
  - unfold faceE. rewrite mass_form. rewrite (sumN_zero (n - 1)) by (intros k _; unfold altSaw; rewrite saw_odd, saw_even, alt_odd, alt_even, sgn_next; ring).
    match goal with |- - sumN n ?f + _ = _ => rewrite (sumN_ext n f (fun k => -1 * (- (q * sgn k * (v (2 * k)%nat + v (2 * k + 1)%nat))))) by (intros k _; unfold altSaw; rewrite saw_odd, saw_even, alt_odd, alt_even; field) end.
    rewrite sumN_scal.
    match goal with |- _ = sumN n ?f => rewrite (sumN_ext n f (fun k => - (q * sgn k * (v (2 * k)%nat + v (2 * k + 1)%nat)))) by (intros k _; rewrite alt_odd, alt_even; unfold vacuum; field; lra) end. ring.
  - unfold faceH. rewrite mass_form. match goal with |- - sumN n ?f + _ = _ => rewrite (sumN_zero n f) by (intros k _; rewrite alt_odd, alt_even; ring) end.
    rewrite (sumN_ext (n - 1) _ (fun k => p * sgn k * v (2 * k + 1)%nat + - p * sgn (k + 1) * v (2 * (k + 1))%nat)) by (intros k _; rewrite alt_odd, alt_even, sgn_next; field).
    change (alternating 0) with 1. rewrite alt_odd.
    rewrite (sumN_ext n _ (fun k => - p * sgn k * v (2 * k)%nat + p * sgn k * v (2 * k + 1)%nat)) by (intros k _; unfold altSaw; rewrite saw_odd, saw_even, alt_odd, alt_even; unfold vacuum; field; lra).
    rewrite <- (regroup n n0 (fun k => p * sgn k * v (2 * k + 1)%nat) (fun k => - p * sgn k * v (2 * k)%nat)). change (2 * 0)%nat with 0%nat. cbn [pow]. ring.
Qed.
Lemma state_nth : forall a b i, nth i (lineState n a b) 0 = if (i <? 6 * N)%nat then (if (i / N =? 1)%nat then a (i mod N)%nat else if (i / N =? 5)%nat then b (i mod N)%nat else 0) else 0.
Proof.
  intros a b i. destruct (Nat.ltb_spec i (6 * N)) as [H|H].
  - unfold lineState. set (G := fun r => _). rewrite (nth_indep _ 0 (G 0%nat)) by (rewrite map_length, seq_length; exact H). rewrite map_nth, seq_nth by exact H. reflexivity.
  - apply nth_overflow. rewrite state_len. exact H.
Qed.
Lemma wave_nth : forall p q i, nth i (wave p q) 0 = p * nth i (wave 1 0) 0 + q * nth i (wave 0 1) 0.
Proof. intros p q i. unfold wave. rewrite !state_nth. destruct (_ <? _)%nat; [|ring]. destruct (_ =? _)%nat; [ring|]. destruct (_ =? _)%nat; ring. Qed.
Lemma state_energy : forall a b, fieldEnergy N Mass (lineState n a b) = / 2 * (mform N (Mass 0%Z) a a + mform N (Mass 1%Z) b b).
Proof.
  intros a b. unfold fieldEnergy, fieldRate, suml. cbn [map fold_right].
  assert (Z0 : forall g d, (g = 0 \/ g = 1)%Z -> (0 <= d < 3)%Z -> mform N (Mass g) (fld N (lineState n a b) g d) (fld N (lineState n a b) g d) =
     if (3 * g + d =? 1)%Z then mform N (Mass 0%Z) a a else if (3 * g + d =? 5)%Z then mform N (Mass 1%Z) b b else 0).
  { intros g d Hg Hd. rewrite mass_form.
    rewrite (sumN_ext n _ (fun k => vacuum g k * h / 6 * (let f i := if (3 * g + d =? 1)%Z then a i else if (3 * g + d =? 5)%Z then b i else 0 in
       2 * f (2 * k)%nat * f (2 * k)%nat + f (2 * k)%nat * f (2 * k + 1)%nat + f (2 * k + 1)%nat * f (2 * k)%nat + 2 * f (2 * k + 1)%nat * f (2 * k + 1)%nat))).
    2:{ intros k Hk. rewrite !state_fld by (auto; lia). reflexivity. }
    destruct (Z.eqb_spec (3 * g + d) 1); [rewrite mass_form; reflexivity|]. destruct (Z.eqb_spec (3 * g + d) 5); [rewrite mass_form; reflexivity|]. apply sumN_zero. intros. cbv beta zeta iota. ring. }
  rewrite !Z0 by (auto; lia). cbn [Z.add Z.mul Z.eqb Pos.eqb Pos.mul Pos.add]. ring.
Qed.
Lemma sgn_sq : forall k, sgn k * sgn k = 1.
Proof. induction k as [|k IH]; cbn [pow]; lra. Qed.
Lemma sumN_const : forall p c, sumN p (fun _ => c) = INR p * c.
Proof. induction p as [|p IH]; intros c; [rewrite sumN_0; cbn; ring|]. rewrite sumN_S, IH, S_INR. ring. Qed.
Lemma wave_energy : forall p q, fieldEnergy N Mass (wave p q) = INR n * h / 2 * (p * p + q * q / 3).
Proof.
  intros p q. unfold wave. rewrite state_energy, !mass_form.
  rewrite (sumN_ext n _ (fun k => h * (p * p))) by (intros k _; rewrite alt_even, alt_odd; unfold vacuum; transitivity (h * (p * p) * (sgn k * sgn k)); [field|rewrite sgn_sq; ring]).
  rewrite (sumN_ext n (fun k => vacuum 1 k * _ / 6 * _) (fun k => h * (q * q) / 3)) by (intros k _; unfold altSaw; rewrite alt_even, alt_odd, saw_even, saw_odd; unfold vacuum; transitivity (h * (q * q) / 3 * (sgn k * sgn k)); [field|rewrite sgn_sq; ring]).
  rewrite !sumN_const. field.
Qed.
Lemma saw_energy : fieldEnergy N Mass (sawWave n) = INR n * h / 6.
Proof.
  unfold sawWave. rewrite state_energy, !mass_form.
  rewrite (sumN_ext n _ (fun k => h / 3)) by (intros k _; rewrite saw_even, saw_odd; unfold vacuum; field).
  match goal with |- context [_ + sumN n ?f] => rewrite (sumN_zero n f) by (intros; ring) end.
  rewrite sumN_const. field.
Qed.
Lemma nh_pos : 0 < INR n * h.
Proof. apply Rmult_lt_0_compat; [apply lt_0_INR; exact n0|exact h0]. Qed.
Lemma wave_step : forall A f, theOperator N m 1 0 ob [] Inv lineD noLoss [] = Ok A -> evaluates A N f -> forall imp c p q t,
  odeStep f imp 0 (wave p q) t (c * h) =
  wave (p * (1 - 6 * c ^ 2 + 6 * c ^ 4) + q * (- 2 * c + 4 * c ^ 3)) (q * (1 - 6 * c ^ 2 + 6 * c ^ 4) + p * (6 * c - 12 * c ^ 3)).
Proof.
  intros A f EA Ev imp c p q t. assert (L : length (wave p q) = (6 * N)%nat) by apply state_len.
  assert (F0 : forall p q, f 0 (wave p q) = wave (- 2 / h * q) (6 / h * p)). { intros p' q'. apply (applies_unique N A (wave p' q')); [apply Ev, state_len|apply wave_rate, EA]. }
  change (odeStep f imp 0 (wave p q) t (c * h)) with (rk4Step f (wave p q) t (c * h)).
  rewrite (rk4_F (6 * N) (f 0) (Flen' N A f Ev) f (fF' N A f Ev)) by exact L. rewrite (rk4_once (6 * N) (f 0) (Flen' N A f Ev) (Fadd' N A f Ev) (wave p q) L).
  apply (nth_ext _ _ 0 0); [rewrite (comb_len _ _ (Flen' N A f Ev) _ L); symmetry; apply state_len|]. intros i _. rewrite (comb_nth _ _ (Flen' N A f Ev) _ L).
  assert (W := fun p q => wave_nth p q i). set (u1 := nth i (wave 1 0) 0) in *. set (u2 := nth i (wave 0 1) 0) in *. clearbody u1 u2.
  unfold rk1. cbn [lsum ev]. rewrite !F0, !W. field. lra.
Qed.
End Wave.

(** ** Runs *)
Lemma wave_run : forall n h, (0 < n)%nat -> 0 < h -> forall dmax gl st ms o, h <= dmax -> sameLine n (fun _ => h) ms -> so_order o = 1%Z -> 0 < so_cfl o ->
  let c := so_cfl o in
  estimateTimeStep dmax gl st ms o = Ok (c * h) /\
  exists A, theOperator (2 * n) (lineMesh n (endWalls n) [1%Z]) 1 0 [(PEC, [1%Z])] [] (lineInv (fun _ => h) vacuum) lineD noLoss [] = Ok A /\
  0 < fieldEnergy (2 * n) (lineMass (fun _ => h) vacuum) (alternatingWave n) /\
  forall f imp, evaluates A (2 * n) f -> forall k, exists tr s', runR (list R) (odeStep f imp 0) (mkSolver 0 (c * h) (INR k * (c * h)) (alternatingWave n) []) tr s' /\ length tr = k /\
    fieldEnergy (2 * n) (lineMass (fun _ => h) vacuum) (s_fields s') = (1 - 24 * c ^ 6 + 36 * c ^ 8) ^ k * fieldEnergy (2 * n) (lineMass (fun _ => h) vacuum) (alternatingWave n).
Proof.
  intros n h n0 h0 dmax gl st ms o Hd SL O1 C0 c.
  destruct (line_dt n (fun _ => h) ms dmax gl st o n0 SL (fun _ _ => Hd) O1) as (d & E & (k0 & _ & ->) & _). split; [exact E|].
  destruct (weak (2 * n) (lineMesh n (endWalls n) [1%Z]) 1 0 [(1%Z, PEC)] [] [(PEC, [1%Z])] [] _ _ lineD noLoss [] (w_space n h n0 h0) (w_tables n n0)) as (A & EA & _).
  exists A. split; [exact EA|]. pose proof (nh_pos n h n0 h0) as NH.
  assert (E0 : alternatingWave n = wave n 1 0). { unfold alternatingWave, wave. apply (nth_ext _ _ 0 0); [rewrite !state_len; reflexivity|]. intros i _. rewrite !state_nth. destruct (_ <? _)%nat; [|reflexivity]. destruct (_ =? _)%nat; [ring|]. destruct (_ =? _)%nat; ring. }
  rewrite E0. split; [rewrite wave_energy by assumption; nra|].
  intros f imp Ev k. destruct (full_run (odeStep f imp 0) (c * h) k 0 (wave n 1 0) [] k ltac:(apply Rmult_lt_0_compat; assumption) eq_refl) as (tr & s' & Rn & L & V).
  cbn [INR] in Rn. rewrite Rmult_0_l in Rn. exists tr, s'. split; [exact Rn|]. split; [exact L|]. rewrite V. clear Rn V L tr s'.
  assert (M : forall k i p q, fieldEnergy (2 * n) (lineMass (fun _ => h) vacuum) (after (odeStep f imp 0) (c * h) k i (wave n p q)) = (1 - 24 * c ^ 6 + 36 * c ^ 8) ^ k * fieldEnergy (2 * n) (lineMass (fun _ => h) vacuum) (wave n p q)).
  { induction k1 as [|j IH]; intros i p q; cbn [after]; [cbn [pow]; ring|]. rewrite (wave_step n h n0 h0 A f EA Ev), IH. rewrite !wave_energy by assumption. cbn [pow]. field. }
  apply M.
Qed.
Lemma saw_run : forall n h, (0 < n)%nat -> 0 < h -> forall dmax gl st ms o, h <= dmax -> sameLine n (fun _ => h) ms -> so_order o = 1%Z -> 0 < so_cfl o ->
  let c := so_cfl o in
  estimateTimeStep dmax gl st ms o = Ok (c * h) /\
  exists A, theOperator (2 * n) (lineMesh n (endWalls n) [1%Z]) 1 1 [(PEC, [1%Z])] [] (lineInv (fun _ => h) vacuum) lineD noLoss [] = Ok A /\
  0 < fieldEnergy (2 * n) (lineMass (fun _ => h) vacuum) (sawWave n) /\
  forall f imp, evaluates A (2 * n) f -> forall k, exists tr s', runR (list R) (odeStep f imp 0) (mkSolver 0 (c * h) (INR k * (c * h)) (sawWave n) []) tr s' /\ length tr = k /\
    fieldEnergy (2 * n) (lineMass (fun _ => h) vacuum) (s_fields s') = ((1 - 6 * c + 18 * c ^ 2 - 36 * c ^ 3 + 54 * c ^ 4) ^ 2) ^ k * fieldEnergy (2 * n) (lineMass (fun _ => h) vacuum) (sawWave n).
Proof.
  intros n h n0 h0 dmax gl st ms o Hd SL O1 C0 c.
  destruct (line_dt n (fun _ => h) ms dmax gl st o n0 SL (fun _ _ => Hd) O1) as (d & E & (k0 & _ & ->) & _). split; [exact E|].
  destruct (weak (2 * n) (lineMesh n (endWalls n) [1%Z]) 1 1 [(1%Z, PEC)] [] [(PEC, [1%Z])] [] _ _ lineD noLoss [] (w_space n h n0 h0) (w_tables n n0)) as (A & EA & _).
  exists A. split; [exact EA|]. pose proof (nh_pos n h n0 h0) as NH. split; [rewrite saw_energy by assumption; lra|].
  intros f imp Ev k. set (g := 1 - 6 * c + 18 * c ^ 2 - 36 * c ^ 3 + 54 * c ^ 4).
  assert (Ls : length (sawWave n) = (6 * (2 * n))%nat) by apply state_len.
  assert (Fz : forall i, nth i (f 0 (sawWave n)) 0 = (- 6 / h) * nth i (sawWave n) 0).
  { intros i. rewrite (applies_unique (2 * n) A (sawWave n) (f 0 (sawWave n)) _ (Ev 0 _ Ls) (saw_rate n h n0 h0 A EA)). unfold sawWave. rewrite !state_nth. destruct (_ <? _)%nat; [|ring]. destruct (_ =? _)%nat; [ring|]. destruct (_ =? _)%nat; ring. }
  assert (M : forall k i p x, multiple (6 * (2 * n)) (sawWave n) p x -> multiple (6 * (2 * n)) (sawWave n) (g ^ k * p) (after (odeStep f imp 0) (c * h) k i x)).
  { induction k1 as [|j IH]; intros i p x Mx; cbn [after pow]; [rewrite Rmult_1_l; exact Mx|].
    replace (g * g ^ j * p) with (g ^ j * (g * p)) by ring. apply IH.
    pose proof (rk4_multiple (6 * (2 * n)) (f 0) (Flen' (2 * n) A f Ev) (Fadd' (2 * n) A f Ev) f (fF' (2 * n) A f Ev) (- 6 / h) (sawWave n) Ls Fz p x (INR i * (c * h)) (c * h) Mx) as Q.
    replace (- 6 / h * (c * h)) with (- 6 * c) in Q by (field; lra).
    match type of Q with multiple _ _ ?a _ => replace a with (g * p) in Q by (unfold g; field) end. exact Q. }
  destruct (full_run (odeStep f imp 0) (c * h) k 0 (sawWave n) [] k ltac:(apply Rmult_lt_0_compat; assumption) eq_refl) as (tr & s' & Rn & L & V).
  cbn [INR] in Rn. rewrite Rmult_0_l in Rn. exists tr, s'. split; [exact Rn|]. split; [exact L|]. rewrite V.
  rewrite (fieldEnergy_multiple (2 * n) _ (g ^ k * 1) _ (sawWave n) (w_mass n h h0) Ls); [|apply M; split; [exact Ls|intros; ring]].
  rewrite Rmult_1_r, <- Rpow_mult_distr. replace (g * g) with (g ^ 2) by ring. reflexivity.
Qed.

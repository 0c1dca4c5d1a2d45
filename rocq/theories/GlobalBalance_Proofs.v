(** The energy balance as a statement about the assembled matrix, and what follows. *)
From Coq Require Import ZArith List Bool Reals Lia Lra.
From Verif Require Import Common Geo_Spec Csr_Model Csr_Spec Face_Model Face_Spec Face_Proofs Setup_Model Setup_Spec Assembly_Model Assembly_Spec Assembly_Proofs Form_Model Form_Spec Form_Proofs Nodal_Spec Nodal_Proofs NodalMult_Proofs NodalEnergy_Spec NodalEnergy_Proofs Global_Spec Global_Proofs GlobalEnergy_Proofs.
Import ListNotations.
Local Open Scope R_scope.

Lemma rows_ok : forall N m dim alpha ob ib MInv D MSigma sm, ops_ok (factoryRows N m dim alpha ob ib MInv D MSigma sm) (Z.of_nat N) 0.
Proof.
  intros. intros o. unfold factoryRows. rewrite Nat2Z.id. destruct (factoryMat _ _ _ _ _ _ _ _ _ _ o) as [A| |].
  - unfold rowsOf. rewrite map_length, seq_length. split; [reflexivity|]. intros row e I J. apply in_map_iff in I. destruct I as (i & <- & _).
    apply in_map_iff in J. destruct J as (j & <- & J). apply in_seq in J. cbn [fst]. lia.
  - rewrite repeat_length. split; [reflexivity|]. intros row e I J. apply repeat_spec in I. subst row. destruct J.
  - rewrite repeat_length. split; [reflexivity|]. intros row e I J. apply repeat_spec in I. subst row. destruct J.
Qed.

Section Balance.
Variable N : nat.
Variable m : fmesh.
Variable dim : Z.
Variable alpha : R.
Variable gb gi : list (Z * cond).
Variable ob ib : list (cond * marker).
Variable Mass MInv D : Z -> mat.
Variable MSigma : mat.
Variable sm : marker.
Hypothesis S : dgSpace N m dim Mass MInv D.
Hypothesis T : tables m gb gi ob ib.
Notation op := (factoryRows N m dim alpha ob ib MInv D MSigma sm).
Definition theOperator : res (csr R) :=
  buildGlobalOperator R Rplus Rmult 1 (-1) op dim (Z.of_nat N) 0 (match ib with [] => false | _ => true end).

Definition rowIdx (r : nat) : Z * Z * nat := (Z.of_nat (r / N / 3), Z.of_nat ((r / N) mod 3), (r mod N)%nat).
Lemma row_split : forall r, (r < 6 * N)%nat -> (r / N < 6)%nat /\ (r / N / 3 < 2)%nat /\ (r / N mod 3 < 3)%nat /\ (r mod N < N)%nat /\
  (r = (3 * (r / N / 3) + r / N mod 3) * N + r mod N)%nat.
Proof.
  intros r H. assert (N0 : N <> 0%nat) by lia. assert (A : (r / N < 6)%nat) by (apply Nat.div_lt_upper_bound; lia).
  repeat split; try assumption.
  - apply Nat.div_lt_upper_bound; lia.
  - apply Nat.mod_upper_bound. lia.
  - apply Nat.mod_upper_bound. exact N0.
  - rewrite <- (Nat.div_mod (r / N) 3) by lia. rewrite Nat.mul_comm. apply Nat.div_mod. exact N0.
Qed.

Lemma operator_rows : exists A, theOperator = Ok A /\ forall x, length x = (6 * N)%nat ->
  exists y, applies A N x y /\ forall f d i, (0 <= f <= 1)%Z -> (0 <= d <= 2)%Z -> (i < N)%nat ->
    fld N y f d i = rhs op dim (Z.of_nat N) 0 (match ib with [] => false | _ => true end) x f d i.
Proof.
  set (b := match ib with [] => false | _ => true end).
  pose proof (fun x f d i Hf Hd Hi Hx => global_action op (Z.of_nat N) 0 ltac:(lia) ltac:(lia) (rows_ok N m dim alpha ob ib MInv D MSigma sm) dim b x f d i (proj1 S) Hf Hd Hi Hx) as G.
  assert (Hop : exists A, theOperator = Ok A).
  { destruct (Nat.eq_dec N 0) as [E|E].
    - unfold theOperator, buildGlobalOperator, globalRows, globalCols. fold b. rewrite E. cbn [Z.of_nat].
      change (Z.to_nat (6 * 0)) with 0%nat. change (Z.to_nat (6 * (0 + 0))) with 0%nat. unfold mergeBlocksToCSR. eexists. reflexivity.
    - destruct (G (repeat 0 (6 * N)) 0%Z 0%Z 0%nat ltac:(lia) ltac:(lia) ltac:(lia)) as (A & E1 & _); [rewrite repeat_length; lia|]. exists A. exact E1. }
  destruct Hop as (A & EA). exists A. split; [exact EA|]. intros x Hx.
  exists (map (fun r => rhs op dim (Z.of_nat N) 0 b x (Z.of_nat (r / N / 3)) (Z.of_nat (r / N mod 3)) (r mod N)) (seq 0 (6 * N))).
  assert (NY : forall r, (r < 6 * N)%nat -> nth r (map (fun r => rhs op dim (Z.of_nat N) 0 b x (Z.of_nat (r / N / 3)) (Z.of_nat (r / N mod 3)) (r mod N)) (seq 0 (6 * N))) 0 =
     rhs op dim (Z.of_nat N) 0 b x (Z.of_nat (r / N / 3)) (Z.of_nat (r / N mod 3)) (r mod N)).
  { intros r Hr. set (g := fun r => _). rewrite (nth_indep _ 0 (g 0%nat)) by (rewrite map_length, seq_length; exact Hr). rewrite (map_nth g), seq_nth by exact Hr. reflexivity. }
  split; [split; [rewrite map_length, seq_length; reflexivity|]|].
  - intros r Hr. set (n := Z.to_nat r). assert (Hn : (n < 6 * N)%nat) by (unfold n; lia). rewrite (NY n Hn). destruct (row_split n Hn) as (H1 & H2 & H3 & H4 & H5).
    destruct (G x (Z.of_nat (n / N / 3)) (Z.of_nat (n / N mod 3)) (n mod N)%nat ltac:(lia) ltac:(lia)) as (A' & E1 & E2); [rewrite Nat2Z.id; exact H4|lia|].
    unfold theOperator in EA. fold b in EA. rewrite EA in E1. injection E1 as <-. rewrite <- E2. f_equal. unfold n in *. lia.
  - intros f d i Hf Hd Hi. unfold fld.
    assert (F : Z.to_nat ((3 * f + d) * Z.of_nat N + Z.of_nat i) = ((3 * Z.to_nat f + Z.to_nat d) * N + i)%nat) by nia.
    rewrite F. assert (B : ((3 * Z.to_nat f + Z.to_nat d) * N + i < 6 * N)%nat) by nia. rewrite (NY _ B).
    replace (((3 * Z.to_nat f + Z.to_nat d) * N + i) / N)%nat with (3 * Z.to_nat f + Z.to_nat d)%nat by (rewrite Nat.div_add_l by lia; rewrite Nat.div_small by lia; lia).
    replace (((3 * Z.to_nat f + Z.to_nat d) * N + i) mod N)%nat with i by (rewrite Nat.add_comm, Nat.mod_add by lia; symmetry; apply Nat.mod_small; exact Hi).
    replace ((3 * Z.to_nat f + Z.to_nat d) / 3)%nat with (Z.to_nat f) by (rewrite Nat.mul_comm, Nat.div_add_l by lia; rewrite Nat.div_small by lia; lia).
    replace ((3 * Z.to_nat f + Z.to_nat d) mod 3)%nat with (Z.to_nat d) by (rewrite Nat.add_comm, Nat.mul_comm, Nat.mod_add by lia; symmetry; apply Nat.mod_small; lia).
    rewrite !Z2Nat.id by lia. reflexivity.
Qed.

Lemma applies_unique : forall A x y y', applies A N x y -> applies A N x y' -> y = y'.
Proof.
  intros A x y y' (L & H) (L' & H'). apply (nth_ext y y' 0 0); [congruence|]. intros i Hi.
  specialize (H (Z.of_nat i) ltac:(lia)). specialize (H' (Z.of_nat i) ltac:(lia)). rewrite H in H'. injection H' as E. rewrite Nat2Z.id in E. exact E.
Qed.

Theorem balance : exists A, theOperator = Ok A /\ forall x, length x = (6 * N)%nat ->
  exists y, applies A N x y /\
    fieldRate N Mass x y = facesum m (pointRate N alpha m gb gi x) - ohmic N MSigma x.
Proof.
  destruct operator_rows as (A & EA & H). exists A. split; [exact EA|]. intros x Hx. destruct (H x Hx) as (y & Y & V). exists y. split; [exact Y|].
  assert (R : forall g d, (g = 0 \/ g = 1)%Z -> (0 <= d < 3)%Z -> mform N (Mass g) (fld N x g d) (fld N y g d) =
    curlForm N dim D x (fld N x) g d + facesum m (rowPoint N m alpha gb gi x (fld N x) g d) + (if (g =? 0)%Z then - mform N MSigma (fld N x 0 d) (fld N x 0 d) else 0)).
  { intros g d Hg Hd. rewrite (mform_ext N _ _ (fld N y g d) (rhs op dim (Z.of_nat N) 0 (hasInt ib) x g d)).
    - apply (rhs_rows N m dim alpha gb gi ob ib Mass MInv D MSigma sm S T x (fld N x) g d Hg Hd).
    - intros i Hi. apply V; lia. }
  unfold fieldRate. pose proof (curl_total N m dim Mass MInv D S x) as CT.
  transitivity (suml (fun g => suml (fun d => curlForm N dim D x (fld N x) g d) [0; 1; 2]%Z) [0; 1]%Z +
     suml (fun g => suml (fun d => facesum m (rowPoint N m alpha gb gi x (fld N x) g d)) [0; 1; 2]%Z) [0; 1]%Z - ohmic N MSigma x).
  - unfold suml, ohmic. cbn [map fold_right]. rewrite !R by lia. cbn [Z.eqb]. unfold suml. cbn [map fold_right]. ring.
  - rewrite CT. f_equal. 
    transitivity (facesum m (fun fi F q => suml (fun g => suml (fun d => rowPoint N m alpha gb gi x (fld N x) g d fi F q) [0; 1; 2]%Z) [0; 1]%Z +
      (outflow (normalAt q) (fieldAt side2 N x 0 F q) (fieldAt side2 N x 1 F q) - outflow (normalAt q) (fieldAt side1 N x 0 F q) (fieldAt side1 N x 1 F q)))).
    + rewrite facesum_plus. rewrite Rplus_comm. f_equal. unfold suml. cbn [map fold_right].
      rewrite !facesum_plus, !(facesum_zero m (fun _ _ _ => 0)) by reflexivity. reflexivity.
    + apply facesum_ext. intros fi F q E I. apply (point_identity N m dim alpha gb gi Mass MInv D S x fi F q E I).
Qed.

Lemma facesum_nonpos : forall h, nonnegWeights m -> (forall fi f q, nth_error (fm_faces m) fi = Some f -> In q (f_pts (mf_face f)) -> h fi f q <= 0) -> facesum m h <= 0.
Proof.
  intros h Wt H. unfold facesum. apply suml_nonpos. intros fi _. destruct (nth_error (fm_faces m) fi) as [f|] eqn:E; [|lra].
  apply suml_nonpos. intros q I. pose proof (H fi f q E I). unfold nonnegWeights in Wt. rewrite Forall_forall in Wt.
  pose proof (nth_error_In _ _ E) as If. specialize (Wt f If). rewrite Forall_forall in Wt. specialize (Wt q I).
  destruct S as (_ & _ & _ & F & _). rewrite Forall_forall in F. destruct (F f If) as (WF & _). unfold wfFace in WF. rewrite Forall_forall in WF.
  pose proof (weight_pos (mf_face f) q (WF q I)). unfold ds. assert (0 <= q_w q * weightOf (q_geo q)) by (apply Rmult_le_pos; lra). nra.
Qed.
Lemma passive_rate : 0 <= alpha -> passive m gb gi -> forall x fi f q, nth_error (fm_faces m) fi = Some f -> pointRate N alpha m gb gi x fi f q <= 0.
Proof.
  intros Ha P x fi f q E. specialize (P fi f E). unfold pointRate. cbv zeta. pose proof (kind_mapped m gb gi fi f) as KM.
  destruct (f_el2 (mf_face f)); destruct (faceKind m gb gi fi f) as [[]|]; cbn [innerRate outerRate]; try congruence; try (specialize (KM _ eq_refl); discriminate);
    repeat match goal with |- context [sq ?v] => let X := fresh in pose proof (sq_nonneg v) as X; let s := fresh "s" in set (s := sq v) in *; clearbody s end; nra.
Qed.
Theorem never_grows : 0 <= alpha -> passive m gb gi -> nonnegWeights m -> (forall v, 0 <= mform N MSigma v v) ->
  exists A, theOperator = Ok A /\ forall x y, length x = (6 * N)%nat -> applies A N x y -> fieldRate N Mass x y <= 0.
Proof.
  intros Ha P Wt Ps. destruct balance as (A & EA & B). exists A. split; [exact EA|]. intros x y Hx Hy. destruct (B x Hx) as (y' & Y & V).
  rewrite (applies_unique A x y y' Hy Y), V.
  assert (facesum m (pointRate N alpha m gb gi x) <= 0) by (apply facesum_nonpos; [exact Wt|intros; apply passive_rate; assumption]).
  assert (0 <= ohmic N MSigma x). { unfold ohmic, suml. cbn [map fold_right]. pose proof (Ps (fld N x 0 0)). pose proof (Ps (fld N x 0 1)). pose proof (Ps (fld N x 0 2)). lra. }
  lra.
Qed.
Theorem conserved : alpha = 0 -> reflecting m gb gi -> (forall v, mform N MSigma v v = 0) ->
  exists A, theOperator = Ok A /\ forall x y, length x = (6 * N)%nat -> applies A N x y -> fieldRate N Mass x y = 0.
Proof.
  intros Ha P Ps. destruct balance as (A & EA & B). exists A. split; [exact EA|]. intros x y Hx Hy. destruct (B x Hx) as (y' & Y & V).
  rewrite (applies_unique A x y y' Hy Y), V.
  rewrite facesum_zero. { unfold ohmic, suml. cbn [map fold_right]. rewrite !Ps. ring. }
  intros fi f q E I. specialize (P fi f E). unfold pointRate. cbv zeta. rewrite Ha.
  destruct (f_el2 (mf_face f)); [destruct P as [->|[->| ->]]|destruct P as [->| ->]]; cbn [innerRate outerRate]; field.
Qed.

(** ** In time *)
Lemma mform_sym : forall M v w, (forall i j, M i j = M j i) -> mform N M v w = mform N M w v.
Proof. intros M v w H. unfold mform. rewrite sumN_swap. apply sumN_ext. intros j _. apply sumN_ext. intros i _. rewrite (H i j). ring. Qed.
Lemma d_mform : forall M (v : R -> nat -> R) (v' : nat -> R) t, (forall i j, M i j = M j i) ->
  (forall k, (k < N)%nat -> derivable_pt_lim (fun s => v s k) t (v' k)) ->
  derivable_pt_lim (fun s => mform N M (v s) (v s)) t (2 * mform N M (v t) v').
Proof.
  intros M v v' t Hs Hd.
  assert (E : 2 * mform N M (v t) v' = mform N M v' (v t) + mform N M (v t) v') by (rewrite (mform_sym M v') by exact Hs; ring).
  rewrite E. clear E.
  assert (E : mform N M v' (v t) + mform N M (v t) v' =
     suml (fun j => suml (fun k => v' j * M j k * v t k + v t j * M j k * v' k) (seq 0 N)) (seq 0 N)).
  { unfold mform. rewrite <- sumN_plus. apply suml_ext. intros j _. rewrite <- sumN_plus. reflexivity. }
  rewrite E. unfold mform.
  apply (dsuml (fun j s => sumN N (fun k => v s j * M j k * v s k))). intros j Hj. apply in_seq in Hj.
  apply (dsuml (fun k s => v s j * M j k * v s k)). intros k Hk. apply in_seq in Hk.
  apply (derivable_pt_lim_mult (fun s => v s j * M j k) (fun s => v s k)); [|apply Hd; lia].
  replace (v' j * M j k) with (v' j * M j k + v t j * 0) by ring.
  apply (derivable_pt_lim_mult (fun s => v s j) (fun _ => M j k)); [apply Hd; lia|apply derivable_pt_lim_const].
Qed.
Hypothesis Sym : forall f i j, Mass f i j = Mass f j i.
Lemma d_energy : forall A x t y, evolves A N x -> applies A N (x t) y -> derivable_pt_lim (fun s => fieldEnergy N Mass (x s)) t (fieldRate N Mass (x t) y).
Proof.
  intros A x t y He Hy. destruct (He t) as (Hl & y' & Hy' & Hd). rewrite (applies_unique A (x t) y y' Hy Hy'). unfold fieldEnergy.
  replace (fieldRate N Mass (x t) y') with (/ 2 * (2 * fieldRate N Mass (x t) y')) by field.
  apply (derivable_pt_lim_scal (fun s => fieldRate N Mass (x s) (x s)) (/ 2)). unfold fieldRate. rewrite <- suml_scal.
  apply (dsuml (fun f s => suml (fun d => mform N (Mass f) (fld N (x s) f d) (fld N (x s) f d)) [0; 1; 2]%Z)). intros f Hf. rewrite <- suml_scal.
  apply (dsuml (fun d s => mform N (Mass f) (fld N (x s) f d) (fld N (x s) f d))). intros d Hdd.
  apply (d_mform (Mass f) (fun s => fld N (x s) f d) (fld N y' f d)); [apply Sym|]. intros k Hk. unfold fld. apply Hd.
  cbn [In] in Hf, Hdd. assert (0 <= f <= 1)%Z by lia. assert (0 <= d <= 2)%Z by lia. nia.
Qed.
Theorem decays : 0 <= alpha -> passive m gb gi -> nonnegWeights m -> (forall v, 0 <= mform N MSigma v v) ->
  exists A, theOperator = Ok A /\ forall x, evolves A N x -> forall a b, a <= b -> fieldEnergy N Mass (x b) <= fieldEnergy N Mass (x a).
Proof.
  intros Ha P Wt Ps. destruct (never_grows Ha P Wt Ps) as (A & EA & G). exists A. split; [exact EA|]. intros x He a b Hab.
  set (en := fun t => fieldEnergy N Mass (x t)).
  destruct balance as (A' & EA' & B). rewrite EA in EA'. injection EA' as <-.
  assert (pr : derivable en).
  { intros t. exists (facesum m (pointRate N alpha m gb gi (x t)) - ohmic N MSigma (x t)). destruct (B (x t) (proj1 (He t))) as (y & Y & V). rewrite <- V.
    apply (d_energy A x t y He Y). }
  destruct (Rle_lt_or_eq_dec _ _ Hab) as [Hlt| ->]; [|right; reflexivity].
  change (en b <= en a). apply (nonpos_derivative_1 en pr); [|exact Hab].
  intros t. destruct (B (x t) (proj1 (He t))) as (y & Y & V).
  rewrite (derive_pt_eq_0 en t _ (pr t) (d_energy A x t y He Y)). apply G; [apply He|exact Y].
Qed.
Theorem stays : alpha = 0 -> reflecting m gb gi -> (forall v, mform N MSigma v v = 0) ->
  exists A, theOperator = Ok A /\ forall x, evolves A N x -> forall a b, fieldEnergy N Mass (x b) = fieldEnergy N Mass (x a).
Proof.
  intros Ha P Ps. destruct (conserved Ha P Ps) as (A & EA & G). exists A. split; [exact EA|]. intros x He a b.
  set (en := fun t => fieldEnergy N Mass (x t)).
  assert (D0 : forall t, derivable_pt_lim en t 0).
  { intros t. destruct (He t) as (Hl & y & Y & _). rewrite <- (G (x t) y Hl Y). apply (d_energy A x t y He Y). }
  assert (pr : derivable en) by (intros t; exists 0; apply D0).
  apply (null_derivative_1 en pr). intros t. apply (derive_pt_eq_0 en t 0 (pr t) (D0 t)).
Qed.
End Balance.

(** Every operator the build requests exists. *)
Lemma requested : forall N m dim alpha gb gi ob ib Mass MInv D MSigma sm, dgSpace N m dim Mass MInv D -> tables m gb gi ob ib ->
  forall f k l, (f = 0 \/ f = 1)%Z -> (0 <= k < 3)%Z -> (0 <= l < 3)%Z ->
  Forall (fun o => exists A, factoryMat N m dim alpha ob ib MInv D MSigma sm o = Ok A)
    [OpDerivative f k; OpZeroNormal f; OpOneNormal f (1 - f) k; OpTwoNormal f k l;
     OpZeroNormalIBFI f; OpOneNormalIBFI f (1 - f) k; OpTwoNormalIBFI f k l; OpConductive].
Proof.
  intros N m dim alpha gb gi ob ib Mass MInv D MSigma sm S T f k l Hf Hk Hl.
  assert (Hg : (1 - f = 0 \/ 1 - f = 1)%Z) by lia. assert (K : (Z.to_nat k < 3)%nat) by lia. assert (L : (Z.to_nat l < 3)%nat) by lia.
  destruct (zero_sum N m dim alpha gb gi ob ib Mass MInv D S T f Hf) as (A1 & E1 & _).
  destruct (one_sum N m dim alpha gb gi ob ib Mass MInv D S T (1 - f) (Z.to_nat k) Hg K) as (A2 & E2 & _).
  destruct (two_sum N m dim alpha gb gi ob ib Mass MInv D S T f (Z.to_nat k) (Z.to_nat l) Hf K L) as (A3 & E3 & _).
  destruct (zeroI_sum N m dim alpha gb gi ob ib Mass MInv D S T f Hf) as (A4 & E4 & _).
  destruct (oneI_sum N m dim alpha gb gi ob ib Mass MInv D S T (1 - f) (Z.to_nat k) Hg K) as (A5 & E5 & _).
  destruct (twoI_sum N m dim alpha gb gi ob ib Mass MInv D S T f (Z.to_nat k) (Z.to_nat l) Hf K L) as (A6 & E6 & _).
  repeat apply Forall_cons; try apply Forall_nil; cbn [factoryMat]; rewrite ?E1, ?E2, ?E3, ?E4, ?E5, ?E6; eexists; reflexivity.
Qed.
Lemma input_tables : forall gt2m m gb gi, fm_battrs m <> [] -> ascending gb -> ascending gi ->
  tagsFit (markerSize (fm_battrs m)) gb -> tagsFit (markerSize (fm_battrs m)) gi ->
  exists md, newModel gt2m gb gi (fm_battrs m) = Ok md /\ tables m gb gi (bdrToMarkerMap (md_mk md)) (intBdrToMarkerMap (md_mk md)).
Proof.
  intros gt2m m gb gi Hb A1 A2 F1 F2.
  assert (HM : arrayMax (fm_battrs m) = Ok (markerSize (fm_battrs m))) by (destruct (fm_battrs m); [congruence|reflexivity]).
  destruct (model_tables gt2m gb gi (fm_battrs m) _ HM F1 F2) as (md & E & R1 & R2). exists md. split; [exact E|]. exact (conj A1 (conj A2 (conj R1 R2))).
Qed.

(** The nodal and the assembled operator of the same run. *)
From Coq Require Import ZArith List Bool Reals Lia Lra.
From Verif Require Import Common Csr_Model Geo_Spec Face_Model Face_Spec Nodal_Model Nodal_Spec NodalEnergy_Spec Step_Model Setup_Model Setup_Spec Assembly_Model Form_Model Form_Spec Global_Spec Conn_Model Conn_Spec Hest_Model Hest_Spec Twin_Spec.
From Verif Require Import NodalEnergy_Proofs GlobalEnergy_Proofs GlobalBalance_Proofs HestRun_Proofs TwinWeak_Proofs TwinSame_Proofs TwinKind_Proofs.
Import ListNotations.
Local Open Scope R_scope.

Section Run.
Variables (inv : nat -> mat -> mat) (fc : fecol) (dim : Z) (t : etype) (nf : nat) (ref : list (list nat)) (elems : list gelem)
    (posLin posCur : list vertex) (m : cmesh) (nodes : Z -> list (nat * nat)) (bdrMk intMk tfsfMk : list (cond * list Z))
    (fm : fmesh) (gb gi : list (Z * cond)) (ob ib : list (cond * marker)) (Mass MInv D : Z -> mat) (MSigma : mat) (N : nat).
Hypothesis P : sameProblem inv fc dim t nf ref elems posLin posCur m nodes bdrMk intMk tfsfMk fm gb gi ob ib Mass MInv D MSigma N.
Variables (tfsf : list (cond * list Z)) (bdr : list bdrElem) (global : Z -> list (Z * R)) (alpha : R) (conn : list (Z * Z)) (maps : bdrMaps) (attrs : list Z) (sm : marker).
Hypothesis HC : connectivities m bdrMk intMk tfsfMk = Ok (conn, maps, attrs).
Hypothesis HG : rowsIn (cm_N m) global.
Variable s : nodal.
Hypothesis HB : buildNodal inv fc dim (cm_N m) elems posLin posCur tfsf bdr global alpha conn maps [] = Ok s.

Lemma kinds_ok : sameKinds m fm gb gi (kindsFm fm gb gi) /\ oneKind m nf maps (kindsFm fm gb gi).
Proof.
  destruct P as [sp_simplex0 sp_ref0 sp_local0 sp_straight0 sp_mesh0 sp_same0 sp_faces0 sp_conds0 sp_N0 sp_mass0 sp_D0 sp_space0 sp_tables0 sp_lossless0 sp_sym0]. apply (kinds_right m (fc_n fc t) nodes fc t nf bdrMk intMk tfsfMk conn maps attrs elems fm gb gi eq_refl sp_mesh0 (sm_uni _ _ _ _ _ _ _ sp_same0) HC sp_faces0 sp_conds0).
Qed.
Lemma sma_carried : forall f, inF m f -> kindsFm fm gb gi f = KSMA -> carries m bdrMk SMA f.
Proof.
  intros f Hf K. destruct P as [sp_simplex0 sp_ref0 sp_local0 sp_straight0 sp_mesh0 sp_same0 sp_faces0 sp_conds0 sp_N0 sp_mass0 sp_D0 sp_space0 sp_tables0 sp_lossless0 sp_sym0]. unfold kindsFm in K. destruct (nth_error (fm_faces fm) (Z.to_nat f)) as [F|] eqn:EF; [|discriminate].
  unfold kindFrom in K. destruct (sp_conds0 f F Hf EF) as [S0 _]. destruct (proj2 sp_faces0 f F Hf EF) as [lf1 [g1 [_ [_ [_ [_ [HO HI]]]]]]].
  destruct (f_el2 (mf_face F)) as [k|] eqn:E2; [destruct (faceKind fm gb gi (Z.to_nat f) F) as [[]|]; discriminate|].
  assert (Q : faceKind fm gb gi (Z.to_nat f) F = Some SMA) by (destruct (faceKind fm gb gi (Z.to_nat f) F) as [[]|]; (discriminate || reflexivity)).
  apply (S0 SMA ltac:(auto)) in Q. destruct (Z.leb_spec 0 (cf_e2 (faceAt m f))) as [L|L]; [|exact Q].
  exfalso. destruct (HI L) as [lf2 [g2 [rs [X _]]]]. apply X. reflexivity.
Qed.
Lemma wall_carried : forall f, inF m f -> innerKind (kindsFm fm gb gi f) -> kindsFm fm gb gi f <> KInterior -> exists c, c <> TotalFieldIn /\ carries m (intMk ++ tfsfMk) c f.
Proof.
  intros f Hf K K2. destruct P as [sp_simplex0 sp_ref0 sp_local0 sp_straight0 sp_mesh0 sp_same0 sp_faces0 sp_conds0 sp_N0 sp_mass0 sp_D0 sp_space0 sp_tables0 sp_lossless0 sp_sym0]. destruct (proj1 kinds_ok f) with (F := nth (Z.to_nat f) (fm_faces fm) (mkMF [] [] (mkFace 0 None []))) as [Q1 Q2]; [exact Hf|apply nth_error_nth'; destruct sp_faces0 as [LF _]; unfold inF in Hf; lia|].
  apply Q2 in K as I. unfold interior in I.
  destruct (sp_conds0 f _ Hf (nth_error_nth' (fm_faces fm) (mkMF [] [] (mkFace 0 None [])) (n := Z.to_nat f) ltac:(destruct sp_faces0 as [LF _]; unfold inF in Hf; lia))) as [S0 _].
  replace (0 <=? cf_e2 (faceAt m f))%Z with true in S0 by (symmetry; apply Z.leb_le; exact I).
  destruct (kindsFm fm gb gi f); try destruct K; try (exfalso; apply K2; reflexivity); cbn [condOf] in Q1; eexists; (split; [|apply S0; [|exact Q1]; auto]); discriminate.
Qed.

Theorem difference_run : alpha <> 0 \/ (forall f, ~ carries m bdrMk SMA f) ->
  exists A, theOperator N fm dim alpha ob ib MInv D MSigma sm = Ok A /\
  forall x, length x = (6 * N)%nat -> exists out y, nodalMult s x = Ok out /\ length out = length x /\ applies A N x y /\
    forall v g d, (g = 0 \/ g = 1)%Z -> (0 <= d < 3)%Z ->
      mform N (Mass g) v (fld N out g d) = mform N (Mass g) v (fld N y g d) + facesum fm (fun fi F q => excessAt N alpha x v g d (kindFrom fm gb gi fi F) F q).
Proof.
  intros Ha. pose proof kinds_ok as [HK OK]. pose proof sma_carried as SC. destruct P as [sp_simplex0 sp_ref0 sp_local0 sp_straight0 sp_mesh0 sp_same0 sp_faces0 sp_conds0 sp_N0 sp_mass0 sp_D0 sp_space0 sp_tables0 sp_lossless0 sp_sym0].
  destruct (weak N fm dim alpha gb gi ob ib Mass MInv D MSigma sm sp_space0 sp_tables0) as [A [EA _]]. exists A. split; [exact EA|]. intros x Hx.
  assert (W : wfMesh N fm /\ Forall (fun f => wfFace (mf_face f)) (fm_faces fm)).
  { destruct sp_space0 as [_ [W [_ [W2 _]]]]. split; [exact W|]. rewrite Forall_forall in *. intros F I. apply W2. exact I. }
  destruct W as [W W2]. rewrite sp_N0 in W, EA, Hx, sp_space0.
  assert (Hk0 : forall f, inF m f -> kindsFm fm gb gi f = KSMA -> alpha <> 0).
  { intros f Hf K. destruct Ha as [A0|A0]; [exact A0|]. exfalso. apply (A0 f). apply SC; assumption. }
  destruct (difference inv fc dim t nf ref elems posLin posCur tfsf bdr global alpha conn maps attrs m nodes bdrMk intMk tfsfMk (kindsFm fm gb gi) sp_simplex0 sp_ref0 sp_local0 sp_mesh0 sp_same0 HC HG sp_straight0
    OK fm gb gi sp_faces0 HK Ha Hk0 s HB W W2 x Mass D sp_mass0 sp_D0 Hx ob ib MInv MSigma sm sp_space0 sp_tables0 sp_lossless0) as [A' [out [y [EA' [Hy [Eo [Lo Q]]]]]]].
  rewrite EA in EA'. injection EA' as <-. exists out, y. rewrite sp_N0. split; [exact Eo|]. split; [exact Lo|]. split; [exact Hy|]. intros v g d Hg Hd. rewrite Q by assumption. f_equal.
  apply facesum_ext. intros fi F q EF _. unfold kindsFm. rewrite Nat2Z.id, EF. reflexivity.
Qed.

Theorem same_run : alpha = 1 \/ (forall f, ~ carries m bdrMk SMA f) -> (forall f c, carries m (intMk ++ tfsfMk) c f -> c = TotalFieldIn) ->
  exists A, theOperator N fm dim alpha ob ib MInv D MSigma sm = Ok A /\
  forall x, length x = (6 * N)%nat -> exists y, applies A N x y /\ nodalMult s x = Ok y.
Proof.
  intros H1 H2. pose proof kinds_ok as [HK OK]. pose proof sma_carried as SC. pose proof wall_carried as WC. destruct P as [sp_simplex0 sp_ref0 sp_local0 sp_straight0 sp_mesh0 sp_same0 sp_faces0 sp_conds0 sp_N0 sp_mass0 sp_D0 sp_space0 sp_tables0 sp_lossless0 sp_sym0].
  destruct (weak N fm dim alpha gb gi ob ib Mass MInv D MSigma sm sp_space0 sp_tables0) as [A [EA _]]. exists A. split; [exact EA|]. intros x Hx.
  assert (W : wfMesh N fm /\ Forall (fun f => wfFace (mf_face f)) (fm_faces fm)).
  { destruct sp_space0 as [_ [W [_ [W2 _]]]]. split; [exact W|]. rewrite Forall_forall in *. intros F I. apply W2. exact I. }
  destruct W as [W W2]. rewrite sp_N0 in W, EA, Hx, sp_space0.
  assert (Ha : alpha <> 0 \/ (forall f, ~ carries m bdrMk SMA f)) by (destruct H1 as [->|H1]; [left; lra|right; exact H1]).
  assert (Hk1 : forall f, inF m f -> kindsFm fm gb gi f = KSMA -> alpha = 1).
  { intros f Hf K. destruct H1 as [A0|A0]; [exact A0|]. exfalso. apply (A0 f). apply SC; assumption. }
  assert (Hk0 : forall f, inF m f -> kindsFm fm gb gi f = KSMA -> alpha <> 0) by (intros f Hf K; rewrite (Hk1 f Hf K); lra).
  assert (HX : forall f, inF m f -> (kindsFm fm gb gi f = KSMA -> alpha = 1) /\ kindsFm fm gb gi f <> KiPEC /\ kindsFm fm gb gi f <> KiPMC /\ kindsFm fm gb gi f <> KiSMA).
  { intros f Hf. split; [apply Hk1; exact Hf|]. repeat split; intros K; destruct (WC f Hf) as [c [C1 C2]]; try (rewrite K; exact I); try (rewrite K; discriminate); apply C1, (H2 f c C2). }
  destruct (same inv fc dim t nf ref elems posLin posCur tfsf bdr global alpha conn maps attrs m nodes bdrMk intMk tfsfMk (kindsFm fm gb gi) sp_simplex0 sp_ref0 sp_local0 sp_mesh0 sp_same0 HC HG sp_straight0
    OK fm gb gi sp_faces0 HK Ha Hk0 s HB W W2 x Mass D sp_mass0 sp_D0 Hx ob ib MInv MSigma sm sp_space0 sp_tables0 sp_lossless0 sp_sym0 HX) as [A' [out [y [EA' [Hy [Eo Q]]]]]].
  rewrite EA in EA'. injection EA' as <-. subst out. exists y. rewrite sp_N0. split; [exact Hy|exact Eo].
Qed.

(** A curve follows one operator when it follows the other. *)
Theorem same_solutions : alpha = 1 \/ (forall f, ~ carries m bdrMk SMA f) -> (forall f c, carries m (intMk ++ tfsfMk) c f -> c = TotalFieldIn) ->
  exists A, theOperator N fm dim alpha ob ib MInv D MSigma sm = Ok A /\ forall x, solves s x <-> evolves A N x.
Proof.
  intros H1 H2. destruct (same_run H1 H2) as [A [EA Q]]. exists A. split; [exact EA|]. intros x.
  assert (LN : Z.to_nat (6 * nd_N s) = (6 * N)%nat).
  { destruct P as [sp_simplex0 sp_ref0 sp_local0 sp_straight0 sp_mesh0 sp_same0 sp_faces0 sp_conds0 sp_N0 sp_mass0 sp_D0 sp_space0 sp_tables0 sp_lossless0 sp_sym0]. pose proof (nd_n inv fc dim t nf ref elems posLin posCur tfsf bdr global alpha conn maps m sp_simplex0 sp_ref0 sp_local0 s HB) as X.
    rewrite X. pose proof (sizeN fc t nf ref elems m nodes bdrMk intMk tfsfMk sp_mesh0 sp_same0) as Y. rewrite Y, <- sp_N0. lia. }
  split; intros Hs u; destruct (Hs u) as [L [y [E V]]].
  - rewrite LN in L. split; [exact L|]. destruct (Q (x u) L) as [y' [Hy Eo]]. rewrite E in Eo. injection Eo as <-. exists y. split; [exact Hy|]. intros i Hi. apply V. rewrite L. exact Hi.
  - split; [rewrite LN; exact L|]. destruct (Q (x u) L) as [y' [Hy Eo]]. exists y'. split; [exact Eo|]. rewrite (applies_unique N A (x u) y' y Hy E). intros i Hi. apply V. rewrite <- L. exact Hi.
Qed.
End Run.

(** Consistency of both operators. *)
From Coq Require Import ZArith List Bool Reals Lia Lra.
From Verif Require Import Common Csr_Model Geo_Spec Face_Model Face_Spec Face_Proofs Nodal_Model Nodal_Spec NodalEnergy_Spec Nodal_Proofs NodalMult_Proofs Step_Model Setup_Model Setup_Spec Assembly_Model Form_Model Form_Spec Global_Spec Conn_Model Conn_Spec Hest_Model Hest_Spec Twin_Spec Consist_Spec.
From Verif Require Import NodalEnergy_Proofs GlobalEnergy_Proofs GlobalBalance_Proofs HestRun_Proofs TwinWeak_Proofs TwinKind_Proofs TwinRun_Proofs.
Import ListNotations.
Local Open Scope R_scope.

Lemma tang_cross : forall n v, crossp n v = crossp n (tang n v).
Proof. intros. v3s. unv. f_equal; [f_equal|]; ring. Qed.
Lemma tang_sub : forall n u v, tang n (subp u v) = subp (tang n u) (tang n v).
Proof. intros. v3s. unv. f_equal; [f_equal|]; ring. Qed.
Lemma sub_self : forall u : v3, subp u u = zero3. Proof. intros. v3s. unfold zero3. unv. f_equal; [f_equal|]; ring. Qed.
Lemma cross_zero : forall n, crossp n zero3 = zero3. Proof. intros. v3s. unfold zero3. unv. f_equal; [f_equal|]; ring. Qed.
Lemma scal_zero : forall c, scalep c zero3 = zero3. Proof. intros. unfold zero3, scalep. f_equal; [f_equal|]; ring. Qed.
Lemma add_zero : forall c, addp c zero3 = c. Proof. intros. v3s. unfold zero3, addp. f_equal; [f_equal|]; ring. Qed.
Lemma upwind_zero : forall alpha n E H E' H', tang n E = tang n E' -> tang n H = tang n H' -> upwind alpha n E H E' H' = (zero3, zero3).
Proof.
  intros alpha n E H E' H' HE HH. unfold upwind, hatE, hatH.
  assert (A : tang n (subp E' E) = zero3) by (rewrite tang_sub, HE; apply sub_self).
  assert (B : tang n (subp H' H) = zero3) by (rewrite tang_sub, HH; apply sub_self).
  rewrite (tang_cross n (subp H' H)), (tang_cross n (subp E' E)), A, B, cross_zero, !scal_zero. unfold zero3, addp, subp, scalep. f_equal; f_equal; try f_equal; ring.
Qed.
Lemma tang_flip : forall n v, tang (scalep (-1) n) v = tang n v.
Proof. intros. v3s. unv. f_equal; [f_equal|]; ring. Qed.
Lemma meets_zero : forall alpha c n E H, meets c n E H -> innerTerm alpha (Some c) n E H zero3 zero3 = (zero3, zero3) /\ (c = PEC \/ c = PMC \/ c = SMA).
Proof.
  intros alpha c n E H Hm. destruct c; cbn [innerTerm meets] in *; try contradiction.
  - split; [|auto]. unfold atPEC. rewrite (tang_cross n E), Hm, scal_zero, cross_zero. reflexivity.
  - split; [|auto]. unfold atPMC. rewrite (tang_cross n H), Hm, cross_zero, !scal_zero. reflexivity.
  - split; [|auto]. unfold atSMA. destruct Hm as [H0 H1]. rewrite H0, H1. v3s. unfold zero3. unv. f_equal; f_equal; try f_equal; ring.
Qed.
Lemma row_zero : forall g d, rowOf (zero3, zero3) g d = 0.
Proof. intros. unfold rowOf, pick, zero3. destruct (g =? 0)%Z; cbn [fst snd]; destruct (d =? 0)%Z; try reflexivity; destruct (d =? 1)%Z; reflexivity. Qed.
Lemma term_zero : forall N alpha m gb gi x v g d fi F q, fits N m gb gi x -> nth_error (fm_faces m) fi = Some F -> In q (f_pts (mf_face F)) ->
  faceTerm N alpha m gb gi x v g d fi F q = 0.
Proof.
  intros N alpha m gb gi x v g d fi F q HF E I. specialize (HF fi F q E I). unfold faceTerm. cbv zeta.
  destruct (faceKind m gb gi fi F) as [c|]; destruct (f_el2 (mf_face F)) as [k|]; cbn [fitsFace] in HF.
  - destruct HF as [A B]. specialize (B eq_refl). apply (meets_zero alpha) in A as [A A']. apply (meets_zero alpha) in B as [B _].
    assert (R1 : forall n E H E' H', innerTerm alpha (Some c) n E H E' H' = innerTerm alpha (Some c) n E H zero3 zero3) by (intros; destruct c; reflexivity).
    rewrite R1, (R1 (scalep (-1) (normalAt q))), A, B, row_zero. ring.
  - destruct HF as [A _]. apply (meets_zero alpha) in A as [A A'].
    assert (R1 : forall n E H, outerTerm alpha (Some c) n E H = innerTerm alpha (Some c) n E H zero3 zero3) by (intros; destruct A' as [->|[->| ->]]; reflexivity).
    rewrite R1, A, row_zero. ring.
  - destruct (HF eq_refl) as [A B]. cbn [innerTerm]. rewrite !upwind_zero; [rewrite row_zero; ring|rewrite !tang_flip; congruence|rewrite !tang_flip; congruence|exact A|exact B].
  - cbn [outerTerm]. rewrite row_zero. ring.
Qed.

Theorem consistent : forall N m dim alpha gb gi ob ib Mass MInv D MSigma sm, dgSpace N m dim Mass MInv D -> tables m gb gi ob ib ->
  exists A, theOperator N m dim alpha ob ib MInv D MSigma sm = Ok A /\ forall x, length x = (6 * N)%nat -> fits N m gb gi x -> exists y, applies A N x y /\
  forall v g d, (g = 0 \/ g = 1)%Z -> (0 <= d < 3)%Z ->
    mform N (Mass g) v (fld N y g d) = weakCurl N dim D x v g d - (if (g =? 0)%Z then mform N MSigma v (fld N x 0 d) else 0).
Proof.
  intros N m dim alpha gb gi ob ib Mass MInv D MSigma sm HS HT. destruct (weak N m dim alpha gb gi ob ib Mass MInv D MSigma sm HS HT) as [A [EA Q]]. exists A. split; [exact EA|].
  intros x Hx HF. destruct (Q x Hx) as [y [Hy V]]. exists y. split; [exact Hy|]. intros v g d Hg Hd. rewrite (V v g d Hg Hd).
  rewrite (facesum_zero m) by (intros; apply term_zero; assumption). ring.
Qed.

Lemma mass_inj : forall N Ms Mi z, (forall i j, (i < N)%nat -> (j < N)%nat -> sumN N (fun k => Ms i k * Mi k j) = if (i =? j)%nat then 1 else 0) ->
  (forall i j, (i < N)%nat -> (j < N)%nat -> Ms i j = Ms j i) -> (forall v, mform N Ms v z = 0) -> forall k, (k < N)%nat -> z k = 0.
Proof.
  intros N Ms Mi z HI HS HZ k Hk. rewrite <- (HZ (fun i => Mi i k)). unfold mform. rewrite sumN_swap. symmetry.
  rewrite (sumN_ext N _ (fun j => if (j =? k)%nat then z j else 0)); [apply sumN_delta; exact Hk|]. intros j Hj.
  rewrite (sumN_ext N _ (fun i => z j * (Ms j i * Mi i k))) by (intros i Hi; rewrite (HS i j Hi Hj); ring).
  rewrite sumN_scal, (HI j k Hj Hk). destruct (j =? k)%nat; ring.
Qed.
Lemma fld_all : forall N (y : list R), length y = (6 * N)%nat -> (forall g d, (g = 0 \/ g = 1)%Z -> (0 <= d < 3)%Z -> forall i, (i < N)%nat -> fld N y g d i = 0) -> y = repeat 0 (6 * N).
Proof.
  intros N y L H. apply (nth_ext _ _ 0 0); [rewrite repeat_length; exact L|]. intros n Hn. rewrite L in Hn.
  rewrite nth_repeat. assert (N <> 0)%nat by lia.
  pose proof (Nat.div_mod n N H0) as E. pose proof (Nat.mod_upper_bound n N H0) as B. assert (n / N < 6)%nat by (apply Nat.div_lt_upper_bound; lia).
  specialize (H (Z.of_nat (n / N) / 3)%Z (Z.of_nat (n / N) mod 3)%Z).
  assert (X : fld N y (Z.of_nat (n / N) / 3) (Z.of_nat (n / N) mod 3) (n mod N) = 0).
  { apply H; [|apply Z.mod_pos_bound; lia|exact B]. assert (0 <= Z.of_nat (n / N) < 6)%Z by lia. pose proof (Z.div_mod (Z.of_nat (n / N)) 3). pose proof (Z.mod_pos_bound (Z.of_nat (n / N)) 3). lia. }
  etransitivity; [|exact X]. unfold fld. pose proof (Z.div_mod (Z.of_nat (n / N)) 3 ltac:(lia)) as E3.
  replace (Z.to_nat ((3 * (Z.of_nat (n / N) / 3) + Z.of_nat (n / N) mod 3) * Z.of_nat N + Z.of_nat (n mod N))) with n; [reflexivity|].
  rewrite <- E3. apply Nat2Z.inj. rewrite Z2Nat.id by lia. nia.
Qed.
Theorem steady : forall N m dim alpha gb gi ob ib Mass MInv D MSigma sm, dgSpace N m dim Mass MInv D -> tables m gb gi ob ib -> flatSpace N dim Mass D ->
  (forall i j, MSigma i j = 0) ->
  exists A, theOperator N m dim alpha ob ib MInv D MSigma sm = Ok A /\ forall x, length x = (6 * N)%nat -> uniformField N x -> fits N m gb gi x ->
    applies A N x (repeat 0 (6 * N)) /\ evolves A N (fun _ => x).
Proof.
  intros N m dim alpha gb gi ob ib Mass MInv D MSigma sm HS HT [HD HSy] HZ. destruct (consistent N m dim alpha gb gi ob ib Mass MInv D MSigma sm HS HT) as [A [EA Q]]. exists A. split; [exact EA|].
  intros x Hx HU HF. destruct (Q x Hx HF) as [y [Hy V]].
  assert (Y : y = repeat 0 (6 * N)).
  { apply fld_all; [apply Hy|]. intros g d Hg Hd. apply (mass_inj N (Mass g) (MInv g)).
    - intros i j Hi Hj. destruct HS as [_ [_ [_ [_ [HI _]]]]]. apply HI; assumption.
    - intros i j Hi Hj. apply HSy; assumption.
    - intros v. rewrite (V v g d Hg Hd).
      assert (W : forall k d', (0 <= k < dim)%Z -> (0 <= d' < 3)%Z -> mform N (D k) v (fld N x (1 - g) d') = 0).
      { intros k d' Hk Hd'. destruct (HU (1 - g)%Z d' ltac:(lia) Hd') as [c Hc].
        rewrite (mform_ext N (D k) v _ (fun i => c * 1)) by (intros i Hi; rewrite (Hc i Hi); ring). rewrite mform_scal, HD by exact Hk. ring. }
      assert (S0 : mform N MSigma v (fld N x 0 d) = 0) by (unfold mform; apply sumN_zero; intros; apply sumN_zero; intros; rewrite HZ; ring).
      unfold weakCurl. cbv zeta. pose proof (Z.mod_pos_bound (d + 1) 3 ltac:(lia)). pose proof (Z.mod_pos_bound (d + 2) 3 ltac:(lia)).
      rewrite S0. destruct (((d + 1) mod 3 <? dim)%Z) eqn:B1; destruct (((d + 2) mod 3 <? dim)%Z) eqn:B2; rewrite ?Z.ltb_lt in B1, B2; try (rewrite W by lia); try (rewrite W by lia); destruct (g =? 0)%Z; ring. }
  subst y. split; [exact Hy|]. intros t. split; [exact Hx|]. exists (repeat 0 (6 * N)). split; [exact Hy|]. intros i Hi. rewrite nth_repeat. apply derivable_pt_lim_const.
Qed.

(** The nodal operator. *)
Lemma excess_zero : forall alpha m gb gi fi F n E H inner, (alpha = 1 \/ faceKind m gb gi fi F <> Some SMA) ->
  (faceKind m gb gi fi F = None \/ exists c, faceKind m gb gi fi F = Some c /\ meets c n E H) -> inner = kindFrom m gb gi fi F -> excess alpha inner n E H = (zero3, zero3).
Proof.
  intros alpha m gb gi fi F n E H inner Ha Hc ->. unfold kindFrom. destruct Hc as [K|[c [K Hm]]]; rewrite K in *; [destruct (f_el2 (mf_face F)); reflexivity|].
  destruct c; cbn [meets] in Hm; try contradiction; destruct (f_el2 (mf_face F)); cbn [excess]; try reflexivity.
  - unfold atPEC. rewrite (tang_cross n E), Hm, !cross_zero. cbn [fst snd]. rewrite !scal_zero. reflexivity.
  - unfold atPMC. rewrite (tang_cross n H), Hm, !cross_zero. cbn [fst snd]. rewrite !scal_zero. reflexivity.
  - destruct Ha as [->|Ha]; [|contradiction Ha; reflexivity]. destruct Hm as [H0 H1]. rewrite H0, H1. unfold zero3. v3s. unv. f_equal; f_equal; try f_equal; field.
  - destruct Ha as [->|Ha]; [|contradiction Ha; reflexivity]. v3s. unfold zero3. unv. f_equal; f_equal; try f_equal; field.
Qed.
Theorem nodal_consistent : forall inv fc dim t nf ref elems posLin posCur m nodes bdrMk intMk tfsfMk fm gb gi ob ib Mass MInv D MSigma N,
  sameProblem inv fc dim t nf ref elems posLin posCur m nodes bdrMk intMk tfsfMk fm gb gi ob ib Mass MInv D MSigma N ->
  forall tfsf bdr global alpha conn maps attrs, connectivities m bdrMk intMk tfsfMk = Ok (conn, maps, attrs) -> rowsIn (cm_N m) global ->
  forall s, buildNodal inv fc dim (cm_N m) elems posLin posCur tfsf bdr global alpha conn maps [] = Ok s ->
  alpha = 1 \/ (forall f, ~ carries m (bdrMk ++ intMk ++ tfsfMk) SMA f) ->
  forall x, length x = (6 * N)%nat -> fits N fm gb gi x -> exists out, nodalMult s x = Ok out /\ length out = length x /\
    forall v g d, (g = 0 \/ g = 1)%Z -> (0 <= d < 3)%Z -> mform N (Mass g) v (fld N out g d) = weakCurl N dim D x v g d.
Proof.
  intros inv fc dim t nf ref elems posLin posCur m nodes bdrMk intMk tfsfMk fm gb gi ob ib Mass MInv D MSigma N P tfsf bdr global alpha conn maps attrs HC HG s HB Ha x Hx HF.
  assert (NB : forall mks c f, (forall mk, In mk mks -> In mk (bdrMk ++ intMk ++ tfsfMk)) -> carries m mks c f -> carries m (bdrMk ++ intMk ++ tfsfMk) c f).
  { intros mks c f Hin [b [mk [I1 [I2 [I3 I4]]]]]. exists b, mk. split; [exact I1|]. split; [exact I2|]. split; [apply Hin; exact I3|exact I4]. }
  destruct (difference_run inv fc dim t nf ref elems posLin posCur m nodes bdrMk intMk tfsfMk fm gb gi ob ib Mass MInv D MSigma N P tfsf bdr global alpha conn maps attrs [] HC HG s HB) as [A [EA Q]].
  { destruct Ha as [->|Ha]; [left; lra|right; intros f Hf; apply (Ha f); apply (NB bdrMk); [intros; apply in_or_app; auto|exact Hf]]. }
  destruct (Q x Hx) as [out [y [Eo [Lo [Hy V]]]]]. exists out. split; [exact Eo|]. split; [exact Lo|]. intros v g d Hg Hd. rewrite (V v g d Hg Hd).
  destruct (consistent N fm dim alpha gb gi ob ib Mass MInv D MSigma [] (sp_space _ _ _ _ _ _ _ _ _ _ _ _ _ _ _ _ _ _ _ _ _ _ _ _ P) (sp_tables _ _ _ _ _ _ _ _ _ _ _ _ _ _ _ _ _ _ _ _ _ _ _ _ P)) as [A' [EA' Q']].
  rewrite EA in EA'. injection EA' as <-. destruct (Q' x Hx HF) as [y' [Hy' V']]. rewrite (applies_unique N A x y y' Hy Hy'), (V' v g d Hg Hd).
  assert (S0 : mform N MSigma v (fld N x 0 d) = 0) by (unfold mform; apply sumN_zero; intros; apply sumN_zero; intros; rewrite (sp_lossless _ _ _ _ _ _ _ _ _ _ _ _ _ _ _ _ _ _ _ _ _ _ _ _ P); ring).
  rewrite S0, (facesum_zero fm); [destruct (g =? 0)%Z; ring|]. intros fi F q E I. unfold excessAt. specialize (HF fi F q E I).
  assert (SA : alpha = 1 \/ faceKind fm gb gi fi F <> Some SMA).
  { destruct Ha as [Ha|Ha]; [left; exact Ha|right; intros K].
    assert (Hf : inF m (Z.of_nat fi)) by (destruct (sp_faces _ _ _ _ _ _ _ _ _ _ _ _ _ _ _ _ _ _ _ _ _ _ _ _ P) as [LF _]; unfold inF; assert (fi < length (fm_faces fm))%nat by (apply nth_error_Some; congruence); lia).
    destruct (sp_conds _ _ _ _ _ _ _ _ _ _ _ _ _ _ _ _ _ _ _ _ _ _ _ _ P (Z.of_nat fi) F Hf) as [C0 _]; [rewrite Nat2Z.id; exact E|]. rewrite Nat2Z.id in C0. apply (C0 SMA ltac:(auto)) in K. apply (Ha (Z.of_nat fi)).
    destruct (0 <=? cf_e2 (faceAt m (Z.of_nat fi)))%Z; refine (NB _ SMA _ _ K); intros mk Hi; apply in_or_app; auto. }
  unfold fitsFace in HF.
  rewrite (excess_zero alpha fm gb gi fi F (normalAt q) _ _ _ SA); [|destruct (faceKind fm gb gi fi F) as [c|]; [right; exists c; split; [reflexivity|apply HF]|left; reflexivity]|reflexivity]. rewrite row_zero.
  destruct (f_el2 (mf_face F)) as [k|] eqn:E2.
  - rewrite (excess_zero alpha fm gb gi fi F (scalep (-1) (normalAt q)) _ _ _ SA); [|destruct (faceKind fm gb gi fi F) as [c|]; [right; exists c; split; [reflexivity|apply HF; reflexivity]|left; reflexivity]|reflexivity]. rewrite row_zero. ring.
  - assert (O : side2 (mf_face F) (local F v) q = 0) by (apply outer_side2; unfold isInteriorFace; rewrite E2; reflexivity). rewrite O. ring.
Qed.

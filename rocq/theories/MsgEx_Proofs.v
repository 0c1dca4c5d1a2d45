(** Two elements on a line, one per process, in a conductor: a longitudinal field in the second one
    decays there and does not reach the first. *)
From Coq Require Import ZArith List Bool Reals Lia Lra Permutation.
From Verif Require Import Common Csr_Model Csr_Spec Face_Model Face_Spec Face_Proofs Setup_Model Setup_Spec Assembly_Model Assembly_Spec Form_Model Form_Spec FormEx_Proofs Nodal_Spec Nodal_Proofs NodalMult_Proofs NodalEnergy_Proofs Global_Spec Global_Proofs GlobalEnergy_Proofs GlobalBalance_Proofs GlobalEx_Proofs Ode_Model Par_Model Par_Spec ParMult_Proofs ParEx_Proofs Msg_Model Msg_Proofs MsgRun_Proofs.
Import ListNotations.
Local Open Scope R_scope.

Section Whole.
Variable N : nat.
Variable m : fmesh.
Variable dim : Z.
Variable alpha : R.
Variable gb gi : list (Z * cond).
Variable ob ib : list (cond * marker).
Variable MInv D : Z -> mat.
Variable MSigma : mat.
Variable sm : marker.
Variable owns : list (list nat).
Variable rks : list prank.
Hypothesis G : goodMesh N m dim.
Hypothesis T : tables m gb gi ob ib.
Hypothesis Di : distributed N m dim MInv D MSigma owns rks.
Variable junk : nat -> list R.
Hypothesis JL : forall n, length (junk n) = n.
Lemma mapM_len : forall {A B} (f : A -> res B) l l', mapM f l = Ok l' -> length l' = length l.
Proof.
  intros A B f l. induction l as [|x t IH]; intros l' H; cbn [mapM] in H; [injection H as <-; reflexivity|].
  destruct (f x) as [b| |] eqn:Ef; cbn [bind] in H; try discriminate. destruct (mapM f t) as [l2| |] eqn:Et; cbn [bind] in H; try discriminate.
  injection H as <-. cbn [length]. f_equal. apply IH. reflexivity.
Qed.
Let dR := mkPR 0 [] m [] MInv D MSigma.
Let dP : csr R := mkCsr R [] [] [].
Lemma schedules : exists A Ps, serialOperator N m dim alpha ob ib MInv D MSigma sm = Ok A /\ mapM (rankOperator dim alpha ob ib sm) rks = Ok Ps /\
  (exists F, forall x, length x = (6 * N)%nat -> applies A N x (F x)) /\
  forall F works x t dts progs, (forall x, length x = (6 * N)%nat -> applies A N x (F x)) -> length x = (6 * N)%nat ->
    (forall i rk P own, nth_error rks i = Some rk -> nth_error Ps i = Some P -> nth_error owns i = Some own ->
       nth_error progs i = Some (rkProgram junk rk P (works i) (part N own x) dts)) ->
    forall n w, moves rks n (start progs) w -> (n <= length rks * (24 * length dts))%nat /\
    ((forall w', ~ move rks w w') -> forall i own, nth_error owns i = Some own -> p_act (w i) = Done (part N own (rkRun F x t dts))).
Proof.
  destruct (all_ok N m dim alpha gb gi ob ib MInv D MSigma sm owns rks G T Di junk JL) as (A & Ps & EA & EP & V).
  destruct (run_ok N m dim alpha gb gi ob ib MInv D MSigma sm owns rks G T Di junk JL) as (A' & Ps' & EA' & _ & HF & _).
  rewrite EA in EA'. injection EA' as <-. exists A, Ps. split; [exact EA|]. split; [exact EP|]. split; [exact HF|].
  intros F works x t dts progs HA Lx HP n w M.
  pose proof (mapM_len _ _ _ EP) as LP. pose proof (owns_len N m dim MInv D MSigma owns rks Di) as LO.
  assert (RK : forall i, (i < length rks)%nat -> nth_error rks i = Some (nth i rks dR)) by (intros i Hi; apply nth_error_nth'; exact Hi).
  assert (QK : forall i, (i < length rks)%nat -> nth_error Ps i = Some (nth i Ps dP)) by (intros i Hi; apply nth_error_nth'; rewrite LP; exact Hi).
  assert (OK' : forall i, (i < length rks)%nat -> nth_error owns i = Some (nth i owns [])) by (intros i Hi; apply nth_error_nth'; rewrite LO; exact Hi).
  assert (FM : forall z wk, length z = (6 * N)%nat -> length wk = length rks -> allMult junk rks Ps wk (spread N owns z) = Ok (spread N owns (F z))).
  { intros z wk Lz Lk. destruct (V z Lz) as (y & HY & VY). rewrite (applies_unique N A z (F z) y (HA z Lz) HY). apply VY. exact Lk. }
  assert (FL : forall z, length z = (6 * N)%nat -> length (F z) = (6 * N)%nat) by (intros z Lz; exact (proj1 (HA z Lz))).
  destruct (run_any N m dim MInv D MSigma owns rks Di Ps junk F LP FL FM (fun i => nth i rks dR) (fun i => nth i Ps dP) RK QK progs x works t dts Lx
    ltac:(intros i Hi; apply nth_error_nth; apply (HP i _ _ _ (RK i Hi) (QK i Hi) (OK' i Hi))) n w M) as (X & Y).
  split; [exact X|]. intros St i own Eo. assert (Hi : (i < length rks)%nat) by (rewrite <- LO; apply nth_error_Some; rewrite Eo; discriminate).
  rewrite (Y St i Hi). unfold piece. rewrite (nth_error_nth _ _ _ Eo). reflexivity.
Qed.
Lemma implicit_stuck : exists A Ps, serialOperator N m dim alpha ob ib MInv D MSigma sm = Ok A /\ mapM (rankOperator dim alpha ob ib sm) rks = Ok Ps /\
  forall next solution dense x y dt progs p q own own' rq j, length x = (6 * N)%nat -> applies A N x y ->
    (forall i rk P own, nth_error rks i = Some rk -> nth_error Ps i = Some P -> nth_error owns i = Some own ->
       nth_error progs i = Some (implicitProgram junk next solution dense rk P (part N own x) [dt])) ->
    Forall (fun rk => pr_nbr rk <> []) rks ->
    nth_error owns p = Some own -> nth_error owns q = Some own' -> nth_error rks q = Some rq -> In (p, j) (pr_nbr rq) ->
    Forall (fun z => z = 0) (part N own y) -> ~ Forall (fun z => z = 0) (part N own' y) ->
    forall n w, moves rks n (start progs) w -> forall z, p_act (w q) <> Done z.
Proof.
  destruct (all_ok N m dim alpha gb gi ob ib MInv D MSigma sm owns rks G T Di junk JL) as (A & Ps & EA & EP & V).
  destruct (run_ok N m dim alpha gb gi ob ib MInv D MSigma sm owns rks G T Di junk JL) as (A' & Ps' & EA' & _ & (F & HA) & _).
  rewrite EA in EA'. injection EA' as <-. exists A, Ps. split; [exact EA|]. split; [exact EP|].
  intros next solution dense x y dt progs p q own own' rq j Lx HY HP NE Ep Eq Er Ij Zp Zq n w M z Ez.
  pose proof (mapM_len _ _ _ EP) as LP. pose proof (owns_len N m dim MInv D MSigma owns rks Di) as LO.
  assert (RK : forall i, (i < length rks)%nat -> nth_error rks i = Some (nth i rks dR)) by (intros i Hi; apply nth_error_nth'; exact Hi).
  assert (QK : forall i, (i < length rks)%nat -> nth_error Ps i = Some (nth i Ps dP)) by (intros i Hi; apply nth_error_nth'; rewrite LP; exact Hi).
  assert (OK' : forall i, (i < length rks)%nat -> nth_error owns i = Some (nth i owns [])) by (intros i Hi; apply nth_error_nth'; rewrite LO; exact Hi).
  assert (FM : forall z wk, length z = (6 * N)%nat -> length wk = length rks -> allMult junk rks Ps wk (spread N owns z) = Ok (spread N owns (F z))).
  { intros v wk Lz Lk. destruct (V v Lz) as (y' & HY' & VY). rewrite (applies_unique N A v (F v) y' (HA v Lz) HY'). apply VY. exact Lk. }
  assert (FL : forall z, length z = (6 * N)%nat -> length (F z) = (6 * N)%nat) by (intros v Lz; exact (proj1 (HA v Lz))).
  rewrite (applies_unique N A x y (F x) HY (HA x Lx)) in *.
  assert (Hp : (p < length rks)%nat) by (rewrite <- LO; apply nth_error_Some; rewrite Ep; discriminate).
  assert (X : isExch (p_act (w q))).
  { eapply (implicit_hang N m dim MInv D MSigma owns rks Di Ps junk F LP FM (fun i => nth i rks dR) (fun i => nth i Ps dP) RK QK next solution dense progs x dt p q rq Lx).
    - intros i Hi. rewrite Forall_forall in NE. apply NE. apply nth_In. exact Hi.
    - intros i Hi. apply nth_error_nth. apply (HP i _ _ _ (RK i Hi) (QK i Hi) (OK' i Hi)).
    - exact Hp.
    - exact Er.
    - exists j. exact Ij.
    - unfold piece. rewrite (nth_error_nth _ _ _ Ep). exact Zp.
    - unfold piece. rewrite (nth_error_nth _ _ _ Eq). exact Zq.
    - exact M. }
  rewrite Ez in X. exact X.
Qed.
End Whole.

(** ** The example *)
Lemma h_space : dgSpace 4 hMesh 1 gMass gMInv gD.
Proof.
  destruct g_space as (A & (W1 & W2 & W3) & B & C & E & H). destruct h_good as (_ & Wh & Bh & _).
  split; [exact A|]. split; [exact Wh|]. split; [exact Bh|]. split; [exact C|]. split; [exact E|exact H].
Qed.
Definition hX : list R := [0; 0; 1; 1] ++ repeat 0 20.
Notation op alpha smk := (factoryRows 4 hMesh 1 alpha gOb [] gMInv gD (gMass 0%Z) smk).
Section Longitudinal.
Variable alpha : R.
Variable smk : marker.
Lemma x_fld : forall f d i, (0 <= f <= 1)%Z -> (0 <= d <= 2)%Z -> (i < 4)%nat -> ((f =? 0) && (d =? 0))%Z = false -> fld 4 hX f d i = 0.
Proof.
  intros f d i Hf Hd Hi E. unfold fld, hX.
  assert (3 * f + d <> 0)%Z. { intros X. assert (f = 0 /\ d = 0)%Z as (-> & ->) by lia. discriminate. }
  rewrite app_nth2 by (cbn [length]; lia). apply nth_repeat.
Qed.
Lemma happ_null : forall o x f d i, (forall k, (k < 4)%nat -> fld 4 x f d k = 0) -> app (op alpha smk) 4 0 o x f d i = 0.
Proof.
  intros o x f d i H. destruct (lt_dec i 4) as [Hi|Hi].
  - unfold app. assert (Q : forall e, In e (nth i (op alpha smk o) []) -> snd e * comp 4 0 x f d (fst e) = 0).
    { intros e I. pose proof (rows_ok 4 hMesh 1 alpha gOb [] gMInv gD (gMass 0%Z) smk o) as (L & R). specialize (R (nth i (op alpha smk o) []) e).
      assert (B : (0 <= fst e < 4)%Z) by (change 4%Z with (Z.of_nat 4 + 0)%Z; apply R; [apply nth_In; rewrite L; exact Hi|exact I]).
      specialize (H (Z.to_nat (fst e)) ltac:(lia)). unfold fld in H. rewrite Z2Nat.id in H by lia. change (Z.of_nat 4) with 4%Z in H. unfold comp. rewrite Z.add_0_r, H. ring. }
    revert Q. generalize (nth i (op alpha smk o) []). intros l Q. unfold Csr_Spec.rsum. induction l as [|e l IH]; [reflexivity|].
    cbn [map fold_right]. rewrite (Q e) by (left; reflexivity). rewrite IH by (intros e' I; apply Q; right; exact I). ring.
  - unfold app. rewrite nth_overflow; [reflexivity|]. destruct (rows_ok 4 hMesh 1 alpha gOb [] gMInv gD (gMass 0%Z) smk o) as (L & _). rewrite L. cbn. lia.
Qed.
Lemma hsame_pen : forall x i, (i < 4)%nat -> app (op alpha smk) 4 0 (OpZeroNormal 0) x 0 0 i = app (op alpha smk) 4 0 (OpTwoNormal 0 0 0) x 0 0 i.
Proof.
  intros x i Hi. destruct (zero_sum 4 hMesh 1 alpha gGb gGi gOb [] gMass gMInv gD h_space h_tables 0 ltac:(auto)) as (A & E & V).
  destruct (two_sum 4 hMesh 1 alpha gGb gGi gOb [] gMass gMInv gD h_space h_tables 0 0 0 ltac:(auto) ltac:(lia) ltac:(lia)) as (B & E' & V').
  change 4%Z with (Z.of_nat 4).
  rewrite (app_rows 4 hMesh 1 alpha gOb [] gMInv gD (gMass 0%Z) smk x (OpZeroNormal 0) (mmul 4 (gMInv 0%Z) A) 0 0 i); [|cbn [factoryMat]; rewrite E; reflexivity|exact Hi].
  rewrite (app_rows 4 hMesh 1 alpha gOb [] gMInv gD (gMass 0%Z) smk x (OpTwoNormal 0 0 0) (mmul 4 (gMInv 0%Z) B) 0 0 i); [|cbn [factoryMat]; change (Z.to_nat 0) with 0%nat; rewrite E'; reflexivity|exact Hi].
  apply sumN_ext. intros k Hk. f_equal. unfold mmul. apply sumN_ext. intros j Hj. f_equal.
  rewrite <- (FormEx_Proofs.entry_form 4 A j k Hj Hk), <- (FormEx_Proofs.entry_form 4 B j k Hj Hk), V, V'. unfold fsum. apply facesum_ext.
  intros fi F q EF I. f_equal. destruct fi as [|[|[|fi]]]; cbn in EF; try injection EF as <-; try (destruct fi; discriminate); destruct I as [<-|[]]; unfold unitN; cbn; field.
Qed.
Lemma hcond_row : forall i, (i < 4)%nat -> app (op alpha smk) 4 0 OpConductive hX 0 0 i = fld 4 hX 0 0 i.
Proof.
  intros i Hi. change 4%Z with (Z.of_nat 4). rewrite (app_rows 4 hMesh 1 alpha gOb [] gMInv gD (gMass 0%Z) smk hX OpConductive (mmul 4 (gMInv 0%Z) (gMass 0%Z)) 0 0 i eq_refl Hi).
  unfold mmul, gMass, gMInv, sumN, suml. unfold fld, hX. destruct i as [|[|[|[|i]]]]; [| | | |lia]; cbn -[IZR Rplus Rmult Rinv Ropp]; field.
Qed.
Lemma h_decays : forall A, serialOperator 4 hMesh 1 alpha gOb [] gMInv gD (gMass 0%Z) smk = Ok A -> applies A 4 hX (map Ropp hX).
Proof.
  intros A EA. destruct (operator_rows 4 hMesh 1 alpha gOb [] gMass gMInv gD (gMass 0%Z) smk h_space) as (A' & EA' & H).
  assert (A' = A) by (unfold serialOperator in EA; apply ok_inj; rewrite <- EA, <- EA'; reflexivity). subst A'. clear EA'.
  destruct (H hX eq_refl) as (y & Y & V). replace (map Ropp hX) with y; [exact Y|].
  pose proof (proj1 Y) as Ly. apply (nth_ext y (map Ropp hX) 0 (- 0)); [rewrite Ly; reflexivity|]. intros r Hr. rewrite Ly in Hr. rewrite (map_nth Ropp).
  destruct (row_split 4 r Hr) as (H1 & H2 & H3 & H4 & H5). specialize (V (Z.of_nat (r / 4 / 3)) (Z.of_nat (r / 4 mod 3)) (r mod 4)%nat ltac:(lia) ltac:(lia) H4).
  set (f := Z.of_nat (r / 4 / 3)) in *. set (d := Z.of_nat (r / 4 mod 3)) in *. set (i := (r mod 4)%nat) in *.
  assert (Rr : Z.to_nat ((3 * f + d) * Z.of_nat 4 + Z.of_nat i) = r) by (unfold f, d, i; lia).
  assert (Nr : nth r hX 0 = fld 4 hX f d i) by (intros; unfold fld; rewrite Rr; reflexivity).
  assert (Ny : nth r y 0 = fld 4 y f d i) by (unfold fld; rewrite Rr; reflexivity). rewrite Ny, Nr, V. change (Z.of_nat 4) with 4%Z.
  assert (Hf : (0 <= f <= 1)%Z) by (unfold f; lia). assert (Hd : (0 <= d <= 2)%Z) by (unfold d; lia).
  assert (NZ : forall o f d, (0 <= f <= 1)%Z -> (0 <= d <= 2)%Z -> ((f =? 0) && (d =? 0))%Z = false -> app (op alpha smk) 4 0 o hX f d i = 0).
  { intros o f' d' Hf' Hd' E. apply happ_null. intros k Hk. apply x_fld; assumption. }
  unfold rhs. destruct ((f =? 0) && (d =? 0))%Z eqn:E.
  - apply andb_prop in E. destruct E as (E1 & E2). apply Z.eqb_eq in E1, E2. clearbody f d. subst f d.
    replace (curl_term (op alpha smk) 1 4 0 hX 0 0 i) with 0 by (unfold curl_term, ifdim; cbn [Z.ltb Z.compare Pos.compare Pos.compare_cont]; cbn; ring).
    replace (jump_term (op alpha smk) 1 4 0 OpOneNormal hX 0 0 i) with 0 by (unfold jump_term, ifdim; cbn; ring).
    unfold penalty_term, ifdim. cbn [Z.ltb Z.compare Pos.compare Pos.compare_cont]. rewrite (hsame_pen hX i H4). unfold conductive_term. cbn [Z.eqb]. rewrite (hcond_row i H4). ring.
  - rewrite (x_fld f d i Hf Hd H4 E).
    assert (fd : (f = 0 /\ (d = 1 \/ d = 2) \/ f = 1 /\ (d = 0 \/ d = 1 \/ d = 2))%Z) by (destruct (Z.eqb_spec f 0), (Z.eqb_spec d 0); try discriminate; lia).
    unfold curl_term, jump_term, penalty_term, conductive_term, ifdim. clearbody f d.
    destruct fd as [(-> & [->| ->])|(-> & [->|[->| ->]])];
    repeat match goal with |- context [((?a) mod 3)%Z] => let v := eval compute in (a mod 3)%Z in change (a mod 3)%Z with v end;
    cbn [Z.ltb Z.compare Pos.compare Pos.compare_cont Z.sub Z.add Z.opp Z.pos_sub Z.eqb]; rewrite ?NZ by (try reflexivity; lia); unfold sgn; cbn [Z.eqb]; try ring.
Qed.
End Longitudinal.
Lemma h_zero : Forall (fun z => z = 0) (part 4 [0; 1]%nat (map Ropp hX)) /\ ~ Forall (fun z => z = 0) (part 4 [2; 3]%nat (map Ropp hX)).
Proof.
  split.
  - cbn -[Ropp]. repeat (constructor; [lra|]). constructor.
  - intros H. cbn -[Ropp] in H. inversion H as [|a l E _]. lra.
Qed.

(** No schedule ends a run of one implicit step on these two processes. *)
Lemma h_never : ~ (forall N m dim alpha gb gi ob ib MInv D MSigma sm owns rks junk Ps next solution dense x dt progs,
  goodMesh N m dim -> tables m gb gi ob ib -> distributed N m dim MInv D MSigma owns rks -> (forall n, length (junk n) = n) ->
  mapM (rankOperator dim alpha ob ib sm) rks = Ok Ps -> length x = (6 * N)%nat ->
  (forall i rk P own, nth_error rks i = Some rk -> nth_error Ps i = Some P -> nth_error owns i = Some own ->
     nth_error progs i = Some (implicitProgram junk next solution dense rk P (part N own x) [dt])) ->
  exists n w, moves rks n (start progs) w /\ forall i, (i < length rks)%nat -> exists z, p_act (w i) = Done z).
Proof.
  intros H. set (junk := fun n => repeat 0 n). assert (JL : forall n, length (junk n) = n) by (intros; apply repeat_length).
  destruct (implicit_stuck 4 hMesh 1 1 gGb gGi gOb [] gMInv gD (gMass 0%Z) [] hOwns hRanks h_good h_tables h_distributed junk JL) as (A & Ps & EA & EP & V).
  pose proof (mapM_len _ _ _ EP) as LP. destruct Ps as [|P0 [|P1 [|P2 Ps]]]; try discriminate LP.
  set (nx := fun (_ : list R) (_ : list (list R)) => @None (list R)). set (sol := fun (b : list R) (_ : list (list R)) => b). set (dn := fun (_ : csr R) (_ : R) (b : list R) => b).
  set (progs := [implicitProgram junk nx sol dn (nth 0 hRanks (mkPR 0 [] hMesh [] gMInv gD (gMass 0%Z))) P0 (part 4 [0; 1]%nat hX) [1];
                 implicitProgram junk nx sol dn (nth 1 hRanks (mkPR 0 [] hMesh [] gMInv gD (gMass 0%Z))) P1 (part 4 [2; 3]%nat hX) [1]]).
  assert (HP : forall i rk P own, nth_error hRanks i = Some rk -> nth_error [P0; P1] i = Some P -> nth_error hOwns i = Some own ->
     nth_error progs i = Some (implicitProgram junk nx sol dn rk P (part 4 own hX) [1])).
  { intros i rk P own Ei Ep Eo. destruct i as [|[|i]]; [| |destruct i; discriminate]; cbn [nth_error hRanks hOwns] in Ei, Ep, Eo; injection Ei as <-; injection Ep as <-; injection Eo as <-; reflexivity. }
  destruct (H 4%nat hMesh 1%Z 1 gGb gGi gOb [] gMInv gD (gMass 0%Z) [] hOwns hRanks junk [P0; P1] nx sol dn hX 1 progs h_good h_tables h_distributed JL EP eq_refl HP) as (n & w & M & E).
  destruct (E 1%nat ltac:(cbn; lia)) as (z & Ez).
  apply (V nx sol dn hX (map Ropp hX) 1 progs 0%nat 1%nat [0; 1]%nat [2; 3]%nat (nth 1 hRanks (mkPR 0 [] hMesh [] gMInv gD (gMass 0%Z))) 0%nat eq_refl (h_decays 1 [] A EA) HP) with (n := n) (w := w) (z := z);
    try reflexivity; try exact (proj1 h_zero); try exact (proj2 h_zero); try exact M; try exact Ez.
  - repeat constructor; discriminate.
  - left. reflexivity.
Qed.

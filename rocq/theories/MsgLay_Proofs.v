(** Runs with thin layers under every schedule. *)
From Coq Require Import ZArith List Bool Reals Lia Lra Permutation.
From Verif Require Import Common Csr_Model Face_Model Setup_Model Assembly_Model Form_Model Form_Spec Evol_Model Evol_Spec EvolLayer_Spec EvolRhs_Proofs EvolHist_Proofs Ode_Model Nodal_Spec Global_Spec Global_Proofs GlobalBalance_Proofs Tfsf_Spec Par_Model Par_Spec ParMult_Proofs ParSrc_Model ParSrc_Spec ParSrc_Proofs ParSrcRun_Proofs ParLay_Model ParLay_Spec ParLayRun_Proofs ParLayAll_Proofs ParLayFin_Proofs Msg_Model Msg_Proofs MsgRun_Proofs MsgEx_Proofs MsgSrc_Model MsgSrc_Proofs MsgLay_Model.
Import ListNotations.
Local Open Scope R_scope.

Lemma combine_at : forall {A B} (l : list A) (l' : list B) i a b, nth_error l i = Some a -> nth_error l' i = Some b -> nth_error (combine l l') i = Some (a, b).
Proof. intros A B l l' i. revert l l'. induction i as [|n IH]; intros l l' a b Ha Hb; destruct l as [|a0 l]; destruct l' as [|b0 l']; try discriminate; cbn in *; [congruence|apply IH; assumption]. Qed.

Section Fields.
Variable N : nat.
Variable m : fmesh.
Variable dim : Z.
Variable alpha : R.
Variable ob ib : list (cond * marker).
Variable MInv D : Z -> mat.
Variable MSigma : mat.
Variables sm lm : marker.
Variable owns : list (list nat).
Variable rks : list prank.
Variable ss : list psource.
Variables e1 e2 : list Z.
Variable els : list (list Z * list Z).
Hypothesis G : goodMesh N m dim.
Hypothesis Mlm : Z.of_nat (length lm) = markerSize (fm_battrs m).
Hypothesis Di : distributed N m dim MInv D MSigma owns rks.
Hypothesis ND1 : NoDup e1.
Hypothesis ND2 : NoDup e2.
Hypothesis R1 : forall d, In d e1 -> (0 <= d < Z.of_nat N)%Z.
Hypothesis R2 : forall d, In d e2 -> (0 <= d < Z.of_nat N)%Z.
Hypothesis Se : Forall2 (fun own el => elementsShared own e1 (fst el) /\ elementsShared own e2 (snd el)) owns els.
Hypothesis Some1 : owns <> [].
Variable inv : list (list R) -> list R -> list R.
Variable junk : nat -> list R.
Notation Tl := (buildSourceFaceOperator R Rplus Rmult 1 (-1) (factoryRows N m dim alpha ob ib MInv D MSigma lm) dim (Z.of_nat N) 0).
Notation Mr := (map (rankSource dim alpha ob ib sm) rks).
Notation L0 := (mkLR N 0 (finalized (6 * N) (6 * N) Tl) e1 e2).
Notation Ls := (map (fun q => rankLayers dim alpha ob ib lm (fst q) (snd q)) (combine rks els)).
Variable Ps : list (csr R).
Variable F0 : list R -> list R.
Variable F : R -> list R -> list R.
Variable good : R -> Prop.
Hypothesis LP : length Ps = length rks.
Hypothesis FM0 : forall x works, length x = (6 * N)%nat -> length works = length rks -> allMult junk rks Ps works (spread N owns x) = Ok (spread N owns (F0 x)).
Hypothesis FL : forall t x, length x = (6 * N)%nat -> length (F t x) = (6 * N)%nat.
Hypothesis FM : forall t x works, good t -> length x = (6 * N)%nat -> length works = length rks -> allMultS junk rks Ps Mr ss t works (spread N owns x) = Ok (spread N owns (F t x)).
Notation P := (length rks).
Variable rank : nat -> prank.
Variable Q : nat -> csr R.
Variable Tm : nat -> matrix.
Variable so : nat -> psource.
Variable LL : nat -> lrank.
Hypothesis RK : forall i, (i < P)%nat -> nth_error rks i = Some (rank i).
Hypothesis QK : forall i, (i < P)%nat -> nth_error Ps i = Some (Q i).
Hypothesis TK : forall i, (i < P)%nat -> nth_error Mr i = Some (Tm i).
Hypothesis SK : forall i, (i < P)%nat -> nth_error ss i = Some (so i).
Hypothesis LKi : forall i, (i < P)%nat -> nth_error Ls i = Some (LL i).
Notation pc := (piece N owns).
Notation nb := (nb_lt N m dim MInv D MSigma owns rks Di rank RK).
Notation midA := (midAll N owns rks els inv).
Notation readyA := (readyAll N owns rks els inv).
Notation mulS := (fun (_ _ : nat) e t x => addLayers inv L0 e t x (F t x)).
Notation calls := (fun e t x => good t /\ sameDecisions N owns e x).
Let dE := mkEvol [] [] None 0 0 newCache.
Notation at_ Es i := (nth i Es dE).

Lemma places_len : length (places owns rks els) = P.
Proof.
  pose proof (owns_len N m dim MInv D MSigma owns rks Di) as LO. destruct (places_owns N m dim alpha ob ib MInv D MSigma lm owns rks e1 e2 els Di Se) as (E & _).
  rewrite <- LO. rewrite <- E at 2. rewrite map_length. reflexivity.
Qed.
Lemma ready_len : forall e Es, readyA e Es -> length Es = P.
Proof. intros e Es H. rewrite <- places_len. unfold readyAll in H. induction H; cbn; congruence. Qed.
Lemma mid_len : forall e Es, midA e Es -> length Es = P.
Proof. intros e Es H. rewrite <- places_len. unfold midAll in H. induction H; cbn; congruence. Qed.
Lemma spread_i : forall x i, (i < P)%nat -> nth_error (spread N owns x) i = Some (pc x i).
Proof. intros x i Hi. apply spread_at. apply nth_error_nth'. rewrite (owns_len N m dim MInv D MSigma owns rks Di). exact Hi. Qed.
Lemma at_i : forall (Es : list evol) i, length Es = P -> (i < P)%nat -> nth_error Es i = Some (at_ Es i).
Proof. intros Es i L Hi. apply nth_error_nth'. congruence. Qed.
Lemma commit_i : forall e Es t dt x c, readyA e Es -> 0 < dt -> length x = (6 * N)%nat -> commit N e t dt x = Ok c ->
  exists Es', midA c Es' /\ forall i, (i < P)%nat -> commit (lr_n (LL i)) (at_ Es i) t dt (pc x i) = Ok (at_ Es' i).
Proof.
  intros e Es t dt x c H Hdt Lx E. destruct (commit_all N m dim alpha ob ib MInv D MSigma lm owns rks e1 e2 els Di Se inv e Es t dt x c H Hdt Lx E) as (Es' & E' & M'). exists Es'. split; [exact M'|].
  intros i Hi. unfold allCommit in E'. destruct (mapM_at _ _ _ i _ E' (combine_at _ _ i _ _ (combine_at _ _ i _ _ (LKi i Hi) (at_i Es i (ready_len e Es H) Hi)) (spread_i x i Hi))) as (b & Hb & En).
  rewrite (at_i Es' i (mid_len c Es' M') Hi) in En. injection En as <-. exact Hb.
Qed.
Lemma finalize_i : forall e Es x c, midA e Es -> sameDecisions N owns e x -> length x = (6 * N)%nat -> finalize inv N e x = Ok c ->
  exists Es', readyA c Es' /\ forall i, (i < P)%nat -> finalize inv (lr_n (LL i)) (at_ Es i) (pc x i) = Ok (at_ Es' i).
Proof.
  intros e Es x c H SD Lx E. destruct (finalize_all N m dim alpha ob ib MInv D MSigma lm owns rks e1 e2 els Di Se inv e Es x c H SD Lx E) as (Es' & E' & M'). exists Es'. split; [exact M'|].
  intros i Hi. unfold allFinalize in E'. destruct (mapM_at _ _ _ i _ E' (combine_at _ _ i _ _ (combine_at _ _ i _ _ (LKi i Hi) (at_i Es i (mid_len e Es H) Hi)) (spread_i x i Hi))) as (b & Hb & En).
  rewrite (at_i Es' i (ready_len c Es' M') Hi) in En. injection En as <-. exact Hb.
Qed.
Lemma layers_i : forall e Es t x y z f, midA e Es -> sameDecisions N owns e x -> length x = (6 * N)%nat -> length y = (6 * N)%nat -> addLayers inv L0 e t x y = Ok (z, f) ->
  exists Es', midA f Es' /\ length z = (6 * N)%nat /\ forall i, (i < P)%nat -> addLayers inv (LL i) (at_ Es i) t (pc x i) (pc y i) = Ok (pc z i, at_ Es' i).
Proof.
  intros e Es t x y z f H SD Lx Ly E. destruct (layers_all N m dim alpha ob ib MInv D MSigma lm owns rks e1 e2 els G Mlm Di ND1 ND2 R1 R2 Se Some1 inv e Es t x y z f H SD Lx Ly E) as (Es' & E' & M' & Lz). exists Es'. split; [exact M'|]. split; [exact Lz|].
  intros i Hi. unfold allLayers in E'. match type of E' with (bind ?a _ = _) => destruct a as [l| |] eqn:E0; cbn [bind] in E'; try discriminate end. injection E' as E1 E2. rename E0 into E'.
  destruct (mapM_at _ _ _ i _ E' (combine_at _ _ i _ _ (combine_at _ _ i _ _ (LKi i Hi) (at_i Es i (mid_len e Es H) Hi)) (combine_at _ _ i _ _ (spread_i x i Hi) (spread_i y i Hi)))) as ([b1 b2] & Hb & En).
  cbn [fst snd] in Hb. rewrite Hb. pose proof (map_nth_error fst i l En) as X1. pose proof (map_nth_error snd i l En) as X2. rewrite E1, (spread_i z i Hi) in X1. rewrite E2, (at_i Es' i (mid_len f Es' M') Hi) in X2.
  cbn [fst snd] in *. congruence.
Qed.
Lemma rateL_sync : forall e Es t x z f wk k, midA e Es -> good t /\ sameDecisions N owns e x -> length x = (6 * N)%nat -> addLayers inv L0 e t x (F t x) = Ok (z, f) ->
  exists Es', midA f Es' /\ length z = (6 * N)%nat /\
  runsTo rks (fun i => rateL inv junk (rank i) (Q i) (Tm i) (so i) (LL i) t (wk i) (at_ Es i) (pc x i) (k i)) 6 (fun i => k i (pc z i) (at_ Es' i)).
Proof.
  intros e Es t x z f wk k H (Gt & SD) Lx E. destruct (layers_i e Es t x (F t x) z f H SD Lx (FL t x Lx) E) as (Es' & M' & Lz & K). exists Es'. split; [exact M'|]. split; [exact Lz|].
  unfold rateL. change 6%nat with (6 + 0)%nat.
  eapply (runs_trans rks nb); [apply (rateS_sync N m dim MInv D MSigma owns rks Di Ps Mr ss junk F0 F good LP FM0 FM rank Q Tm so RK QK TK SK t x wk _ Gt Lx)|]. cbv beta.
  apply runs_refl. intros i Hi. rewrite (K i Hi). reflexivity.
Qed.
Lemma stepL_sync : forall l e Es x t dt z f wk k, readyA e Es -> 0 < dt -> length x = (6 * N)%nat ->
  (forall s0, commit N e t dt x = Ok s0 -> rk4Calls (list R) evol mulS addv calls l s0 x t dt /\ forall z s1, rk4Layers (list R) evol mulS addv l s0 x t dt = Ok (z, s1) -> sameDecisions N owns s1 z) ->
  layerStep (list R) evol mulS addv (commit N) (finalize inv N) l e x t dt = Ok (z, f) ->
  exists Es', readyA f Es' /\ length z = (6 * N)%nat /\
  runsTo rks (fun i => rkStepL inv junk (rank i) (Q i) (Tm i) (so i) (LL i) (wk i) (at_ Es i) (pc x i) t dt (k i)) 24 (fun i => k i (pc z i) (at_ Es' i)).
Proof.
  intros l e Es x t dt z f wk k H Hdt Lx C E. unfold layerStep in E.
  destruct (commit N e t dt x) as [c| |] eqn:Ec; cbn [bind] in E; try discriminate. destruct (C c eq_refl) as ((C1 & C') & CF). clear C.
  destruct (commit_i e Es t dt x c H Hdt Lx Ec) as (Es0 & M0 & P0).
  destruct (rk4Layers (list R) evol mulS addv l c x t dt) as [[zf ff]| |] eqn:Er; cbn [bind fst snd] in E; try discriminate. specialize (CF zf ff eq_refl).
  unfold rk4Layers in Er. cbv beta zeta in Er.
  destruct (addLayers inv L0 c t x (F t x)) as [[k1 f1]| |] eqn:E1; cbn [bind fst snd] in Er; try discriminate. destruct (C' k1 f1 eq_refl) as (C2 & C). clear C'.
  set (y1 := addv (dt / 2) k1 x) in *. set (z1 := addv (dt / 6) k1 x) in *.
  destruct (addLayers inv L0 f1 (t + dt / 2) y1 (F (t + dt / 2) y1)) as [[k2 f2]| |] eqn:E2; cbn [bind fst snd] in Er; try discriminate. destruct (C k2 f2 eq_refl) as (C3 & C'). clear C.
  set (y2 := addv (dt / 2) k2 x) in *. set (z2 := addv (dt / 3) k2 z1) in *.
  destruct (addLayers inv L0 f2 (t + dt / 2) y2 (F (t + dt / 2) y2)) as [[k3 f3]| |] eqn:E3; cbn [bind fst snd] in Er; try discriminate. pose proof (C' k3 f3 eq_refl) as C4. clear C'.
  set (y3 := addv dt k3 x) in *. set (z3 := addv (dt / 3) k3 z2) in *.
  destruct (addLayers inv L0 f3 (t + dt) y3 (F (t + dt) y3)) as [[k4 f4]| |] eqn:E4; cbn [bind fst snd] in Er; try discriminate. injection Er as <- <-.
  destruct (finalize inv N f4 (addv (dt / 6) k4 z3)) as [f5| |] eqn:Ef; cbn [bind] in E; try discriminate. injection E as <- <-.
  destruct (layers_i c Es0 t x (F t x) k1 f1 M0 (proj2 C1) Lx (FL _ _ Lx) E1) as (Es1 & M1 & L1 & _).
  assert (Ly1 : length y1 = (6 * N)%nat) by (unfold y1; rewrite addv_len; congruence).
  assert (Lz1 : length z1 = (6 * N)%nat) by (unfold z1; rewrite addv_len; congruence).
  destruct (layers_i f1 Es1 _ y1 _ k2 f2 M1 (proj2 C2) Ly1 (FL _ _ Ly1) E2) as (Es2 & M2 & L2 & _).
  assert (Ly2 : length y2 = (6 * N)%nat) by (unfold y2; rewrite addv_len; congruence).
  assert (Lz2 : length z2 = (6 * N)%nat) by (unfold z2; rewrite addv_len; congruence).
  destruct (layers_i f2 Es2 _ y2 _ k3 f3 M2 (proj2 C3) Ly2 (FL _ _ Ly2) E3) as (Es3 & M3 & L3 & _).
  assert (Ly3 : length y3 = (6 * N)%nat) by (unfold y3; rewrite addv_len; congruence).
  assert (Lz3 : length z3 = (6 * N)%nat) by (unfold z3; rewrite addv_len; congruence).
  destruct (layers_i f3 Es3 _ y3 _ k4 f4 M3 (proj2 C4) Ly3 (FL _ _ Ly3) E4) as (_ & _ & L4 & _).
  set (z4 := addv (dt / 6) k4 z3) in *. assert (Lz4 : length z4 = (6 * N)%nat) by (unfold z4; rewrite addv_len; congruence).
  clear Es1 M1 Es2 M2 Es3 M3.
  unfold rkStepL. change 24%nat with (6 + (6 + (6 + (6 + 0))))%nat.
  match goal with |- context [runsTo rks ?S _ _] => set (S0 := S) end.
  pose (K4 := fun i k4' e' => match finalize inv (lr_n (LL i)) e' (addv (dt / 6) k4' (pc z3 i)) with Ok e0 => k i (addv (dt / 6) k4' (pc z3 i)) e0 | _ => Fail end).
  destruct (rateL_sync c Es0 t x k1 f1 (fun i => wk i 0%nat) (fun i k1' e' => let y := addv (dt / 2) k1' (pc x i) in let z := addv (dt / 6) k1' (pc x i) in
    rateL inv junk (rank i) (Q i) (Tm i) (so i) (LL i) (t + dt / 2) (wk i 1%nat) e' y (fun k2 e =>
      let y := addv (dt / 2) k2 (pc x i) in let z := addv (dt / 3) k2 z in
    rateL inv junk (rank i) (Q i) (Tm i) (so i) (LL i) (t + dt / 2) (wk i 2%nat) e y (fun k3 e =>
      let y := addv dt k3 (pc x i) in let z := addv (dt / 3) k3 z in
    rateL inv junk (rank i) (Q i) (Tm i) (so i) (LL i) (t + dt) (wk i 3%nat) e y (fun k4 e =>
      let z := addv (dt / 6) k4 z in
      match finalize inv (lr_n (LL i)) e z with Ok e => k i z e | _ => Fail end)))) M0 C1 Lx E1) as (Es1 & M1 & _ & S1).
  destruct (rateL_sync f1 Es1 (t + dt / 2) y1 k2 f2 (fun i => wk i 1%nat) (fun i k2 e =>
      let y := addv (dt / 2) k2 (pc x i) in let z := addv (dt / 3) k2 (pc z1 i) in
    rateL inv junk (rank i) (Q i) (Tm i) (so i) (LL i) (t + dt / 2) (wk i 2%nat) e y (fun k3 e =>
      let y := addv dt k3 (pc x i) in let z := addv (dt / 3) k3 z in
    rateL inv junk (rank i) (Q i) (Tm i) (so i) (LL i) (t + dt) (wk i 3%nat) e y (fun k4 e =>
      let z := addv (dt / 6) k4 z in
      match finalize inv (lr_n (LL i)) e z with Ok e => k i z e | _ => Fail end))) M1 C2 Ly1 E2) as (Es2 & M2 & _ & S2).
  destruct (rateL_sync f2 Es2 (t + dt / 2) y2 k3 f3 (fun i => wk i 2%nat) (fun i k3 e =>
      let y := addv dt k3 (pc x i) in let z := addv (dt / 3) k3 (pc z2 i) in
    rateL inv junk (rank i) (Q i) (Tm i) (so i) (LL i) (t + dt) (wk i 3%nat) e y (fun k4 e =>
      let z := addv (dt / 6) k4 z in
      match finalize inv (lr_n (LL i)) e z with Ok e => k i z e | _ => Fail end)) M2 C3 Ly2 E3) as (Es3 & M3 & _ & S3).
  destruct (rateL_sync f3 Es3 (t + dt) y3 k4 f4 (fun i => wk i 3%nat) K4 M3 C4 Ly3 E4) as (Es4 & M4 & _ & S4).
  destruct (finalize_i f4 Es4 z4 f5 M4 CF Lz4 Ef) as (Es5 & M5 & P5). exists Es5. split; [exact M5|]. split; [exact Lz4|].
  eapply (runs_pre rks nb); [intros i Hi; unfold S0; rewrite (P0 i Hi); reflexivity|].
  eapply (runs_trans rks nb); [exact S1|]. cbv beta zeta.
  eapply (runs_pre rks nb); [intros i Hi; rewrite (piece_add N owns (dt / 2) k1 x i), (piece_add N owns (dt / 6) k1 x i) by congruence; fold y1 z1; reflexivity|].
  eapply (runs_trans rks nb); [exact S2|]. cbv beta zeta.
  eapply (runs_pre rks nb); [intros i Hi; rewrite (piece_add N owns (dt / 2) k2 x i), (piece_add N owns (dt / 3) k2 z1 i) by congruence; fold y2 z2; reflexivity|].
  eapply (runs_trans rks nb); [exact S3|]. cbv beta zeta.
  eapply (runs_pre rks nb); [intros i Hi; rewrite (piece_add N owns dt k3 x i), (piece_add N owns (dt / 3) k3 z2 i) by congruence; fold y3 z3; reflexivity|].
  eapply (runs_trans rks nb); [exact S4|]. unfold K4. cbv beta.
  apply runs_refl. intros i Hi. rewrite (piece_add N owns (dt / 6) k4 z3 i) by congruence. fold z4. rewrite (P5 i Hi). reflexivity.
Qed.
Lemma runL_sync : forall dts e Es x t z f wk, readyA e Es -> Forall (fun dt => 0 < dt) dts -> length x = (6 * N)%nat ->
  runCalls (list R) evol mulS addv (commit N) (finalize inv N) calls (sameDecisions N owns) e x t dts ->
  layerSteps (list R) evol mulS addv (commit N) (finalize inv N) e x t dts = Ok (z, f) ->
  exists Es', readyA f Es' /\
  runsTo rks (fun i => rkProgramL inv junk (rank i) (Q i) (Tm i) (so i) (LL i) (wk i) (at_ Es i) (pc x i) t dts) (24 * length dts) (fun i => Done (pc z i ++ inside (at_ Es' i))).
Proof.
  induction dts as [|dt l IH]; intros e Es x t z f wk H Hd Lx C E; cbn [rkProgramL length].
  - cbn [layerSteps] in E. injection E as <- <-. exists Es. split; [exact H|]. apply runs_refl. reflexivity.
  - inversion Hd as [|? ? Hdt Hd']; subst. cbn [layerSteps runCalls] in *. destruct C as (C1 & C2).
    destruct (layerStep (list R) evol mulS addv (commit N) (finalize inv N) (length l) e x t dt) as [[z1 f1]| |] eqn:E1; cbn [bind fst snd] in E; try discriminate.
    destruct (stepL_sync (length l) e Es x t dt z1 f1 (fun i => wk i (length l)) (fun i y e => rkProgramL inv junk (rank i) (Q i) (Tm i) (so i) (LL i) (wk i) e y (t + dt) l) H Hdt Lx C1 E1) as (Es1 & M1 & L1 & S1).
    destruct (IH f1 Es1 z1 (t + dt) z f wk M1 Hd' L1 (C2 z1 f1 eq_refl) E) as (Es2 & M2 & S2). exists Es2. split; [exact M2|].
    replace (24 * S (length l))%nat with (24 + 24 * length l)%nat by lia. eapply (runs_trans rks nb); [exact S1|]. exact S2.
Qed.
Lemma runL_any : forall progs e Es x t dts z f wk, readyA e Es -> Forall (fun dt => 0 < dt) dts -> length x = (6 * N)%nat ->
  runCalls (list R) evol mulS addv (commit N) (finalize inv N) calls (sameDecisions N owns) e x t dts ->
  layerSteps (list R) evol mulS addv (commit N) (finalize inv N) e x t dts = Ok (z, f) ->
  (forall i, (i < P)%nat -> nth i progs Fail = rkProgramL inv junk (rank i) (Q i) (Tm i) (so i) (LL i) (wk i) (at_ Es i) (pc x i) t dts) ->
  exists Es', readyA f Es' /\ forall n w, moves rks n (start progs) w -> (n <= P * (24 * length dts))%nat /\
  ((forall w', ~ move rks w w') -> forall i, (i < P)%nat -> p_act (w i) = Done (pc z i ++ inside (at_ Es' i))).
Proof.
  intros progs e Es x t dts z f wk H Hd Lx C E HP. destruct (runL_sync dts e Es x t z f wk H Hd Lx C E) as (Es' & M' & S). exists Es'. split; [exact M'|]. intros n w M.
  destruct (runs_pre rks nb (fun i => nth i progs Fail) _ _ _ HP S) as (A & B).
  destruct (pace_ends rks nb progs (24 * length dts) A ltac:(intros i Hi; rewrite (B i Hi); intros []) n w M) as (X & Y).
  split; [exact X|]. intros St i Hi. rewrite (Y St i Hi). apply B. exact Hi.
Qed.
End Fields.
Section Run.
Variable N : nat.
Variable m : fmesh.
Variable dim : Z.
Variable alpha : R.
Variable gb gi : list (Z * cond).
Variable ob ib : list (cond * marker).
Variable MInv D : Z -> mat.
Variable MSigma : mat.
Variables sm lm : marker.
Variable owns : list (list nat).
Variable rks : list prank.
Variable sub : list nat.
Variable inc : R -> nat -> nat -> R.
Variable ss : list psource.
Variables e1 e2 : list Z.
Variable els : list (list Z * list Z).
Hypothesis G : goodMesh N m dim.
Hypothesis T : tables m gb gi ob ib.
Hypothesis Msm : Z.of_nat (length sm) = markerSize (fm_battrs m).
Hypothesis Mlm : Z.of_nat (length lm) = markerSize (fm_battrs m).
Hypothesis Di : distributed N m dim MInv D MSigma owns rks.
Hypothesis Sh : sourcesShared N owns sub inc ss.
Hypothesis ND1 : NoDup e1.
Hypothesis ND2 : NoDup e2.
Hypothesis R1 : forall d, In d e1 -> (0 <= d < Z.of_nat N)%Z.
Hypothesis R2 : forall d, In d e2 -> (0 <= d < Z.of_nat N)%Z.
Hypothesis Se : Forall2 (fun own el => elementsShared own e1 (fst el) /\ elementsShared own e2 (snd el)) owns els.
Hypothesis Some1 : owns <> [].
Variable inv : list (list R) -> list R -> list R.
Variable junk : nat -> list R.
Hypothesis JL : forall n, length (junk n) = n.
Notation Ts := (buildSourceFaceOperator R Rplus Rmult 1 (-1) (factoryRows N m dim alpha ob ib MInv D MSigma sm) dim (Z.of_nat N) 0).
Notation Tl := (buildSourceFaceOperator R Rplus Rmult 1 (-1) (factoryRows N m dim alpha ob ib MInv D MSigma lm) dim (Z.of_nat N) 0).
Notation Mr := (map (rankSource dim alpha ob ib sm) rks).
Notation L0 := (mkLR N 0 (finalized (6 * N) (6 * N) Tl) e1 e2).
Notation Ls := (map (fun q => rankLayers dim alpha ob ib lm (fst q) (snd q)) (combine rks els)).
Let dR := mkPR 0 [] m [] MInv D MSigma.
Let dP : csr R := mkCsr R [] [] [].
Let dEl : list Z * list Z := ([], []).
Lemma schedulesL : exists A Ps, serialOperator N m dim alpha ob ib MInv D MSigma sm = Ok A /\ mapM (rankOperator dim alpha ob ib sm) rks = Ok Ps /\
  forall F, (forall t x, length x = (6 * N)%nat -> exists y, applies A N x y /\ oneSource N (finalized (6 * N) (6 * N) Ts) (map Z.of_nat sub) (sampled inc sub) t y = Ok (F t x)) ->
  forall works x t dts e Es z f progs, length x = (6 * N)%nat -> Forall (fun dt => 0 < dt) dts -> startLayers inv N owns e Es ->
    runCalls (list R) evol (fun _ _ e t x => addLayers inv L0 e t x (F t x)) addv (commit N) (finalize inv N)
      (fun e t x => sameVerdict owns sub inc t /\ sameDecisions N owns e x) (sameDecisions N owns) e x t dts ->
    oneRun inv F L0 e x t dts = Ok (z, f) ->
    (forall i rk P own s el e', nth_error rks i = Some rk -> nth_error Ps i = Some P -> nth_error owns i = Some own -> nth_error ss i = Some s -> nth_error els i = Some el -> nth_error Es i = Some e' ->
       nth_error progs i = Some (rkProgramL inv junk rk P (rankSource dim alpha ob ib sm rk) s (rankLayers dim alpha ob ib lm rk el) (works i) e' (part N own x) t dts)) ->
    exists Es', Forall2 (fun own e' => layersShared own (layersIn (e_groups f)) (layersIn (e_groups e'))) owns Es' /\
    forall n w, moves rks n (start progs) w -> (n <= length rks * (24 * length dts))%nat /\
    ((forall w', ~ move rks w w') -> forall i own e', nth_error owns i = Some own -> nth_error Es' i = Some e' -> p_act (w i) = Done (part N own z ++ inside e')).
Proof.
  destruct (all_ok N m dim alpha gb gi ob ib MInv D MSigma sm owns rks G T Di junk JL) as (A & Ps & EA & EP & V).
  destruct (run_ok N m dim alpha gb gi ob ib MInv D MSigma sm owns rks G T Di junk JL) as (A' & Ps' & EA' & _ & (F0 & HF0) & _).
  rewrite EA in EA'. injection EA' as <-.
  destruct (eval_ok N m dim alpha gb gi ob ib MInv D MSigma sm owns rks sub inc ss G T Msm Di Sh junk JL) as (A2 & Ps2 & EA2 & EP2 & V1 & V2).
  rewrite EA in EA2. injection EA2 as <-. rewrite EP in EP2. injection EP2 as <-.
  exists A, Ps. split; [exact EA|]. split; [exact EP|].
  intros F HF works x t dts e Es z f progs Lx Hd St C E HP.
  pose proof (mapM_len _ _ _ EP) as LP. pose proof (owns_len N m dim MInv D MSigma owns rks Di) as LO.
  assert (LS : length ss = length rks) by (destruct Sh as (_ & _ & F2); rewrite <- LO; clear - F2; induction F2; cbn; congruence).
  assert (LE : length els = length rks) by (pose proof Se as X; rewrite <- LO; revert X; clear; intros X; induction X; cbn; congruence).
  assert (Les : length Es = length rks) by (destruct St as (_ & _ & F2); rewrite <- LO; clear - F2; induction F2; cbn; congruence).
  assert (RK : forall i, (i < length rks)%nat -> nth_error rks i = Some (nth i rks dR)) by (intros i Hi; apply nth_error_nth'; exact Hi).
  assert (QK : forall i, (i < length rks)%nat -> nth_error Ps i = Some (nth i Ps dP)) by (intros i Hi; apply nth_error_nth'; rewrite LP; exact Hi).
  assert (OK' : forall i, (i < length rks)%nat -> nth_error owns i = Some (nth i owns [])) by (intros i Hi; apply nth_error_nth'; rewrite LO; exact Hi).
  assert (SK : forall i, (i < length rks)%nat -> nth_error ss i = Some (nth i ss (mkPS true [] (fun _ => [])))) by (intros i Hi; apply nth_error_nth'; rewrite LS; exact Hi).
  assert (EK : forall i, (i < length rks)%nat -> nth_error els i = Some (nth i els dEl)) by (intros i Hi; apply nth_error_nth'; rewrite LE; exact Hi).
  assert (VK : forall i, (i < length rks)%nat -> nth_error Es i = Some (nth i Es (mkEvol [] [] None 0 0 newCache))) by (intros i Hi; apply nth_error_nth'; rewrite Les; exact Hi).
  assert (TK : forall i, (i < length rks)%nat -> nth_error (map (rankSource dim alpha ob ib sm) rks) i = Some (rankSource dim alpha ob ib sm (nth i rks dR))) by (intros i Hi; rewrite nth_error_map, (RK i Hi); reflexivity).
  assert (LKi : forall i, (i < length rks)%nat -> nth_error Ls i = Some (rankLayers dim alpha ob ib lm (nth i rks dR) (nth i els dEl))).
  { intros i Hi. rewrite nth_error_map, (combine_at _ _ i _ _ (RK i Hi) (EK i Hi)). reflexivity. }
  assert (FM0 : forall z wk, length z = (6 * N)%nat -> length wk = length rks -> allMult junk rks Ps wk (spread N owns z) = Ok (spread N owns (F0 z))).
  { intros z0 wk Lz Lk. destruct (V z0 Lz) as (y & HY & VY). rewrite (applies_unique N A z0 (F0 z0) y (HF0 z0 Lz) HY). apply VY. exact Lk. }
  assert (FL : forall t0 x0, length x0 = (6 * N)%nat -> length (F t0 x0) = (6 * N)%nat).
  { intros t0 x0 L0'. destruct (HF t0 x0 L0') as (y & HY & Ey). destruct (serial_source N m dim alpha ob ib MInv D MSigma sm owns sub inc ss Sh t0 (fieldV N sub inc t0) y (proj1 HY) (field_ok N sub inc t0)) as (z0 & Ez' & Z1 & Z2).
    rewrite Ey in Ez'. apply ok_inj in Ez'. rewrite Ez'. destruct (Rlt_dec (sizeAt inc t0 sub) (/ 100000000 * / 100000000)) as [Q|Nq].
    + rewrite (Z1 Q). exact (proj1 HY).
    + destruct (lil_act N m dim alpha ob ib MInv D MSigma sm (fieldV N sub inc t0)) as (w & Hw). rewrite (Z2 Nq w Hw), addv_len; [exact (proj1 HY)|]. rewrite (proj1 Hw). symmetry. exact (proj1 HY). }
  assert (FM : forall t0 x0 wk, sameVerdict owns sub inc t0 -> length x0 = (6 * N)%nat -> length wk = length rks -> allMultS junk rks Ps Mr ss t0 wk (spread N owns x0) = Ok (spread N owns (F t0 x0))).
  { intros t0 x0 wk Sv L0' Lk. destruct (HF t0 x0 L0') as (y & HY & Ey). destruct (V2 t0 x0 L0') as (y' & z0 & HY' & Ez & Hz). rewrite (applies_unique N A x0 y' y HY' HY) in Ez. rewrite Ey in Ez. apply ok_inj in Ez. subst z0. apply Hz; assumption. }
  pose proof (start_ready N m dim alpha ob ib MInv D MSigma lm owns rks e1 e2 els Di Se inv e Es St) as Rd.
  destruct (runL_any N m dim alpha ob ib MInv D MSigma sm lm owns rks ss e1 e2 els G Mlm Di ND1 ND2 R1 R2 Se Some1 inv junk Ps F0 F (sameVerdict owns sub inc) LP FM0 FL FM
    (fun i => nth i rks dR) (fun i => nth i Ps dP) (fun i => rankSource dim alpha ob ib sm (nth i rks dR)) (fun i => nth i ss (mkPS true [] (fun _ => []))) (fun i => rankLayers dim alpha ob ib lm (nth i rks dR) (nth i els dEl)) RK QK TK SK LKi
    progs e Es x t dts z f works Rd Hd Lx C E) as (Es' & M' & K).
  { intros i Hi. apply nth_error_nth. apply (HP i _ _ _ _ _ _ (RK i Hi) (QK i Hi) (OK' i Hi) (SK i Hi) (EK i Hi) (VK i Hi)). }
  exists Es'. split; [exact (ready_shared N m dim alpha ob ib MInv D MSigma lm owns rks e1 e2 els Di Se inv f Es' M')|].
  intros n w M. destruct (K n w M) as (X & Y). split; [exact X|]. intros Stp i own e' Eo Ee. assert (Hi : (i < length rks)%nat) by (rewrite <- LO; apply nth_error_Some; rewrite Eo; discriminate).
  rewrite (Y Stp i Hi). unfold piece. rewrite (nth_error_nth _ _ _ Eo), (nth_error_nth _ _ _ Ee). reflexivity.
Qed.
Lemma schedulesL1 : exists A Ps, serialOperator N m dim alpha ob ib MInv D MSigma sm = Ok A /\ mapM (rankOperator dim alpha ob ib sm) rks = Ok Ps /\
  forall F, (forall t x, length x = (6 * N)%nat -> exists y, applies A N x y /\ oneSource N (finalized (6 * N) (6 * N) Ts) (map Z.of_nat sub) (sampled inc sub) t y = Ok (F t x)) ->
  forall works x t dts e Es z f progs, length x = (6 * N)%nat -> Forall (fun dt => 0 < dt) dts -> startLayers inv N owns e Es ->
    Forall (sameVerdict owns sub inc) (stages t dts) -> onOneProcess owns (e_groups e) ->
    oneRun inv F L0 e x t dts = Ok (z, f) ->
    (forall i rk P own s el e', nth_error rks i = Some rk -> nth_error Ps i = Some P -> nth_error owns i = Some own -> nth_error ss i = Some s -> nth_error els i = Some el -> nth_error Es i = Some e' ->
       nth_error progs i = Some (rkProgramL inv junk rk P (rankSource dim alpha ob ib sm rk) s (rankLayers dim alpha ob ib lm rk el) (works i) e' (part N own x) t dts)) ->
    exists Es', Forall2 (fun own e' => layersShared own (layersIn (e_groups f)) (layersIn (e_groups e'))) owns Es' /\
    forall n w, moves rks n (start progs) w -> (n <= length rks * (24 * length dts))%nat /\
    ((forall w', ~ move rks w w') -> forall i own e', nth_error owns i = Some own -> nth_error Es' i = Some e' -> p_act (w i) = Done (part N own z ++ inside e')).
Proof.
  destruct schedulesL as (A & Ps & EA & EP & V). exists A, Ps. split; [exact EA|]. split; [exact EP|]. intros F HF works x t dts e Es z f progs Lx Hd St Gd O E HP.
  apply (V F HF works x t dts e Es z f progs); try assumption. apply alone_calls; [|exact Hd|exact Gd]. split; [apply fresh_good; apply St|exact O].
Qed.
End Run.

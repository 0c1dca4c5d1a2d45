(** Runs with sources under every schedule. *)
From Coq Require Import ZArith List Bool Reals Lia Lra Permutation.
From Verif Require Import Common Csr_Model Face_Model Setup_Model Assembly_Model Form_Model Form_Spec Evol_Model EvolRhs_Proofs Ode_Model Nodal_Spec Global_Spec Global_Proofs GlobalBalance_Proofs Tfsf_Spec Par_Model Par_Spec ParMult_Proofs ParSrc_Model ParSrc_Spec ParSrcRun_Proofs Msg_Model Msg_Proofs MsgRun_Proofs MsgEx_Proofs MsgSrc_Model.
Import ListNotations.
Local Open Scope R_scope.

Section Fields.
Variable N : nat.
Variable m : fmesh.
Variable dim : Z.
Variable MInv D : Z -> mat.
Variable MSigma : mat.
Variable owns : list (list nat).
Variable rks : list prank.
Hypothesis Di : distributed N m dim MInv D MSigma owns rks.
Variable Ps : list (csr R).
Variable Ms : list matrix.
Variable ss : list psource.
Variable junk : nat -> list R.
Variable F0 : list R -> list R.
Variable F : R -> list R -> list R.
Variable good : R -> Prop.
Hypothesis LP : length Ps = length rks.
Hypothesis FM0 : forall x works, length x = (6 * N)%nat -> length works = length rks -> allMult junk rks Ps works (spread N owns x) = Ok (spread N owns (F0 x)).
Hypothesis FL : forall t x, length x = (6 * N)%nat -> length (F t x) = (6 * N)%nat.
Hypothesis FM : forall t x works, good t -> length x = (6 * N)%nat -> length works = length rks -> allMultS junk rks Ps Ms ss t works (spread N owns x) = Ok (spread N owns (F t x)).
Notation P := (length rks).
Variable rank : nat -> prank.
Variable Q : nat -> csr R.
Variable Tm : nat -> matrix.
Variable so : nat -> psource.
Hypothesis RK : forall i, (i < P)%nat -> nth_error rks i = Some (rank i).
Hypothesis QK : forall i, (i < P)%nat -> nth_error Ps i = Some (Q i).
Hypothesis TK : forall i, (i < P)%nat -> nth_error Ms i = Some (Tm i).
Hypothesis SK : forall i, (i < P)%nat -> nth_error ss i = Some (so i).
Notation pc := (piece N owns).
Notation nb := (nb_lt N m dim MInv D MSigma owns rks Di rank RK).

Lemma add_piece : forall t x i, good t -> length x = (6 * N)%nat -> (i < P)%nat -> addSource t (rank i) (Tm i) (so i) (pc (F0 x) i) = Ok (pc (F t x) i).
Proof.
  intros t x i Gt Lx Hi. pose proof (FM t x (repeat [] P) Gt Lx (repeat_length _ _)) as E. unfold allMultS in E. rewrite (FM0 x _ Lx (repeat_length _ _)) in E. cbn [bind] in E.
  assert (Es : forall z, nth_error (spread N owns z) i = Some (pc z i)) by (intros z; apply spread_at; apply nth_error_nth'; rewrite (owns_len N m dim MInv D MSigma owns rks Di); exact Hi).
  assert (Ec : nth_error (combine (combine (combine rks Ms) ss) (spread N owns (F0 x))) i = Some (rank i, Tm i, so i, pc (F0 x) i)).
  { assert (C : forall (A B : Type) (l : list A) (l' : list B) a b, nth_error l i = Some a -> nth_error l' i = Some b -> nth_error (combine l l') i = Some (a, b)).
    { clear. induction i as [|n IH]; intros A B l l' a b Ha Hb; destruct l as [|a0 l]; destruct l' as [|b0 l']; try discriminate; cbn in *; [congruence|apply IH; assumption]. }
    apply C; [|exact (Es _)]. apply C; [apply C; [exact (RK i Hi)|exact (TK i Hi)]|exact (SK i Hi)]. }
  destruct (mapM_at _ _ _ i _ E Ec) as (b & Hb & En). rewrite (Es (F t x)) in En. injection En as <-. exact Hb.
Qed.
Lemma rateS_sync : forall t x wk k, good t -> length x = (6 * N)%nat ->
  runsTo rks (fun i => rateS junk (rank i) (Q i) (Tm i) (so i) t (wk i) (pc x i) (k i)) 6 (fun i => k i (pc (F t x) i)).
Proof.
  intros t x wk k Gt Lx. unfold rateS. change 6%nat with (6 + 0)%nat.
  eapply (runs_trans rks nb); [apply (rate_sync N m dim MInv D MSigma owns rks Di Ps junk F0 LP FM0 rank Q RK QK x wk _ Lx)|]. cbv beta.
  apply runs_refl. intros i Hi. rewrite (add_piece t x i Gt Lx Hi). reflexivity.
Qed.
Lemma stepS_sync : forall x wk k t dt, good t -> good (t + dt / 2) -> good (t + dt) -> length x = (6 * N)%nat ->
  runsTo rks (fun i => rkStepS junk (rank i) (Q i) (Tm i) (so i) (wk i) (pc x i) t dt (k i)) 24 (fun i => k i (pc (rk4Step F x t dt) i)) /\
  length (rk4Step F x t dt) = (6 * N)%nat.
Proof.
  intros x wk k t dt G1 G2 G3 Lx. unfold rkStepS, rk4Step. cbv zeta.
  set (k1 := F t x). assert (L1 : length k1 = (6 * N)%nat) by (apply FL; exact Lx).
  set (y1 := addv (dt / 2) k1 x). assert (Ly1 : length y1 = (6 * N)%nat) by (unfold y1; rewrite addv_len; congruence).
  set (k2 := F (t + dt / 2) y1). assert (L2 : length k2 = (6 * N)%nat) by (apply FL; exact Ly1).
  set (y2 := addv (dt / 2) k2 x). assert (Ly2 : length y2 = (6 * N)%nat) by (unfold y2; rewrite addv_len; congruence).
  set (k3 := F (t + dt / 2) y2). assert (L3 : length k3 = (6 * N)%nat) by (apply FL; exact Ly2).
  set (y3 := addv dt k3 x). assert (Ly3 : length y3 = (6 * N)%nat) by (unfold y3; rewrite addv_len; congruence).
  set (k4 := F (t + dt) y3). assert (L4 : length k4 = (6 * N)%nat) by (apply FL; exact Ly3).
  set (z1 := addv (dt / 6) k1 x). assert (Lz1 : length z1 = (6 * N)%nat) by (unfold z1; rewrite addv_len; congruence).
  set (z2 := addv (dt / 3) k2 z1). assert (Lz2 : length z2 = (6 * N)%nat) by (unfold z2; rewrite addv_len; congruence).
  set (z3 := addv (dt / 3) k3 z2). assert (Lz3 : length z3 = (6 * N)%nat) by (unfold z3; rewrite addv_len; congruence).
  split; [|rewrite addv_len; congruence].
  change 24%nat with (6 + (6 + (6 + (6 + 0))))%nat.
  eapply (runs_trans rks nb); [apply rateS_sync; [exact G1|exact Lx]|]. cbv beta. fold k1.
  eapply (runs_pre rks nb); [intros i Hi; rewrite (piece_add N owns (dt / 2) k1 x i), (piece_add N owns (dt / 6) k1 x i) by congruence; fold y1 z1; reflexivity|].
  eapply (runs_trans rks nb); [apply rateS_sync; [exact G2|exact Ly1]|]. cbv beta. fold k2.
  eapply (runs_pre rks nb); [intros i Hi; rewrite (piece_add N owns (dt / 2) k2 x i), (piece_add N owns (dt / 3) k2 z1 i) by congruence; fold y2 z2; reflexivity|].
  eapply (runs_trans rks nb); [apply rateS_sync; [exact G2|exact Ly2]|]. cbv beta. fold k3.
  eapply (runs_pre rks nb); [intros i Hi; rewrite (piece_add N owns dt k3 x i), (piece_add N owns (dt / 3) k3 z2 i) by congruence; fold y3 z3; reflexivity|].
  eapply (runs_trans rks nb); [apply rateS_sync; [exact G3|exact Ly3]|]. cbv beta. fold k4.
  apply runs_refl. intros i Hi. rewrite (piece_add N owns (dt / 6) k4 z3 i) by congruence. reflexivity.
Qed.
Lemma runS_sync : forall dts x wk t, Forall good (stages t dts) -> length x = (6 * N)%nat ->
  runsTo rks (fun i => rkProgramS junk (rank i) (Q i) (Tm i) (so i) (wk i) (pc x i) t dts) (24 * length dts) (fun i => Done (pc (rkRunT F x t dts) i)).
Proof.
  induction dts as [|dt l IH]; intros x wk t Gd Lx; cbn [rkProgramS rkRunT length].
  - apply runs_refl. reflexivity.
  - cbn [stages] in Gd. inversion Gd as [|? ? G1 Gd1]; subst. inversion Gd1 as [|? ? G2 Gd2]; subst. inversion Gd2 as [|? ? G3 Gd3]; subst.
    replace (24 * S (length l))%nat with (24 + 24 * length l)%nat by lia.
    destruct (stepS_sync x (fun i => wk i (length l)) (fun i y => rkProgramS junk (rank i) (Q i) (Tm i) (so i) (wk i) y (t + dt) l) t dt G1 G2 G3 Lx) as (R1 & L1).
    eapply (runs_trans rks nb); [exact R1|]. cbv beta. apply IH; assumption.
Qed.
Lemma runS_any : forall progs x wk t dts, Forall good (stages t dts) -> length x = (6 * N)%nat ->
  (forall i, (i < P)%nat -> nth i progs Fail = rkProgramS junk (rank i) (Q i) (Tm i) (so i) (wk i) (pc x i) t dts) ->
  forall n w, moves rks n (start progs) w -> (n <= P * (24 * length dts))%nat /\
  ((forall w', ~ move rks w w') -> forall i, (i < P)%nat -> p_act (w i) = Done (pc (rkRunT F x t dts) i)).
Proof.
  intros progs x wk t dts Gd Lx H n w M.
  destruct (runs_pre rks nb (fun i => nth i progs Fail) _ _ _ H (runS_sync dts x wk t Gd Lx)) as (A & B).
  destruct (pace_ends rks nb progs (24 * length dts) A ltac:(intros i Hi; rewrite (B i Hi); intros []) n w M) as (X & Y).
  split; [exact X|]. intros St i Hi. rewrite (Y St i Hi). apply B. exact Hi.
Qed.
End Fields.

Section Run.
Variable N : nat.
Variable m : fmesh.
Variable dim : Z.
Variable alpha : R.
Variable gb gi : list (Z * cond).
Variable ob ib : list (cond * marker).
Variable MInv D : Z -> mat.
Variable MSigma : mat.
Variable sm : marker.
Variable owns : list (list nat).
Variable rks : list prank.
Variable sub : list nat.
Variable inc : R -> nat -> nat -> R.
Variable ss : list psource.
Hypothesis G : goodMesh N m dim.
Hypothesis T : tables m gb gi ob ib.
Hypothesis Msm : Z.of_nat (length sm) = markerSize (fm_battrs m).
Hypothesis Di : distributed N m dim MInv D MSigma owns rks.
Hypothesis Sh : sourcesShared N owns sub inc ss.
Variable junk : nat -> list R.
Hypothesis JL : forall n, length (junk n) = n.
Notation Ts := (buildSourceFaceOperator R Rplus Rmult 1 (-1) (factoryRows N m dim alpha ob ib MInv D MSigma sm) dim (Z.of_nat N) 0).
Let dR := mkPR 0 [] m [] MInv D MSigma.
Let dP : csr R := mkCsr R [] [] [].
Lemma schedulesS : exists A Ps, serialOperator N m dim alpha ob ib MInv D MSigma sm = Ok A /\ mapM (rankOperator dim alpha ob ib sm) rks = Ok Ps /\
  forall h F, (forall t, ParSrc_Spec.heard N owns sub inc t (h t)) ->
  (forall t x, length x = (6 * N)%nat -> exists y w, applies A N x y /\ lilApplies Ts N (h t) w /\ F t x = addv (-1) w y) ->
  forall works x t dts progs, length x = (6 * N)%nat ->
    (forall i rk P own s, nth_error rks i = Some rk -> nth_error Ps i = Some P -> nth_error owns i = Some own -> nth_error ss i = Some s ->
       nth_error progs i = Some (rkProgramS junk rk P (rankSource dim alpha ob ib sm rk) s (works i) (part N own x) t dts)) ->
    forall n w, moves rks n (start progs) w -> (n <= length rks * (24 * length dts))%nat /\
    ((forall w', ~ move rks w w') -> forall i own, nth_error owns i = Some own -> p_act (w i) = Done (part N own (rkRunT F x t dts))).
Proof.
  destruct (all_ok N m dim alpha gb gi ob ib MInv D MSigma sm owns rks G T Di junk JL) as (A & Ps & EA & EP & V).
  destruct (run_ok N m dim alpha gb gi ob ib MInv D MSigma sm owns rks G T Di junk JL) as (A' & Ps' & EA' & _ & (F0 & HF0) & _).
  rewrite EA in EA'. injection EA' as <-.
  destruct (eval_ok N m dim alpha gb gi ob ib MInv D MSigma sm owns rks sub inc ss G T Msm Di Sh junk JL) as (A2 & Ps2 & EA2 & EP2 & V1 & _).
  rewrite EA in EA2. injection EA2 as <-. rewrite EP in EP2. injection EP2 as <-.
  exists A, Ps. split; [exact EA|]. split; [exact EP|].
  intros h F Hh HF works x t dts progs Lx HP n w M.
  pose proof (mapM_len _ _ _ EP) as LP. pose proof (owns_len N m dim MInv D MSigma owns rks Di) as LO.
  assert (LS : length ss = length rks) by (destruct Sh as (_ & _ & F2); rewrite <- LO; clear - F2; induction F2; cbn; congruence).
  assert (RK : forall i, (i < length rks)%nat -> nth_error rks i = Some (nth i rks dR)) by (intros i Hi; apply nth_error_nth'; exact Hi).
  assert (QK : forall i, (i < length rks)%nat -> nth_error Ps i = Some (nth i Ps dP)) by (intros i Hi; apply nth_error_nth'; rewrite LP; exact Hi).
  assert (OK' : forall i, (i < length rks)%nat -> nth_error owns i = Some (nth i owns [])) by (intros i Hi; apply nth_error_nth'; rewrite LO; exact Hi).
  assert (SK : forall i, (i < length rks)%nat -> nth_error ss i = Some (nth i ss (mkPS true [] (fun _ => [])))) by (intros i Hi; apply nth_error_nth'; rewrite LS; exact Hi).
  assert (TK : forall i, (i < length rks)%nat -> nth_error (map (rankSource dim alpha ob ib sm) rks) i = Some (rankSource dim alpha ob ib sm (nth i rks dR))) by (intros i Hi; rewrite nth_error_map, (RK i Hi); reflexivity).
  assert (FM0 : forall z wk, length z = (6 * N)%nat -> length wk = length rks -> allMult junk rks Ps wk (spread N owns z) = Ok (spread N owns (F0 z))).
  { intros z wk Lz Lk. destruct (V z Lz) as (y & HY & VY). rewrite (applies_unique N A z (F0 z) y (HF0 z Lz) HY). apply VY. exact Lk. }
  assert (FL : forall t z, length z = (6 * N)%nat -> length (F t z) = (6 * N)%nat).
  { intros t0 z Lz. destruct (HF t0 z Lz) as (y & w0 & HY & Hw & ->). rewrite addv_len; [exact (proj1 HY)|]. rewrite (proj1 Hw). symmetry. exact (proj1 HY). }
  assert (FM : forall t z wk, True -> length z = (6 * N)%nat -> length wk = length rks ->
     allMultS junk rks Ps (map (rankSource dim alpha ob ib sm) rks) ss t wk (spread N owns z) = Ok (spread N owns (F t z))).
  { intros t0 z wk _ Lz Lk. destruct (HF t0 z Lz) as (y & w0 & HY & Hw & ->). apply (V1 t0 (h t0)); try assumption. apply Hh. }
  assert (Gd : Forall (fun _ => True) (stages t dts)).
  { clear. revert t. induction dts as [|dt l IH]; intros t; constructor; [exact I|constructor; [exact I|constructor; [exact I|apply IH]]]. }
  destruct (runS_any N m dim MInv D MSigma owns rks Di Ps (map (rankSource dim alpha ob ib sm) rks) ss junk F0 F (fun _ => True) LP FM0 FL FM (fun i => nth i rks dR) (fun i => nth i Ps dP) (fun i => rankSource dim alpha ob ib sm (nth i rks dR)) (fun i => nth i ss (mkPS true [] (fun _ => []))) RK QK TK SK progs x works t dts Gd Lx
    ltac:(intros i Hi; apply nth_error_nth; apply (HP i _ _ _ _ (RK i Hi) (QK i Hi) (OK' i Hi) (SK i Hi))) n w M) as (X & Y).
  split; [exact X|]. intros St i own Eo. assert (Hi : (i < length rks)%nat) by (rewrite <- LO; apply nth_error_Some; rewrite Eo; discriminate).
  rewrite (Y St i Hi). unfold piece. rewrite (nth_error_nth _ _ _ Eo). reflexivity.
Qed.
End Run.

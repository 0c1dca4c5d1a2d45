(** Sources on several processes: operators, one evaluation, runs. *)
From Coq Require Import ZArith List Bool Reals Lia Lra Permutation.
From Verif Require Import Common Csr_Model Csr_Spec Face_Model Face_Spec Face_Proofs Setup_Model Setup_Spec Assembly_Model Assembly_Spec Assembly_Proofs Form_Model Form_Spec Form_Proofs Nodal_Spec Nodal_Proofs NodalMult_Proofs NodalEnergy_Proofs Global_Spec Global_Proofs GlobalEnergy_Proofs GlobalBalance_Proofs Evol_Model Evol_Spec EvolHist_Proofs EvolRhs_Proofs Tfsf_Spec TfsfLil_Proofs Ode_Model Par_Model Par_Spec Par_Proofs ParRows_Proofs ParMult_Proofs ParSrc_Model ParSrc_Spec.
Import ListNotations.
Local Open Scope R_scope.

(** ** Action of the assembled matrix *)
Lemma source_action_nbr : forall op n nb dim x f d i, (0 <= n)%Z -> (0 <= nb)%Z -> ops_ok op n nb -> (1 <= dim <= 3)%Z -> (0 <= f <= 1)%Z -> (0 <= d <= 2)%Z -> (i < Z.to_nat n)%nat ->
  length x = Z.to_nat (6 * (n + nb)) ->
  rowval (buildSourceFaceOperator R Rplus Rmult 1 (-1) op dim n nb) x (Z.to_nat ((3 * f + d) * n + Z.of_nat i)) =
  jump_term op dim n nb OpSourceOneNormal x f d i + penalty_term op dim n nb OpSourceZeroNormal OpSourceTwoNormal x f d i.
Proof.
  intros op n nb dim x f d i Hn Hnb Hop Hdim Hf Hd Hi Hx. rewrite source_collect.
  rewrite (load_action _ (globalRows n)).
  - rewrite Z2Nat.id by nia. change (rsum _) with (rowsum n x i f d (collectSourceFace R 1 (-1) op dim n nb)). unfold collectSourceFace.
    rewrite !rowsum_app, (one_row op n nb Hn Hop x i Hi) by assumption. f_equal. apply (zero_two_row op n nb Hn Hop x i Hi); assumption.
  - replace (length x) with (globalCols n nb) by (unfold globalCols; rewrite Hx; reflexivity).
    apply legal_fits with (op := op); [exact Hn|exact Hnb| |apply collectSource_legal].
    intros o. destruct (Hop o) as (Hl & Hc). split; [lia|exact Hc].
  - unfold globalRows. nia.
Qed.
Lemma final_dot : forall rows cols T x r, (r < rows)%nat -> length x = cols -> dot (nth r (finalized rows cols T) []) x = rowval T x r.
Proof.
  intros rows cols T x r Hr Lx. unfold finalized.
  rewrite (nth_map_in _ _ _ (seq 0 rows) r [] 0%nat) by (rewrite seq_length; exact Hr). rewrite seq_nth by exact Hr. cbn [Nat.add].
  unfold rowval. rewrite Lx. clear. unfold sumN. induction (seq 0 cols) as [|c l IH]; [reflexivity|]. cbn [flat_map map fold_right]. rewrite <- IH.
  unfold entry. destruct (T (Z.of_nat r) (Z.of_nat c)) as [v|]; cbn [Datatypes.app]; [unfold dot; cbn [fold_right fst snd]; rewrite Nat2Z.id; reflexivity|ring].
Qed.
Lemma final_shape : forall rows cols T, length (finalized rows cols T) = rows /\ Forall (colsIn cols) (finalized rows cols T).
Proof.
  intros rows cols T. unfold finalized. rewrite map_length, seq_length. split; [reflexivity|]. apply Forall_forall. intros row I.
  apply in_map_iff in I. destruct I as (r & <- & _). apply Forall_forall. intros cv J. apply in_flat_map in J. destruct J as (c & Ic & Icv). apply in_seq in Ic.
  destruct (T (Z.of_nat r) (Z.of_nat c)); [|destruct Icv]. destruct Icv as [<-|[]]. cbn [fst]. lia.
Qed.

(** ** The form of the marked faces *)
Lemma sel_kind : forall (sm : marker) a, (1 <= a <= Z.of_nat (length sm))%Z ->
  kindOf (map (fun a => (a, Setup_Model.PEC)) (filter (selects (Some sm)) (map Z.of_nat (seq 1 (length sm))))) a = if selects (Some sm) a then Some Setup_Model.PEC else None.
Proof.
  intros sm a Ha. assert (G : forall l : list Z, kindOf (map (fun a => (a, Setup_Model.PEC)) l) a = if existsb (Z.eqb a) l then Some Setup_Model.PEC else None).
  { intros l. unfold kindOf. induction l as [|b t IH]; [reflexivity|]. cbn [map find fst existsb]. rewrite (Z.eqb_sym a b). destruct (b =? a)%Z; [reflexivity|exact IH]. }
  rewrite G. destruct (selects (Some sm) a) eqn:E.
  - replace (existsb _ _) with true; [reflexivity|]. symmetry. apply existsb_exists. exists a. split; [|apply Z.eqb_refl]. apply filter_In. split; [|exact E].
    apply in_map_iff. exists (Z.to_nat a). split; [lia|apply in_seq; lia].
  - destruct (existsb _ _) eqn:X; [|reflexivity]. apply existsb_exists in X. destruct X as (b & I & Eb). apply Z.eqb_eq in Eb. subst b. apply filter_In in I. destruct I. congruence.
Qed.

Section Process.
Variable N : nat.
Variable m : fmesh.
Variable dim : Z.
Variable owns : list (list nat).
Variable own : list nat.
Variable rk : prank.
Variable sm : marker.
Hypothesis G : goodMesh N m dim.
Hypothesis Msm : Z.of_nat (length sm) = markerSize (fm_battrs m).
Hypothesis P : process m owns own rk.
Hypothesis NDo : NoDup own.
Hypothesis Bo : forall d, In d own -> (d < N)%nat.
Hypothesis El : forall F, In F (fm_faces m) ->
  (incl (mf_dofs1 F) own \/ forall d, In d (mf_dofs1 F) -> ~ In d own) /\
  (incl (mf_dofs2 F) own \/ forall d, In d (mf_dofs2 F) -> ~ In d own).
Notation mr := (pr_mesh rk).
Notation cols := (own ++ ghosts owns rk).
Definition gk : list (Z * cond) := map (fun a => (a, Setup_Model.PEC)) (filter (selects (Some sm)) (map Z.of_nat (seq 1 (length sm)))).
Definition ssel (k : integ) (i : bool) (c : option cond) : option integ := if i then match c with Some _ => Some k | None => None end else None.
Lemma source_term : forall n msh k fi F v u, wfMesh n msh -> fm_battrs msh = fm_battrs m ->
  fterm [] gk (ssel k) msh fi F v u =
  if isInteriorFace F then match tagOf (fm_bdr msh) fi with Some a => if selects (Some sm) a then bil k F v u else 0 | None => 0 end else 0.
Proof.
  intros n msh k fi F v u WMs Eb. unfold fterm, ssel, faceKind. destruct (isInteriorFace F) eqn:I; [|reflexivity].
  unfold isInteriorFace in I. destruct (f_el2 (mf_face F)); [|discriminate]. destruct (tagOf (fm_bdr msh) fi) as [a|] eqn:E; [|reflexivity].
  pose proof (tag_range n msh WMs fi a E) as R0. rewrite Eb in R0. unfold gk. rewrite sel_kind by lia. destruct (selects (Some sm) a); reflexivity.
Qed.
Lemma source_rows : forall (k : integ), (forall F, wfFace F -> exists K, k F = Ok K) ->
  exists M M', sourceForm N m k sm = Ok M /\ sourceForm (length own) mr k sm = Ok M' /\
    forall V U, supp own V -> mform (length own) M' (Par_Proofs.seen own V) (Par_Proofs.seen own U) = mform N M V U.
Proof.
  intros k Hk. pose proof P as (Pn & _ & Pb & fs & gs & NDf & NDg & Hf & Hg & Lf & Lg & NDb & Hb & Hs).
  pose proof G as (_ & W & ND & WFa). rewrite Forall_forall in WFa.
  pose proof (rank_wf N m dim own rk G Pb fs Lf Hb) as RW.
  destruct (source_form N m W ND k sm) as (M & EM & VM); [apply marker_size; exact Msm|intros f I _; apply Hk, WFa; exact I|].
  destruct (source_form (length own) mr RW NDb k sm) as (M0 & E0 & V0); [apply marker_size; rewrite Pb; exact Msm|intros f I _; apply Hk, (rank_face_wf N m dim own rk G fs Lf); exact I|].
  exists M, M0. split; [exact EM|]. split; [exact E0|]. intros V U HV. rewrite V0, VM.
  transitivity (over m (fun fi F => fterm [] gk (ssel k) m fi F V U)).
  2:{ apply over_ext. intros fi F _. apply (source_term N); [exact W|reflexivity]. }
  rewrite (all_sum N m dim [] gk owns own rk G Pn fs gs NDf NDg Hf Hg Lf Lg (ssel k) V U HV).
  rewrite <- (local_sum N m dim [] gk own rk G fs Lf NDb Hb (ssel k) V U).
  assert (Z : suml (term m [] gk (ssel k) V U) gs = 0).
  { apply suml_zero. intros fi I. unfold term. destruct (nth_error (fm_faces m) fi) as [F|] eqn:E; [|reflexivity].
    unfold fterm. destruct (gs_plain N m dim [] gk own G El gs Hg Hs fi F I E) as (G1 & G2). rewrite G1, G2. reflexivity. }
  rewrite Z, Rplus_0_r. apply over_ext. intros fi F _. symmetry. apply (source_term (length own)); [exact RW|exact Pb].
Qed.

Variable alpha : R.
Variable ob ib : list (cond * marker).
Variable MInv D : Z -> mat.
Variable MSigma : mat.
Hypothesis HI : forall f, (f = 0 \/ f = 1)%Z -> within N own (MInv f) (pr_MInv rk f).
Notation sop := (factoryRows N m dim alpha ob ib MInv D MSigma sm).
Notation rop := (pfactoryRows dim alpha ob ib sm rk).
Notation agreeS := (agree N m dim ob ib owns own rk alpha MInv D MSigma sm).
Lemma pn : pr_n rk = length own.
Proof. exact (proj1 P). Qed.
Lemma agree_sz : forall f, (f = 0 \/ f = 1)%Z -> agreeS (OpSourceZeroNormal f).
Proof.
  intros f Hz. destruct (source_rows (zeroNormalJump alpha)) as (M & M' & E & E' & H); [exact (zero_ok alpha)|].
  unfold agree. cbn [pfactoryMat factoryMat pcols]. rewrite pn, E, E'. cbn [bind]. eexists. eexists. split; [reflexivity|]. split; [reflexivity|].
  apply (ibfi_agree N owns own rk NDo Bo MInv HI); assumption.
Qed.
Lemma agree_so : forall f g k, (f = 0 \/ f = 1)%Z -> (0 <= k < 3)%Z -> agreeS (OpSourceOneNormal f g k).
Proof.
  intros f g k Hz Hk. destruct (source_rows (oneNormalJump [Z.to_nat k] 1)) as (M & M' & E & E' & H); [intros F WFF; apply one_ok; [lia|exact WFF]|].
  unfold agree. cbn [pfactoryMat factoryMat pcols]. rewrite pn, E, E'. cbn [bind]. eexists. eexists. split; [reflexivity|]. split; [reflexivity|].
  apply (ibfi_agree N owns own rk NDo Bo MInv HI); assumption.
Qed.
Lemma agree_st : forall f k l, (f = 0 \/ f = 1)%Z -> (0 <= k < 3)%Z -> (0 <= l < 3)%Z -> agreeS (OpSourceTwoNormal f k l).
Proof.
  intros f k l Hz Hk Hl. destruct (source_rows (twoNormalJump [Z.to_nat k; Z.to_nat l] alpha)) as (M & M' & E & E' & H); [intros F WFF; apply two_ok; [lia|lia|exact WFF]|].
  unfold agree. cbn [pfactoryMat factoryMat pcols]. rewrite pn, E, E'. cbn [bind]. eexists. eexists. split; [reflexivity|]. split; [reflexivity|].
  apply (ibfi_agree N owns own rk NDo Bo MInv HI); assumption.
Qed.
Notation g := (length (pr_nbr rk)).
(** Only the local columns are read. *)
Variable x Wv : list R.
Hypothesis HW : forall f d j, (0 <= f <= 1)%Z -> (0 <= d <= 2)%Z -> (j < length own)%nat ->
  comp (Z.of_nat (length own)) (Z.of_nat g) Wv f d (Z.of_nat j) = fld N x f d (nth j own 0%nat).
Lemma app_agree_own : forall o f d i, pcols rk o = pr_n rk -> agreeS o -> (0 <= f <= 1)%Z -> (0 <= d <= 2)%Z -> (i < length own)%nat ->
  app rop (Z.of_nat (length own)) (Z.of_nat g) o Wv f d i = app sop (Z.of_nat N) 0 o x f d (nth i own 0%nat).
Proof.
  intros o f d i Hc (A & A' & E & E' & H) Hf1 Hd Hi. unfold app, factoryRows, pfactoryRows. rewrite E, E'. unfold rowsOf. rewrite pn. rewrite Hc, pn in H.
  assert (Ho : (nth i own 0 < N)%nat) by (apply Bo, nth_In; exact Hi).
  assert (X : forall c n (B : mat) k, (k < n)%nat -> nth k (map (fun i => map (fun j => (Z.of_nat j, B i j)) (seq 0 c)) (seq 0 n)) [] = map (fun j => (Z.of_nat j, B k j)) (seq 0 c)).
  { intros c n B k Hk. rewrite (nth_indep _ [] ((fun i => map (fun j => (Z.of_nat j, B i j)) (seq 0 c)) 0%nat)) by (rewrite map_length, seq_length; exact Hk).
    rewrite (map_nth (fun i => map (fun j => (Z.of_nat j, B i j)) (seq 0 c)) (seq 0 n) 0%nat k), seq_nth by exact Hk. reflexivity. }
  rewrite (X (pcols rk o) (length own) A' i Hi), (X N N A (nth i own 0%nat) Ho), !map_map. rewrite Hc, pn.
  transitivity (sumN (length own) (fun j => A' i j * Par_Proofs.seen cols (fld N x f d) j)).
  - apply (sumN_ext (length own) (fun j => snd (Z.of_nat j, A' i j) * comp (Z.of_nat (length own)) (Z.of_nat g) Wv f d (fst (Z.of_nat j, A' i j)))).
    intros j Hj. cbn [fst snd]. rewrite HW by assumption. rewrite cols_own by exact Hj. reflexivity.
  - rewrite (H (fld N x f d) i Hi). apply (sumN_ext N _ (fun j => snd (Z.of_nat j, A (nth i own 0%nat) j) * comp (Z.of_nat N) 0 x f d (fst (Z.of_nat j, A (nth i own 0%nat) j)))).
    intros j _. cbn [fst snd]. unfold comp, fld. rewrite Z.add_0_r. reflexivity.
Qed.
Lemma src_agree : forall f d i, (f = 0 \/ f = 1)%Z -> (d = 0 \/ d = 1 \/ d = 2)%Z -> (i < length own)%nat ->
  jump_term rop dim (Z.of_nat (length own)) (Z.of_nat g) OpSourceOneNormal Wv f d i + penalty_term rop dim (Z.of_nat (length own)) (Z.of_nat g) OpSourceZeroNormal OpSourceTwoNormal Wv f d i =
  jump_term sop dim (Z.of_nat N) 0 OpSourceOneNormal x f d (nth i own 0%nat) + penalty_term sop dim (Z.of_nat N) 0 OpSourceZeroNormal OpSourceTwoNormal x f d (nth i own 0%nat).
Proof.
  intros f d i Hf1 Hd Hi.
  assert (B : forall z, (0 <= (d + z) mod 3 < 3)%Z) by (intros z; apply Z.mod_pos_bound; lia). pose proof (B 1%Z) as B1. pose proof (B 2%Z) as B2.
  unfold jump_term, penalty_term. cbv zeta.
  rewrite !(app_agree_own (OpSourceOneNormal _ _ _)) by (try apply agree_so; try reflexivity; lia).
  rewrite !(app_agree_own (OpSourceZeroNormal _)) by (try apply agree_sz; try reflexivity; lia).
  rewrite !(app_agree_own (OpSourceTwoNormal _ _ _)) by (try apply agree_st; try reflexivity; lia).
  reflexivity.
Qed.
Hypothesis LW : length Wv = (6 * (length own + g))%nat.
Hypothesis Lx : length x = (6 * N)%nat.
Lemma src_row : forall c i, (c < 6)%nat -> (i < length own)%nat ->
  rowval (buildSourceFaceOperator R Rplus Rmult 1 (-1) rop dim (Z.of_nat (length own)) (Z.of_nat g)) Wv (c * length own + i) =
  rowval (buildSourceFaceOperator R Rplus Rmult 1 (-1) sop dim (Z.of_nat N) 0) x (c * N + nth i own 0%nat).
Proof.
  intros c i Hc Hi. pose proof (Nat.div_mod c 3 ltac:(lia)) as DM. pose proof (Nat.mod_upper_bound c 3 ltac:(lia)) as MB.
  assert (DB : (c / 3 < 2)%nat) by (apply Nat.div_lt_upper_bound; lia).
  assert (Ho : (nth i own 0 < N)%nat) by (apply Bo, nth_In; exact Hi).
  pose proof (prows_ok dim alpha ob ib sm rk) as PO. rewrite pn in PO.
  pose proof (source_action_nbr rop (Z.of_nat (length own)) (Z.of_nat g) dim Wv (Z.of_nat (c / 3)) (Z.of_nat (c mod 3)) i ltac:(lia) ltac:(lia) PO (proj1 G) ltac:(lia) ltac:(lia) ltac:(lia) ltac:(lia)) as S1.
  pose proof (source_action_nbr sop (Z.of_nat N) 0 dim x (Z.of_nat (c / 3)) (Z.of_nat (c mod 3)) (nth i own 0%nat) ltac:(lia) ltac:(lia) (rows_ok N m dim alpha ob ib MInv D MSigma sm) (proj1 G) ltac:(lia) ltac:(lia) ltac:(lia) ltac:(lia)) as S2.
  rewrite src_agree in S1 by (try exact Hi; lia). rewrite <- S2 in S1.
  replace (Z.to_nat ((3 * Z.of_nat (c / 3) + Z.of_nat (c mod 3)) * Z.of_nat (length own) + Z.of_nat i)) with (c * length own + i)%nat in S1 by nia.
  replace (Z.to_nat ((3 * Z.of_nat (c / 3) + Z.of_nat (c mod 3)) * Z.of_nat N + Z.of_nat (nth i own 0%nat))) with (c * N + nth i own 0)%nat in S1 by nia. exact S1.
Qed.
End Process.

(** ** Sizes *)
Lemma sumsq_suml : forall (h : nat -> R) l, sumsq (map h l) = suml (fun d => h d * h d) l.
Proof. intros h l. unfold suml, sumsq. induction l as [|a t IH]; [reflexivity|]. cbn [map fold_right]. rewrite IH. reflexivity. Qed.
Lemma size_sampled : forall inc l t, srcSize (sampled inc l t) = sizeAt inc t l.
Proof.
  intros inc l t. unfold srcSize, sampled, sizeAt, suml. induction (seq 0 6) as [|c cs IH]; [reflexivity|]. cbn [map fold_right]. rewrite IH. f_equal. apply sumsq_suml.
Qed.
Lemma size_perm : forall inc t l l', Permutation l l' -> sizeAt inc t l = sizeAt inc t l'.
Proof. intros inc t l l' H. unfold sizeAt. apply suml_ext. intros c _. apply suml_perm. exact H. Qed.
Lemma member_in : forall d l, existsb (Nat.eqb d) l = true <-> In d l.
Proof.
  intros d l. split.
  - intros E. apply existsb_exists in E. destruct E as (x & I & E). apply Nat.eqb_eq in E. subst. exact I.
  - intros I. apply existsb_exists. exists d. split; [exact I|apply Nat.eqb_refl].
Qed.
Lemma size_inside : forall inc t own sub ls, NoDup own -> NoDup sub -> NoDup ls -> (forall k, In k ls <-> (k < length own)%nat /\ In (nth k own 0%nat) sub) ->
  sizeAt inc t (map (fun k => nth k own 0%nat) ls) = sizeAt inc t (inside own sub).
Proof.
  intros inc t own sub ls NDo NDs NDl H. apply size_perm. apply NoDup_Permutation.
  - assert (X : forall l, incl l ls -> NoDup l -> NoDup (map (fun k => nth k own 0%nat) l)).
    { induction l as [|a l IH]; intros I ND; [constructor|]. inversion ND; subst. cbn [map]. constructor; [|apply IH; [intros z Z; apply I; right; exact Z|assumption]].
      intros J. apply in_map_iff in J. destruct J as (b & Eb & Ib). assert (b = a); [|subst; contradiction].
      apply (NoDup_nth own 0%nat); [exact NDo| | |exact Eb].
      - apply (H b). apply I. right. exact Ib.
      - apply (H a). apply I. left. reflexivity. }
    apply X; [apply incl_refl|exact NDl].
  - apply NoDup_filter. exact NDs.
  - intros d. unfold inside. rewrite filter_In, member_in, in_map_iff. split.
    + intros (k & <- & I). apply H in I. destruct I as (Hk & Is). split; [exact Is|apply nth_In; exact Hk].
    + intros (Is & Io). destruct (In_nth own d 0%nat Io) as (k & Hk & E). exists k. split; [exact E|]. apply H. rewrite E. split; assumption.
Qed.
Lemma sampled_ok : forall inc (l l' : list nat), length l' = length l -> forall t, length (sampled inc l t) = 6%nat /\ Forall (fun v => length v = length (map Z.of_nat l')) (sampled inc l t).
Proof.
  intros inc l l' L t. unfold sampled. rewrite map_length. split; [reflexivity|]. apply Forall_forall. intros v I. apply in_map_iff in I. destruct I as (c & <- & _). rewrite !map_length. lia.
Qed.
Lemma sampled_nth : forall inc l t c v, (c < 6)%nat -> (v < length l)%nat -> nth v (nth c (sampled inc l t) []) 0 = inc t c (nth v l 0%nat).
Proof.
  intros inc l t c v Hc Hv. unfold sampled. rewrite (nth_map_in _ _ _ (seq 0 6) c [] 0%nat) by (rewrite seq_length; exact Hc). rewrite seq_nth by exact Hc.
  rewrite (nth_map_in _ _ _ l v 0 0%nat) by exact Hv. reflexivity.
Qed.
Lemma of_nat_nodup : forall l, NoDup l -> NoDup (map Z.of_nat l).
Proof. intros l H. apply FinFun.Injective_map_NoDup; [intros a b; apply Nat2Z.inj|exact H]. Qed.
Lemma of_nat_in : forall d l, In (Z.of_nat d) (map Z.of_nat l) <-> In d l.
Proof.
  intros d l. rewrite in_map_iff. split.
  - intros (k & E & I). apply Nat2Z.inj in E. subst. exact I.
  - intros I. exists d. auto.
Qed.
Lemma rowval_zero : forall T n r, rowval T (zeros n) r = 0.
Proof.
  intros T n r. unfold rowval. apply sumN_zero. intros c _. unfold zeros. rewrite nth_repeat. ring.
Qed.
Lemma quiet_thr : forall x, quiet x <-> x < / 10000000000000000.
Proof. intros x. unfold quiet. lra. Qed.

Section One.
Variable N : nat.
Variable m : fmesh.
Variable dim : Z.
Variable owns : list (list nat).
Variable own : list nat.
Variable rk : prank.
Variable sm : marker.
Hypothesis G : goodMesh N m dim.
Hypothesis Msm : Z.of_nat (length sm) = markerSize (fm_battrs m).
Hypothesis P : process m owns own rk.
Hypothesis NDo : NoDup own.
Hypothesis Bo : forall d, In d own -> (d < N)%nat.
Hypothesis El : forall F, In F (fm_faces m) ->
  (incl (mf_dofs1 F) own \/ forall d, In d (mf_dofs1 F) -> ~ In d own) /\
  (incl (mf_dofs2 F) own \/ forall d, In d (mf_dofs2 F) -> ~ In d own).
Variable alpha : R.
Variable ob ib : list (cond * marker).
Variable MInv D : Z -> mat.
Variable MSigma : mat.
Hypothesis HI : forall f, (f = 0 \/ f = 1)%Z -> within N own (MInv f) (pr_MInv rk f).
Variable sub : list nat.
Variable inc : R -> nat -> nat -> R.
Variable s : psource.
Hypothesis NDs : NoDup sub.
Hypothesis HS : sourceOf own sub inc s.
Notation Ts := (buildSourceFaceOperator R Rplus Rmult 1 (-1) (factoryRows N m dim alpha ob ib MInv D MSigma sm) dim (Z.of_nat N) 0).
Notation n := (length own).
Notation g := (length (pr_nbr rk)).
Lemma add_ok : forall t h y, length h = (6 * N)%nat ->
  (forall c d, In d own -> (c < 6)%nat -> (In d sub -> ~ quiet (sizeAt inc t (inside own sub)) -> nth (c * N + d) h 0 = inc t c d) /\
     (~ In d sub \/ quiet (sizeAt inc t (inside own sub)) -> nth (c * N + d) h 0 = 0)) ->
  length y = (6 * n)%nat ->
  exists z, addSource t rk (rankSource dim alpha ob ib sm rk) s y = Ok z /\ length z = (6 * n)%nat /\
    forall c i, (c < 6)%nat -> (i < n)%nat -> nth (c * n + i) z 0 = nth (c * n + i) y 0 - rowval Ts h (c * N + nth i own 0%nat).
Proof.
  intros t h y Lh Hh Ly. destruct HS as (ls & Es & NDl & Hl & Hon & Hsrc). pose proof (proj1 P) as Pn.
  unfold addSource, rankSource, pwidth. rewrite Pn, Es.
  destruct (final_shape (6 * n) (6 * (n + g)) (buildSourceFaceOperator R Rplus Rmult 1 (-1) (pfactoryRows dim alpha ob ib sm rk) dim (Z.of_nat n) (Z.of_nat g))) as (FL & FC).
  set (T := finalized _ _ _) in *.
  destruct (tfsf_ok n g (Some T) (ps_on s) (map Z.of_nat ls) (ps_src s) t y Ly) as (F & z & HF & EF & Lz & Vz).
  { intros _. split; [apply of_nat_nodup; exact NDl|]. split.
    - intros p I. apply in_map_iff in I. destruct I as (k & <- & I). apply Hl in I. unfold nZ. lia.
    - intros t'. rewrite Hsrc. apply sampled_ok. rewrite map_length. reflexivity. }
  { intros T' E. injection E as <-. split; [exact FL|exact FC]. }
  change (wsize n g) with (6 * (n + g))%nat in EF. rewrite EF. cbn [bind snd]. exists z. split; [reflexivity|]. split; [exact Lz|]. intros c i Hc Hi.
  specialize (Vz (Z.of_nat (c * n + i)) ltac:(unfold nZ; nia)). unfold nthZ in Vz. rewrite Nat2Z.id in Vz. rewrite Vz. f_equal. f_equal.
  assert (Sz : srcSize (ps_src s t) = sizeAt inc t (inside own sub)) by (rewrite Hsrc, size_sampled; apply size_inside; assumption).
  destruct (srcOn (ps_on s) (ps_src s) t) eqn:On.
  - assert (Nq : ~ quiet (sizeAt inc t (inside own sub))).
    { unfold srcOn in On. apply andb_prop in On. destruct On as (_ & On). rewrite Sz in On. rewrite quiet_thr. destruct Rlt_dec; [discriminate|assumption]. }
    destruct (HF ltac:(discriminate) eq_refl) as (LF & V1 & V2). unfold T. rewrite final_dot; [|nia|exact LF].
    apply (src_row N m dim owns own rk sm G Msm P NDo Bo El alpha ob ib MInv D MSigma HI h F); try assumption.
    intros f d j Hf Hd Hj. unfold comp, fld. specialize (Hh (Z.to_nat (3 * f + d)) (nth j own 0%nat) (nth_In _ _ Hj) ltac:(lia)). destruct Hh as (H1 & H2).
    replace (Z.to_nat ((3 * f + d) * Z.of_nat N + Z.of_nat (nth j own 0%nat))) with (Z.to_nat (3 * f + d) * N + nth j own 0)%nat by nia.
    destruct (in_dec Nat.eq_dec j ls) as [I|I].
    + destruct (In_nth ls j 0%nat I) as (v & Hv & Ev).
      assert (Nv : nth_error (map Z.of_nat ls) v = Some (Z.of_nat j)) by (rewrite nth_error_map, (nth_error_nth' ls 0%nat Hv), Ev; reflexivity).
      specialize (V1 (3 * f + d)%Z v (Z.of_nat j) ltac:(lia) Nv). unfold nthZ in V1. rewrite Nat2Z.inj_add in V1. rewrite V1, Hsrc.
      rewrite sampled_nth by (rewrite ?map_length; lia). rewrite (nth_map_in _ _ _ ls v 0%nat 0%nat Hv), Ev. symmetry. apply H1; [apply (Hl j); exact I|exact Nq].
    + specialize (V2 (3 * f + d)%Z (Z.of_nat j) ltac:(lia) ltac:(lia)). unfold nthZ in V2. rewrite Nat2Z.inj_add in V2. rewrite V2 by (rewrite of_nat_in; exact I).
      symmetry. apply H2. left. intros X. apply I. apply Hl. split; [exact Hj|exact X].
  - rewrite <- (src_row N m dim owns own rk sm G Msm P NDo Bo El alpha ob ib MInv D MSigma HI h (zeros (6 * (n + g)))); try assumption.
    + symmetry. apply rowval_zero.
    + intros f d j Hf Hd Hj. unfold comp, fld. unfold zeros. rewrite nth_repeat.
      replace (Z.to_nat ((3 * f + d) * Z.of_nat N + Z.of_nat (nth j own 0%nat))) with (Z.to_nat (3 * f + d) * N + nth j own 0)%nat by nia.
      symmetry. apply (Hh (Z.to_nat (3 * f + d)) (nth j own 0%nat) (nth_In _ _ Hj) ltac:(lia)).
      unfold srcOn in On. destruct (ps_on s) eqn:Eon.
      * cbn [andb] in On. rewrite Sz in On. right. rewrite quiet_thr. destruct Rlt_dec; [assumption|discriminate].
      * left. intros X. assert (Il : In j ls) by (apply Hl; split; assumption). assert (ls <> []) by (intros ->; destruct Il). specialize (Hon H). congruence.
    + apply repeat_length.
Qed.
End One.

(** Thin layers on several processes: the term a process adds, its commits and finalisations. *)
From Coq Require Import ZArith List Bool Reals Lia Lra Permutation.
From Verif Require Import Common Csr_Model Csr_Spec Face_Model Face_Spec Face_Proofs Setup_Model Setup_Spec Assembly_Model Assembly_Spec Assembly_Proofs Form_Model Form_Spec Form_Proofs Nodal_Spec Nodal_Proofs NodalMult_Proofs NodalEnergy_Proofs Global_Spec Global_Proofs GlobalEnergy_Proofs GlobalBalance_Proofs Evol_Model Evol_Spec EvolLayer_Spec Evol_Proofs EvolHist_Proofs EvolRhs_Proofs EvolLayer_Proofs Tfsf_Spec TfsfLil_Proofs Ode_Model Par_Model Par_Spec Par_Proofs ParRows_Proofs ParMult_Proofs ParSrc_Model ParSrc_Proofs ParLay_Model ParLay_Spec ParLay_Proofs.
Import ListNotations.
Local Open Scope R_scope.

Lemma nil_seen1 : forall n g x, seenBy1 n g x [] (zeros (6 * (n + g))).
Proof.
  intros n g x. split; [apply repeat_length|]. split; [intros w s c []|]. intros c d _ _ _. unfold nthZ, zeros. apply nth_repeat.
Qed.
Lemma nil_seen2 : forall n g x, seenBy2 n g x [] (zeros (6 * (n + g))).
Proof.
  intros n g x. split; [apply repeat_length|]. split; [intros w s c []|]. intros c d _ _ _. unfold nthZ, zeros. apply nth_repeat.
Qed.

Section One.
Variable N : nat.
Variable m : fmesh.
Variable dim : Z.
Variable owns : list (list nat).
Variable own : list nat.
Variable rk : prank.
Variable lm : marker.
Hypothesis G : goodMesh N m dim.
Hypothesis Mlm : Z.of_nat (length lm) = markerSize (fm_battrs m).
Hypothesis P : process m owns own rk.
Hypothesis NDo : NoDup own.
Hypothesis Bo : forall d, In d own -> (d < N)%nat.
Hypothesis El : forall F, In F (fm_faces m) ->
  (incl (mf_dofs1 F) own \/ forall d, In d (mf_dofs1 F) -> ~ In d own) /\
  (incl (mf_dofs2 F) own \/ forall d, In d (mf_dofs2 F) -> ~ In d own).
Variable alpha : R.
Variable ob ib : list (cond * marker).
Variable MInv D : Z -> mat.
Variable MSigma : mat.
Hypothesis HI : forall f, (f = 0 \/ f = 1)%Z -> within N own (MInv f) (pr_MInv rk f).
Variables e1 e2 e1' e2' : list Z.
Hypothesis ND1 : NoDup e1.
Hypothesis ND2 : NoDup e2.
Hypothesis R1 : forall d, In d e1 -> (0 <= d < Z.of_nat N)%Z.
Hypothesis R2 : forall d, In d e2 -> (0 <= d < Z.of_nat N)%Z.
Hypothesis S1 : elementsShared own e1 e1'.
Hypothesis S2 : elementsShared own e2 e2'.
Notation Ts := (buildSourceFaceOperator R Rplus Rmult 1 (-1) (factoryRows N m dim alpha ob ib MInv D MSigma lm) dim (Z.of_nat N) 0).
Notation nn := (length own).
Notation g := (length (pr_nbr rk)).
Notation Mo := (finalized (6 * N) (6 * N) Ts).
Notation Mr := (rankSource dim alpha ob ib lm rk).

Lemma elem_in : forall e e' i, elementsShared own e e' -> (i < nn)%nat -> (In (Z.of_nat i) e' <-> In (Z.of_nat (nth i own 0%nat)) e).
Proof.
  intros e e' i (_ & H) Hi. rewrite H. split.
  - intros (d & I & (j & Hj & Ej & ->)). apply Nat2Z.inj in Ej. subst. exact I.
  - intros I. exists (Z.of_nat (nth i own 0%nat)). split; [exact I|]. exists i. auto.
Qed.
Lemma elem_range : forall e e' d, elementsShared own e e' -> In d e' -> (0 <= d < Z.of_nat nn)%Z.
Proof. intros e e' d (_ & H) I. apply H in I. destruct I as (d0 & _ & S). exact (same_range _ _ _ S). Qed.
(** A row of the operator of the process gives the row of the mesh. *)
Lemma row_part : forall W W' c i, length W = (6 * (N + 0))%nat -> length W' = (6 * (nn + g))%nat ->
  (forall c j, (c < 6)%nat -> (j < nn)%nat -> nth (c * (nn + g) + j) W' 0 = nth (c * N + nth j own 0%nat) W 0) ->
  (c < 6)%nat -> (i < nn)%nat -> dot (nth (c * nn + i) Mr []) W' = dot (nth (c * N + nth i own 0%nat) Mo []) W.
Proof.
  intros W W' c i LW LW' H Hc Hi. rewrite Nat.add_0_r in LW. pose proof (proj1 P) as Pn. pose proof (Bo _ (nth_In own 0%nat Hi)) as Ho.
  unfold rankSource, pwidth. rewrite Pn. rewrite final_dot; [|nia|exact LW']. rewrite final_dot; [|nia|exact LW].
  apply (src_row N m dim owns own rk lm G Mlm P NDo Bo El alpha ob ib MInv D MSigma HI W W'); try assumption.
  intros f d j Hf Hd Hj. unfold comp, fld. specialize (H (Z.to_nat (3 * f + d)) j ltac:(lia) Hj).
  replace (Z.to_nat ((3 * f + d) * Z.of_nat N + Z.of_nat (nth j own 0%nat))) with (Z.to_nat (3 * f + d) * N + nth j own 0)%nat by nia.
  rewrite <- H. f_equal. nia.
Qed.

Section Flux.
Variables gs gs' : list group.
Hypothesis Sh : layersShared own (layersIn gs) (layersIn gs').
Hypothesis Fi : Forall (Evol_Spec.fits N) (layersIn gs).
Hypothesis NDl : NoDup (flat_map dofsOf (layersIn gs)).
Lemma flux_part : forall x y, length x = (6 * N)%nat -> length y = (6 * N)%nat ->
  exists w z w', sgbcFlux N 0 e1 e2 Mo gs x (zeros (6 * (N + 0))) y = Ok (w, z) /\ length z = (6 * N)%nat /\
    sgbcFlux nn g e1' e2' Mr gs' (part N own x) (zeros (6 * (nn + g))) (part N own y) = Ok (w', part N own z).
Proof.
  intros x y Lx Ly. pose proof (proj1 P) as Pn.
  destruct (final_shape (6 * N) (6 * N) Ts) as (FL & FC).
  destruct (flux_ok N 0 e1 e2 Mo gs x y) as (W1 & W2 & w & z & A1 & A2 & Ez & Lz & Vz); try assumption.
  { rewrite Lx. unfold nZ. lia. }
  { unfold wsize. rewrite Nat.add_0_r. exact FC. }
  destruct (final_shape (6 * nn) (6 * (nn + g)) (buildSourceFaceOperator R Rplus Rmult 1 (-1) (pfactoryRows dim alpha ob ib lm rk) dim (Z.of_nat nn) (Z.of_nat g))) as (FL' & FC').
  destruct (flux_ok nn g e1' e2' Mr gs' (part N own x) (part N own y)) as (W1' & W2' & w' & z' & B1 & B2 & Ez' & Lz' & Vz').
  { rewrite part_len. unfold nZ. lia. }
  { exact (fits_shared N own _ _ Sh Fi). }
  { exact (proj1 Sh). }
  { unfold rankSource, pwidth. rewrite Pn. exact FL'. }
  { unfold rankSource, pwidth. rewrite Pn. exact FC'. }
  { apply part_len. }
  { exact (proj1 S1). }
  { exact (proj1 S2). }
  { intros d I. exact (elem_range _ _ d S1 I). }
  { intros d I. exact (elem_range _ _ d S2 I). }
  exists w, z, w'. split; [exact Ez|]. split; [exact Lz|]. change (6 * (nn + g))%nat with (wsize nn g). rewrite Ez'. f_equal. f_equal.
  apply (nth_split6 nn); [exact Lz'|apply part_len|]. intros c i Hc Hi. pose proof (Bo _ (nth_In own 0%nat Hi)) as Ho. rewrite part_nth by assumption.
  specialize (Vz' (Z.of_nat c) (Z.of_nat i) ltac:(lia) ltac:(unfold nZ; lia)). specialize (Vz (Z.of_nat c) (Z.of_nat (nth i own 0%nat)) ltac:(lia) ltac:(unfold nZ; lia)).
  unfold nZ in Vz, Vz'. rewrite !nthZ_nat in Vz, Vz'. rewrite Vz, Vz', part_nth by assumption.
  replace (Z.to_nat (Z.of_nat c * Z.of_nat nn + Z.of_nat i)) with (c * nn + i)%nat by lia.
  replace (Z.to_nat (Z.of_nat c * Z.of_nat N + Z.of_nat (nth i own 0%nat))) with (c * N + nth i own 0%nat)%nat by lia.
  rewrite (row_part W1 W1' c i (proj1 A1) (proj1 B1) (fun c j Hc Hj => vector_one N g own Bo NDo _ _ Sh x W1 W1' c j A1 B1 Hc Hj) Hc Hi).
  rewrite (row_part W2 W2' c i (proj1 A2) (proj1 B2) (fun c j Hc Hj => vector_two N g own Bo NDo _ _ Sh x W2 W2' c j A2 B2 Hc Hj) Hc Hi).
  pose proof (elem_in e1 e1' i S1 Hi) as Q1. pose proof (elem_in e2 e2' i S2 Hi) as Q2.
  f_equal; [f_equal|].
  - destruct (in_dec Z.eq_dec (Z.of_nat i) e1'), (in_dec Z.eq_dec (Z.of_nat (nth i own 0%nat)) e1); try reflexivity; tauto.
  - destruct (in_dec Z.eq_dec (Z.of_nat i) e2'), (in_dec Z.eq_dec (Z.of_nat (nth i own 0%nat)) e2); try reflexivity; tauto.
Qed.
Lemma flux_none : forall x y w z, layersIn gs' = [] -> length x = (6 * N)%nat -> length y = (6 * N)%nat ->
  sgbcFlux N 0 e1 e2 Mo gs x (zeros (6 * (N + 0))) y = Ok (w, z) -> part N own z = part N own y /\ length z = (6 * N)%nat.
Proof.
  intros x y w z Hn Lx Ly E. destruct (final_shape (6 * N) (6 * N) Ts) as (FL & FC).
  destruct (flux_ok N 0 e1 e2 Mo gs x y) as (W1 & W2 & w0 & z0 & A1 & A2 & Ez & Lz & Vz); try assumption.
  { rewrite Lx. unfold nZ. lia. }
  { unfold wsize. rewrite Nat.add_0_r. exact FC. }
  unfold wsize in Ez. rewrite E in Ez. injection Ez as <- <-. split; [|exact Lz].
  pose proof Sh as Sh0. rewrite Hn in Sh0.
  apply (nth_split6 nn); [apply part_len|apply part_len|]. intros c i Hc Hi. pose proof (Bo _ (nth_In own 0%nat Hi)) as Ho. rewrite !part_nth by assumption.
  specialize (Vz (Z.of_nat c) (Z.of_nat (nth i own 0%nat)) ltac:(lia) ltac:(unfold nZ; lia)).
  unfold nZ in Vz. rewrite !nthZ_nat in Vz. rewrite Vz.
  replace (Z.to_nat (Z.of_nat c * Z.of_nat N + Z.of_nat (nth i own 0%nat))) with (c * N + nth i own 0%nat)%nat by lia.
  rewrite <- (row_part W1 (zeros (6 * (nn + g))) c i (proj1 A1) (repeat_length _ _) (fun c j Hc Hj => vector_one N g own Bo NDo _ _ Sh0 x W1 _ c j A1 (nil_seen1 nn g _) Hc Hj) Hc Hi).
  rewrite <- (row_part W2 (zeros (6 * (nn + g))) c i (proj1 A2) (repeat_length _ _) (fun c j Hc Hj => vector_two N g own Bo NDo _ _ Sh0 x W2 _ c j A2 (nil_seen2 nn g _) Hc Hj) Hc Hi).
  assert (Z : forall row k, dot row (zeros k) = 0).
  { intros row k. unfold dot, zeros. induction row as [|cv row IH]; [reflexivity|]. cbn [fold_right]. rewrite IH, nth_repeat. ring. }
  rewrite !Z. destruct (in_dec _ _ e1), (in_dec _ _ e2); ring.
Qed.
End Flux.

(** ** The middle of a step *)
Variable inv : list (list R) -> list R -> list R.
Definition ready (e e' : evol) : Prop :=
  EvolHist_Proofs.good N 0 [] e /\ EvolHist_Proofs.good nn g [] e' /\ goodLayers inv N (e_groups e) /\ (forall h, In h (e_groups e') -> roomy (g_w h)) /\
  layersShared own (layersIn (e_groups e)) (layersIn (e_groups e')).
Definition mid (e e' : evol) : Prop := exists d1 c base dt v d1' c', 0 < dt /\ ready d1 d1' /\
  commit N d1 base dt v = Ok c /\ EvolHist_Proofs.rel N 0 [] c e /\ commit nn d1' base dt (part N own v) = Ok c' /\ EvolHist_Proofs.rel nn g [] c' e'.
Lemma commit_good : forall k b e base dt v c, 0 < dt -> EvolHist_Proofs.good k b [] e -> commit k e base dt v = Ok c -> EvolHist_Proofs.rel k b [] c c.
Proof.
  intros k b e base dt v c Hdt Hg E. pose proof (commit_agree k b [] e e base dt v Hdt (relS_refl k b [] e Hg)) as RC. rewrite E in RC. cbn in RC. exact (proj1 RC).
Qed.
Lemma commit_mid : forall e e' t dt x c c', 0 < dt -> ready e e' -> commit N e t dt x = Ok c -> commit nn e' t dt (part N own x) = Ok c' -> mid c c'.
Proof.
  intros e e' t dt x c c' Hdt H E E'. exists e, c, t, dt, x, e', c'. split; [exact Hdt|]. split; [exact H|]. split; [exact E|].
  split; [exact (commit_good N 0 e t dt x c Hdt (proj1 H) E)|]. split; [exact E'|]. exact (commit_good nn g e' t dt _ c' Hdt (proj1 (proj2 H)) E').
Qed.
Lemma sub_rel : forall k b M e t x gs q, EvolHist_Proofs.good k b [] e -> multSub inv k (Some M) e t x = Ok (gs, q) ->
  EvolHist_Proofs.rel k b [] e (mkEvol (e_work e) gs (e_cp e) (e_base e) (e_dt e) (e_cache e)).
Proof.
  intros k b M e t x gs q Hg E. pose proof (multSub_agree inv k b [] (Some M) e e t x (rel_refl k b [] e Hg)) as A. rewrite E in A. cbn in A.
  destruct A as (_ & _ & (A1 & A2 & A3 & A4)). apply good_keep; try assumption; apply Hg.
Qed.
(** The layers that an evaluation uses. *)
Lemma sub_shared : forall M M' e e' t x gs q gs' q', mid e e' -> length x = (6 * N)%nat ->
  multSub inv N (Some M) e t x = Ok (gs, q) -> multSub inv nn (Some M') e' t (part N own x) = Ok (gs', q') ->
  layersShared own (layersIn gs) (layersIn gs') /\ goodLayers inv N gs /\
  (forall gr, restore (e_groups e) (e_cp e) = Ok gr -> sameDecision N own x gr -> gs <> [] -> (q = true -> gs' = [] \/ q' = true) /\ (q = false -> layersIn gs' = [] /\ (gs' = [] \/ q' = true) \/ (gs' <> [] /\ q' = false))).
Proof.
  intros M M' e e' t x gs q gs' q' (d1 & c & base & dt & v & d1' & c' & Hdt & (Gd & Gd' & GL & Ro & Sh) & Ec & Rc & Ec' & Rc') Lx E E'.
  destruct (multSub_layers inv N 0 [] (Some M) (fun _ => []) (fun _ _ _ => []) d1 base dt v c e t x gs q (fun h I => proj1 (proj1 GL h I)) Ec Rc ltac:(discriminate) E) as (Q & L).
  destruct (multSub_layers inv nn g [] (Some M') (fun _ => []) (fun _ _ _ => []) d1' base dt (part N own v) c' e' t (part N own x) gs' q' Ro Ec' Rc' ltac:(discriminate) E') as (Q' & L').
  assert (X : layersShared own (layersIn gs) (layersIn gs')).
  { apply (shared_step own _ _ _ _ _ _ Sh (flat_layers _ _ _ L) (flat_layers _ _ _ L')).
    - intros a b H. exact (seen_kept _ _ _ _ _ a b H).
    - intros a b H. exact (seen_kept _ _ _ _ _ a b H).
    - intros ws ws' ws1 ws1' _ H (K1 & K2) (K1' & K2'). pose proof (seen_layer N own inv base t x ws ws' (snd ws1) (snd ws1') H K2 K2') as Y. rewrite <- K1, <- K1' in Y. destruct ws1, ws1'. exact Y. }
  split; [exact X|]. split; [apply (good_layers inv N _ _ _ GL L); intros w s s1 H St; exact (seen_size inv N base t x w s s1 H St)|].
  intros gr Er SD Ne. pose proof (restored N 0 [] d1 base dt v c e gr Ec Rc Er) as U.
  assert (Fl : forall g0 s, In g0 (e_groups d1) -> In s (g_states g0) -> exists g1, In g1 gr /\ In s (g_states g1)).
  { intros g0 s I J. destruct (forall2_in_l _ _ _ _ _ _ U I) as (g1 & I1 & (_ & Es & _)). exists g1. split; [exact I1|]. rewrite Es. exact J. }
  assert (Fr : forall g1 s, In g1 gr -> In s (g_states g1) -> exists g0, In g0 (e_groups d1) /\ In s (g_states g0)).
  { intros g1 s I J. destruct (forall2_in_r _ _ _ _ _ _ U I) as (g0 & I1 & (_ & Es & _)). exists g0. split; [exact I1|]. rewrite <- Es. exact J. }
  assert (Ne1 : e_groups d1 <> []) by (intros Z; rewrite Z in L; inversion L; congruence).
  assert (EQ : allQuiet N x (e_groups d1) -> allQuiet nn (part N own x) (e_groups d1')).
  { intros A. apply quiet_layers. intros ws' I'. destruct Sh as (_ & H1 & _). destruct (H1 ws' I') as (ws & I & Lw). apply (layer_quiet N own x ws ws' Lw). apply (proj1 (quiet_layers N x _) A ws I). }
  assert (T' : allQuiet nn (part N own x) (e_groups d1') -> gs' = [] \/ q' = true).
  { intros A. destruct gs' as [|g0 gr0]; [left; reflexivity|right]. apply Q'; [|exact A]. intros Z. rewrite Z in L'. inversion L'. }
  split.
  - intros Hq. apply T', EQ, (Q Ne1), Hq.
  - intros Hq. destruct SD as [A|[(g1 & s & I & J & T & Nq)|No]].
    + exfalso. assert (q = true); [|congruence]. apply (Q Ne1). intros g0 s I J. destruct (Fl g0 s I J) as (g1 & I1 & J1). exact (A g1 s I1 J1).
    + right. destruct (Fr g1 s I J) as (g0 & I0 & J0). destruct Sh as (_ & _ & H2). destruct (H2 (g_w g0, s)) as ([w' s'] & I' & Lw); [apply in_layers; exists g0; auto|exact T|].
      assert (Nq' : ~ allQuiet nn (part N own x) (e_groups d1')).
      { intros A. apply Nq. apply (layer_quiet N own x (g_w g0, s) (w', s') Lw). apply (proj1 (quiet_layers nn (part N own x) _) A (w', s') I'). }
      assert (Ne' : e_groups d1' <> []) by (intros Z; rewrite Z in I'; destruct I').
      split; [intros Z; rewrite Z in L'; inversion L'; congruence|]. destruct q'; [|reflexivity]. exfalso. apply Nq', (Q' Ne'). reflexivity.
    + left. assert (Z : layersIn (e_groups d1') = []).
      { destruct (layersIn (e_groups d1')) as [|ws' r] eqn:E0; [reflexivity|]. exfalso. destruct Sh as (_ & H1 & _). destruct (H1 ws' (or_introl eq_refl)) as ([w s] & I & Lw).
        apply in_layers in I. destruct I as (g0 & I & _ & J). destruct (Fl g0 s I J) as (g1 & I1 & J1). apply (No g1 s I1 J1). left.
        destruct Lw as (_ & _ & _ & (i & Hi & _ & Ed) & _). exists (nth i own 0%nat). split; [apply nth_In; exact Hi|exact Ed]. }
      split.
      * pose proof (flat_layers _ _ _ L') as F'. rewrite Z in F'. inversion F'. reflexivity.
      * apply T'. apply quiet_layers. rewrite Z. intros ws [].
Qed.
Lemma mid_keep : forall e e' f f', mid e e' -> EvolHist_Proofs.rel N 0 [] e f -> EvolHist_Proofs.rel nn g [] e' f' -> mid f f'.
Proof.
  intros e e' f f' (d1 & c & base & dt & v & d1' & c' & Hdt & Rd & Ec & Rc & Ec' & Rc') H H'. exists d1, c, base, dt, v, d1', c'. repeat (split; [assumption|]).
  split; [eapply rel_trans; eassumption|]. split; [exact Ec'|]. eapply rel_trans; eassumption.
Qed.
Lemma mid_good : forall e e', mid e e' -> EvolHist_Proofs.good N 0 [] e /\ EvolHist_Proofs.good nn g [] e'.
Proof. intros e e' (d1 & c & base & dt & v & d1' & c' & Hdt & Rd & Ec & Rc & Ec' & Rc'). split; [apply Rc|apply Rc']. Qed.
Lemma eval_part : forall e e' t x y z f z' f', mid e e' -> (forall gr, restore (e_groups e) (e_cp e) = Ok gr -> sameDecision N own x gr) ->
  length x = (6 * N)%nat -> length y = (6 * N)%nat ->
  addLayers inv (mkLR N 0 Mo e1 e2) e t x y = Ok (z, f) -> addLayers inv (rankLayers dim alpha ob ib lm rk (e1', e2')) e' t (part N own x) (part N own y) = Ok (z', f') ->
  z' = part N own z /\ length z = (6 * N)%nat /\ mid f f'.
Proof.
  intros e e' t x y z f z' f' Hm SD Lx Ly E E'. destruct (mid_good e e' Hm) as (Ge & Ge'). pose proof (proj1 P) as Pn.
  unfold addLayers, rankLayers in E, E'. cbn [lr_n lr_g lr_M lr_e1 lr_e2 fst snd] in E, E'. rewrite Pn in E'.
  destruct (multSub inv N (Some Mo) e t x) as [[gs q]| |] eqn:Es; cbn [bind fst snd] in E; try discriminate.
  destruct (multSub inv nn (Some Mr) e' t (part N own x)) as [[gs' q']| |] eqn:Es'; cbn [bind fst snd] in E'; try discriminate.
  destruct (sub_shared _ _ e e' t x gs q gs' q' Hm Lx Es Es') as (Sh & (_ & Fi & NDl) & HQ).
  pose proof (sub_rel N 0 _ e t x gs q Ge Es) as K. pose proof (sub_rel nn g _ e' t _ gs' q' Ge' Es') as K'.
  assert (Hr : exists gr, restore (e_groups e) (e_cp e) = Ok gr).
  { destruct Hm as (d1 & c & base & dt & v & d1' & c' & Hdt & Rd & Ec & Rc & _). destruct (commit_val N d1 base dt v c Ec) as (_ & _ & _ & cps & Ecp & _).
    destruct Rc as (_ & _ & Hcp & _). rewrite <- Hcp, Ecp. cbn [restore]. eexists. reflexivity. }
  destruct Hr as (gr & Er). specialize (HQ gr Er (SD gr Er)).
  assert (Fo : f = mkEvol (e_work e) gs (e_cp e) (e_base e) (e_dt e) (e_cache e)).
  { clear E'. destruct gs; [injection E; auto|]. destruct q; [injection E; auto|]. destruct (sgbcFlux _ _ _ _ _ _ _ _ _); cbn [bind] in E; try discriminate. injection E; auto. }
  assert (Fo' : f' = mkEvol (e_work e') gs' (e_cp e') (e_base e') (e_dt e') (e_cache e')).
  { clear E Fo. destruct gs'; [injection E'; auto|]. destruct q'; [injection E'; auto|]. destruct (sgbcFlux _ _ _ _ _ _ _ _ _); cbn [bind] in E'; try discriminate. injection E'; auto. }
  assert (HM : mid f f') by (rewrite Fo, Fo'; apply (mid_keep e e'); assumption).
  assert (X : z' = part N own z /\ length z = (6 * N)%nat); [|split; [apply X|split; [apply X|exact HM]]]. clear HM Fo Fo' K K'.
  assert (Nil' : forall z0 f0, gs' = [] \/ q' = true -> match gs' with [] => Ok (part N own y, z0) | _ => if (q' : bool) then Ok (part N own y, z0) else f0 end = Ok (z', f') -> z' = part N own y).
  { intros z0 f0 [-> | ->] H; [injection H; auto|]. destruct gs'; injection H; auto. }
  assert (ES : gs = [] \/ gs <> []) by (destruct gs; [left; reflexivity|right; discriminate]). destruct ES as [->|Ne].
  - injection E as <- _. assert (gs' = [] \/ q' = true) as Hn.
    { clear E' Nil'. unfold multSub in Es'. destruct (e_groups e') as [|g0 r0] eqn:Eg; [injection Es' as <- _; left; reflexivity|]. rewrite <- Eg in *.
      destruct Hm as (d1 & c & base & dt & v & d1' & c' & Hdt & (_ & _ & GL & Ro & Sh1) & Ec & Rc & Ec' & Rc').
      assert (D0 : e_groups d1 = []).
      { destruct (commit_val N d1 base dt v c Ec) as (G0 & _). pose proof (proj2 (proj2 (proj2 (proj2 (proj2 Rc))))) as SG. rewrite G0 in SG.
        destruct (e_groups e) as [|g1 r1] eqn:Ee; [inversion SG; reflexivity|]. exfalso. unfold multSub in Es. rewrite Ee in Es. cbn [bind] in Es. rewrite Er in Es. cbn [bind] in Es.
        assert (gr <> []). { intros ->. destruct (e_cp e) as [cps|] eqn:Ecp; [|cbn [restore] in Er; discriminate].
          pose proof (restored N 0 [] d1 base dt v c e [] Ec Rc) as U. rewrite Ee, Ecp in U. specialize (U Er). inversion U as [Z|]. rewrite <- Z in SG. inversion SG. }
        destruct (anyLoud _ _ _); cbn [bind] in Es; try discriminate. destruct a; [|injection Es as Z _; contradiction]. destruct Rlt_dec; [|injection Es as Z _; contradiction].
        destruct gr as [|h hr]; [contradiction|]. cbn [mapM] in Es. destruct (overStates _ _ _) as [[ss d]| |]; cbn [bind] in Es; try discriminate.
        destruct (mapM _ hr) as [vv| |]; cbn [bind] in Es; discriminate. }
      rewrite D0 in Sh1. destruct (multSub_layers inv nn g [] (Some Mr) (fun _ => []) (fun _ _ _ => []) d1' base dt (part N own v) c' e' t (part N own x) gs' q' Ro Ec' Rc' ltac:(discriminate)) as (Q' & L').
      { unfold multSub. rewrite Eg. rewrite <- Eg. exact Es'. }
      destruct gs' as [|h hr]; [left; reflexivity|right]. apply Q'; [intros Z; rewrite Z in L'; inversion L'|]. apply quiet_layers. intros ws' I'. destruct Sh1 as (_ & H1 & _). destruct (H1 ws' I') as (ws & [] & _). }
    split; [exact (Nil' _ _ Hn E')|exact Ly].
  - destruct (HQ Ne) as (HQ1 & HQ2). assert (Eo : (if (q : bool) then Ok (y, f) else bind (sgbcFlux N 0 e1 e2 Mo gs x (zeros (6 * (N + 0))) y) (fun q0 => Ok (snd q0, f))) = Ok (z, f)).
    { assert (Fo : f = mkEvol (e_work e) gs (e_cp e) (e_base e) (e_dt e) (e_cache e)).
      { clear E' Nil'. destruct gs; [contradiction|]. destruct q; [injection E; auto|]. destruct (sgbcFlux _ _ _ _ _ _ _ _ _); cbn [bind] in E; try discriminate. injection E; auto. }
      destruct gs as [|g0 r0]; [contradiction|]. rewrite Fo at 1 2. rewrite Fo in E. rewrite Fo. exact E. }
    destruct q.
    + injection Eo as <-. split; [exact (Nil' _ _ (HQ1 eq_refl) E')|exact Ly].
    + destruct (HQ2 eq_refl) as [(Hl & Hn)|(Ne' & ->)].
      * pose proof (Nil' _ _ Hn E') as ->. destruct (sgbcFlux N 0 e1 e2 Mo gs x _ y) as [[w0 z0]| |] eqn:Ef; cbn [bind snd] in Eo; try discriminate. injection Eo as ->.
        destruct (flux_none gs gs' Sh Fi NDl x y w0 z Hl Lx Ly Ef) as (H1 & H2). split; [symmetry; exact H1|exact H2].
      * destruct (flux_part gs gs' Sh Fi NDl x y Lx Ly) as (w0 & z0 & w1 & F1 & F2 & F3). rewrite F1 in Eo. cbn [bind snd] in Eo. injection Eo as ->.
        destruct gs' as [|g0 r0]; [contradiction|]. rewrite F3 in E'. cbn [bind snd] in E'. injection E' as <- _. split; [reflexivity|exact F2].
Qed.
Lemma finalize_part : forall e e' x f f', mid e e' -> (forall gr, restore (e_groups e) (e_cp e) = Ok gr -> sameDecision N own x gr) ->
  finalize inv N e x = Ok f -> finalize inv nn e' (part N own x) = Ok f' -> ready f f'.
Proof.
  intros e e' x f f' Hm SD E E'. destruct (mid_good e e' Hm) as (Ge & Ge').
  pose proof (finalize_agree inv N 0 [] e e x (rel_refl _ _ _ _ Ge)) as A. rewrite E in A. cbn in A. destruct A as (_ & (_ & Gf & _)).
  pose proof (finalize_agree inv nn g [] e' e' (part N own x) (rel_refl _ _ _ _ Ge')) as A'. rewrite E' in A'. cbn in A'. destruct A' as (_ & (_ & Gf' & _)).
  destruct Hm as (d1 & c & base & dt & v & d1' & c' & Hdt & (Gd & Gd' & GL & Ro & Sh) & Ec & Rc & Ec' & Rc').
  assert (Hr : exists gr, restore (e_groups e) (e_cp e) = Ok gr).
  { destruct (commit_val N d1 base dt v c Ec) as (_ & _ & _ & cps & Ecp & _). destruct Rc as (_ & _ & Hcp & _). rewrite <- Hcp, Ecp. cbn [restore]. eexists. reflexivity. }
  destruct Hr as (gr & Er). specialize (SD gr Er).
  pose proof (finalize_layers inv N 0 [] (fun _ => []) (fun _ _ _ => []) d1 base dt v c e x f (fun h I => proj1 (proj1 GL h I)) Hdt Ec Rc E) as L.
  pose proof (finalize_layers inv nn g [] (fun _ => []) (fun _ _ _ => []) d1' base dt (part N own v) c' e' (part N own x) f' Ro Hdt Ec' Rc' E') as L'.
  pose proof (restored N 0 [] d1 base dt v c e gr Ec Rc Er) as U.
  assert (EQ : layersIn (e_groups d1') <> [] -> (allQuiet N x (e_groups d1) <-> allQuiet nn (part N own x) (e_groups d1'))).
  { intros Ne. split.
    - intros A. apply quiet_layers. intros ws' I'. destruct Sh as (_ & H1 & _). destruct (H1 ws' I') as (ws & I & Lw). apply (layer_quiet N own x ws ws' Lw). apply (proj1 (quiet_layers N x _) A ws I).
    - intros A. destruct SD as [B|[(g1 & s & I & J & T & Nq)|No]].
      + intros g0 s I J. destruct (forall2_in_l _ _ _ _ _ _ U I) as (g1 & I1 & (_ & Es & _)). apply (B g1 s I1). rewrite Es. exact J.
      + exfalso. apply Nq. destruct (forall2_in_r _ _ _ _ _ _ U I) as (g0 & I1 & (_ & Es & _)). rewrite Es in J. destruct Sh as (_ & _ & H2). destruct (H2 (g_w g0, s)) as (ws' & I' & Lw); [apply in_layers; exists g0; auto|exact T|].
        apply (layer_quiet N own x (g_w g0, s) ws' Lw). apply (proj1 (quiet_layers nn (part N own x) _) A ws' I').
      + exfalso. destruct (layersIn (e_groups d1')) as [|ws' r] eqn:E0; [contradiction|]. destruct Sh as (_ & H1 & _). destruct (H1 ws' (or_introl eq_refl)) as ([w s] & I & Lw).
        apply in_layers in I. destruct I as (g0 & I & _ & J). destruct (forall2_in_l _ _ _ _ _ _ U I) as (g1 & I1 & (_ & Es & _)). apply (No g1 s I1); [rewrite Es; exact J|]. left.
        destruct Lw as (_ & _ & _ & (i & Hi & _ & Ed) & _). exists (nth i own 0%nat). split; [apply nth_In; exact Hi|exact Ed]. }
  split; [exact Gf|]. split; [exact Gf'|]. split.
  { apply (good_layers inv N _ _ _ GL L). intros w s s1 H St. exact (next_size inv N base dt v x _ w s s1 H St). }
  split. { intros h I. destruct (forall2_in_r _ _ _ _ _ _ L' I) as (h0 & I0 & (-> & _)). exact (Ro h0 I0). }
  pose proof (flat_layers _ _ _ L) as F. pose proof (flat_layers _ _ _ L') as F'.
  destruct (layersIn (e_groups d1')) as [|ws0 r0] eqn:E0.
  - inversion F' as [E1|]. clear E1. split; [constructor|]. split; [intros ws' []|]. intros ws1 I1 T. exfalso.
    destruct (forall2_in_r _ _ _ _ _ _ F I1) as (ws & I & K). destruct (next_kept _ _ _ _ _ _ _ _ _ K) as (_ & K1 & K2 & _). destruct Sh as (_ & _ & H2).
    destruct (H2 ws I) as (ws' & [] & _). unfold touches in *. rewrite K1, K2. exact T.
  - specialize (EQ ltac:(discriminate)). apply (shared_step own _ _ _ _ _ _ Sh F F').
    + intros a b H. exact (next_kept _ _ _ _ _ _ _ a b H).
    + intros a b H. exact (next_kept _ _ _ _ _ _ _ a b H).
    + intros ws ws' ws1 ws1' _ H (K1 & K2) (K1' & K2').
      pose proof (next_layer N own inv base dt v x _ _ ws ws' (snd ws1) (snd ws1') H (still_dec N x (e_groups d1)) EQ K2 K2') as Y. rewrite <- K1, <- K1' in Y. destruct ws1, ws1'. exact Y.
Qed.
End One.

(** Thin layers whose fields halve in every step: runs that succeed, and a layer that one process
    integrates and two do not. *)
From Coq Require Import ZArith List Bool Reals Lia Lra Permutation.
From Verif Require Import Common Csr_Model Csr_Spec Face_Model Face_Spec Setup_Model Assembly_Model Form_Model Form_Spec Nodal_Spec Global_Spec GlobalEx_Proofs Tfsf_Spec TfsfEx_Proofs Evol_Model Evol_Spec EvolLayer_Spec Evol_Proofs EvolHist_Proofs EvolRhs_Proofs EvolReach_Proofs EvolEx_Proofs EvolLayer_Proofs Ode_Model Par_Model Par_Spec ParMult_Proofs ParSrc_Model ParSrc_Spec ParSrc_Proofs ParSrcEx_Proofs ParLay_Model ParLay_Spec ParLay_Proofs ParLayRun_Proofs ParLayOk_Proofs ParLayFin_Proofs.
Import ListNotations.
Local Open Scope R_scope.

Definition hOde (t h : R) (x : list R) : prog := Ret (map (fun v => v / 2) x).
Definition hW : wrapper := mkW 3 1 0 PEC Transparent [] hOde.
Lemma h_roomy : roomy hW.
Proof. split; cbn; lia. Qed.
Lemma h_sane : sane hW.
Proof. intros t dt x _. exact I. Qed.
Lemma h_steady : forall inv, steady inv hW.
Proof. intros inv t h x. cbn. apply map_length. Qed.
Lemma h_fill : forall v6 all, length all = 18%nat -> exists all', fillLeft 3 1 v6 all = Ok all' /\ length all' = 18%nat.
Proof.
  intros v6 all H. do 18 (destruct all as [|? all]; [discriminate|]). destruct all; [|discriminate]. eexists. split; reflexivity.
Qed.
Lemma h_fillR : forall v6 all, length all = 18%nat -> exists all', fillRight 3 1 v6 all = Ok all' /\ length all' = 18%nat.
Proof.
  intros v6 all H. do 18 (destruct all as [|? all]; [discriminate|]). destruct all; [|discriminate]. eexists. split; reflexivity.
Qed.
Lemma h_advance : forall inv base dt gh s d, 0 < dt -> cache_ok (w_A hW) (d_cache d) -> length (s_fs s) = 18%nat ->
  (forall a k all, length all = 18%nat -> exists all', gh a k all = Ok all') -> exists s1 d1, advance inv hW base dt gh s d = Ok (s1, d1) /\ cache_ok (w_A hW) (d_cache d1).
Proof.
  intros inv base dt gh s d Hdt Hc L H.
  assert (E : exists q, advance inv hW base dt gh s d = Ok q).
  { unfold advance, nsteps. cbn [w_rec hW]. destruct (Rlt_dec 0 0); [lra|]. cbn [bind]. cbv zeta. change (zseq (Z.to_nat 1)) with [0%Z]. cbn [foldM].
    destruct (H ((0 + 1) / 1) 0%Z (d_all (set_all d (s_fs s))) L) as (all & Ea). rewrite Ea. cbn [bind]. unfold solve. destruct Rlt_dec; cbn [bind]; [eauto|]. cbv zeta. cbn [w_ode hW hOde runProg bind]. eauto. }
  destruct E as ([s1 d1] & E). exists s1, d1. split; [exact E|]. exact (advance_kept inv hW base dt gh s d s1 d1 h_sane Hdt Hc E).
Qed.

Section Any.
Variable N : nat.
Variable inv : list (list R) -> list R -> list R.
Definition hgood (e : evol) : Prop := EvolHist_Proofs.good N 0 [] e /\ goodLayers inv N (e_groups e) /\ forall g, In g (e_groups e) -> g_w g = hW.
Definition hmid (e : evol) : Prop := exists d1 c base dt v, 0 < dt /\ hgood d1 /\ commit N d1 base dt v = Ok c /\ EvolHist_Proofs.rel N 0 [] c e.
Lemma h_get : forall v d, length v = (6 * N)%nat -> (0 <= d < Z.of_nat N)%Z -> exists l, getEH v (nZ N) d = Ok l.
Proof. intros v d L H. unfold nZ. destruct (getEH_ok v (Z.of_nat N) d) as (l & E & _); [lia|lia|]. eauto. Qed.
Lemma h_ghosts : forall v w s, length v = (6 * N)%nat -> Evol_Spec.fits N (w, s) -> exists q, ghostsAt N v s = Ok q.
Proof.
  intros v w s L (Hl & Hr & _). unfold ghostsAt. destruct (h_get v _ L Hl) as (l & ->). cbn [bind]. destruct (s_gr s =? -1)%Z eqn:E; [eauto|].
  apply Z.eqb_neq in E. destruct Hr as [Hr|Hr]; [contradiction|]. destruct (h_get v _ L Hr) as (r & ->). cbn [bind]. eauto.
Qed.
Lemma h_update : forall v w s all, length v = (6 * N)%nat -> Evol_Spec.fits N (w, s) -> length all = 18%nat -> exists all', updateGhosts 3 1 v (nZ N) s all = Ok all'.
Proof.
  intros v w s all L (Hl & Hr & _) La. unfold updateGhosts. destruct (h_get v _ L Hl) as (l & ->). cbn [bind].
  destruct (h_fill (rotIn (s_rot s) l) all La) as (a1 & -> & L1). cbn [bind]. destruct (s_gr s =? -1)%Z eqn:E; [eauto|].
  apply Z.eqb_neq in E. destruct Hr as [Hr|Hr]; [contradiction|]. destruct (h_get v _ L Hr) as (r & ->). cbn [bind]. destruct (h_fillR (rotIn (s_rot s) r) a1 L1) as (a2 & -> & _). eauto.
Qed.
Lemma h_interp : forall a lo ln ro rn s all, length all = 18%nat -> exists all', updateInterp 3 1 a lo ln ro rn s all = Ok all'.
Proof.
  intros a lo ln ro rn s all La. unfold updateInterp. destruct (h_fill (lerp a lo ln) all La) as (a1 & -> & L1). cbn [bind]. destruct (s_gr s =? -1)%Z; [eauto|]. destruct (h_fillR (lerp a ro rn) a1 L1) as (a2 & -> & _). eauto.
Qed.
Lemma h_commit : forall e t dt x, hgood e -> 0 < dt -> length x = (6 * N)%nat -> exists c, commit N e t dt x = Ok c /\ hmid c.
Proof.
  intros e t dt x H Hdt Lx. assert (E : exists c, commit N e t dt x = Ok c).
  { unfold commit. destruct (every_ok (fun h => mapM (fun s => gh <- ghostsAt N x s ;; Ok (s_fs s, gh)) (g_states h)) (e_groups e)) as (ys & ->); [|cbn [bind]; eauto].
    intros h I. apply every_ok. intros s J. destruct H as (_ & (_ & Fi & _) & _). rewrite Forall_forall in Fi. destruct (h_ghosts x (g_w h) s Lx) as (q & ->); [|cbn [bind]; eauto]. apply Fi. apply in_layers. exists h. auto. }
  destruct E as (c & E). exists c. split; [exact E|]. exists e, c, t, dt, x. split; [exact Hdt|]. split; [exact H|]. split; [exact E|]. exact (commit_good N 0 e t dt x c Hdt (proj1 H) E).
Qed.
Lemma h_layers : forall e, hmid e -> exists gr d1 base dt v cps, 0 < dt /\ hgood d1 /\ restore (e_groups e) (e_cp e) = Ok gr /\ Forall2 usable (e_groups d1) gr /\ e_base e = base /\ e_dt e = dt /\ e_cp e = Some cps /\
  Forall2 (fun h cp => Forall2 (stored N v) (g_states h) cp) (e_groups d1) cps /\
  (forall h s, In h gr -> In s (g_states h) -> Evol_Spec.fits N (hW, s)) /\ (forall h, In h gr -> g_w h = hW /\ cache_ok (w_A hW) (d_cache (g_d h))).
Proof.
  intros e (d1 & c & base & dt & v & Hdt & Hg & Ec & Rc). destruct (commit_val N d1 base dt v c Ec) as (_ & B & Tt & cps & Ecp & St). pose proof Rc as (_ & _ & K1 & K2 & K3 & _).
  assert (Er : exists gr, restore (e_groups e) (e_cp e) = Ok gr) by (rewrite <- K1, Ecp; cbn [restore]; eauto). destruct Er as (gr & Er).
  pose proof (restored N 0 [] d1 base dt v c e gr Ec Rc Er) as U. exists gr, d1, base, dt, v, cps. split; [exact Hdt|]. split; [exact Hg|]. split; [exact Er|]. split; [exact U|].
  split; [congruence|]. split; [congruence|]. split; [congruence|]. split; [exact St|]. destruct Hg as (_ & (_ & Fi & _) & Hw). split.
  - intros h s I J. destruct (forall2_in_r _ _ _ _ _ _ U I) as (h0 & I0 & (_ & Es & _)). rewrite Es in J. rewrite Forall_forall in Fi. rewrite <- (Hw h0 I0). apply Fi. apply in_layers. exists h0. auto.
  - intros h I. destruct (forall2_in_r _ _ _ _ _ _ U I) as (h0 & I0 & (Ew & _ & _ & Hc)). rewrite (Hw h0 I0) in Ew. rewrite Ew in Hc. auto.
Qed.
Lemma h_any : forall gr x, length x = (6 * N)%nat -> (forall h s, In h gr -> In s (g_states h) -> Evol_Spec.fits N (hW, s)) -> exists b, anyLoud N x (flat_map g_states gr) = Ok b.
Proof. intros gr x Lx H. apply any_ok. intros s I. apply in_flat_map in I. destruct I as (h & I & J). exact (loud_ok N x hW s Lx (H h s I J)). Qed.
Lemma h_sub : forall M e t x, hmid e -> length x = (6 * N)%nat -> exists r, multSub inv N (Some M) e t x = Ok r.
Proof.
  intros M e t x Hm Lx. destruct (h_layers e Hm) as (gr & d1 & base & dt & v & cps & Hdt & Hg & Er & U & B & Tt & C & St & Fi & Hw).
  unfold multSub. destruct (e_groups e) as [|g0 r0] eqn:Eg; [eauto|]. rewrite Er. cbn [bind]. destruct (h_any gr x Lx Fi) as (b & ->). cbn [bind]. destruct b; [|eauto]. destruct (Rlt_dec (/ 1000000000000) (t - e_base e)) as [Hl|]; [|eauto].
  match goal with |- context [mapM ?f gr] => destruct (every_ok f gr) as (ys & ->); [|cbn [bind]; eauto] end. intros h I. cbn beta. destruct (Hw h I) as (Ew & Hc). rewrite Ew.
  match goal with |- context [overStates ?f ?l ?d] => destruct (loop_ok (w_A hW) _ overStates (fun _ _ => eq_refl) (fun _ _ _ _ => eq_refl) f l d) as (ss & d2 & ->); [|exact Hc|cbn [bind]; eauto] end.
  intros s d J Hd. pose proof (Fi h s I J) as Fs. unfold subMult. destruct (loud_ok N x hW s Lx Fs) as (b & ->). cbn [bind]. destruct b; [|eauto].
  apply h_advance; [eapply Rlt_trans; [|exact Hl]; apply Rinv_0_lt_compat; lra|exact Hd|apply Fs|]. intros a k all La. exact (h_update x hW s all Lx Fs La).
Qed.
Lemma h_finalize : forall e x, hmid e -> length x = (6 * N)%nat -> exists f, finalize inv N e x = Ok f /\ hgood f.
Proof.
  intros e x Hm Lx. assert (E : exists f, finalize inv N e x = Ok f).
  { destruct (h_layers e Hm) as (gr & d1 & base & dt & v & cps & Hdt & Hg & Er & U & B & Tt & C & St & Fi & Hw).
    unfold finalize. rewrite Er. cbn [bind]. cbv zeta. destruct (h_any gr x Lx Fi) as (b & ->). cbn [bind]. destruct b; [|eauto]. rewrite C.
    match goal with |- context [mapM ?f ?l] => destruct (every_ok f l) as (ys & ->); [|cbn [bind]; eauto] end. intros [h cp] Ip. pose proof (in_combine_l _ _ _ _ Ip) as I. cbn beta iota. destruct (Hw h I) as (Ew & Hc). rewrite Ew.
    match goal with |- context [overPairs ?f ?l ?d] => destruct (loop_ok (w_A hW) _ overPairs (fun _ _ => eq_refl) (fun _ _ _ _ => eq_refl) f l d) as (ss & d2 & ->); [|exact Hc|cbn [bind]; eauto] end.
    intros [s ci] d J2 Hd. pose proof (in_combine_l _ _ _ _ J2) as J. pose proof (Fi h s I J) as Fs. unfold finState. cbv zeta. cbn [fst snd]. destruct (h_ghosts x hW s Lx Fs) as ([ln rn] & ->). cbn [bind]. destruct (snd ci) as [lo ro].
    rewrite Tt. apply h_advance; [exact Hdt|exact Hd|apply Fs|]. intros a k all La. exact (h_interp a lo ln ro rn s all La). }
  destruct E as (f & E). exists f. split; [exact E|]. destruct Hm as (d1 & c & base & dt & v & Hdt & (Gd & GL & Hw) & Ec & Rc).
  pose proof (finalize_layers inv N 0 [] (fun _ => []) (fun _ _ _ => []) d1 base dt v c e x f (fun h I => proj1 (proj1 GL h I)) Hdt Ec Rc E) as L.
  pose proof (finalize_agree inv N 0 [] e e x (rel_refl _ _ _ _ (proj1 (proj2 Rc)))) as A. rewrite E in A. cbn in A. split; [apply A|]. split.
  - apply (good_layers inv N _ _ _ GL L). intros w s s1 H St. exact (next_size inv N base dt v x _ w s s1 H St).
  - intros h I. destruct (forall2_in_r _ _ _ _ _ _ L I) as (h0 & I0 & (-> & _)). exact (Hw h0 I0).
Qed.
Variable M : matrix.
Variables e1 e2 : list Z.
Hypothesis LM : length M = (6 * N)%nat.
Hypothesis CM : Forall (colsIn (wsize N 0)) M.
Hypothesis ND1 : NoDup e1.
Hypothesis ND2 : NoDup e2.
Hypothesis R1 : forall d, In d e1 -> (0 <= d < Z.of_nat N)%Z.
Hypothesis R2 : forall d, In d e2 -> (0 <= d < Z.of_nat N)%Z.
Lemma h_add : forall e t x y, hmid e -> length x = (6 * N)%nat -> length y = (6 * N)%nat -> exists z f, addLayers inv (mkLR N 0 M e1 e2) e t x y = Ok (z, f) /\ hmid f /\ length z = (6 * N)%nat.
Proof.
  intros e t x y Hm Lx Ly. destruct (h_sub M e t x Hm Lx) as ([gs q] & E). unfold addLayers. cbn [lr_n lr_g lr_M lr_e1 lr_e2]. rewrite E. cbn [bind fst snd].
  assert (K : hmid (mkEvol (e_work e) gs (e_cp e) (e_base e) (e_dt e) (e_cache e)) /\ goodLayers inv N gs).
  { destruct Hm as (d1 & c & base & dt & v & Hdt & (Gd & GL & Hw) & Ec & Rc). split.
    - exists d1, c, base, dt, v. split; [exact Hdt|]. split; [exact (conj Gd (conj GL Hw))|]. split; [exact Ec|]. eapply rel_trans; [exact Rc|]. exact (sub_rel inv N 0 M e t x gs q (proj1 (proj2 Rc)) E).
    - destruct (multSub_layers inv N 0 [] (Some M) (fun _ => []) (fun _ _ _ => []) d1 base dt v c e t x gs q (fun h I => proj1 (proj1 GL h I)) Ec Rc ltac:(discriminate) E) as (_ & L).
      apply (good_layers inv N _ _ _ GL L). intros w s s1 H St. exact (seen_size inv N base t x w s s1 H St). }
  destruct K as (K & (_ & Fi & NDl)). destruct gs as [|g0 r0] eqn:Eg; [eauto|]. rewrite <- Eg in *. destruct q; [eauto|].
  destruct (flux_ok N 0 e1 e2 M gs x y) as (W1 & W2 & w & z & _ & _ & Ez & Lz & _); try assumption. { rewrite Lx. unfold nZ. lia. }
  change (6 * (N + 0))%nat with (wsize N 0). rewrite Ez. cbn [bind snd]. exists z. eexists. split; [reflexivity|]. split; [exact K|exact Lz].
Qed.
Variable F : R -> list R -> list R.
Hypothesis FL : forall t x, length x = (6 * N)%nat -> length (F t x) = (6 * N)%nat.
Lemma h_addF : forall e t x, hmid e -> length x = (6 * N)%nat -> exists z f, addLayers inv (mkLR N 0 M e1 e2) e t x (F t x) = Ok (z, f) /\ hmid f /\ length z = (6 * N)%nat.
Proof. intros e t x Hm Lx. exact (h_add e t x (F t x) Hm Lx (FL t x Lx)). Qed.
Lemma h_run : forall dts e x t, hgood e -> Forall (fun dt => 0 < dt) dts -> length x = (6 * N)%nat -> exists z f, oneRun inv F (mkLR N 0 M e1 e2) e x t dts = Ok (z, f).
Proof.
  intros dts. unfold oneRun. induction dts as [|dt l IH]; intros e x t He Hd Lx; cbn [layerSteps]; [eauto|]. inversion Hd as [|? ? Hdt Hd']; subst.
  assert (S : exists z f, layerStep (list R) evol (fun _ _ e t x => addLayers inv (mkLR N 0 M e1 e2) e t x (F t x)) addv (commit N) (finalize inv N) (length l) e x t dt = Ok (z, f) /\ hgood f /\ length z = (6 * N)%nat).
  { unfold layerStep, rk4Layers. cbv beta zeta. destruct (h_commit e t dt x He Hdt Lx) as (c & -> & Hc). cbn [bind].
    assert (AL : forall a k y, length k = (6 * N)%nat -> length y = (6 * N)%nat -> length (addv a k y) = (6 * N)%nat) by (intros; rewrite addv_len; congruence).
    destruct (h_addF c t x Hc Lx) as (k1 & f1 & -> & M1 & L1). cbn [bind fst snd].
    destruct (h_addF f1 (t + dt / 2) (addv (dt / 2) k1 x) M1 (AL _ _ _ L1 Lx)) as (k2 & f2 & -> & M2 & L2). cbn [bind fst snd].
    destruct (h_addF f2 (t + dt / 2) (addv (dt / 2) k2 x) M2 (AL _ _ _ L2 Lx)) as (k3 & f3 & -> & M3 & L3). cbn [bind fst snd].
    destruct (h_addF f3 (t + dt) (addv dt k3 x) M3 (AL _ _ _ L3 Lx)) as (k4 & f4 & -> & M4 & L4). cbn [bind fst snd].
    assert (Lz : length (addv (dt / 6) k4 (addv (dt / 3) k3 (addv (dt / 3) k2 (addv (dt / 6) k1 x)))) = (6 * N)%nat) by auto.
    destruct (h_finalize f4 _ M4 Lz) as (f5 & -> & G5). cbn [bind]. eauto. }
  destruct S as (z & f & E & G & L). cbn [lr_n]. rewrite E. cbn [bind fst snd]. exact (IH f z (t + dt) G Hd' L).
Qed.
End Any.

(** ** Four elements, two processes, a layer on the first *)
Definition hS (l r : Z) (fs : list R) : sstate := mkS l r id9 fs.
Definition hE (ss : list sstate) : evol := mkEvol [] [mkG hW exD ss] None 0 0 newCache.
Definition hNone : evol := mkEvol [] [] None 0 0 newCache.
Definition hEls : list (list Z * list Z) := [([0], [1]); ([], [])]%Z.
Lemma h_fresh : forall ss, fresh (hE ss).
Proof. intros ss. repeat split; auto. constructor; [|constructor]. split; [apply h_sane|reflexivity]. Qed.
Lemma h_elements : Forall2 (fun own el => elementsShared own [0%Z] (fst el) /\ elementsShared own [1%Z] (snd el)) kOwns hEls.
Proof.
  assert (X : forall own d k, sameDof own d k -> In (Z.to_nat d) own) by (intros own d k (i & Hi & _ & ->); rewrite Nat2Z.id; apply nth_In; exact Hi).
  constructor; [|constructor; [|constructor]]; cbn [fst snd].
  - split; (split; [repeat constructor; intros []|]); intros k; (split; [intros [<-|[]]|intros (d & [<-|[]] & (i & Hi & -> & E))]).
    + exists 0%Z. split; [left; reflexivity|]. exists 0%nat. cbn. auto.
    + cbn in Hi. destruct i as [|[|i]]; [left; reflexivity|cbn in E; lia|lia].
    + exists 1%Z. split; [left; reflexivity|]. exists 1%nat. cbn. auto.
    + cbn in Hi. destruct i as [|[|i]]; [cbn in E; lia|left; reflexivity|lia].
  - split; (split; [constructor|]); intros k; (split; [intros []|intros (d & [<-|[]] & S)]); apply X in S; cbn in S; lia.
Qed.
Lemma h_touch0 : forall fs own, In own kOwns -> (touches own (hS 0 1 fs) <-> own = [0; 1]%nat).
Proof.
  intros fs own [<-|[<-|[]]]; (split; [intros H|intros H]); try reflexivity; try discriminate.
  - left. exists 0%nat. cbn. auto.
  - exfalso. destruct H as [(d & I & E)|(d & I & E)]; cbn in I, E; lia.
Qed.
Lemma h_start : forall inv, startLayers inv 4 kOwns (hE [hS 0 1 (zeros 18)]) [hE [hS 0 1 (zeros 18)]; hNone].
Proof.
  intros inv. split; [apply h_fresh|]. split.
  - split; [intros g [<-|[]]; split; [apply h_roomy|apply h_steady]|]. split; [constructor; [|constructor]; cbn; repeat split; try lia; try (right; lia); reflexivity|]. cbn. repeat constructor; cbn; lia.
  - constructor; [|constructor; [|constructor]].
    + split; [apply h_fresh|]. split; [intros g [<-|[]]; apply h_roomy|].
      assert (Lf : layerOf [0; 1]%nat (hW, hS 0 1 (zeros 18)) (hW, hS 0 1 (zeros 18))).
      { split; [reflexivity|]. split; [reflexivity|]. split; [reflexivity|]. split; [exists 0%nat; cbn; auto|right; exists 1%nat; cbn; auto]. }
      split; [cbn; repeat constructor; cbn; lia|]. split; intros ws [<-|[]]; [|intros _]; (eexists; split; [left; reflexivity|exact Lf]).
    + split; [repeat split; auto; constructor|]. split; [intros g []|]. split; [constructor|]. split; [intros ws []|]. intros ws [<-|[]] H. exfalso. cbn [snd] in H.
      apply (h_touch0 (zeros 18) [2; 3]%nat) in H; [discriminate|right; left; reflexivity].
Qed.
Lemma h_one : onOneProcess kOwns (e_groups (hE [hS 0 1 (zeros 18)])).
Proof. exists [0; 1]%nat. intros g s own [<-|[]] [<-|[]] Io. apply h_touch0. exact Io. Qed.
Lemma h_example : forall F, (forall t x, length x = 24%nat -> length (F t x) = 24%nat) -> forall x t dts, length x = 24%nat -> Forall (fun dt => 0 < dt) dts ->
  exists z f, oneRun exInv F (mkLR 4 0 (finalized (6 * 4) (6 * 4) kT) [0%Z] [1%Z]) (hE [hS 0 1 (zeros 18)]) x t dts = Ok (z, f).
Proof.
  intros F FL x t dts Lx Hd. destruct (final_shape (6 * 4) (6 * 4) kT) as (LM & CM).
  apply (h_run 4 exInv (finalized (6 * 4) (6 * 4) kT) [0%Z] [1%Z]); try assumption; try (repeat constructor; intros []; fail); try (intros d [<-|[]]; lia).
  destruct (h_start exInv) as (Fr & GL & _). split; [apply fresh_good; exact Fr|]. split; [exact GL|]. intros g [<-|[]]. reflexivity.
Qed.

(** ** A loud layer on one process, a quiet one on the other *)
Definition small : R := / 1000000000.
Definition hB : list R := repeat small 18.
Definition hX : list R := 1 :: zeros 23.
Lemma h_small : sqrt (sumsq hB) < / 100000000.
Proof.
  replace (sumsq hB) with (18 * (small * small)) by (unfold sumsq, hB, small; cbn [repeat fold_right]; ring).
  replace (/ 100000000) with (sqrt (/ 100000000 * / 100000000)) by (apply sqrt_square; lra). apply sqrt_lt_1_alt. unfold small. lra.
Qed.
Lemma h_quietB : allQuiet 2 (part 4 [2; 3]%nat hX) [mkG hW exD [hS 0 1 hB]].
Proof.
  intros g s [<-|[]] [<-|[]]. split; [exact h_small|]. replace (part 4 [2; 3]%nat hX) with (zeros 12) by reflexivity. cbn [s_gl s_gr hS]. change (1 =? -1)%Z with false. cbn iota.
  assert (Z0 : forall d c, at_dof 2 (zeros 12) d c = 0) by (intros d c; unfold at_dof, nthZ, zeros; apply nth_repeat). unfold power. rewrite !Z0. lra.
Qed.
Lemma h_loudA : ~ allQuiet 4 hX [mkG hW exD [hS 0 1 (zeros 18); hS 2 3 hB]].
Proof.
  intros H. destruct (H _ (hS 0 1 (zeros 18)) (or_introl eq_refl) (or_introl eq_refl)) as (_ & K). cbn [s_gl s_gr hS] in K. change (1 =? -1)%Z with false in K. cbn iota in K. unfold power in K.
  replace (at_dof 4 hX 0 0) with 1 in K by reflexivity.
  replace (at_dof 4 hX 0 1) with 0 in K by reflexivity. replace (at_dof 4 hX 0 2) with 0 in K by reflexivity. replace (at_dof 4 hX 0 3) with 0 in K by reflexivity.
  replace (at_dof 4 hX 0 4) with 0 in K by reflexivity. replace (at_dof 4 hX 0 5) with 0 in K by reflexivity.
  replace (at_dof 4 hX 1 0) with 0 in K by reflexivity. replace (at_dof 4 hX 1 1) with 0 in K by reflexivity. replace (at_dof 4 hX 1 2) with 0 in K by reflexivity.
  replace (at_dof 4 hX 1 3) with 0 in K by reflexivity. replace (at_dof 4 hX 1 4) with 0 in K by reflexivity. replace (at_dof 4 hX 1 5) with 0 in K by reflexivity. lra.
Qed.
Lemma h_refuted : ~ (forall inv N own e e' x0 x1 t dt c c' f f', (forall d, In d own -> (d < N)%nat) -> NoDup own -> fresh e -> fresh e' -> goodLayers inv N (e_groups e) ->
  (forall g, In g (e_groups e') -> roomy (g_w g)) -> layersShared own (layersIn (e_groups e)) (layersIn (e_groups e')) ->
  0 < dt -> length x0 = (6 * N)%nat -> length x1 = (6 * N)%nat ->
  commit N e t dt x0 = Ok c -> commit (length own) e' t dt (part N own x0) = Ok c' ->
  finalize inv N c x1 = Ok f -> finalize inv (length own) c' (part N own x1) = Ok f' ->
  layersShared own (layersIn (e_groups f)) (layersIn (e_groups f'))).
Proof.
  intros H. set (e := hE [hS 0 1 (zeros 18); hS 2 3 hB]). set (e' := hE [hS 0 1 hB]).
  assert (GL : goodLayers exInv 4 (e_groups e)).
  { split; [intros g [<-|[]]; split; [apply h_roomy|apply h_steady]|]. split; [repeat constructor; cbn; repeat split; try lia; try (right; lia); reflexivity|]. cbn. repeat constructor; cbn; lia. }
  assert (GL' : goodLayers exInv 2 (e_groups e')).
  { split; [intros g [<-|[]]; split; [apply h_roomy|apply h_steady]|]. split; [repeat constructor; cbn; repeat split; try lia; try (right; lia); reflexivity|]. cbn. repeat constructor; cbn; lia. }
  assert (Hg : hgood 4 exInv e) by (split; [apply fresh_good, h_fresh|]; split; [exact GL|intros g [<-|[]]; reflexivity]).
  assert (Hg' : hgood 2 exInv e') by (split; [apply fresh_good, h_fresh|]; split; [exact GL'|intros g [<-|[]]; reflexivity]).
  destruct (h_commit 4 exInv e 0 1 hX Hg ltac:(lra) eq_refl) as (c & Ec & Mc). destruct (h_commit 2 exInv e' 0 1 (part 4 [2; 3]%nat hX) Hg' ltac:(lra) eq_refl) as (c' & Ec' & Mc').
  destruct (h_finalize 4 exInv c hX Mc eq_refl) as (f & Ef & _). destruct (h_finalize 2 exInv c' (part 4 [2; 3]%nat hX) Mc' eq_refl) as (f' & Ef' & _).
  assert (Lw : layerOf [2; 3]%nat (hW, hS 2 3 hB) (hW, hS 0 1 hB)).
  { split; [reflexivity|]. split; [reflexivity|]. split; [reflexivity|]. split; [exists 0%nat; cbn; auto|right; exists 1%nat; cbn; auto]. }
  assert (X : layersShared [2; 3]%nat (layersIn (e_groups f)) (layersIn (e_groups f'))).
  { refine (H exInv 4%nat [2; 3]%nat e e' hX hX 0 1 c c' f f' _ _ (h_fresh _) (h_fresh _) GL (fun g I => proj1 (proj1 GL' g I)) _ ltac:(lra) eq_refl eq_refl Ec Ec' Ef Ef').
    - intros d I. cbn in I. lia.
    - repeat constructor; cbn; lia.
    - split; [cbn; repeat constructor; cbn; lia|]. split.
      + intros ws' [<-|[]]. exists (hW, hS 2 3 hB). split; [right; left; reflexivity|exact Lw].
      + intros ws [<-|[<-|[]]] T.
        * exfalso. destruct T as [(d & I & E)|(d & I & E)]; cbn in I, E; lia.
        * exists (hW, hS 0 1 hB). split; [left; reflexivity|exact Lw]. }
  pose proof (finalize_layers exInv 4 0 [] (fun _ => []) (fun _ _ _ => []) e 0 1 hX c c hX f (fun h I => proj1 (proj1 GL h I)) ltac:(lra) Ec (commit_good 4 0 e 0 1 hX c ltac:(lra) (proj1 Hg) Ec) Ef) as L.
  pose proof (finalize_layers exInv 2 0 [] (fun _ => []) (fun _ _ _ => []) e' 0 1 (part 4 [2; 3]%nat hX) c' c' (part 4 [2; 3]%nat hX) f' (fun h I => proj1 (proj1 GL' h I)) ltac:(lra) Ec' (commit_good 2 0 e' 0 1 _ c' ltac:(lra) (proj1 Hg') Ec') Ef') as L'.
  apply flat_layers in L. apply flat_layers in L'. cbn [e e' hE e_groups layersIn flat_map map g_w g_states app] in L, L'. revert X L L'. fold (layersIn (e_groups f)). fold (layersIn (e_groups f')). generalize (layersIn (e_groups f)) (layersIn (e_groups f')). clear. intros A B X L L'.
  inversion L as [|? wa ? la (Wa & Na) La]; subst. inversion La as [|? wb ? lb (Wb & Nb) Lb]; subst. inversion Lb; subst. inversion L' as [|? wc ? lc (Wc & Nc) Lc]; subst. inversion Lc; subst.
  cbn [fst snd] in *. destruct Na as (_ & Na). destruct Nb as (_ & Nb). destruct Nc as (Nc & _). specialize (Na h_loudA). specialize (Nb h_loudA). specialize (Nc h_quietB).
  destruct X as (_ & X1 & _). destruct (X1 wc (or_introl eq_refl)) as (ws & Iw & (_ & _ & Ef & (i & Hi & _ & El) & _)). rewrite Nc in Ef. cbn [s_fs hS] in Ef. destruct Iw as [<-|[<-|[]]].
  - rewrite Na in El. cbn in El, Hi. destruct i as [|[|i]]; [discriminate|discriminate|lia].
  - rewrite Nb in Ef. cbn [with_fs s_fs] in Ef. apply (f_equal (fun l => nth 1 l 0)) in Ef. unfold evolve, parts in Ef. cbn [hW w_rec w_n w_gh w_ode w_A] in Ef. destruct (Rlt_dec 0 0); [lra|].
    change (zseq (Z.to_nat 1)) with [0%Z] in Ef. cbn [fold_left] in Ef. destruct (Rlt_dec (1 / 1) (/ 1000000000)); [lra|]. unfold hOde in Ef. cbn [exec] in Ef.
    change (small = small / 2) in Ef. unfold small in Ef. lra.
Qed.

(** Proofs: the right-hand side is the sum of the volume, source and layer terms. *)
From Coq Require Import ZArith List Bool Reals Lra Lia.
From Flocq Require Import Core.Raux.
From Verif Require Import Common Probe_Model Evol_Model Evol_Spec Evol_Proofs EvolHist_Proofs EvolSolve_Proofs.
Import ListNotations.
Local Open Scope Z_scope.

Lemma zget_nthZ : forall v i, 0 <= i < Z.of_nat (length v) -> zget v i = Ok (nthZ v i).
Proof.
  intros v i Hi. destruct (zget_in_range v i Hi) as (a & -> & Hn). unfold nthZ. rewrite (nth_error_nth _ _ _ Hn). reflexivity.
Qed.

Lemma in_comps : forall c, In c comps <-> 0 <= c < 6.
Proof. intros c. unfold comps. cbn [In]. lia. Qed.

Lemma getEH_ok : forall v n dof, 0 <= dof < n -> Z.of_nat (length v) = 6 * n ->
  exists l, getEH v n dof = Ok l /\ length l = 6%nat /\ forall c, 0 <= c < 6 -> nth (Z.to_nat c) l 0%R = nthZ v (c * n + dof).
Proof.
  intros v n dof Hd Hl. unfold getEH.
  assert (G : forall cs, (forall c, In c cs -> 0 <= c < 6) -> mapM (fun c => zget v (c * n + dof)) cs = Ok (map (fun c => nthZ v (c * n + dof)) cs)).
  { induction cs as [|c cs IH]; intros Hc; cbn [mapM map]; auto.
    assert (Hc1 : 0 <= c < 6) by (apply Hc; left; auto).
    rewrite zget_nthZ by nia. cbn [bind]. rewrite IH; [reflexivity|]. intros; apply Hc; right; auto. }
  rewrite G by (intros; apply in_comps; auto). eexists. split; [reflexivity|]. split; [reflexivity|].
  intros c Hc. assert (E : c = 0 \/ c = 1 \/ c = 2 \/ c = 3 \/ c = 4 \/ c = 5) by lia.
  destruct E as [->|[->|[->|[->|[->| ->]]]]]; reflexivity.
Qed.

(** ** Slots *)
Section Slots.
Variable b : Z.

Lemma idx_eq : forall c d c' d', 0 <= c < 6 -> 0 <= c' < 6 -> 0 <= d < b -> 0 <= d' < b -> c * b + d = c' * b + d' -> c = c' /\ d = d'.
Proof.
  intros c d c' d' Hc Hc' Hd Hd' E. assert (c = c') by (destruct (Z.lt_trichotomy c c') as [H|[H|H]]; [nia|auto|nia]). subst. lia.
Qed.

Lemma slot_one : forall (f : Z -> R) d v, 0 <= d < b -> Z.of_nat (length v) = 6 * b ->
  exists v', writes (map (fun c => (c * b + d, f c)) comps) v = Ok v' /\ length v' = length v /\
    forall c' d', 0 <= c' < 6 -> 0 <= d' < b -> nthZ v' (c' * b + d') = if Z.eqb d' d then f c' else nthZ v (c' * b + d').
Proof.
  intros f d v Hd Hl.
  assert (G : forall cs, NoDup cs -> (forall c, In c cs -> 0 <= c < 6) -> forall v, Z.of_nat (length v) = 6 * b ->
    exists v', writes (map (fun c => (c * b + d, f c)) cs) v = Ok v' /\ length v' = length v /\
    forall c' d', 0 <= c' < 6 -> 0 <= d' < b -> nthZ v' (c' * b + d') = if Z.eqb d' d && (if in_dec Z.eq_dec c' cs then true else false) then f c' else nthZ v (c' * b + d')).
  { induction cs as [|c cs IH]; intros Hnd Hc v0 Hl0.
    - exists v0. split; [reflexivity|]. split; auto. intros. cbn. rewrite andb_false_r. reflexivity.
    - inversion Hnd; subst. assert (Hc1 : 0 <= c < 6) by (apply Hc; left; auto).
      cbn [map]. unfold writes. cbn [foldM]. unfold write at 1. cbn [fst snd].
      destruct (zset v0 (c * b + d) (f c)) as [v1| |] eqn:E1.
      2,3: rewrite zset_in_range in E1 by nia; discriminate.
      cbn [bind]. pose proof (zset_len _ _ _ _ E1) as L1.
      destruct (IH H2 (fun c0 h => Hc c0 (or_intror h)) v1) as (v' & E' & L' & N'); [lia|].
      exists v'. split; [exact E'|]. split; [congruence|]. intros c' d' Hc' Hd'. rewrite N' by auto.
      unfold nthZ. rewrite (zset_nth _ _ _ _ _ 0%R E1).
      destruct (Z.eqb_spec d' d) as [->|Hne]; cbn [andb].
      + destruct (in_dec Z.eq_dec c' cs) as [Hin|Hnin].
        * destruct (in_dec Z.eq_dec c' (c :: cs)); [reflexivity|exfalso; apply n; right; auto].
        * destruct (Z.eqb_spec (c * b + d) (Z.of_nat (Z.to_nat (c' * b + d)))) as [E|E].
          -- rewrite Z2Nat.id in E by nia. assert (c = c') by nia. subst. destruct (in_dec Z.eq_dec c' (c' :: cs)); [reflexivity|exfalso; apply n; left; auto].
          -- destruct (in_dec Z.eq_dec c' (c :: cs)) as [[->|Hin]|]; [exfalso; apply E; rewrite Z2Nat.id by nia; reflexivity|contradiction|reflexivity].
      + destruct (Z.eqb_spec (c * b + d) (Z.of_nat (Z.to_nat (c' * b + d')))) as [E|E]; [|reflexivity].
        rewrite Z2Nat.id in E by nia. destruct (idx_eq c d c' d'); auto. congruence. }
  destruct (G comps) with (v := v) as (v' & E & L & N); auto.
  - unfold comps. repeat constructor; cbn; lia.
  - intros; apply in_comps; auto.
  - exists v'. split; [exact E|]. split; auto. intros c' d' Hc' Hd'. rewrite N by auto.
    destruct (in_dec Z.eq_dec c' comps) as [|Hn]; [rewrite andb_true_r; reflexivity|]. exfalso. apply Hn. apply in_comps. auto.
Qed.
End Slots.

Section S.
Variable inv : list (list R) -> list R -> list R.
Variables ndofs nbr : nat.
Variable Aop : matrix.
Variables Top Sop : option matrix.
Variable hasTF : bool.
Variable sub2par : list Z.
Variable src : R -> list (list R).
Variables elem1 elem2 : list Z.
Variable junk : nat -> list R.
Hypothesis junk_len : forall n, length (junk n) = n.

Notation nZ := (nZ ndofs).
Notation bZ := (bZ ndofs nbr).
Notation wsize := (wsize ndofs nbr).
Notation mult := (mult inv ndofs nbr Aop Top Sop hasTF sub2par src elem1 elem2 junk).
Notation packed := (packed ndofs nbr).

Lemma wsize_b : Z.of_nat wsize = 6 * bZ.
Proof. unfold Evol_Model.wsize, Evol_Model.bZ. lia. Qed.
Lemma n_le_b : 0 <= nZ <= bZ.
Proof. unfold Evol_Model.nZ, Evol_Model.bZ. lia. Qed.

Lemma mirror_seen : forall bc rot u l v6 c, length v6 = 6%nat -> bc <> Transparent -> (forall c, 0 <= c < 6 -> nth (Z.to_nat c) v6 0%R = u c) -> 0 <= c < 6 ->
  nth (Z.to_nat c) (mirror bc v6) 0%R = seen bc rot u l c.
Proof.
  intros bc rot u l v6 c Hl Hb Hu Hc. destruct v6 as [|a0 [|a1 [|a2 [|a3 [|a4 [|a5 [|]]]]]]]; try discriminate.
  pose proof (Hu 0 ltac:(lia)) as U0. pose proof (Hu 1 ltac:(lia)) as U1. pose proof (Hu 2 ltac:(lia)) as U2.
  pose proof (Hu 3 ltac:(lia)) as U3. pose proof (Hu 4 ltac:(lia)) as U4. pose proof (Hu 5 ltac:(lia)) as U5.
  change (a0 = u 0) in U0; change (a1 = u 1) in U1; change (a2 = u 2) in U2; change (a3 = u 3) in U3; change (a4 = u 4) in U4; change (a5 = u 5) in U5.
  assert (E : c = 0 \/ c = 1 \/ c = 2 \/ c = 3 \/ c = 4 \/ c = 5) by lia.
  destruct E as [->|[->|[->|[->|[->| ->]]]]]; (destruct bc; [| | |congruence]); change (Z.to_nat 0) with 0%nat; change (Z.to_nat 1) with 1%nat; change (Z.to_nat 2) with 2%nat; change (Z.to_nat 3) with 3%nat; change (Z.to_nat 4) with 4%nat; change (Z.to_nat 5) with 5%nat; cbn; rewrite ?U0, ?U1, ?U2, ?U3, ?U4, ?U5; reflexivity.
Qed.

Lemma rotOut_seen : forall rot u l v6 c, length v6 = 6%nat -> (forall c, 0 <= c < 6 -> nth (Z.to_nat c) v6 0%R = l c) -> 0 <= c < 6 ->
  nth (Z.to_nat c) (rotOut rot v6) 0%R = seen Transparent rot u l c.
Proof.
  intros rot u l v6 c Hl Hu Hc. destruct v6 as [|a0 [|a1 [|a2 [|a3 [|a4 [|a5 [|]]]]]]]; try discriminate.
  pose proof (Hu 0 ltac:(lia)) as U0. pose proof (Hu 1 ltac:(lia)) as U1. pose proof (Hu 2 ltac:(lia)) as U2.
  pose proof (Hu 3 ltac:(lia)) as U3. pose proof (Hu 4 ltac:(lia)) as U4. pose proof (Hu 5 ltac:(lia)) as U5.
  change (a0 = l 0) in U0; change (a1 = l 1) in U1; change (a2 = l 2) in U2; change (a3 = l 3) in U3; change (a4 = l 4) in U4; change (a5 = l 5) in U5.
  assert (E : c = 0 \/ c = 1 \/ c = 2 \/ c = 3 \/ c = 4 \/ c = 5) by lia.
  destruct E as [->|[->|[->|[->|[->| ->]]]]]; change (Z.to_nat 0) with 0%nat; change (Z.to_nat 1) with 1%nat; change (Z.to_nat 2) with 2%nat; change (Z.to_nat 3) with 3%nat; change (Z.to_nat 4) with 4%nat; change (Z.to_nat 5) with 5%nat; cbn [nth rotOut]; rewrite ?U0, ?U1, ?U2, ?U3, ?U4, ?U5; reflexivity.
Qed.

Lemma copySlot_ok : forall input dof v, Z.of_nat (length input) = 6 * nZ -> 0 <= dof < nZ -> length v = wsize ->
  exists v', copySlot ndofs nbr input dof dof v = Ok v' /\ length v' = wsize /\
    forall c d, 0 <= c < 6 -> 0 <= d < bZ -> nthZ v' (c * bZ + d) = if Z.eqb d dof then nthZ input (c * nZ + dof) else nthZ v (c * bZ + d).
Proof.
  intros input dof v Hi Hd Hv. unfold copySlot. destruct (getEH_ok input nZ dof Hd Hi) as (l & -> & L6 & Hl). cbn [bind].
  pose proof n_le_b. destruct (slot_one bZ (fun c => nth (Z.to_nat c) l 0%R) dof v) as (v' & E & L & N); [lia|rewrite Hv; apply wsize_b|].
  exists v'. split; [exact E|]. split; [congruence|]. intros c d Hc Hd'. rewrite N by auto. destruct (Z.eqb d dof); auto.
Qed.

Lemma fillBC_ok : forall bc input source tgt s n idx v, Z.of_nat (length input) = 6 * nZ -> 0 <= source < nZ -> 0 <= tgt < nZ -> length v = wsize ->
  Z.of_nat (length (s_fs s)) = 6 * n -> 0 <= idx < n ->
  exists v', fillBC ndofs nbr bc input source tgt s n idx v = Ok v' /\ length v' = wsize /\
    forall c d, 0 <= c < 6 -> 0 <= d < bZ -> nthZ v' (c * bZ + d) =
      if Z.eqb d tgt then seen bc (s_rot s) (fun c => nthZ input (c * nZ + source)) (fun c => nthZ (s_fs s) (c * n + idx)) c else nthZ v (c * bZ + d).
Proof.
  intros bc input source tgt s n idx v Hi Hs Ht Hv Hf Hx. unfold fillBC. pose proof n_le_b.
  destruct (getEH_ok input nZ source Hs Hi) as (u & Eu & U6 & Hu). destruct (getEH_ok (s_fs s) n idx Hx Hf) as (l & El & L6 & Hl).
  assert (HV : exists w, match bc with Transparent => l <- getEH (s_fs s) n idx ;; Ok (rotOut (s_rot s) l) | _ => u <- getEH input nZ source ;; Ok (mirror bc u) end = Ok w /\
     forall c, 0 <= c < 6 -> nth (Z.to_nat c) w 0%R = seen bc (s_rot s) (fun c => nthZ input (c * nZ + source)) (fun c => nthZ (s_fs s) (c * n + idx)) c).
  { rewrite Eu, El. destruct bc; cbn [bind]; eexists; (split; [reflexivity|]); intros c Hc.
    1-3: apply mirror_seen with (v6 := u); auto; discriminate.
    apply rotOut_seen with (v6 := l); auto. }
  destruct HV as (w & -> & Hw). cbn [bind].
  destruct (slot_one bZ (fun c => nth (Z.to_nat c) w 0%R) tgt v) as (v' & E & L & N); [lia|rewrite Hv; apply wsize_b|].
  exists v'. split; [exact E|]. split; [congruence|]. intros c d Hc Hd'. rewrite N by auto. destruct (Z.eqb d tgt); auto.
Qed.

Lemma pass1_ok : forall input w s v, Z.of_nat (length input) = 6 * nZ -> fits ndofs (w, s) -> NoDup (dofsOf (w, s)) -> length v = wsize ->
  exists v', pass1 ndofs nbr input w v s = Ok v' /\ length v' = wsize /\
    (forall c, 0 <= c < 6 -> nthZ v' (c * bZ + s_gl s) = nthZ input (c * nZ + s_gl s) /\
       (s_gr s <> -1 -> nthZ v' (c * bZ + s_gr s) = seen (w_left w) (s_rot s) (fun c => nthZ input (c * nZ + s_gl s)) (fun c => nthZ (s_fs s) (c * w_n w + w_gh w)) c)) /\
    (forall c d, 0 <= c < 6 -> 0 <= d < bZ -> ~ In d (dofsOf (w, s)) -> nthZ v' (c * bZ + d) = nthZ v (c * bZ + d)).
Proof.
  intros input w s v Hi (Hl & Hr & Hg & Hn & Hf) Hnd Hv. change (0 <= s_gl s < nZ) in Hl. change (s_gr s = -1 \/ 0 <= s_gr s < nZ) in Hr. unfold pass1. pose proof n_le_b. unfold dofsOf in *. cbn [snd] in *.
  assert (Hf' : Z.of_nat (length (s_fs s)) = 6 * w_n w) by lia.
  destruct (copySlot_ok input (s_gl s) v Hi Hl Hv) as (v1 & -> & L1 & N1). cbn [bind].
  destruct (Z.eqb_spec (s_gr s) (-1)) as [Er|Er].
  - exists v1. split; auto. split; auto. split.
    + intros c Hc. split; [|congruence]. rewrite N1 by (auto; lia). rewrite Z.eqb_refl. reflexivity.
    + intros c d Hc Hd Hin. rewrite N1 by auto. destruct (Z.eqb_spec d (s_gl s)); auto. exfalso. apply Hin. left; auto.
  - destruct Hr as [|Hr]; [contradiction|].
    destruct (fillBC_ok (w_left w) input (s_gl s) (s_gr s) s (w_n w) (idxLeft w) v1) as (v2 & -> & L2 & N2); auto; [unfold idxLeft; lia|].
    exists v2. split; auto. split; auto. inversion Hnd; subst. assert (Hne : s_gl s <> s_gr s) by (intros E; apply H2; left; auto).
    split.
    + intros c Hc. split.
      * rewrite N2 by (auto; lia). destruct (Z.eqb_spec (s_gl s) (s_gr s)); [contradiction|]. rewrite N1 by (auto; lia). rewrite Z.eqb_refl. reflexivity.
      * intros _. rewrite N2 by (auto; lia). rewrite Z.eqb_refl. reflexivity.
    + intros c d Hc Hd Hin. rewrite N2 by auto. destruct (Z.eqb_spec d (s_gr s)); [exfalso; apply Hin; cbn; auto|].
      rewrite N1 by auto. destruct (Z.eqb_spec d (s_gl s)); auto. exfalso. apply Hin. left; auto.
Qed.

Lemma pass2_ok : forall input w s v, Z.of_nat (length input) = 6 * nZ -> fits ndofs (w, s) -> NoDup (dofsOf (w, s)) -> length v = wsize ->
  exists v', pass2 ndofs nbr input w v s = Ok v' /\ length v' = wsize /\
    (forall c, 0 <= c < 6 -> s_gr s <> -1 -> nthZ v' (c * bZ + s_gr s) = nthZ input (c * nZ + s_gr s) /\
       nthZ v' (c * bZ + s_gl s) = seen (w_right w) (s_rot s) (fun c => nthZ input (c * nZ + s_gr s)) (fun c => nthZ (s_fs s) (c * w_n w + (w_n w - 1 - w_gh w))) c) /\
    (forall c d, 0 <= c < 6 -> 0 <= d < bZ -> s_gr s = -1 \/ ~ In d (dofsOf (w, s)) -> nthZ v' (c * bZ + d) = nthZ v (c * bZ + d)).
Proof.
  intros input w s v Hi (Hl & Hr & Hg & Hn & Hf) Hnd Hv. change (0 <= s_gl s < nZ) in Hl. change (s_gr s = -1 \/ 0 <= s_gr s < nZ) in Hr. unfold pass2. pose proof n_le_b. unfold dofsOf in *. cbn [snd] in *.
  assert (Hf' : Z.of_nat (length (s_fs s)) = 6 * w_n w) by lia.
  destruct (Z.eqb_spec (s_gr s) (-1)) as [Er|Er].
  - exists v. split; auto. split; auto. split; [congruence|auto].
  - destruct Hr as [|Hr]; [contradiction|].
    destruct (fillBC_ok (w_right w) input (s_gr s) (s_gl s) s (w_n w) (idxRight w) v) as (v1 & -> & L1 & N1); auto; [unfold idxRight; lia|]. cbn [bind].
    destruct (copySlot_ok input (s_gr s) v1 Hi Hr L1) as (v2 & -> & L2 & N2).
    exists v2. split; auto. split; auto. inversion Hnd; subst. assert (Hne : s_gl s <> s_gr s) by (intros E; apply H2; left; auto).
    split.
    + intros c Hc _. split.
      * rewrite N2 by (auto; lia). rewrite Z.eqb_refl. reflexivity.
      * rewrite N2 by (auto; lia). destruct (Z.eqb_spec (s_gl s) (s_gr s)); [contradiction|]. rewrite N1 by (auto; lia). rewrite Z.eqb_refl. reflexivity.
    + intros c d Hc Hd [|Hin]; [contradiction|]. rewrite N2 by auto. destruct (Z.eqb_spec d (s_gr s)); [exfalso; apply Hin; cbn; auto|].
      rewrite N1 by auto. destruct (Z.eqb_spec d (s_gl s)); auto. exfalso. apply Hin. left; auto.
Qed.

Lemma NoDup_app_l : forall {A} (l1 l2 : list A), NoDup (l1 ++ l2) -> NoDup l1 /\ NoDup l2 /\ forall x, In x l1 -> ~ In x l2.
Proof.
  intros A l1 l2. induction l1 as [|a l1 IH]; intros Hn; cbn in *; [repeat split; auto; constructor|].
  inversion Hn; subst. destruct (IH H2) as (I1&I2&I3). split; [constructor; auto; intros H; apply H1; apply in_or_app; auto|].
  split; auto. intros x [->|Hx]; auto. intros H. apply H1. apply in_or_app; auto.
Qed.

Lemma fits_range : forall w s d, fits ndofs (w, s) -> In d (dofsOf (w, s)) -> 0 <= d < bZ.
Proof.
  intros w s d (Hl & Hr & _) Hin. pose proof n_le_b as Hnb. unfold dofsOf in Hin. cbn [snd] in Hin. unfold Evol_Model.nZ in *.
  destruct (Z.eqb_spec (s_gr s) (-1)); cbn [In] in Hin; lia.
Qed.

Lemma passes1_ok : forall input l v, Z.of_nat (length input) = 6 * nZ -> Forall (fits ndofs) l -> NoDup (flat_map dofsOf l) -> length v = wsize ->
  exists v', foldM (fun v ws => pass1 ndofs nbr input (fst ws) v (snd ws)) l v = Ok v' /\ length v' = wsize /\
    (forall w s c, In (w, s) l -> 0 <= c < 6 -> nthZ v' (c * bZ + s_gl s) = nthZ input (c * nZ + s_gl s) /\
       (s_gr s <> -1 -> nthZ v' (c * bZ + s_gr s) = seen (w_left w) (s_rot s) (fun c => nthZ input (c * nZ + s_gl s)) (fun c => nthZ (s_fs s) (c * w_n w + w_gh w)) c)) /\
    (forall c d, 0 <= c < 6 -> 0 <= d < bZ -> ~ In d (flat_map dofsOf l) -> nthZ v' (c * bZ + d) = nthZ v (c * bZ + d)).
Proof.
  intros input l. induction l as [|[w s] l IH]; intros v Hi Hf Hnd Hv; cbn [foldM].
  - exists v. split; auto. split; auto. split; [intros ? ? ? []|auto].
  - inversion Hf; subst. cbn [flat_map] in Hnd. destruct (NoDup_app_l _ _ Hnd) as (N1 & N2 & N3).
    destruct (pass1_ok input w s v Hi H1 N1 Hv) as (v1 & E1 & L1 & A1 & B1). cbn [fst snd]. rewrite E1. cbn [bind].
    destruct (IH v1 Hi H2 N2 L1) as (v2 & E2 & L2 & A2 & B2). exists v2. split; auto. split; auto. split.
    + intros w0 s0 c [E|Hin] Hc; [|apply A2; auto]. injection E as <- <-.
      assert (Hg : In (s_gl s) (dofsOf (w, s))) by (left; auto).
      destruct (A1 c Hc) as [P1 P2]. split.
      * rewrite B2; auto. eapply fits_range; eauto.
      * intros Hr. assert (Hg2 : In (s_gr s) (dofsOf (w, s))).
        { unfold dofsOf. cbn [snd]. destruct (Z.eqb_spec (s_gr s) (-1)); [contradiction|]. right; left; auto. }
        rewrite B2; auto. eapply fits_range; eauto.
    + intros c d Hc Hd Hin. cbn [flat_map] in Hin. rewrite B2; auto; [apply B1; auto|]; intros H; apply Hin; apply in_or_app; auto.
Qed.

Lemma passes2_ok : forall input l v, Z.of_nat (length input) = 6 * nZ -> Forall (fits ndofs) l -> NoDup (flat_map dofsOf l) -> length v = wsize ->
  exists v', foldM (fun v ws => pass2 ndofs nbr input (fst ws) v (snd ws)) l v = Ok v' /\ length v' = wsize /\
    (forall w s c, In (w, s) l -> 0 <= c < 6 -> s_gr s <> -1 -> nthZ v' (c * bZ + s_gr s) = nthZ input (c * nZ + s_gr s) /\
       nthZ v' (c * bZ + s_gl s) = seen (w_right w) (s_rot s) (fun c => nthZ input (c * nZ + s_gr s)) (fun c => nthZ (s_fs s) (c * w_n w + (w_n w - 1 - w_gh w))) c) /\
    (forall c d, 0 <= c < 6 -> 0 <= d < bZ -> (forall w s, In (w, s) l -> s_gr s <> -1 -> ~ In d (dofsOf (w, s))) -> nthZ v' (c * bZ + d) = nthZ v (c * bZ + d)).
Proof.
  intros input l. induction l as [|[w s] l IH]; intros v Hi Hf Hnd Hv; cbn [foldM].
  - exists v. split; auto. split; auto. split; [intros ? ? ? []|auto].
  - inversion Hf; subst. cbn [flat_map] in Hnd. destruct (NoDup_app_l _ _ Hnd) as (N1 & N2 & N3).
    destruct (pass2_ok input w s v Hi H1 N1 Hv) as (v1 & E1 & L1 & A1 & B1). cbn [fst snd]. rewrite E1. cbn [bind].
    destruct (IH v1 Hi H2 N2 L1) as (v2 & E2 & L2 & A2 & B2). exists v2. split; auto. split; auto.
    assert (NotIn : forall d, In d (dofsOf (w, s)) -> forall w0 s0, In (w0, s0) l -> s_gr s0 <> -1 -> ~ In d (dofsOf (w0, s0))).
    { intros d Hd w0 s0 Hin _ Hd0. apply (N3 d Hd). apply in_flat_map. exists (w0, s0). auto. }
    split.
    + intros w0 s0 c [E|Hin] Hc Hr; [|apply A2; auto]. injection E as <- <-.
      assert (Hg : In (s_gl s) (dofsOf (w, s))) by (left; auto).
      assert (Hg2 : In (s_gr s) (dofsOf (w, s))).
      { unfold dofsOf. cbn [snd]. destruct (Z.eqb_spec (s_gr s) (-1)); [contradiction|]. right; left; auto. }
      destruct (A1 c Hc Hr) as [P1 P2]. split; rewrite B2; auto; try (eapply fits_range; eauto); apply NotIn; auto.
    + intros c d Hc Hd Hin. rewrite B2; auto.
      * apply B1; auto. destruct (Z.eq_dec (s_gr s) (-1)); auto. right. apply Hin; auto. left; auto.
      * intros w0 s0 H0 Hr. apply Hin; auto. right; auto.
Qed.

Lemma nthZ_zeros : forall n i, nthZ (zeros n) i = 0%R.
Proof.
  intros n i. unfold nthZ, zeros. destruct (Nat.lt_ge_cases (Z.to_nat i) n).
  - apply nth_repeat.
  - apply nth_overflow. rewrite repeat_length. lia.
Qed.

Lemma not_in_dofs : forall w s d, 0 <= d -> d <> s_gl s /\ d <> s_gr s <-> ~ In d (dofsOf (w, s)).
Proof.
  intros w s d Hd. unfold dofsOf. cbn [snd]. destruct (Z.eqb_spec (s_gr s) (-1)); cbn [In]; split.
  - intros [H1 H2] [H3|[]]; congruence.
  - intros H. split; [intros ->; apply H; auto|lia].
  - intros [H1 H2] [H3|[H3|[]]]; congruence.
  - intros H. split; intros ->; apply H; auto.
Qed.

Lemma seen1_pass : forall input gs, Z.of_nat (length input) = 6 * nZ -> Forall (fits ndofs) (wstates gs) -> NoDup (flat_map dofsOf (wstates gs)) ->
  exists W, overGroups (pass1 ndofs nbr input) gs (zeros wsize) = Ok W /\ seenBy1 ndofs nbr input (wstates gs) W.
Proof.
  intros input gs Hi Hf Hn. rewrite overGroups_flat.
  destruct (passes1_ok input (wstates gs) (zeros wsize) Hi Hf Hn) as (W & E & L & A & B); [apply repeat_length|].
  exists W. split; auto. split; [exact L|]. split; [exact A|].
  intros c d Hc Hd Hno. change (nthZ W (c * bZ + d) = 0%R). rewrite B; auto; [apply nthZ_zeros|].
  intros Hin. apply in_flat_map in Hin. destruct Hin as ([w s] & Hin & Hd'). apply Hno in Hin. apply (not_in_dofs w) in Hin; auto. lia.
Qed.
Lemma seen2_pass : forall input gs, Z.of_nat (length input) = 6 * nZ -> Forall (fits ndofs) (wstates gs) -> NoDup (flat_map dofsOf (wstates gs)) ->
  exists W, overGroups (pass2 ndofs nbr input) gs (zeros wsize) = Ok W /\ seenBy2 ndofs nbr input (wstates gs) W.
Proof.
  intros input gs Hi Hf Hn. rewrite overGroups_flat.
  destruct (passes2_ok input (wstates gs) (zeros wsize) Hi Hf Hn) as (W & E & L & A & B); [apply repeat_length|].
  exists W. split; auto. split; [exact L|]. split; [exact A|].
  intros c d Hc Hd Hno. change (nthZ W (c * bZ + d) = 0%R). rewrite B; auto; [apply nthZ_zeros|].
  intros w s Hin Hr. apply not_in_dofs; [lia|]. apply (Hno w); auto.
Qed.

(** ** Targeted product *)
Lemma target_ok : forall M dofs W out, length M = (6 * ndofs)%nat -> Forall (colsIn (length W)) M -> length out = (6 * ndofs)%nat ->
  NoDup dofs -> (forall d, In d dofs -> 0 <= d < nZ) ->
  exists out', target ndofs M dofs W out = Ok out' /\ length out' = (6 * ndofs)%nat /\
    forall c d, 0 <= c < 6 -> 0 <= d < nZ -> nthZ out' (c * nZ + d) =
      (nthZ out (c * nZ + d) + if in_dec Z.eq_dec d dofs then dot (nth (Z.to_nat (c * nZ + d)) M []) W else 0)%R.
Proof.
  intros M dofs W out HM HC Ho Hnd Hr.
  set (f := fun c (out : list R) dof => let row := c * nZ + dof in r <- zget M row ;; x <- row_dot r W ;; o <- zget out row ;; zset out row (o + x)%R).
  assert (RD : forall row, 0 <= row < 6 * nZ -> exists r, zget M row = Ok r /\ row_dot r W = Ok (dot (nth (Z.to_nat row) M []) W)).
  { intros row Hrow. destruct (zget_in_range M row) as (r & E & Hn); [unfold Evol_Model.nZ in *; lia|]. exists r. split; auto.
    rewrite (nth_error_nth _ _ _ Hn). apply row_dot_ok. rewrite Forall_forall in HC. apply HC. eapply nth_error_In; eauto. }
  assert (IN : forall c ds, 0 <= c < 6 -> NoDup ds -> (forall d, In d ds -> 0 <= d < nZ) -> forall o, length o = (6 * ndofs)%nat ->
    exists o', foldM (f c) ds o = Ok o' /\ length o' = (6 * ndofs)%nat /\
    forall c' d', 0 <= c' < 6 -> 0 <= d' < nZ -> nthZ o' (c' * nZ + d') =
      (nthZ o (c' * nZ + d') + if Z.eqb c' c then (if in_dec Z.eq_dec d' ds then dot (nth (Z.to_nat (c' * nZ + d')) M []) W else 0) else 0)%R).
  { intros c ds Hc. induction ds as [|d ds IH]; intros Hn Hd o Hl; cbn [foldM].
    - exists o. split; auto. split; auto. intros. destruct (Z.eqb c' c); cbn; lra.
    - inversion Hn; subst. assert (Hd1 : 0 <= d < nZ) by (apply Hd; left; auto).
      assert (Hrow : 0 <= c * nZ + d < 6 * nZ) by nia.
      destruct (RD _ Hrow) as (r & Er & Ed). unfold f at 1. cbv zeta. rewrite Er. cbn [bind]. rewrite Ed. cbn [bind].
      rewrite zget_nthZ by (unfold Evol_Model.nZ in *; lia). cbn [bind].
      destruct (zset o (c * nZ + d) _) as [o1| |] eqn:E1.
      2,3: rewrite zset_in_range in E1 by (unfold Evol_Model.nZ in *; lia); discriminate.
      cbn [bind]. pose proof (zset_len _ _ _ _ E1) as L1.
      destruct (IH H2 (fun x h => Hd x (or_intror h)) o1) as (o' & E' & L' & N'); [congruence|].
      exists o'. split; auto. split; auto. intros c' d' Hc' Hd'. rewrite N' by auto.
      unfold nthZ at 1. rewrite (zset_nth _ _ _ _ _ 0%R E1).
      destruct (Z.eqb_spec (c * nZ + d) (Z.of_nat (Z.to_nat (c' * nZ + d')))) as [E|E].
      + rewrite Z2Nat.id in E by nia. destruct (idx_eq nZ c d c' d') as [-> ->]; auto. rewrite Z.eqb_refl.
        destruct (in_dec Z.eq_dec d' ds); [contradiction|]. destruct (in_dec Z.eq_dec d' (d' :: ds)) as [|n0]; [lra|exfalso; apply n0; left; auto].
      + fold (nthZ o (c' * nZ + d')). destruct (Z.eqb_spec c' c) as [->|]; [|reflexivity].
        destruct (in_dec Z.eq_dec d' ds) as [i|n0], (in_dec Z.eq_dec d' (d :: ds)) as [i2|n2]; try reflexivity.
        * exfalso; apply n2; right; auto.
        * destruct i2 as [->|]; [|contradiction]. exfalso. apply E. rewrite Z2Nat.id by nia. reflexivity. }
  assert (OUT : forall cs, NoDup cs -> (forall c, In c cs -> 0 <= c < 6) -> forall o, length o = (6 * ndofs)%nat ->
    exists o', foldM (fun o c => foldM (f c) dofs o) cs o = Ok o' /\ length o' = (6 * ndofs)%nat /\
    forall c' d', 0 <= c' < 6 -> 0 <= d' < nZ -> nthZ o' (c' * nZ + d') =
      (nthZ o (c' * nZ + d') + if in_dec Z.eq_dec c' cs then (if in_dec Z.eq_dec d' dofs then dot (nth (Z.to_nat (c' * nZ + d')) M []) W else 0) else 0)%R).
  { induction cs as [|c cs IH]; intros Hn Hc o Hl; cbn [foldM].
    - exists o. split; auto. split; auto. intros. cbn. lra.
    - inversion Hn; subst. destruct (IN c dofs (Hc c (or_introl eq_refl)) Hnd Hr o Hl) as (o1 & -> & L1 & N1). cbn [bind].
      destruct (IH H2 (fun x h => Hc x (or_intror h)) o1 L1) as (o2 & -> & L2 & N2). exists o2. split; auto. split; auto.
      intros c' d' Hc' Hd'. rewrite N2, N1 by auto.
      destruct (Z.eqb_spec c' c) as [->|Hne].
      + destruct (in_dec Z.eq_dec c cs); [contradiction|]. destruct (in_dec Z.eq_dec c (c :: cs)) as [|n0]; [lra|exfalso; apply n0; left; auto].
      + destruct (in_dec Z.eq_dec c' cs) as [i|n0], (in_dec Z.eq_dec c' (c :: cs)) as [i2|n2]; try lra.
        * exfalso; apply n2; right; auto.
        * destruct i2; [congruence|contradiction]. }
  destruct (OUT comps) with (o := out) as (o' & E & L & N); auto.
  - unfold comps. repeat constructor; cbn; lia.
  - intros; apply in_comps; auto.
  - exists o'. split; [exact E|]. split; auto. intros c d Hc Hd. rewrite N by auto.
    destruct (in_dec Z.eq_dec c comps) as [|n0]; [reflexivity|]. exfalso; apply n0; apply in_comps; auto.
Qed.

Lemma clear1_total : forall gs W, Forall (fits ndofs) (wstates gs) -> length W = wsize -> exists W', overGroups (clear1 ndofs nbr) gs W = Ok W'.
Proof.
  intros gs W Hf HW. rewrite overGroups_flat.
  assert (CS : forall v d, length v = wsize -> 0 <= d < bZ -> exists v', clearSlot ndofs nbr v d = Ok v' /\ length v' = wsize).
  { intros v d Hv Hd. unfold clearSlot. destruct (slot_one bZ (fun _ => 0%R) d v Hd) as (v' & E & L & _); [rewrite Hv; apply wsize_b|]. exists v'. split; auto. congruence. }
  revert W HW. induction Hf as [|[w s] l Hws Hf IH]; intros W HW; cbn [foldM]; [eauto|]. cbn [fst snd].
  unfold clear1. pose proof n_le_b. destruct Hws as (Hl & Hr & _). change (0 <= s_gl s < nZ) in Hl. change (s_gr s = -1 \/ 0 <= s_gr s < nZ) in Hr.
  destruct (CS W (s_gl s) HW) as (v1 & -> & L1); [lia|]. cbn [bind].
  destruct (Z.eqb_spec (s_gr s) (-1)); cbn [bind]; [apply IH; auto|]. destruct Hr as [|Hr]; [contradiction|].
  destruct (CS v1 (s_gr s) L1) as (v2 & -> & L2); [lia|]. cbn [bind]. apply IH; auto.
Qed.
Lemma clear2_total : forall gs W, Forall (fits ndofs) (wstates gs) -> length W = wsize -> exists W', overGroups (clear2 ndofs nbr) gs W = Ok W'.
Proof.
  intros gs W Hf HW. rewrite overGroups_flat.
  assert (CS : forall v d, length v = wsize -> 0 <= d < bZ -> exists v', clearSlot ndofs nbr v d = Ok v' /\ length v' = wsize).
  { intros v d Hv Hd. unfold clearSlot. destruct (slot_one bZ (fun _ => 0%R) d v Hd) as (v' & E & L & _); [rewrite Hv; apply wsize_b|]. exists v'. split; auto. congruence. }
  revert W HW. induction Hf as [|[w s] l Hws Hf IH]; intros W HW; cbn [foldM]; [eauto|]. cbn [fst snd].
  unfold clear2. pose proof n_le_b. destruct Hws as (Hl & Hr & _). change (0 <= s_gl s < nZ) in Hl. change (s_gr s = -1 \/ 0 <= s_gr s < nZ) in Hr.
  destruct (Z.eqb_spec (s_gr s) (-1)); cbn [bind]; [apply IH; auto|]. destruct Hr as [|Hr]; [contradiction|].
  destruct (CS W (s_gl s) HW) as (v1 & -> & L1); [lia|]. cbn [bind].
  destruct (CS v1 (s_gr s) L1) as (v2 & -> & L2); [lia|]. cbn [bind]. apply IH; auto.
Qed.

(** Layer term: each first element sees [W1], each second element [W2]. *)
Lemma flux_ok : forall M gs input out, Z.of_nat (length input) = 6 * nZ -> Forall (fits ndofs) (wstates gs) -> NoDup (flat_map dofsOf (wstates gs)) ->
  length M = (6 * ndofs)%nat -> Forall (colsIn wsize) M -> length out = (6 * ndofs)%nat ->
  NoDup elem1 -> NoDup elem2 -> (forall d, In d elem1 -> 0 <= d < nZ) -> (forall d, In d elem2 -> 0 <= d < nZ) ->
  exists W1 W2 w' out', seenBy1 ndofs nbr input (wstates gs) W1 /\ seenBy2 ndofs nbr input (wstates gs) W2 /\
    sgbcFlux ndofs nbr elem1 elem2 M gs input (zeros wsize) out = Ok (w', out') /\ length out' = (6 * ndofs)%nat /\
    forall c d, 0 <= c < 6 -> 0 <= d < nZ -> nthZ out' (c * nZ + d) =
      (nthZ out (c * nZ + d) + (if in_dec Z.eq_dec d elem1 then dot (nth (Z.to_nat (c * nZ + d)) M []) W1 else 0)
                             + (if in_dec Z.eq_dec d elem2 then dot (nth (Z.to_nat (c * nZ + d)) M []) W2 else 0))%R.
Proof.
  intros M gs input out Hi Hf Hn HM HC Ho N1 N2 R1 R2.
  destruct (seen1_pass input gs Hi Hf Hn) as (W1 & E1 & S1). destruct (seen2_pass input gs Hi Hf Hn) as (W2 & E2 & S2).
  pose proof (proj1 S1) as L1. pose proof (proj1 S2) as L2. change (length W1 = wsize) in L1. change (length W2 = wsize) in L2.
  destruct (clear1_total gs W1 Hf L1) as (V1 & C1). destruct (clear2_total gs W2 Hf L2) as (V2 & C2).
  assert (Z1 : V1 = zeros wsize).
  { destruct (passes_out (pass1 ndofs nbr input) (slots1 ndofs nbr) (pass1_out ndofs nbr input) gs _ _ (zout_zeros (fun _ => False) wsize) E1) as [A1 B1].
    destruct (clears_out (clear1 ndofs nbr) (slots1 ndofs nbr) (clear1_out ndofs nbr) gs _ _ A1 C1) as [A2 B2].
    apply zout_false in A2. rewrite A2. f_equal. congruence. }
  destruct (target_ok M elem1 W1 out HM) as (o1 & T1 & Lo1 & F1); auto; [rewrite L1; auto|].
  destruct (target_ok M elem2 W2 o1 HM) as (o2 & T2 & Lo2 & F2); auto; [rewrite L2; auto|].
  exists W1, W2, V2, o2. split; auto. split; auto. split.
  - unfold sgbcFlux. rewrite E1. cbn [bind]. rewrite T1. cbn [bind]. rewrite C1. cbn [bind]. rewrite Z1, E2. cbn [bind]. rewrite T2. cbn [bind]. rewrite C2. reflexivity.
  - split; auto. intros c d Hc Hd. rewrite F2, F1 by auto. reflexivity.
Qed.

(** ** Packed input *)
Lemma packed_spec : forall nd input, sized ndofs nbr nd input -> packedAs ndofs nbr nd input (packed nd input).
Proof.
  intros nd input Hs. pose proof (pack_value ndofs nbr junk junk_len [] nd input Hs) as HP.
  pose proof (pack_len ndofs nbr junk junk_len _ _ _ _ HP) as HL. destruct Hs as [Hi Hnd].
  assert (NDlen : forall c, 0 <= c < 6 -> length (if Nat.eqb nbr 0 then [] else nth (Z.to_nat c) nd []) = nbr).
  { intros c Hc. destruct (Nat.eqb_spec nbr 0); [auto|]. destruct (Hnd n) as [H6 HF]. rewrite Forall_forall in HF. apply HF. apply nth_In. lia. }
  assert (G : forall cs k, (forall c, In c cs -> 0 <= c < 6) -> forall d, 0 <= d < bZ -> (k < length cs)%nat ->
     nth (k * (ndofs + nbr) + Z.to_nat d) (flat_map (fun c => chunk ndofs input c ++ (if Nat.eqb nbr 0 then [] else nth (Z.to_nat c) nd [])) cs) 0%R =
     nth (Z.to_nat d) (chunk ndofs input (nth k cs 0) ++ (if Nat.eqb nbr 0 then [] else nth (Z.to_nat (nth k cs 0)) nd [])) 0%R).
  { induction cs as [|c cs IH]; intros k Hc d Hd Hk; [cbn in Hk; lia|]. cbn [flat_map].
    assert (Hlen : length (chunk ndofs input c ++ (if Nat.eqb nbr 0 then [] else nth (Z.to_nat c) nd [])) = (ndofs + nbr)%nat).
    { rewrite app_length, chunk_len, NDlen; auto; [apply Hc; left; auto|]. apply in_comps. apply Hc. left; auto. }
    destruct k as [|k].
    - cbn [nth]. rewrite app_nth1; [f_equal; lia|]. rewrite Hlen. unfold Evol_Model.bZ in Hd. lia.
    - rewrite app_nth2 by (rewrite Hlen; lia). rewrite Hlen. replace (S k * (ndofs + nbr) + Z.to_nat d - (ndofs + nbr))%nat with (k * (ndofs + nbr) + Z.to_nat d)%nat by lia.
      cbn [nth]. apply IH; auto; [intros; apply Hc; right; auto|cbn in Hk; lia]. }
  assert (GC : forall c d, 0 <= c < 6 -> 0 <= d < bZ -> nthZ (packed nd input) (c * bZ + d) =
     nth (Z.to_nat d) (chunk ndofs input c ++ (if Nat.eqb nbr 0 then [] else nth (Z.to_nat c) nd [])) 0%R).
  { intros c d Hc Hd. unfold nthZ, EvolHist_Proofs.packed.
    replace (Z.to_nat (c * bZ + d)) with (Z.to_nat c * (ndofs + nbr) + Z.to_nat d)%nat by (unfold Evol_Model.bZ in *; nia).
    rewrite G; auto; [|intros; apply in_comps; auto|cbn [comps length]; unfold comps; cbn; lia].
    assert (E : nth (Z.to_nat c) comps 0 = c) by (assert (E : c = 0 \/ c = 1 \/ c = 2 \/ c = 3 \/ c = 4 \/ c = 5) by lia; destruct E as [->|[->|[->|[->|[->| ->]]]]]; reflexivity).
    rewrite E. reflexivity. }
  pose proof n_le_b as Hnb. split; [exact HL|]. split.
  - intros c d Hc Hd. fold bZ. rewrite GC by (auto; unfold Evol_Model.nZ in Hnb; lia).
    assert (CL : length (chunk ndofs input c) = ndofs) by (apply chunk_len; auto; apply in_comps; auto).
    rewrite app_nth1 by lia. unfold chunk, nthZ.
    assert (NF : forall (l : list R) k i, (i < k)%nat -> nth i (firstn k l) 0%R = nth i l 0%R).
    { induction l as [|x l IH]; intros [|k] [|i] Hk; cbn; try lia; auto. apply IH. lia. }
    assert (NS : forall k (l : list R) i, nth i (skipn k l) 0%R = nth (k + i) l 0%R).
    { induction k as [|k IH]; intros [|x l] i; cbn; auto. destruct i; auto. }
    rewrite NF by lia. rewrite NS. f_equal. nia.
  - intros c d Hc Hd. fold bZ. replace (c * bZ + Z.of_nat ndofs + d) with (c * bZ + (Z.of_nat ndofs + d)) by lia.
    rewrite GC by (auto; unfold Evol_Model.bZ; lia).
    assert (CL : length (chunk ndofs input c) = ndofs) by (apply chunk_len; auto; apply in_comps; auto).
    rewrite app_nth2 by lia. rewrite CL. destruct (Nat.eqb_spec nbr 0); [lia|]. unfold nthZ. f_equal. lia.
Qed.

(** ** Source term *)
Definition src_ok : Prop :=
  NoDup sub2par /\ (forall p, In p sub2par -> 0 <= p < nZ) /\
  forall t, length (src t) = 6%nat /\ Forall (fun v => length v = length sub2par) (src t).

Lemma scatter_spec : forall f, NoDup sub2par -> (forall p, In p sub2par -> 0 <= p < nZ) ->
  length f = 6%nat -> Forall (fun v => length v = length sub2par) f ->
  exists W, scatter ndofs nbr sub2par f (zeros wsize) = Ok W /\ incident ndofs nbr sub2par f W.
Proof.
  intros f Hn Hp H6 Hf. pose proof n_le_b as Hnb. unfold scatter.
  assert (ZG : forall c v, 0 <= c < 6 -> (v < length sub2par)%nat -> zget (nth (Z.to_nat c) f []) (Z.of_nat v) = Ok (nth v (nth (Z.to_nat c) f []) 0%R)).
  { intros c v Hc Hv. rewrite zget_nthZ; [unfold nthZ; rewrite Nat2Z.id; reflexivity|].
    rewrite Forall_forall in Hf. rewrite Hf; [lia|]. apply nth_In. lia. }
  assert (ONE : forall v p w, (v < length sub2par)%nat -> 0 <= p < bZ -> length w = wsize ->
    exists w', foldM (fun w c => x <- zget (nth (Z.to_nat c) f []) (Z.of_nat v) ;; zset w (c * bZ + p) x) comps w = Ok w' /\ length w' = wsize /\
      forall c' d', 0 <= c' < 6 -> 0 <= d' < bZ -> nthZ w' (c' * bZ + d') = if Z.eqb d' p then nth v (nth (Z.to_nat c') f []) 0%R else nthZ w (c' * bZ + d')).
  { intros v p w Hv Hpp Hw.
    destruct (slot_one bZ (fun c => nth v (nth (Z.to_nat c) f []) 0%R) p w Hpp) as (w' & E & L & N); [rewrite Hw; apply wsize_b|].
    exists w'. split; [|split; [congruence|exact N]]. rewrite <- E. unfold writes. rewrite foldM_map. apply foldM_ext_in.
    intros b0 c Hc. rewrite ZG by (auto; apply in_comps; auto). reflexivity. }
  assert (G : forall ps s, NoDup ps -> (forall p, In p ps -> 0 <= p < bZ) -> (s + length ps <= length sub2par)%nat -> forall w, length w = wsize ->
    exists w', foldM (fun w vp => foldM (fun w c => x <- zget (nth (Z.to_nat c) f []) (fst vp) ;; zset w (c * bZ + snd vp) x) comps w) (combine (map Z.of_nat (seq s (length ps))) ps) w = Ok w' /\
      length w' = wsize /\
      (forall c v p, 0 <= c < 6 -> nth_error ps v = Some p -> nthZ w' (c * bZ + p) = nth (s + v) (nth (Z.to_nat c) f []) 0%R) /\
      (forall c d, 0 <= c < 6 -> 0 <= d < bZ -> ~ In d ps -> nthZ w' (c * bZ + d) = nthZ w (c * bZ + d))).
  { induction ps as [|p ps IH]; intros s Hnd Hpr Hlen w Hw.
    - exists w. split; [reflexivity|]. split; auto. split; [intros c [|v] p Hc E; discriminate|auto].
    - inversion Hnd; subst. cbn [length seq map combine foldM fst snd]. cbn [length] in Hlen.
      destruct (ONE s p w) as (w1 & E1 & L1 & N1); auto; [lia|apply Hpr; left; auto|]. rewrite E1. cbn [bind].
      destruct (IH (S s) H2 (fun x h => Hpr x (or_intror h)) ltac:(lia) w1 L1) as (w2 & E2 & L2 & A2 & B2).
      exists w2. split; auto. split; auto. split.
      + intros c v q Hc E. destruct v as [|v]; cbn [nth_error] in E.
        * injection E as <-. rewrite B2; auto; [|apply Hpr; left; auto]. rewrite N1; auto; [|apply Hpr; left; auto]. rewrite Z.eqb_refl. f_equal. lia.
        * rewrite (A2 c v q Hc E). f_equal. lia.
      + intros c d Hc Hd Hin. rewrite B2; auto; [|intros h; apply Hin; right; auto]. rewrite N1; auto.
        destruct (Z.eqb_spec d p); auto. exfalso; apply Hin; left; auto. }
  destruct (G sub2par 0%nat Hn) with (w := zeros wsize) as (W & E & L & A & B); auto.
  - intros p Hin. apply Hp in Hin. lia.
  - apply repeat_length.
  - exists W. split; [exact E|]. split; [exact L|]. split; [exact A|]. intros c d Hc Hd Hin. change (nthZ W (c * bZ + d) = 0%R). rewrite B; auto. apply nthZ_zeros.
Qed.

Lemma vadd_ok : forall a u v, length u = length v -> exists w, vadd a u v = Ok w /\ length w = length u /\ forall i, nth i w 0%R = (nth i u 0 + a * nth i v 0)%R.
Proof.
  intros a u. induction u as [|x u IH]; intros [|y v] Hl; try discriminate.
  - exists []. split; auto. split; auto. intros [|i]; cbn; lra.
  - destruct (IH v) as (w & E & L & N); [cbn in Hl; lia|]. cbn [vadd]. rewrite E. cbn [bind]. eexists. split; [reflexivity|].
    split; [cbn; lia|]. intros [|i]; cbn; auto.
Qed.

Lemma norml2_sq : forall v, (norml2 v * norml2 v)%R = sumsq v.
Proof.
  intros v. unfold norml2. apply sqrt_sqrt. unfold sumsq. induction v as [|x v IH]; cbn [fold_right]; [lra|]. pose proof (Rle_0_sqr x). unfold Rsqr in *. lra.
Qed.

(** Total squared size of the incident field. *)
Definition srcSize (f : list (list R)) : R := fold_right (fun v s => sumsq v + s)%R 0%R f.
Definition srcOn (t : R) : bool := hasTF && (if Rlt_dec (srcSize (src t)) (/ 10000000000000000)%R then false else true).

Lemma thr_sq : (thr * thr = / 10000000000000000)%R.
Proof. unfold thr. lra. Qed.

Lemma nth_map_dot : forall (M : matrix) W i, (i < length M)%nat -> nth i (map (fun r => dot r W) M) 0%R = dot (nth i M []) W.
Proof. intros M W. induction M as [|r M IH]; intros [|i] Hi; cbn in *; try lia; auto. apply IH. lia. Qed.

Lemma tfsf_ok : forall t out, length out = (6 * ndofs)%nat -> (hasTF = true -> src_ok) ->
  (forall T, Top = Some T -> length T = (6 * ndofs)%nat /\ Forall (colsIn wsize) T) ->
  exists F out', (Top <> None -> srcOn t = true -> incident ndofs nbr sub2par (src t) F) /\
    applyTFSF ndofs nbr Top hasTF sub2par src t (zeros wsize) out = Ok (zeros wsize, out') /\ length out' = (6 * ndofs)%nat /\
    forall i, 0 <= i < 6 * nZ -> nthZ out' i = (nthZ out i - match Top with Some T => if srcOn t then dot (nth (Z.to_nat i) T []) F else 0 | None => 0 end)%R.
Proof.
  intros t out Ho Hsrc HT. unfold applyTFSF. destruct Top as [T|].
  2: { exists [], out. split; [congruence|]. split; auto. split; auto. intros; cbv iota; lra. }
  destruct (HT T eq_refl) as [LT CT]. unfold srcOn. destruct hasTF; cbn [andb].
  2: { exists [], out. split; [discriminate|]. split; auto. split; auto. intros; cbv iota; lra. }
  destruct (Hsrc eq_refl) as (Hn & Hp & Hs). destruct (Hs t) as [H6 HF].
  replace (if Nat.eqb (length (zeros wsize)) wsize then zeros wsize else zeros wsize) with (zeros wsize) by (destruct Nat.eqb; auto).
  cbv zeta. replace (fold_right (fun v s => (norml2 v * norml2 v + s)%R) 0%R (src t)) with (srcSize (src t)).
  2: { unfold srcSize. clear. induction (src t); cbn; auto. rewrite IHl, norml2_sq. reflexivity. }
  rewrite thr_sq. destruct Rlt_dec.
  { exists [], out. split; [discriminate|]. split; auto. split; auto. intros; lra. }
  destruct (scatter_spec (src t) Hn Hp H6 HF) as (F & E & HI). rewrite E. cbn [bind].
  unfold add_mult. rewrite spmv_ok. 2: { rewrite (proj1 HI). exact CT. } cbn [bind].
  destruct (vadd_ok (-1) out (map (fun r => dot r F) T)) as (o & Eo & Lo & No); [rewrite map_length; congruence|]. rewrite Eo. cbn [bind].
  exists F, o. split; auto. split.
  - rewrite (proj1 HI). reflexivity.
  - split; [congruence|]. intros i Hi. unfold nthZ. rewrite No, nth_map_dot by (unfold Evol_Model.nZ in Hi; lia). lra.
Qed.

(** ** The whole right-hand side *)
Lemma rhs_formula : forall e t nd input gs quiet,
  multSub inv ndofs Sop e t input = Ok (gs, quiet) ->
  sized ndofs nbr nd input -> length Aop = (6 * ndofs)%nat -> Forall (colsIn wsize) Aop ->
  (hasTF = true -> src_ok) ->
  (forall T, Top = Some T -> length T = (6 * ndofs)%nat /\ Forall (colsIn wsize) T) ->
  (forall M, Sop = Some M -> length M = (6 * ndofs)%nat /\ Forall (colsIn wsize) M) ->
  Forall (fits ndofs) (wstates gs) -> NoDup (flat_map dofsOf (wstates gs)) ->
  NoDup elem1 -> NoDup elem2 -> (forall d, In d elem1 -> 0 <= d < nZ) -> (forall d, In d elem2 -> 0 <= d < nZ) ->
  exists P F W1 W2 out e',
    packedAs ndofs nbr nd input P /\ (Top <> None -> srcOn t = true -> incident ndofs nbr sub2par (src t) F) /\
    seenBy1 ndofs nbr input (wstates gs) W1 /\ seenBy2 ndofs nbr input (wstates gs) W2 /\
    mult e t nd input = Ok (out, e') /\ length out = (6 * ndofs)%nat /\
    forall c d, 0 <= c < 6 -> 0 <= d < nZ -> let i := c * nZ + d in
      nthZ out i = (dot (nth (Z.to_nat i) Aop []) P
        - match Top with Some T => if srcOn t then dot (nth (Z.to_nat i) T []) F else 0 | None => 0 end
        + match Sop, gs with
          | Some M, _ :: _ => if quiet then 0 else
              (if in_dec Z.eq_dec d elem1 then dot (nth (Z.to_nat i) M []) W1 else 0)
              + (if in_dec Z.eq_dec d elem2 then dot (nth (Z.to_nat i) M []) W2 else 0)
          | _, _ => 0
          end)%R.
Proof.
  intros e t nd input gs quiet HS Hsz LA CA Hsrc HT HM Hf Hn N1 N2 R1 R2. unfold Evol_Model.mult. rewrite HS. cbn [bind].
  rewrite (pack_value ndofs nbr junk junk_len) by auto. cbn [bind]. pose proof (packed_spec nd input Hsz) as HP.
  pose proof (proj1 HP) as LP. change (length (packed nd input) = wsize) in LP.
  rewrite spmv_ok by (rewrite LP; auto). cbn [bind]. cbv zeta. rewrite LP.
  set (o0 := map (fun r => dot r (packed nd input)) Aop).
  assert (L0 : length o0 = (6 * ndofs)%nat) by (unfold o0; rewrite map_length; auto).
  destruct (tfsf_ok t o0 L0 Hsrc HT) as (F & o1 & HF & E1 & L1 & V1). rewrite E1. cbn [bind].
  assert (Hi : Z.of_nat (length input) = 6 * nZ) by (destruct Hsz as [Hi _]; rewrite Hi; unfold Evol_Model.nZ; lia).
  assert (V0 : forall i, 0 <= i < 6 * nZ -> nthZ o0 i = dot (nth (Z.to_nat i) Aop []) (packed nd input)).
  { intros i Hr. unfold nthZ, o0. apply nth_map_dot. unfold Evol_Model.nZ in Hr. lia. }
  destruct (seen1_pass input gs Hi Hf Hn) as (W1 & _ & S1). destruct (seen2_pass input gs Hi Hf Hn) as (W2 & _ & S2).
  destruct Sop as [M|].
  - destruct (HM M eq_refl) as [LM CM]. destruct gs as [|g gs'] eqn:EG.
    + exists (packed nd input), F, W1, W2, o1. eexists. do 4 (split; [assumption|]). split; [reflexivity|]. split; [assumption|].
      intros c d Hc Hd. cbv zeta. rewrite V1, V0 by nia. lra.
    + rewrite <- EG in *. destruct quiet.
      * cbn [bind]. exists (packed nd input), F, W1, W2, o1. eexists. do 4 (split; [assumption|]). split; [reflexivity|]. split; [assumption|].
        intros c d Hc Hd. cbv zeta. rewrite V1, V0 by nia. cbv iota. lra.
      * destruct (flux_ok M gs input o1 Hi Hf Hn LM CM L1 N1 N2 R1 R2) as (U1 & U2 & w' & o2 & T1 & T2 & E2 & L2 & V2).
        rewrite E2. cbn [bind]. exists (packed nd input), F, U1, U2, o2. eexists. do 4 (split; [assumption|]). split; [reflexivity|]. split; [assumption|].
        intros c d Hc Hd. cbv zeta. rewrite V2, V1, V0 by (auto; nia). cbv iota. lra.
  - cbn [bind]. exists (packed nd input), F, W1, W2, o1. eexists. do 4 (split; [assumption|]). split; [reflexivity|]. split; [assumption|].
    intros c d Hc Hd. cbv zeta. rewrite V1, V0 by nia. lra.
Qed.
End S.

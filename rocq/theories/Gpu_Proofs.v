(** Proofs: the device kernels give what the CPU loops give, in every order. *)
From Coq Require Import ZArith List Bool Reals Lra Lia Permutation.
From Verif Require Import Common Evol_Model Evol_Spec Evol_Proofs EvolHist_Proofs EvolRhs_Proofs Gpu_Model.
Import ListNotations.
Local Open Scope Z_scope.

Definition okCopy (n : nat) (c : copy) : Prop :=
  0 <= fst c < Z.of_nat n /\ 0 <= snd (snd c) < Z.of_nat (length (fst (snd c))).

Lemma zget_val : forall (u : list R) k, 0 <= k < Z.of_nat (length u) -> zget u k = Ok (nthZ u k).
Proof.
  intros u k Hk. destruct (zget_in_range u k Hk) as (a & Ha & Hn). rewrite Ha. unfold nthZ. f_equal. symmetry. apply nth_error_nth. exact Hn.
Qed.

Lemma zset_val : forall (w : list R) i x, 0 <= i < Z.of_nat (length w) ->
  exists w', zset w i x = Ok w' /\ length w' = length w /\ nthZ w' i = x /\ forall j, 0 <= j -> j <> i -> nthZ w' j = nthZ w j.
Proof.
  intros w i x Hi. unfold zset. destruct (Z.ltb_spec i 0); [lia|]. destruct (Nat.ltb_spec (Z.to_nat i) (length w)); [|lia].
  eexists. split; [reflexivity|]. split; [apply upd_length|]. unfold nthZ. split.
  - rewrite nth_upd by auto. rewrite Nat.eqb_refl. reflexivity.
  - intros j Hj Hne. rewrite nth_upd by auto. destruct (Nat.eqb_spec (Z.to_nat i) (Z.to_nat j)); auto. lia.
Qed.

Lemma run_copies : forall k w, NoDup (map fst k) -> Forall (okCopy (length w)) k ->
  exists w', foldM doCopy k w = Ok w' /\ length w' = length w /\
    (forall i u s, In (i, (u, s)) k -> nthZ w' i = nthZ u s) /\
    (forall i, 0 <= i -> ~ In i (map fst k) -> nthZ w' i = nthZ w i).
Proof.
  intros k. induction k as [|[i [u s]] r IH]; intros w Hn Hf; cbn [foldM map fst].
  - exists w. repeat split; auto. intros ? ? ? [].
  - inversion Hn as [|x y Hni Hnr]; subst x y. inversion Hf as [|x y [H1 H2] Hr]; subst x y. cbn [fst snd] in *.
    unfold doCopy at 1. cbn [fst snd]. rewrite zget_val by auto. cbn [bind].
    destruct (zset_val w i (nthZ u s) H1) as (w1 & E & Hl & Hi & Ho). rewrite E. cbn [bind].
    destruct (IH w1 Hnr) as (w' & E' & Hl' & Hv & Ho').
    { rewrite Hl. exact Hr. }
    exists w'. split; auto. split; [congruence|]. split.
    + intros i' u' s' [Heq|Hin]; [|apply Hv; auto]. injection Heq as <- <- <-. rewrite Ho'; auto. lia.
    + intros j Hj Hnj. cbn [In] in Hnj. rewrite Ho' by tauto. apply Ho; auto.
Qed.

Lemma nthZ_ext : forall u v, length u = length v -> (forall i, 0 <= i < Z.of_nat (length u) -> nthZ u i = nthZ v i) -> u = v.
Proof.
  intros u v Hl He. apply (nth_ext u v 0%R 0%R Hl). intros n Hn. specialize (He (Z.of_nat n)). unfold nthZ in He. rewrite Nat2Z.id in He. apply He. lia.
Qed.

(** The order of the copies does not matter. *)
Lemma launch_any : forall k w, NoDup (map fst k) -> Forall (okCopy (length w)) k ->
  exists w', foldM doCopy k w = Ok w' /\ forall r, launch k w r -> r = Ok w'.
Proof.
  intros k w Hn Hf. destruct (run_copies k w Hn Hf) as (w' & E & Hl & Hv & Ho). exists w'. split; auto.
  intros r (k' & Hp & <-).
  assert (Hpf : Permutation (map fst k) (map fst k')) by (apply Permutation_map; auto).
  destruct (run_copies k' w) as (w2 & E2 & Hl2 & Hv2 & Ho2).
  - eapply Permutation_NoDup; eauto.
  - rewrite Forall_forall in *. intros x Hx. apply Hf. eapply Permutation_in; [symmetry; exact Hp|exact Hx].
  - rewrite E2. f_equal. apply nthZ_ext; [congruence|]. intros i Hi.
    destruct (in_dec Z.eq_dec i (map fst k)) as [Hin|Hni].
    + apply in_map_iff in Hin. destruct Hin as ([i' [u s]] & Hi' & Hin). cbn in Hi'. subst i'.
      rewrite (Hv _ _ _ Hin). apply Hv2. eapply Permutation_in; eauto.
    + rewrite Ho by (auto; lia). apply Ho2; [lia|]. intros Hc. apply Hni. eapply Permutation_in; [symmetry; exact Hpf|exact Hc].
Qed.

Lemma nodup_app : forall {A} (a b : list A), NoDup a -> NoDup b -> (forall x, In x a -> ~ In x b) -> NoDup (a ++ b).
Proof.
  intros A a b Ha Hb Hd. induction Ha as [|x l Hx Hl IH]; cbn; auto. constructor.
  - rewrite in_app_iff. intros [Hc|Hc]; [auto|]. apply (Hd x); cbn; auto.
  - apply IH. intros y Hy. apply Hd. right. auto.
Qed.

(** Destinations c*b + d are distinct for distinct d below b. *)
Lemma dst_inj : forall b c d c' d', 0 <= d < b -> 0 <= d' < b -> c * b + d = c' * b + d' -> c = c' /\ d = d'.
Proof. intros b c d c' d' H1 H2 H3. assert (c = c') by nia. subst. split; lia. Qed.

Lemma dst_nodup : forall {A} (b : Z) (g : A -> Z) (src : A -> Z -> list R * Z) (l : list A),
  (forall a, In a l -> 0 <= g a < b) -> NoDup (map g l) ->
  NoDup (map fst (flat_map (fun a => map (fun c => (c * b + g a, src a c)) comps) l)).
Proof.
  intros A b g src l Hr Hn. induction l as [|a r IH]; [constructor|]. cbn [flat_map]. rewrite map_app.
  inversion Hn as [|x y Hna Hnr]; subst x y.
  apply nodup_app.
  - rewrite map_map. cbn [fst]. pose proof (Hr a (or_introl eq_refl)).
    unfold comps. cbn [map]. repeat constructor; cbn [In]; intros Hc; repeat (destruct Hc as [Hc|Hc]; [lia|]); auto.
  - apply IH; auto. intros x Hx. apply Hr. right. auto.
  - intros i Hi Hi'. rewrite map_map in Hi. apply in_map_iff in Hi. destruct Hi as (c & <- & Hc). cbn [fst] in Hi'.
    apply in_map_iff in Hi'. destruct Hi' as ([i2 s2] & E & Hin). cbn [fst] in E.
    apply in_flat_map in Hin. destruct Hin as (a' & Ha' & Hin). apply in_map_iff in Hin. destruct Hin as (c' & E' & Hc'). injection E' as E1 E2.
    rewrite <- E1 in E. apply dst_inj in E; [|apply Hr; right; auto|apply Hr; left; auto].
    destruct E as [_ E]. apply Hna. rewrite <- E. apply in_map. auto.
Qed.

Section K.
Variables ndofs nbr : nat.
Notation nZ := (Z.of_nat ndofs).
Notation bZ := (Z.of_nat (ndofs + nbr)).
Notation wsize := (6 * (ndofs + nbr))%nat.

Lemma zseq_nodup : forall n, NoDup (map (fun v : Z => v) (zseq n)).
Proof. intros. rewrite map_id. unfold zseq. apply FinFun.Injective_map_NoDup; [intros a b; apply Nat2Z.inj|apply seq_NoDup]. Qed.

Lemma comps_range : forall c, In c comps -> 0 <= c < 6.
Proof. intros c Hc. unfold comps in Hc. cbn [In] in Hc. lia. Qed.
Lemma range_comps : forall c, 0 <= c < 6 -> In c comps.
Proof. intros c Hc. unfold comps. cbn [In]. lia. Qed.

Lemma nbr_nodup : forall nd, NoDup (map fst (nbrKernel ndofs nbr nd)).
Proof.
  intros nd. unfold nbrKernel. apply (dst_nodup bZ (fun v => nZ + v) (fun v c => (nth (Z.to_nat c) nd [], v))).
  - intros a Ha. apply in_zseq in Ha. lia.
  - unfold zseq. rewrite map_map. apply FinFun.Injective_map_NoDup; [intros x y; lia|apply seq_NoDup].
Qed.
Lemma eh_nodup : forall input, NoDup (map fst (ehKernel ndofs nbr input)).
Proof.
  intros input. unfold ehKernel. apply (dst_nodup bZ (fun v => v) (fun v c => (input, c * nZ + v))).
  - intros a Ha. apply in_zseq in Ha. lia.
  - apply zseq_nodup.
Qed.

Lemma eh_ok : forall w0 input r, length input = (6 * ndofs)%nat -> length w0 = wsize ->
  launch (ehKernel ndofs nbr input) w0 r -> exists v, r = Ok v.
Proof.
  intros w0 input r Hi Hw L.
  assert (F1 : Forall (okCopy (length w0)) (ehKernel ndofs nbr input)).
  { apply Forall_forall. intros x Hx. unfold ehKernel in Hx. apply in_flat_map in Hx. destruct Hx as (v & Hv & Hx).
    apply in_map_iff in Hx. destruct Hx as (c & <- & Hc). apply comps_range in Hc. apply in_zseq in Hv. unfold okCopy. cbn [fst snd]. rewrite Hw, Hi. nia. }
  destruct (launch_any _ _ (eh_nodup input) F1) as (w1 & _ & A1). exists w1. auto.
Qed.

(** Loading the input and the neighbour data on the device gives the vector of
    the CPU loops, whatever was in it before and in any order. *)
Lemma gpu_pack : forall junk w w0 nd input r1 r2, (forall n, length (junk n) = n) ->
  sized ndofs nbr nd input -> length w0 = wsize ->
  launch (ehKernel ndofs nbr input) w0 (Ok r1) -> launch (nbrKernel ndofs nbr nd) r1 r2 ->
  r2 = pack ndofs nbr junk w input nd.
Proof.
  intros junk w w0 nd input r1 r2 Hj Hs Hw L1 L2.
  rewrite (pack_value ndofs nbr junk Hj w nd input Hs). pose proof (packed_spec ndofs nbr junk Hj nd input Hs) as (Hpl & Hp1 & Hp2).
  destruct Hs as [Hi Hn].
  assert (F1 : Forall (okCopy (length w0)) (ehKernel ndofs nbr input)).
  { apply Forall_forall. intros x Hx. unfold ehKernel in Hx. apply in_flat_map in Hx. destruct Hx as (v & Hv & Hx).
    apply in_map_iff in Hx. destruct Hx as (c & <- & Hc). apply comps_range in Hc. apply in_zseq in Hv. unfold okCopy. cbn [fst snd]. rewrite Hw, Hi. nia. }
  destruct (run_copies _ _ (eh_nodup input) F1) as (w1 & E1 & Hl1 & V1 & O1).
  destruct (launch_any _ _ (eh_nodup input) F1) as (w1' & E1' & A1). rewrite E1 in E1'. injection E1' as <-.
  pose proof (A1 _ L1) as Hr1. injection Hr1 as ->.
  assert (F2 : Forall (okCopy (length w1)) (nbrKernel ndofs nbr nd)).
  { apply Forall_forall. intros x Hx. unfold nbrKernel in Hx. apply in_flat_map in Hx. destruct Hx as (v & Hv & Hx).
    apply in_map_iff in Hx. destruct Hx as (c & <- & Hc). apply comps_range in Hc. apply in_zseq in Hv. unfold okCopy. cbn [fst snd]. rewrite Hl1, Hw.
    destruct (Hn ltac:(lia)) as [H6 HF]. rewrite Forall_forall in HF. rewrite (HF (nth (Z.to_nat c) nd [])) by (apply nth_In; lia). nia. }
  destruct (run_copies _ _ (nbr_nodup nd) F2) as (w2 & E2 & Hl2 & V2 & O2).
  destruct (launch_any _ _ (nbr_nodup nd) F2) as (w2' & E2' & A2). rewrite E2 in E2'. injection E2' as <-.
  rewrite (A2 _ L2). f_equal. apply nthZ_ext; [congruence|]. intros i Hri.
  rewrite Hl2, Hl1, Hw in Hri.
  assert (HB : 0 < bZ) by nia.
  set (c := i / bZ). set (d := i mod bZ). assert (Hcd : i = c * bZ + d) by (unfold c, d; rewrite Z.mul_comm; apply Z.div_mod; lia).
  assert (Hd : 0 <= d < bZ) by (unfold d; apply Z.mod_pos_bound; lia).
  assert (Hc : 0 <= c < 6) by (clearbody c d; nia). clearbody c d. subst i.
  destruct (Z_lt_ge_dec d nZ) as [Hlt|Hge].
  - rewrite O2.
    + rewrite (V1 (c * bZ + d) input (c * nZ + d)).
      * symmetry. apply Hp1; auto. lia.
      * unfold ehKernel. apply in_flat_map. exists d. split; [apply in_zseq; lia|]. apply in_map_iff. exists c. split; auto. apply range_comps; auto.
    + nia.
    + intros Hc2. apply in_map_iff in Hc2. destruct Hc2 as ([i s] & E & Hin). cbn [fst] in E. unfold nbrKernel in Hin. apply in_flat_map in Hin.
      destruct Hin as (v & Hv & Hin). apply in_zseq in Hv. apply in_map_iff in Hin. destruct Hin as (c' & E' & Hc'). injection E' as E3 E4.
      rewrite <- E3 in E. apply dst_inj in E; lia.
  - rewrite (V2 (c * bZ + d) (nth (Z.to_nat c) nd []) (d - nZ)).
    + symmetry. replace (c * bZ + d) with (c * bZ + nZ + (d - nZ)) by lia. apply Hp2; auto. lia.
    + unfold nbrKernel. apply in_flat_map. exists (d - nZ). split; [apply in_zseq; lia|]. apply in_map_iff. exists c.
      split; [f_equal; lia|]. apply range_comps; auto.
Qed.

(** Loading the six grid functions. *)
Lemma gpu_load : forall input w r, length input = (6 * ndofs)%nat -> length w = (6 * ndofs)%nat ->
  launch (loadKernel ndofs input) w r -> r = Ok input.
Proof.
  intros input w r Hi Hw L.
  assert (N : NoDup (map fst (loadKernel ndofs input))).
  { unfold loadKernel. apply (dst_nodup nZ (fun v => v) (fun v c => (input, c * nZ + v))).
    - intros a Ha. apply in_zseq in Ha. lia.
    - apply zseq_nodup. }
  assert (F : Forall (okCopy (length w)) (loadKernel ndofs input)).
  { apply Forall_forall. intros x Hx. unfold loadKernel in Hx. apply in_flat_map in Hx. destruct Hx as (v & Hv & Hx).
    apply in_map_iff in Hx. destruct Hx as (c & <- & Hc). apply comps_range in Hc. apply in_zseq in Hv. unfold okCopy. cbn [fst snd]. rewrite Hw, Hi. nia. }
  destruct (run_copies _ _ N F) as (w1 & E1 & Hl1 & V1 & O1).
  destruct (launch_any _ _ N F) as (w1' & E1' & A1). rewrite E1 in E1'. injection E1' as <-.
  rewrite (A1 _ L). f_equal. apply nthZ_ext; [congruence|]. intros i Hri. rewrite Hl1, Hw in Hri.
  assert (HB : 0 < nZ) by nia.
  set (c := i / nZ). set (d := i mod nZ). assert (Hcd : i = c * nZ + d) by (unfold c, d; rewrite Z.mul_comm; apply Z.div_mod; lia).
  assert (Hd : 0 <= d < nZ) by (unfold d; apply Z.mod_pos_bound; lia).
  assert (Hc : 0 <= c < 6) by (clearbody c d; nia). clearbody c d. subst i.
  apply V1. unfold loadKernel. apply in_flat_map. exists d. split; [apply in_zseq; lia|]. apply in_map_iff. exists c. split; auto. apply range_comps; auto.
Qed.

Variable sub2par : list Z.
Hypothesis sub_nodup : NoDup sub2par.
Hypothesis sub_range : forall p, In p sub2par -> 0 <= p < bZ.

Lemma combine_snd : forall {A} (l : list A), map snd (combine (zseq (length l)) l) = l.
Proof.
  intros A l. assert (H : forall (a : list Z) (b : list A), length a = length b -> map snd (combine a b) = b).
  { induction a; intros [|y b] Hl; cbn in *; try discriminate; auto. f_equal. apply IHa. lia. }
  apply H. unfold zseq. rewrite map_length, seq_length. reflexivity.
Qed.

Lemma combine_zseq_in : forall {A} (l : list A) v p, In (v, p) (combine (zseq (length l)) l) -> 0 <= v < Z.of_nat (length l) /\ In p l.
Proof. intros A l v p H. split; [apply in_combine_l in H; apply in_zseq in H; auto|apply in_combine_r in H; auto]. Qed.

(** Scattering the incident field. *)
Lemma gpu_scatter : forall func w r, length func = 6%nat -> Forall (fun v => length v = length sub2par) func -> length w = wsize ->
  launch (scatterKernel ndofs nbr sub2par func) w r -> r = scatter ndofs nbr sub2par func w.
Proof.
  intros func w r H6 Hf Hw L.
  assert (N : NoDup (map fst (scatterKernel ndofs nbr sub2par func))).
  { unfold scatterKernel. apply (dst_nodup bZ snd (fun vp c => (nth (Z.to_nat c) func [], fst vp))).
    - intros [v p] Ha. apply combine_zseq_in in Ha. cbn. apply sub_range. tauto.
    - rewrite combine_snd. auto. }
  assert (F : Forall (okCopy (length w)) (scatterKernel ndofs nbr sub2par func)).
  { apply Forall_forall. intros x Hx. unfold scatterKernel in Hx. apply in_flat_map in Hx. destruct Hx as ([v p] & Hv & Hx).
    apply in_map_iff in Hx. destruct Hx as (c & <- & Hc). apply comps_range in Hc. apply combine_zseq_in in Hv. destruct Hv as [Hv Hp]. apply sub_range in Hp.
    unfold okCopy. cbn [fst snd]. rewrite Hw. rewrite Forall_forall in Hf. rewrite (Hf (nth (Z.to_nat c) func [])) by (apply nth_In; lia). nia. }
  destruct (launch_any _ _ N F) as (w1 & E1 & A1). rewrite (A1 _ L). rewrite <- E1. unfold scatterKernel, scatter. rewrite foldM_flat_map.
  apply foldM_ext_in. intros b [v p] _. rewrite foldM_map. reflexivity.
Qed.

(** Clearing after the scatter restores the zero vector. *)
Lemma gpu_clear : forall func w1 r, length func = 6%nat -> Forall (fun v => length v = length sub2par) func ->
  launch (scatterKernel ndofs nbr sub2par func) (zeros wsize) (Ok w1) -> launch (zeroKernel ndofs nbr sub2par) w1 r -> r = Ok (zeros wsize).
Proof.
  intros func w1 r H6 Hf L1 L2.
  apply gpu_scatter in L1; auto; [|apply repeat_length].
  assert (Hl1 : length w1 = wsize). { symmetry in L1. apply scatter_len in L1. rewrite L1. apply repeat_length. }
  assert (Hz : forall i, 0 <= i -> (forall c p, In c comps -> In p sub2par -> i <> c * bZ + p) -> nthZ w1 i = 0%R).
  { intros i Hi Hno. symmetry in L1.
    assert (Hzo : zout (fun i => exists c p, In c comps /\ In p sub2par /\ i = c * bZ + p) w1).
    { unfold scatter in L1. eapply (foldM_ok_ind (zout (fun i => exists c p, In c comps /\ In p sub2par /\ i = c * bZ + p))); [|apply zout_zeros|exact L1].
      intros b [v p] b' Hin Hb Hx. apply combine_zseq_in in Hin. eapply (foldM_ok_ind (zout (fun i => exists c p, In c comps /\ In p sub2par /\ i = c * bZ + p))); [|exact Hb|exact Hx].
      intros b1 c b2 Hc Hb1 Hx1. apply bind_ok in Hx1. destruct Hx1 as (x & _ & Hx1). eapply zout_write; [|exact Hb1|exact Hx1]. exists c, p. cbn [snd]. tauto. }
    unfold nthZ. destruct (Req_dec (nth (Z.to_nat i) w1 0%R) 0) as [|Hne]; auto. exfalso.
    destruct (Hzo _ Hne) as (c & p & Hc & Hp & E). rewrite Z2Nat.id in E by lia. apply (Hno c p); auto. }
  assert (N : NoDup (map fst (zeroKernel ndofs nbr sub2par))).
  { unfold zeroKernel. apply (dst_nodup bZ (fun p => p) (fun p c => ([0%R], 0))); [|rewrite map_id]; auto. }
  assert (F : Forall (okCopy (length w1)) (zeroKernel ndofs nbr sub2par)).
  { apply Forall_forall. intros x Hx. unfold zeroKernel in Hx. apply in_flat_map in Hx. destruct Hx as (p & Hp & Hx).
    apply in_map_iff in Hx. destruct Hx as (c & <- & Hc). apply comps_range in Hc. apply sub_range in Hp.
    unfold okCopy. cbn [fst snd length]. rewrite Hl1. nia. }
  destruct (run_copies _ _ N F) as (w2 & E2 & Hl2 & V2 & O2).
  destruct (launch_any _ _ N F) as (w2' & E2' & A2). rewrite E2 in E2'. injection E2' as <-.
  rewrite (A2 _ L2). f_equal. apply nthZ_ext; [rewrite Hl2, Hl1; symmetry; apply repeat_length|]. intros i Hi.
  replace (nthZ (zeros wsize) i) with 0%R.
  2:{ unfold nthZ, zeros. destruct (Nat.lt_ge_cases (Z.to_nat i) wsize); [rewrite nth_repeat; auto|rewrite nth_overflow; auto; rewrite repeat_length; lia]. }
  destruct (in_dec Z.eq_dec i (map fst (zeroKernel ndofs nbr sub2par))) as [Hin|Hni].
  - apply in_map_iff in Hin. destruct Hin as ([i' [u s]] & E & Hin). cbn in E. subst i'. rewrite (V2 _ _ _ Hin).
    unfold zeroKernel in Hin. apply in_flat_map in Hin. destruct Hin as (p & Hp & Hx). apply in_map_iff in Hx. destruct Hx as (c & E & Hc). injection E as _ <- <-. reflexivity.
  - rewrite O2 by (auto; lia). apply Hz; [lia|]. intros c p Hc Hp ->. apply Hni. apply in_map_iff. exists (c * bZ + p, ([0%R], 0)). split; auto.
    unfold zeroKernel. apply in_flat_map. exists p. split; auto. apply in_map_iff. exists c. auto.
Qed.
End K.

(** Both load kernels, one after the other. *)
Lemma gpu_pack_all : forall ndofs nbr junk w w0 nd input r1, (forall n, length (junk n) = n) ->
  sized ndofs nbr nd input -> length w0 = (6 * (ndofs + nbr))%nat ->
  launch (ehKernel ndofs nbr input) w0 r1 ->
  exists v1, r1 = Ok v1 /\ forall r2, launch (nbrKernel ndofs nbr nd) v1 r2 -> r2 = pack ndofs nbr junk w input nd.
Proof.
  intros ndofs nbr junk w w0 nd input r1 Hj Hs Hw L. destruct (eh_ok ndofs nbr w0 input r1 (proj1 Hs) Hw L) as (v1 & ->).
  exists v1. split; auto. intros r2 L2. eapply gpu_pack; eauto.
Qed.
Lemma launch_ex : forall k w, exists r, launch k w r.
Proof. intros k w. exists (foldM doCopy k w). exists k. split; auto. Qed.
Lemma ex_gpu : sized 2 1 (repeat [5%R] 6) (repeat 3%R 12) /\ NoDup [0; 2] /\ (forall p, In p [0; 2] -> 0 <= p < Z.of_nat (2 + 1)) /\
  length (repeat [4; 9]%R 6) = 6%nat /\ Forall (fun v => length v = length [0; 2]) (repeat [4; 9]%R 6).
Proof.
  split; [split; [reflexivity|intros _; split; [reflexivity|repeat constructor]]|]. split; [repeat constructor; cbn; lia|].
  split; [intros p Hp; cbn in Hp; lia|]. split; [reflexivity|repeat constructor].
Qed.

(** Proofs: evaluations do not depend on the history of the operator. *)
From Coq Require Import ZArith List Bool Reals Lra Lia.
From Flocq Require Import Core.Raux.
From Verif Require Import Common Probe_Model Evol_Model Evol_Spec Evol_Proofs.
Import ListNotations.
Local Open Scope Z_scope.

(** ** Agreement *)
Lemma agree_bind : forall {A B C D} (P : A -> B -> Prop) (Q : C -> D -> Prop) m1 m2 f g,
  agree P m1 m2 -> (forall a b, P a b -> agree Q (f a) (g b)) -> agree Q (bind m1 f) (bind m2 g).
Proof. intros A B C D P Q [a| |] [b| |] f g Hm Hf; cbn in *; try contradiction; auto. Qed.

Lemma agree_eq : forall {A} (m : res A), agree eq m m.
Proof. intros A [a| |]; cbn; auto. Qed.

Lemma agree_eqP : forall {A} (P : A -> A -> Prop) (m : res A), (forall a, m = Ok a -> P a a) -> agree P m m.
Proof. intros A P [a| |] HP; cbn; auto. Qed.

Lemma agree_mono : forall {A B} (P Q : A -> B -> Prop) m1 m2, (forall a b, P a b -> Q a b) -> agree P m1 m2 -> agree Q m1 m2.
Proof. intros A B P Q [a| |] [b| |] Hpq Hm; cbn in *; auto. Qed.

Lemma agree_foldM : forall {A B C} (P : B -> C -> Prop) (f : B -> A -> res B) (g : C -> A -> res C) l b c,
  (forall b c x, In x l -> P b c -> agree P (f b x) (g c x)) -> P b c -> agree P (foldM f l b) (foldM g l c).
Proof.
  intros A B C P f g l. induction l as [|x t IH]; intros b c Hs Hp; cbn; auto.
  eapply agree_bind; [apply Hs; [left; auto|exact Hp]|]. intros b' c' Hp'. apply IH; auto. intros; apply Hs; auto. right; auto.
Qed.

Lemma agree_mapM : forall {A1 A2 B1 B2} (Q : A1 -> A2 -> Prop) (P : B1 -> B2 -> Prop) f g l1 l2,
  Forall2 Q l1 l2 -> (forall a b, In a l1 -> In b l2 -> Q a b -> agree P (f a) (g b)) -> agree (Forall2 P) (mapM f l1) (mapM g l2).
Proof.
  intros A1 A2 B1 B2 Q P f g l1 l2 Hl. induction Hl as [|a b l1 l2 Hab Hl IH]; intros Hf; cbn; auto.
  eapply agree_bind; [apply Hf; [left|left|]; auto|]. intros a' b' Hp. eapply agree_bind.
  - apply IH. intros; apply Hf; auto; right; auto.
  - intros l1' l2' Hl'. cbn. constructor; auto.
Qed.

Section H.
Variable inv : list (list R) -> list R -> list R.

(** ** The factorisation cache never shows *)
Lemma denseSolve_ok : forall A dt rhs c, dt <> (-1)%R -> cache_ok A c ->
  denseSolve inv A dt rhs c = Ok (inv (jac A dt) rhs, mkCache true dt (Some (jac A dt))).
Proof.
  intros A dt rhs [f cd ci] Hd Hc. unfold denseSolve. cbv zeta. cbn [c_formed c_cdt c_inv].
  destruct f; cbn [c_cdt c_inv].
  - destruct (Req_EM_T dt cd) as [<-|]; [|reflexivity]. destruct Hc as [[_ H2]|[_ H2]]; cbn in H2; [congruence|].
    cbn. rewrite H2. reflexivity.
  - destruct (Req_EM_T dt (-1)); [contradiction|]. reflexivity.
Qed.

Lemma cache_ok_set : forall A dt, cache_ok A (mkCache true dt (Some (jac A dt))).
Proof. intros. right. auto. Qed.
Lemma cache_ok_new : forall A, cache_ok A newCache.
Proof. intros. left. auto. Qed.

Definition caches (A : matrix) (c1 c2 : cache) := cache_ok A c1 /\ cache_ok A c2.

Lemma runProg_agree : forall A p c1 c2, avoids p -> caches A c1 c2 ->
  agree (fun a b => fst a = fst b /\ caches A (snd a) (snd b)) (runProg inv A p c1) (runProg inv A p c2).
Proof.
  intros A p. induction p as [x|dt x k IH]; intros c1 c2 Ha [H1 H2]; cbn [runProg].
  - cbn. repeat split; auto.
  - destruct Ha as [Hd Hk]. unfold subImplicitSolve. destruct (spmv A x) as [rhs| |]; cbn [bind]; [|cbn; auto..].
    rewrite (denseSolve_ok A dt rhs c1), (denseSolve_ok A dt rhs c2) by auto. cbn [bind].
    apply IH; auto. split; apply cache_ok_set.
Qed.

(** Wrapper dynamics that agree on the fields. *)
Definition dsim (A : matrix) (d1 d2 : wdyn) : Prop := d_all d1 = d_all d2 /\ caches A (d_cache d1) (d_cache d2).
Definition dcache (A : matrix) (d1 d2 : wdyn) : Prop := caches A (d_cache d1) (d_cache d2).

Lemma solve_agree : forall w t dt d1 d2, sane w -> (0 < dt)%R -> dsim (w_A w) d1 d2 ->
  agree (dsim (w_A w)) (solve inv w t dt d1) (solve inv w t dt d2).
Proof.
  intros w t dt d1 d2 Hs Hdt [Ha Hc]. unfold solve. destruct Rlt_dec as [Hl|Hl]; [split; auto|].
  cbv zeta. cbn [d_all d_time d_final d_dt d_cache]. rewrite Ha.
  eapply agree_bind; [apply runProg_agree; [|exact Hc]|].
  - apply Hs. apply Rmin_glb_lt; lra.
  - intros [x1 c1] [x2 c2] [Hx Hc']. cbn in *. subst. split; auto.
Qed.

Lemma nsteps_pos : forall sub dt m, nsteps sub dt = Ok m -> 1 <= m.
Proof.
  intros sub dt m Hn. unfold nsteps in Hn. destruct Rlt_dec; [|injection Hn as <-; lia].
  destruct Rlt_dec; [|injection Hn as <-; lia]. unfold ceil_int in Hn.
  match type of Hn with (if ?b then _ else _) = _ => destruct b; [|discriminate] end.
  injection Hn as <-.
  assert (H1 : (0 < dt / sub)%R) by (apply Rmult_lt_0_compat; [lra|apply Rinv_0_lt_compat; lra]).
  pose proof (Zceil_ub (dt / sub)). assert (IZR 0 < IZR (Zceil (dt / sub)))%R by lra. apply lt_IZR in H0. lia.
Qed.

Lemma advance_agree : forall w base dt gh s d1 d2, sane w -> (0 < dt)%R -> dcache (w_A w) d1 d2 ->
  agree (fun a b => fst a = fst b /\ same_state s (fst a) /\ dcache (w_A w) (snd a) (snd b))
    (advance inv w base dt gh s d1) (advance inv w base dt gh s d2).
Proof.
  intros w base dt gh s d1 d2 Hs Hdt Hc. unfold advance. destruct (nsteps (w_rec w) dt) as [m| |] eqn:Em; cbn [bind]; [|cbn; auto..].
  apply nsteps_pos in Em. cbv zeta.
  assert (Hsub : (0 < dt / IZR m)%R). { apply Rmult_lt_0_compat; auto. apply Rinv_0_lt_compat. apply IZR_lt. lia. }
  apply agree_bind with (P := dsim (w_A w)).
  - apply agree_foldM; [|split; auto]. intros b c x _ [Hb Hc']. rewrite Hb.
    destruct (gh _ x (d_all c)) as [all| |]; cbn [bind]; [|cbn; auto..].
    apply solve_agree; auto. split; auto.
  - intros a b [Ha Hc']. cbn. rewrite Ha. repeat split; auto; apply Hc'.
Qed.

Variables ndofs nbr : nat.
Variable Aop : matrix.
Variables Top Sop : option matrix.
Variable hasTF : bool.
Variable sub2par : list Z.
Variable src : R -> list (list R).
Variables elem1 elem2 : list Z.
Variable junk : nat -> list R.
Hypothesis junk_len : forall n, length (junk n) = n.
Variable gmres : R -> list R -> list R -> list R.

Notation nZ := (nZ ndofs).
Notation bZ := (bZ ndofs nbr).
Notation wsize := (wsize ndofs nbr).
Notation mult := (mult inv ndofs nbr Aop Top Sop hasTF sub2par src elem1 elem2 junk).
Notation implicitSolve := (implicitSolve inv ndofs nbr Aop Top hasTF sub2par src junk gmres).
Notation commit := (commit ndofs).
Notation finalize := (finalize inv ndofs).
Notation pack := (pack ndofs nbr junk).
Notation clean := (clean ndofs nbr).

(** ** Packing overwrites the whole scratch vector *)
Lemma setVector_app : forall src0 a b c, length b = length src0 ->
  setVector src0 (Z.of_nat (length a)) (a ++ b ++ c) = Ok (a ++ src0 ++ c).
Proof.
  induction src0 as [|x s IH]; intros a b c Hl.
  - destruct b; [reflexivity|discriminate].
  - destruct b as [|y b]; [discriminate|]. unfold setVector. cbn [length zseq seq map combine].
    unfold zseq. cbn [seq map combine]. unfold writes. cbn [foldM]. unfold write at 1. cbn [fst snd].
    rewrite zset_in_range by (rewrite app_length; cbn [length app]; lia). cbn [bind].
    replace (Z.to_nat (Z.of_nat (length a) + Z.of_nat 0)) with (length a + 0)%nat by lia. rewrite upd_app_r. cbn [upd app].
    specialize (IH (a ++ [x]) b c). rewrite <- !app_assoc in IH. cbn [app] in IH.
    rewrite <- IH by (cbn in Hl; lia). unfold setVector, writes. f_equal. rewrite app_length. cbn [length].
    rewrite <- seq_shift, !map_map. f_equal. unfold zseq. rewrite map_map. apply map_ext. intros k. lia.
Qed.

Notation sized := (sized ndofs nbr).

Lemma chunk_len : forall input c, length input = (6 * ndofs)%nat -> In c comps -> length (chunk ndofs input c) = ndofs.
Proof.
  intros input c Hl Hc. unfold chunk. rewrite firstn_length, skipn_length. rewrite Hl.
  assert (Z.to_nat c <= 5)%nat by (unfold comps in Hc; cbn in Hc; lia). nia.
Qed.

Lemma split_len : forall {A} (l : list A) n m, length l = (n + m)%nat -> exists a b, l = a ++ b /\ length a = n /\ length b = m.
Proof.
  intros A l n m Hl. exists (firstn n l), (skipn n l). rewrite firstn_skipn, firstn_length, skipn_length. repeat split; lia.
Qed.

Definition packed (nd : list (list R)) (input : list R) : list R :=
  flat_map (fun c => chunk ndofs input c ++ (if Nat.eqb nbr 0 then [] else nth (Z.to_nat c) nd [])) comps.

Lemma pack_value : forall w nd input, sized nd input -> pack w input nd = Ok (packed nd input).
Proof.
  intros w nd input Hsz. destruct Hsz as [Hi Hn]. unfold Evol_Model.pack. cbv zeta.
  set (w0 := if Nat.eqb (length w) wsize then w else junk wsize).
  assert (Hw : length w0 = wsize) by (unfold w0; destruct (Nat.eqb_spec (length w) wsize); auto). clearbody w0.
  assert (C : forall c, In c comps -> length (chunk ndofs input c) = ndofs) by (intros; apply chunk_len; auto).
  pose proof (C 0) as C0. pose proof (C 1) as C1. pose proof (C 2) as C2. pose proof (C 3) as C3. pose proof (C 4) as C4. pose proof (C 5) as C5.
  unfold comps in *. cbn [In] in *.
  set (k0 := chunk ndofs input 0) in *. set (k1 := chunk ndofs input 1) in *. set (k2 := chunk ndofs input 2) in *.
  set (k3 := chunk ndofs input 3) in *. set (k4 := chunk ndofs input 4) in *. set (k5 := chunk ndofs input 5) in *.
  assert (D0 : length k0 = ndofs) by (auto 10). assert (D1 : length k1 = ndofs) by (auto 10). assert (D2 : length k2 = ndofs) by (auto 10).
  assert (D3 : length k3 = ndofs) by (auto 10). assert (D4 : length k4 = ndofs) by (auto 10). assert (D5 : length k5 = ndofs) by (auto 10).
  clear C C0 C1 C2 C3 C4 C5.
  unfold Evol_Model.wsize in Hw.
  destruct (split_len w0 ndofs (nbr + 5 * (ndofs + nbr))) as (p0 & w1 & -> & P0 & Q0); [lia|]. clear Hw.
  destruct (split_len w1 nbr (5 * (ndofs + nbr))) as (q0 & w2 & -> & R0 & S0); [lia|]. clear Q0.
  destruct (split_len w2 ndofs (nbr + 4 * (ndofs + nbr))) as (p1 & w3 & -> & P1 & Q1); [lia|]. clear S0.
  destruct (split_len w3 nbr (4 * (ndofs + nbr))) as (q1 & w4 & -> & R1 & S1); [lia|]. clear Q1.
  destruct (split_len w4 ndofs (nbr + 3 * (ndofs + nbr))) as (p2 & w5 & -> & P2 & Q2); [lia|]. clear S1.
  destruct (split_len w5 nbr (3 * (ndofs + nbr))) as (q2 & w6 & -> & R2 & S2); [lia|]. clear Q2.
  destruct (split_len w6 ndofs (nbr + 2 * (ndofs + nbr))) as (p3 & w7 & -> & P3 & Q3); [lia|]. clear S2.
  destruct (split_len w7 nbr (2 * (ndofs + nbr))) as (q3 & w8 & -> & R3 & S3); [lia|]. clear Q3.
  destruct (split_len w8 ndofs (nbr + 1 * (ndofs + nbr))) as (p4 & w9 & -> & P4 & Q4); [lia|]. clear S3.
  destruct (split_len w9 nbr (1 * (ndofs + nbr))) as (q4 & w10 & -> & R4 & S4); [lia|]. clear Q4.
  destruct (split_len w10 ndofs nbr) as (p5 & q5 & -> & P5 & R5); [lia|]. clear S4.
  assert (SW : forall s a b c v off, v = a ++ b ++ c -> off = Z.of_nat (length a) -> length b = length s ->
     setVector s off v = Ok (a ++ s ++ c)) by (intros s a b c v off Ev Eo Hl; rewrite Ev, Eo; apply setVector_app; auto).
  cbn [foldM].
  rewrite (SW k0 ([]) p0 (q0 ++ p1 ++ q1 ++ p2 ++ q2 ++ p3 ++ q3 ++ p4 ++ q4 ++ p5 ++ q5)) by (rewrite <- ?app_assoc, ?app_nil_r, ?app_length; unfold Evol_Model.bZ, Evol_Model.nZ; cbn [length app]; try reflexivity; lia). cbn [bind].
  rewrite (SW k1 (k0 ++ q0) p1 (q1 ++ p2 ++ q2 ++ p3 ++ q3 ++ p4 ++ q4 ++ p5 ++ q5)) by (rewrite <- ?app_assoc, ?app_nil_r, ?app_length; unfold Evol_Model.bZ, Evol_Model.nZ; cbn [length app]; try reflexivity; lia). cbn [bind].
  rewrite (SW k2 (k0 ++ q0 ++ k1 ++ q1) p2 (q2 ++ p3 ++ q3 ++ p4 ++ q4 ++ p5 ++ q5)) by (rewrite <- ?app_assoc, ?app_nil_r, ?app_length; unfold Evol_Model.bZ, Evol_Model.nZ; cbn [length app]; try reflexivity; lia). cbn [bind].
  rewrite (SW k3 (k0 ++ q0 ++ k1 ++ q1 ++ k2 ++ q2) p3 (q3 ++ p4 ++ q4 ++ p5 ++ q5)) by (rewrite <- ?app_assoc, ?app_nil_r, ?app_length; unfold Evol_Model.bZ, Evol_Model.nZ; cbn [length app]; try reflexivity; lia). cbn [bind].
  rewrite (SW k4 (k0 ++ q0 ++ k1 ++ q1 ++ k2 ++ q2 ++ k3 ++ q3) p4 (q4 ++ p5 ++ q5)) by (rewrite <- ?app_assoc, ?app_nil_r, ?app_length; unfold Evol_Model.bZ, Evol_Model.nZ; cbn [length app]; try reflexivity; lia). cbn [bind].
  rewrite (SW k5 (k0 ++ q0 ++ k1 ++ q1 ++ k2 ++ q2 ++ k3 ++ q3 ++ k4 ++ q4) p5 (q5)) by (rewrite <- ?app_assoc, ?app_nil_r, ?app_length; unfold Evol_Model.bZ, Evol_Model.nZ; cbn [length app]; try reflexivity; lia). cbn [bind].
  unfold packed, comps. cbn [flat_map]. fold k0 k1 k2 k3 k4 k5.
  destruct (Nat.eqb_spec nbr 0) as [Hnb|Hnb].
  - destruct q0; [|cbn in R0; lia]. destruct q1; [|cbn in R1; lia]. destruct q2; [|cbn in R2; lia].
    destruct q3; [|cbn in R3; lia]. destruct q4; [|cbn in R4; lia]. destruct q5; [|cbn in R5; lia].
    rewrite ?app_nil_r, <- ?app_assoc. cbn [app]. reflexivity.
  - destruct (Hn Hnb) as [Hnl Hnf].
    destruct nd as [|n0 [|n1 [|n2 [|n3 [|n4 [|n5 [|]]]]]]]; try discriminate.
    assert (L0 : length n0 = nbr) by (rewrite Forall_forall in Hnf; apply Hnf; cbn; auto).
    assert (L1 : length n1 = nbr) by (rewrite Forall_forall in Hnf; apply Hnf; cbn; auto).
    assert (L2 : length n2 = nbr) by (rewrite Forall_forall in Hnf; apply Hnf; cbn; auto).
    assert (L3 : length n3 = nbr) by (rewrite Forall_forall in Hnf; apply Hnf; cbn; auto 10).
    assert (L4 : length n4 = nbr) by (rewrite Forall_forall in Hnf; apply Hnf; cbn; auto 10).
    assert (L5 : length n5 = nbr) by (rewrite Forall_forall in Hnf; apply Hnf; cbn; auto 10).
    change (Z.to_nat 0) with 0%nat. change (Z.to_nat 1) with 1%nat. change (Z.to_nat 2) with 2%nat.
    change (Z.to_nat 3) with 3%nat. change (Z.to_nat 4) with 4%nat. change (Z.to_nat 5) with 5%nat. cbn [nth].
    rewrite (SW n0 (k0) q0 (k1 ++ q1 ++ k2 ++ q2 ++ k3 ++ q3 ++ k4 ++ q4 ++ k5 ++ q5)) by (rewrite <- ?app_assoc, ?app_nil_r, ?app_length; unfold Evol_Model.bZ, Evol_Model.nZ; cbn [length app]; try reflexivity; lia). cbn [bind].
    rewrite (SW n1 (k0 ++ n0 ++ k1) q1 (k2 ++ q2 ++ k3 ++ q3 ++ k4 ++ q4 ++ k5 ++ q5)) by (rewrite <- ?app_assoc, ?app_nil_r, ?app_length; unfold Evol_Model.bZ, Evol_Model.nZ; cbn [length app]; try reflexivity; lia). cbn [bind].
    rewrite (SW n2 (k0 ++ n0 ++ k1 ++ n1 ++ k2) q2 (k3 ++ q3 ++ k4 ++ q4 ++ k5 ++ q5)) by (rewrite <- ?app_assoc, ?app_nil_r, ?app_length; unfold Evol_Model.bZ, Evol_Model.nZ; cbn [length app]; try reflexivity; lia). cbn [bind].
    rewrite (SW n3 (k0 ++ n0 ++ k1 ++ n1 ++ k2 ++ n2 ++ k3) q3 (k4 ++ q4 ++ k5 ++ q5)) by (rewrite <- ?app_assoc, ?app_nil_r, ?app_length; unfold Evol_Model.bZ, Evol_Model.nZ; cbn [length app]; try reflexivity; lia). cbn [bind].
    rewrite (SW n4 (k0 ++ n0 ++ k1 ++ n1 ++ k2 ++ n2 ++ k3 ++ n3 ++ k4) q4 (k5 ++ q5)) by (rewrite <- ?app_assoc, ?app_nil_r, ?app_length; unfold Evol_Model.bZ, Evol_Model.nZ; cbn [length app]; try reflexivity; lia). cbn [bind].
    rewrite (SW n5 (k0 ++ n0 ++ k1 ++ n1 ++ k2 ++ n2 ++ k3 ++ n3 ++ k4 ++ n4 ++ k5) q5 ([])) by (rewrite <- ?app_assoc, ?app_nil_r, ?app_length; unfold Evol_Model.bZ, Evol_Model.nZ; cbn [length app]; try reflexivity; lia). cbn [bind].
    rewrite <- ?app_assoc. cbn [app]. reflexivity.
Qed.

(** ** States of the operator that differ only in what must not matter *)
Definition shape (gs : list group) (cps : list (list (list R * (list R * list R)))) : Prop :=
  Forall2 (fun g cp => length (g_states g) = length cp) gs cps.
Definition good (e : evol) : Prop :=
  clean (e_work e) /\ groups_ok (e_groups e) /\ cache_ok Aop (e_cache e) /\
  (e_cp e = None \/ exists cps, e_cp e = Some cps /\ shape (e_groups e) cps /\ (0 < e_dt e)%R).
(** Same checkpoint and layout; the thin-layer fields may differ. *)
Definition rel (e1 e2 : evol) : Prop :=
  good e1 /\ good e2 /\ e_cp e1 = e_cp e2 /\ e_base e1 = e_base e2 /\ e_dt e1 = e_dt e2 /\
  Forall2 same_group (e_groups e1) (e_groups e2).
(** Same thin-layer fields as well. *)
Definition eq_groups (gs1 gs2 : list group) : Prop := Forall2 (fun g1 g2 => g_w g1 = g_w g2 /\ g_states g1 = g_states g2) gs1 gs2.
Definition relS (e1 e2 : evol) : Prop := rel e1 e2 /\ eq_groups (e_groups e1) (e_groups e2).

Lemma same_state_refl : forall s, same_state s s. Proof. intros; repeat split. Qed.
Lemma Forall2_refl : forall {A} (P : A -> A -> Prop) l, (forall a, P a a) -> Forall2 P l l.
Proof. intros A P l HP. induction l; constructor; auto. Qed.
Lemma same_group_refl : forall g, same_group g g.
Proof. intros; split; auto. apply Forall2_refl. apply same_state_refl. Qed.
Lemma Forall2_sym : forall {A} (P : A -> A -> Prop) l1 l2, (forall a b, P a b -> P b a) -> Forall2 P l1 l2 -> Forall2 P l2 l1.
Proof. intros A P l1 l2 HP Hl. induction Hl; constructor; auto. Qed.
Lemma Forall2_trans : forall {A} (P : A -> A -> Prop) l1 l2 l3, (forall a b c, P a b -> P b c -> P a c) ->
  Forall2 P l1 l2 -> Forall2 P l2 l3 -> Forall2 P l1 l3.
Proof. intros A P l1 l2 l3 HP Hl. revert l3. induction Hl; intros l3 H3; inversion H3; subst; constructor; eauto. Qed.
Lemma same_group_sym : forall a b, same_group a b -> same_group b a.
Proof.
  intros a b [Hw Hs]. split; auto. apply (Forall2_sym same_state); auto.
  unfold same_state. intros x y (?&?&?). repeat split; auto.
Qed.
Lemma same_group_trans : forall a b c, same_group a b -> same_group b c -> same_group a c.
Proof.
  intros a b c [Hw Hs] [Hw2 Hs2]. split; [congruence|]. apply (Forall2_trans same_state _ (g_states b)); auto.
  unfold same_state. intros x y z (?&?&?) (?&?&?). repeat split; congruence.
Qed.
Lemma rel_refl : forall e, good e -> rel e e.
Proof. intros e Hg. repeat split; auto; try apply Hg. apply Forall2_refl. apply same_group_refl. Qed.
Lemma rel_sym : forall a b, rel a b -> rel b a.
Proof. intros a b (H1&H2&H3&H4&H5&H6). split; [auto|]. split; [auto|]. repeat split; auto. apply (Forall2_sym same_group); auto. apply same_group_sym. Qed.
Lemma rel_trans : forall a b c, rel a b -> rel b c -> rel a c.
Proof.
  intros a b c (H1&H2&H3&H4&H5&H6) (G1&G2&G3&G4&G5&G6). split; [auto|]. split; [auto|]. repeat split; try congruence.
  eapply (Forall2_trans same_group); eauto. apply same_group_trans.
Qed.

(** Restoring the same checkpoint gives the same states. *)
Lemma restoreStates_same : forall ss1 ss2 cp, Forall2 same_state ss1 ss2 -> restoreStates ss1 cp = restoreStates ss2 cp.
Proof.
  intros ss1 ss2 cp Hs. revert cp. induction Hs as [|a b l1 l2 Hab Hl IH]; intros [|c cp]; try reflexivity.
  unfold restoreStates in *. cbn [combine map fst snd]. rewrite IH. f_equal. unfold with_fs. destruct Hab as (->&->&->). reflexivity.
Qed.
Lemma restoreStates_layout : forall ss cp, length ss = length cp -> Forall2 same_state ss (restoreStates ss cp).
Proof.
  induction ss as [|s ss IH]; intros [|c cp] Hl; try discriminate; constructor.
  - repeat split.
  - apply IH. cbn in Hl. lia.
Qed.

(** Relation between groups during a call: same wrapper and states, good caches, layout kept. *)
Definition gsim (g0 g1 g2 : group) : Prop :=
  same_group g0 g1 /\ g_w g1 = g_w g2 /\ g_states g1 = g_states g2 /\ sane (g_w g1) /\ dcache (w_A (g_w g1)) (g_d g1) (g_d g2).

Lemma restore_agree : forall gs1 gs2 cp, Forall2 same_group gs1 gs2 -> groups_ok gs1 -> groups_ok gs2 ->
  (cp = None \/ exists cps, cp = Some cps /\ shape gs1 cps) ->
  agree (fun a b => Forall2 (fun g1 g2 => g_w g1 = g_w g2 /\ g_states g1 = g_states g2 /\ sane (g_w g1) /\ dcache (w_A (g_w g1)) (g_d g1) (g_d g2)) a b
                    /\ Forall2 same_group gs1 a) (restore gs1 cp) (restore gs2 cp).
Proof.
  intros gs1 gs2 cp Hs H1 H2 Hcp. destruct Hcp as [->|(cps & -> & Hsh)]; cbn [restore].
  - destruct Hs; cbn; auto.
  - cbn [agree]. revert gs2 Hs H1 H2. induction Hsh as [|g c gs cps Hgc Hsh IH]; intros gs2 Hs H1 H2; inversion Hs; subst; cbn [combine map]; [split; constructor|].
    inversion H1; subst. inversion H2; subst. destruct (IH l' H5 H6 H8) as [I1 I2]. split; constructor; auto.
    + destruct H3 as [E1 E2]. destruct H4 as [S1 C1]. destruct H7 as [S2 C2]. cbn. repeat split; auto.
      * apply restoreStates_same; auto.
      * rewrite E1; auto.
    + split; [reflexivity|]. cbn. apply restoreStates_layout; auto.
Qed.

Lemma overStates_agree : forall w f ss d1 d2,
  (forall s d1 d2, dcache (w_A w) d1 d2 -> agree (fun a b => fst a = fst b /\ same_state s (fst a) /\ dcache (w_A w) (snd a) (snd b)) (f s d1) (f s d2)) ->
  dcache (w_A w) d1 d2 ->
  agree (fun a b => fst a = fst b /\ Forall2 same_state ss (fst a) /\ dcache (w_A w) (snd a) (snd b)) (overStates f ss d1) (overStates f ss d2).
Proof.
  intros w f ss. induction ss as [|s ss IH]; intros d1 d2 Hf Hd; cbn [overStates].
  - cbn. repeat split; auto; apply Hd.
  - eapply agree_bind; [apply Hf; exact Hd|]. intros [s1 e1] [s2 e2] (E & Hss & Hd'). cbn in E, Hss, Hd'. subst s2.
    eapply agree_bind; [apply IH; auto; exact Hd'|]. intros [r1 x1] [r2 x2] (E & Hrr & Hx). cbn in *. subst. repeat split; auto; apply Hx.
Qed.

Lemma flat_states_eq : forall a b, Forall2 (fun g1 g2 => g_w g1 = g_w g2 /\ g_states g1 = g_states g2 /\ sane (g_w g1) /\ dcache (w_A (g_w g1)) (g_d g1) (g_d g2)) a b -> flat_map g_states a = flat_map g_states b.
Proof. intros a b Hab. induction Hab as [|x y l1 l2 (Hw&Hs&_) Hl IH]; cbn; [auto|]. congruence. Qed.

Definition gs_sim (gs0 a b : list group) : Prop :=
  Forall2 same_group gs0 a /\ Forall2 same_group a b /\ groups_ok a /\ groups_ok b.

Lemma sim_out : forall gs0 a b,
  Forall2 (fun g1 g2 => g_w g1 = g_w g2 /\ g_states g1 = g_states g2 /\ sane (g_w g1) /\ dcache (w_A (g_w g1)) (g_d g1) (g_d g2)) a b -> Forall2 same_group gs0 a ->
  eq_groups a b /\ gs_sim gs0 a b.
Proof.
  intros gs0 a b Hab H0.
  assert (eq_groups a b /\ Forall2 same_group a b /\ groups_ok a /\ groups_ok b) as (?&?&?&?).
  { clear H0. induction Hab as [|x y l1 l2 (Hw&Hs&Hsa&Hc1&Hc2) Hl (I1&I2&I3&I4)]; [repeat split; constructor|].
    split; [constructor; auto|]. split; [constructor; auto|].
    { split; auto. rewrite Hs. apply Forall2_refl, same_state_refl. }
    split; constructor; auto. rewrite <- Hw. auto. }
  split; auto. split; auto.
Qed.

Lemma multSub_agree : forall e1 e2 t input, rel e1 e2 ->
  agree (fun a b => snd a = snd b /\ (eq_groups (fst a) (fst b) \/ Sop = None) /\ gs_sim (e_groups e1) (fst a) (fst b))
    (multSub inv ndofs Sop e1 t input) (multSub inv ndofs Sop e2 t input).
Proof.
  intros e1 e2 t input ((K1&G1&C1&P1) & (K2&G2&C2&P2) & Hcp & Hb & Hd & Hg). unfold multSub.
  assert (Hsim0 : gs_sim (e_groups e1) (e_groups e1) (e_groups e2)).
  { split; [apply Forall2_refl; apply same_group_refl|auto]. }
  destruct Sop as [M|]; [|cbn; auto].
  destruct (e_groups e1) as [|x1 gs1] eqn:E1.
  { destruct (e_groups e2); [|inversion Hg]. cbn. split; auto. split; [|exact Hsim0]. left. constructor. }
  destruct (e_groups e2) as [|x2 gs2] eqn:E2; [inversion Hg|].
  rewrite <- E1 in Hg, G1, P1, Hsim0 |- *. rewrite <- E2 in Hg, G2, P2, Hsim0 |- *. clear E1 E2 x1 x2 gs1 gs2.
  cbv zeta. rewrite <- Hcp, <- Hb.
  eapply agree_bind.
  { apply restore_agree; eauto. destruct P1 as [P1|(cps&P1&P1'&_)]; eauto. }
  intros a b [Hab H0]. rewrite <- (flat_states_eq a b Hab).
  destruct (anyLoud ndofs input (flat_map g_states a)) as [[|]| |]; cbn [bind]; [| |cbn; auto..].
  - destruct Rlt_dec as [Hlt|].
    + eapply agree_bind with (P := fun x y => Forall2 (fun g1 g2 => g_w g1 = g_w g2 /\ g_states g1 = g_states g2 /\ sane (g_w g1) /\ dcache (w_A (g_w g1)) (g_d g1) (g_d g2)) x y /\ Forall2 same_group a x).
      * clear - Hab Hlt. induction Hab as [|g1 g2 l1 l2 (Hw&Hs&Hsa&Hc) Hl IH]; cbn [mapM]; [cbn; split; constructor|].
        apply agree_bind with (P := fun x y => g_w x = g_w y /\ g_states x = g_states y /\ sane (g_w x) /\ dcache (w_A (g_w x)) (g_d x) (g_d y) /\ same_group g1 x).
        -- rewrite <- Hw, <- Hs. eapply agree_bind; [apply overStates_agree with (w := g_w g1)|].
           ++ intros s d1 d2 Hd. unfold subMult. destruct (loud ndofs input s) as [[|]| |]; cbn [bind]; [| |cbn; auto..].
              ** apply advance_agree; auto. lra.
              ** cbn. repeat split; auto; apply Hd.
           ++ exact Hc.
           ++ intros [s1 d1] [s2 d2] (Ea & Eb & Ec). cbn in *. subst. repeat split; auto; apply Ec.
        -- intros x y (Wx&Sx&Sax&Cx&Gx). eapply agree_bind; [exact IH|]. intros xs ys [I1 I2]. cbn. split; constructor; auto.
      * intros x y [Hxy Hax].
        assert (H0x : Forall2 same_group (e_groups e1) x) by (eapply Forall2_trans; [apply same_group_trans|exact H0|exact Hax]).
        destruct (sim_out _ _ _ Hxy H0x) as [A1 A2]. cbn. auto.
    + destruct (sim_out _ _ _ Hab H0) as [A1 A2]. cbn. auto.
  - destruct (sim_out _ _ _ Hab H0) as [A1 A2]. cbn. auto.
Qed.

Lemma wstates_eq : forall a b, eq_groups a b -> wstates a = wstates b.
Proof. intros a b Hab. induction Hab as [|x y l1 l2 [Hw Hs] Hl IH]; cbn; auto. rewrite Hw, Hs. f_equal. exact IH. Qed.

Lemma sgbcFlux_eq : forall M a b input w o, eq_groups a b ->
  sgbcFlux ndofs nbr elem1 elem2 M a input w o = sgbcFlux ndofs nbr elem1 elem2 M b input w o.
Proof.
  intros M a b input w o Hab. unfold sgbcFlux.
  assert (HO : forall f v, overGroups f a v = overGroups f b v) by (intros; rewrite !overGroups_flat, (wstates_eq _ _ Hab); reflexivity).
  rewrite HO. destruct (overGroups _ b w); cbn [bind]; auto.
  destruct (target _ _ elem1 _ _); cbn [bind]; auto. rewrite HO. destruct (overGroups _ b _); cbn [bind]; auto.
  rewrite HO. destruct (overGroups _ b _); cbn [bind]; auto. destruct (target _ _ elem2 _ _); cbn [bind]; auto. rewrite HO. reflexivity.
Qed.

Lemma Forall2_length : forall {A B} (P : A -> B -> Prop) l1 l2, Forall2 P l1 l2 -> length l1 = length l2.
Proof. intros A B P l1 l2 Hl. induction Hl; cbn; auto. Qed.

Lemma shape_keep : forall gs0 a cps, Forall2 same_group gs0 a -> shape gs0 cps -> shape a cps.
Proof.
  intros gs0 a cps Hs. revert cps. induction Hs as [|x y l1 l2 [Hw Hs] Hl IH]; intros cps Hc; inversion Hc; subst; constructor.
  - rewrite <- H1. symmetry. eapply Forall2_length. exact Hs.
  - apply IH. auto.
Qed.

Lemma good_keep : forall e gs work cache, good e -> clean work -> Forall2 same_group (e_groups e) gs -> groups_ok gs -> cache_ok Aop cache ->
  rel e (mkEvol work gs (e_cp e) (e_base e) (e_dt e) cache).
Proof.
  intros e gs work cache (K1&G1&C1&P1) Hc Hs Hk Hca. repeat split; auto. cbn.
  destruct P1 as [P1|(cps&P1&P2&P3)]; auto. right. exists cps. repeat split; auto. eapply shape_keep; eauto.
Qed.

Lemma mult_agree : forall e1 e2 t nd input, rel e1 e2 -> sized nd input ->
  agree (fun a b => fst a = fst b /\ rel e1 (snd a) /\ rel e2 (snd b)) (mult e1 t nd input) (mult e2 t nd input).
Proof.
  intros e1 e2 t nd input Hr Hsz. unfold Evol_Model.mult.
  eapply agree_bind; [apply multSub_agree; exact Hr|].
  intros [gs1 q1] [gs2 q2] (Hq & Heq & (S1 & S2 & O1 & O2)). cbn [fst snd] in *. subst q2.
  rewrite !pack_value by auto. cbn [bind].
  destruct (spmv Aop (packed nd input)) as [out| |]; cbn [bind]; [|cbn; auto..]. cbv zeta.
  assert (HL : length (packed nd input) = wsize).
  { pose proof (pack_value [] nd input Hsz) as HP. eapply pack_len; [exact junk_len|exact HP]. }
  destruct (applyTFSF _ _ _ _ _ _ t _ out) as [[w1 o1]| |] eqn:EA; cbn [bind]; [|cbn; auto..].
  assert (Hw1 : w1 = zeros wsize).
  { rewrite HL in EA. destruct (tfsf_clean _ _ _ _ _ _ t _ out w1 o1 (or_intror eq_refl) EA) as [_ Hx]. auto. }
  destruct Hr as (Hg1 & Hg2 & Hcp & Hb & Hd & Hgs).
  assert (S2' : Forall2 same_group (e_groups e2) gs2).
  { eapply Forall2_trans; [apply same_group_trans|apply (Forall2_sym same_group); [apply same_group_sym|exact Hgs]|].
    eapply Forall2_trans; [apply same_group_trans|exact S1|exact S2]. }
  assert (Fin : forall w o, w = zeros wsize ->
    agree (fun a b : list R * evol => fst a = fst b /\ rel e1 (snd a) /\ rel e2 (snd b))
      (Ok (o, mkEvol w gs1 (e_cp e1) (e_base e1) (e_dt e1) (e_cache e1))) (Ok (o, mkEvol w gs2 (e_cp e2) (e_base e2) (e_dt e2) (e_cache e2)))).
  { intros w o Hw. cbn. split; auto. split; apply good_keep; auto; try (right; exact Hw); try apply Hg1; try apply Hg2. }
  destruct Sop as [M|] eqn:ES.
  - destruct Heq as [Heq|]; [|discriminate].
    destruct gs1 as [|g1 gs1'] eqn:E1, gs2 as [|g2 gs2'] eqn:E2; try (inversion S2; fail).
    + cbn [bind]. apply Fin; auto.
    + rewrite <- E1, <- E2 in *. destruct q1; cbn [bind]; [apply Fin; auto|].
      rewrite (sgbcFlux_eq M gs1 gs2) by auto.
      destruct (sgbcFlux _ _ _ _ M gs2 input w1 o1) as [[w2 o2]| |] eqn:EF; cbn [bind]; [|cbn; auto..].
      apply Fin. eapply flux_clean; [exact Hw1|exact EF].
  - cbn [bind]. apply Fin; auto.
Qed.

Lemma mult_keeps : forall e t nd input o e', good e -> sized nd input -> mult e t nd input = Ok (o, e') -> rel e e'.
Proof.
  intros e t nd input o e' Hg Hs Hm. pose proof (mult_agree e e t nd input (rel_refl e Hg) Hs) as HA. rewrite Hm in HA.
  cbn in HA. tauto.
Qed.

Lemma implicit_agree : forall e1 e2 t dt nd x k0, dt <> (-1)%R -> rel e1 e2 -> sized nd x ->
  agree (fun a b => fst a = fst b /\ rel e1 (snd a) /\ rel e2 (snd b)) (implicitSolve e1 t dt nd x k0) (implicitSolve e2 t dt nd x k0).
Proof.
  intros e1 e2 t dt nd x k0 Hdt (Hg1 & Hg2 & Hcp & Hb & Hd & Hgs) Hsz. unfold Evol_Model.implicitSolve.
  apply agree_bind with (P := eq); [apply agree_eq|]. intros rhs ? <-.
  apply agree_bind with (P := fun a b => snd a = snd b /\ clean (fst a) /\ clean (fst b)).
  - pose proof (proj1 Hg1) as K1. pose proof (proj1 Hg2) as K2.
    destruct Top as [T|] eqn:ET; [|cbn; auto]. destruct hasTF eqn:EH; [|cbn; auto].
    assert (HA : agree (fun a b => snd a = snd b /\ clean (fst a) /\ clean (fst b))
      (applyTFSF ndofs nbr (Some T) true sub2par src t (e_work e1) (zeros (length x))) (applyTFSF ndofs nbr (Some T) true sub2par src t (e_work e2) (zeros (length x)))).
    { assert (HW : forall w, clean w -> applyTFSF ndofs nbr (Some T) true sub2par src t w (zeros (length x)) =
                            applyTFSF ndofs nbr (Some T) true sub2par src t (zeros wsize) (zeros (length x))).
      { intros w Hw. unfold Evol_Model.applyTFSF.
        replace (if Nat.eqb (length w) wsize then w else zeros wsize) with (zeros wsize).
        - replace (if Nat.eqb (length (zeros wsize)) wsize then zeros wsize else zeros wsize) with (zeros wsize) by (destruct Nat.eqb; auto). reflexivity.
        - destruct (Nat.eqb_spec (length w) wsize) as [E|]; auto. destruct Hw as [->| ->]; auto.
          change (0%nat = wsize) in E. rewrite <- E. reflexivity. }
      rewrite (HW _ K1), (HW _ K2). apply agree_eqP. intros [w o] Ea. cbn [fst snd].
      destruct (tfsf_clean _ _ _ _ _ _ t _ _ w o (or_intror eq_refl) Ea). auto. }
    eapply agree_bind; [exact HA|]. intros [w1 s1] [w2 s2] (Hs & Hw1 & Hw2). cbn [fst snd] in *. subst s2.
    destruct (vadd 1 rhs s1); cbn; auto.
  - intros [w1 r1] [w2 r2] (Hr & Hw1 & Hw2). cbn [fst snd] in *. subst r2.
    assert (G1 : groups_ok (e_groups e1)) by apply Hg1. assert (G2 : groups_ok (e_groups e2)) by apply Hg2.
    assert (C1 : cache_ok Aop (e_cache e1)) by apply Hg1. assert (C2 : cache_ok Aop (e_cache e2)) by apply Hg2.
    destruct (_ && _).
    + rewrite !denseSolve_ok by auto. cbn. split; auto. split; apply good_keep; auto; try apply cache_ok_set; apply Forall2_refl, same_group_refl.
    + cbn. split; auto. split; apply good_keep; auto; apply Forall2_refl, same_group_refl.
Qed.

Lemma implicit_keeps : forall e t dt nd x k0 k e', dt <> (-1)%R -> good e -> sized nd x -> implicitSolve e t dt nd x k0 = Ok (k, e') -> rel e e'.
Proof.
  intros e t dt nd x k0 k e' Hd Hg Hs Hm. pose proof (implicit_agree e e t dt nd x k0 Hd (rel_refl e Hg) Hs) as HA. rewrite Hm in HA.
  cbn in HA. tauto.
Qed.

(** ** Commit and finalize *)
Lemma commit_agree : forall e1 e2 base dt fields, (0 < dt)%R -> relS e1 e2 ->
  agree relS (commit e1 base dt fields) (commit e2 base dt fields).
Proof.
  intros e1 e2 base dt fields Hdt ((Hg1 & Hg2 & Hcp & Hb & Hd & Hgs) & Heq). unfold Evol_Model.commit.
  set (f := fun g => mapM (fun s => gh <- ghostsAt ndofs fields s ;; Ok (s_fs s, gh)) (g_states g)).
  assert (E : mapM f (e_groups e1) = mapM f (e_groups e2)).
  { clear - Heq. induction Heq as [|x y l1 l2 [Hw Hs] Hl IH]; cbn [mapM]; auto. unfold f at 1 3. rewrite Hs, IH. reflexivity. }
  rewrite E. destruct (mapM f (e_groups e2)) as [cps| |] eqn:EM; cbn [bind]; [|cbn; auto..].
  assert (Sh : shape (e_groups e2) cps).
  { clear - EM. revert cps EM. induction (e_groups e2) as [|g gs IH]; intros cps EM; cbn [mapM] in EM.
    - injection EM as <-. constructor.
    - ubind EM. ubind EM. injection EM as <-. constructor; [|apply IH; auto]. clear - E. unfold f in E. revert v E.
      induction (g_states g) as [|s ss IH]; intros v E; cbn [mapM] in E; [injection E as <-; auto|].
      ubind E. ubind E. injection E as <-. cbn. f_equal. auto. }
  assert (Sh1 : shape (e_groups e1) cps) by (eapply shape_keep; [apply (Forall2_sym same_group); [apply same_group_sym|exact Hgs]|exact Sh]).
  cbn. split; [|exact Heq]. split; [|split; [|repeat split; auto]].
  - split; [apply Hg1|]. split; [apply Hg1|]. split; [apply Hg1|]. right. exists cps. auto.
  - split; [apply Hg2|]. split; [apply Hg2|]. split; [apply Hg2|]. right. exists cps. auto.
Qed.

Lemma overPairs_agree : forall w f ss d1 d2,
  (forall s d1 d2, dcache (w_A w) d1 d2 -> agree (fun a b => fst a = fst b /\ same_state (fst s) (fst a) /\ dcache (w_A w) (snd a) (snd b)) (f s d1) (f s d2)) ->
  dcache (w_A w) d1 d2 ->
  agree (fun a b => fst a = fst b /\ Forall2 same_state (map fst ss) (fst a) /\ dcache (w_A w) (snd a) (snd b)) (overPairs f ss d1) (overPairs f ss d2).
Proof.
  intros w f ss. induction ss as [|s ss IH]; intros d1 d2 Hf Hd; cbn [overPairs].
  - cbn. repeat split; auto; apply Hd.
  - eapply agree_bind; [apply Hf; exact Hd|]. intros [s1 e1] [s2 e2] (E & Hss & Hd'). cbn in E, Hss, Hd'. subst s2.
    eapply agree_bind; [apply IH; auto; exact Hd'|]. intros [r1 x1] [r2 x2] (E & Hrr & Hx). cbn in *. subst. repeat split; auto; apply Hx.
Qed.

Lemma map_fst_combine : forall {A B} (l : list A) (m : list B), length l = length m -> map fst (combine l m) = l.
Proof. intros A B l. induction l as [|a l IH]; intros [|b m] Hl; try discriminate; cbn; auto. f_equal. apply IH. auto. Qed.

Lemma finalize_agree : forall e1 e2 fields, rel e1 e2 ->
  agree (fun a b => relS a b /\ rel e1 a) (finalize e1 fields) (finalize e2 fields).
Proof.
  intros e1 e2 fields Hr. pose proof Hr as ((K1&G1&C1&P1) & (K2&G2&C2&P2) & Hcp & Hb & Hd & Hg). unfold Evol_Model.finalize.
  rewrite <- Hcp, <- Hb, <- Hd.
  eapply agree_bind.
  { apply restore_agree; eauto. destruct P1 as [P1|(cps&P1&P1'&_)]; eauto. }
  intros a b [Hab H0]. cbv zeta. rewrite <- (flat_states_eq a b Hab).
  assert (Fin : forall x y, Forall2 (fun g1 g2 => g_w g1 = g_w g2 /\ g_states g1 = g_states g2 /\ sane (g_w g1) /\ dcache (w_A (g_w g1)) (g_d g1) (g_d g2)) x y ->
     Forall2 same_group (e_groups e1) x ->
     agree (fun a b => relS a b /\ rel e1 a) (Ok (mkEvol (e_work e1) x (e_cp e1) (e_base e1) (e_dt e1) (e_cache e1)))
       (Ok (mkEvol (e_work e2) y (e_cp e1) (e_base e1) (e_dt e1) (e_cache e2)))).
  { intros x y Hxy H0x. destruct (sim_out _ _ _ Hxy H0x) as [A1 (A2&A3&A4&A5)]. cbn.
    assert (R1 : rel e1 (mkEvol (e_work e1) x (e_cp e1) (e_base e1) (e_dt e1) (e_cache e1))) by (apply good_keep; auto; split; auto).
    assert (R2 : rel e2 (mkEvol (e_work e2) y (e_cp e2) (e_base e2) (e_dt e2) (e_cache e2))).
    { apply good_keep; auto; [split; auto|]. eapply Forall2_trans; [apply same_group_trans| |exact A3].
      eapply Forall2_trans; [apply same_group_trans|apply (Forall2_sym same_group); [apply same_group_sym|exact Hg]|exact A2]. }
    split; auto. split; [|exact A1]. rewrite <- Hcp, <- Hb, <- Hd in R2.
    eapply rel_trans; [apply rel_sym; exact R1|]. eapply rel_trans; [exact Hr|exact R2]. }
  destruct (anyLoud ndofs fields (flat_map g_states a)) as [[|]| |]; cbn [bind]; [| |cbn; auto..].
  - destruct P1 as [P1|(cps&P1&Psh&Pdt)]; rewrite P1 in *; [apply Fin; auto|].
    eapply agree_bind with (P := fun x y => Forall2 (fun g1 g2 => g_w g1 = g_w g2 /\ g_states g1 = g_states g2 /\ sane (g_w g1) /\ dcache (w_A (g_w g1)) (g_d g1) (g_d g2)) x y /\ Forall2 same_group a x).
    + assert (Psh' : shape a cps) by (eapply shape_keep; eauto).
      clear - Hab Psh' Pdt. revert cps Psh'. induction Hab as [|g1 g2 l1 l2 (Hw&Hs&Hsa&Hc) Hl IH]; intros cps Psh'; inversion Psh'; subst; cbn [combine mapM]; [cbn; split; constructor|].
      apply agree_bind with (P := fun x y => g_w x = g_w y /\ g_states x = g_states y /\ sane (g_w x) /\ dcache (w_A (g_w x)) (g_d x) (g_d y) /\ same_group g1 x).
      * rewrite <- Hw, <- Hs. eapply agree_bind; [apply overPairs_agree with (w := g_w g1)|].
        ++ intros [s cp] d1 d2 Hd. unfold finState. cbn [fst snd]. destruct (ghostsAt ndofs fields s) as [[ln rn]| |]; cbn [bind]; [|cbn; auto..].
           destruct cp as [fs [lo ro]]. cbn [snd]. apply advance_agree; auto.
        ++ exact Hc.
        ++ intros [s1 d1] [s2 d2] (Ea & Eb & Ec). cbn in *. subst. rewrite map_fst_combine in Eb by auto. repeat split; auto; apply Ec.
      * intros x z (Wx&Sx&Sax&Cx&Gx). eapply agree_bind; [apply IH; auto|]. intros xs ys [I1 I2]. cbn. split; constructor; auto.
    + intros x y [Hxy Hax]. apply Fin; auto. eapply Forall2_trans; [apply same_group_trans|exact H0|exact Hax].
  - apply Fin; auto.
Qed.

(** ** Histories *)
Definition apply (e : evol) (o : op) : res evol :=
  match o with
  | OMult t nd input => r <- mult e t nd input ;; Ok (snd r)
  | OImplicit t dt nd x k0 => r <- implicitSolve e t dt nd x k0 ;; Ok (snd r)
  | OCommit base dt fields => commit e base dt fields
  | OFinalize fields => finalize e fields
  end.
Definition runOps (e : evol) (l : list op) : res evol := foldM apply l e.
Definition runStep (e : evol) (s : tstep) : res evol :=
  e1 <- commit e (st_base s) (st_dt s) (st_fields s) ;;
  e2 <- runOps e1 (st_calls s) ;; finalize e2 (st_end s).
Definition runSteps (e : evol) (l : list tstep) : res evol := foldM runStep l e.

Lemma apply_clean : forall e o e', clean (e_work e) -> apply e o = Ok e' -> clean (e_work e').
Proof.
  intros e [t nd i|t dt nd x k0|b dt f|f] e' Hc Ha; cbn [apply] in Ha.
  - ubind Ha. destruct v as [o2 e2]. injection Ha as <-. right. eapply mult_clean; [exact junk_len|exact E].
  - ubind Ha. destruct v as [o2 e2]. injection Ha as <-. eapply implicit_clean; [exact Hc|exact E].
  - rewrite (commit_work _ _ _ _ _ _ Ha). exact Hc.
  - rewrite (finalize_work _ _ _ _ _ Ha). exact Hc.
Qed.

Lemma runOps_clean : forall l e e', e_work e = [] -> runOps e l = Ok e' -> e_work e' = [] \/ e_work e' = zeros wsize.
Proof.
  intros l e e' He Hr. unfold runOps in Hr. change (clean (e_work e')).
  refine (foldM_ok_ind (fun e => clean (e_work e)) _ _ _ _ _ _ Hr).
  - intros b x b' _ Hb Hx. eapply apply_clean; eauto.
  - left; exact He.
Qed.

Lemma fresh_good : forall e, fresh e -> good e.
Proof.
  intros e (H1&H2&H3&H4). split; [left; auto|]. split; [|split].
  - unfold groups_ok. eapply Forall_impl; [|exact H4]. cbn. intros g [A1 A2]. split; auto. rewrite A2. apply cache_ok_new.
  - rewrite H3. apply cache_ok_new.
  - left; auto.
Qed.

Lemma apply_keeps : forall e o e', evaluation ndofs nbr o -> good e -> apply e o = Ok e' -> rel e e'.
Proof.
  intros e [t nd i|t dt nd x k0|b dt f|f] e' Ho Hg Ha; cbn [apply evaluation] in *; try contradiction.
  - ubind Ha. destruct v as [o2 e2]. injection Ha as <-. eapply mult_keeps; eauto.
  - destruct Ho. ubind Ha. destruct v as [o2 e2]. injection Ha as <-. eapply implicit_keeps; eauto.
Qed.

Lemma evals_keep : forall l e e', Forall (evaluation ndofs nbr) l -> good e -> runOps e l = Ok e' -> rel e e'.
Proof.
  intros l. induction l as [|o l IH]; intros e e' Hl Hg Hr; unfold runOps in *; cbn [foldM] in Hr.
  - injection Hr as <-. apply rel_refl; auto.
  - inversion Hl; subst. ubind Hr. pose proof (apply_keeps _ _ _ H1 Hg E) as R1.
    eapply rel_trans; [exact R1|]. apply (IH v); auto. apply R1.
Qed.

(** An evaluation gives the same result whatever was evaluated before it. *)
Lemma mult_pure : forall e l e' t nd input, good e -> Forall (evaluation ndofs nbr) l -> runOps e l = Ok e' -> sized nd input ->
  agree (fun a b => fst a = fst b) (mult e t nd input) (mult e' t nd input).
Proof.
  intros e l e' t nd input Hg Hl Hr Hs. pose proof (evals_keep l e e' Hl Hg Hr) as R1.
  eapply agree_mono; [|apply mult_agree; [exact R1|exact Hs]]. cbn. tauto.
Qed.
Lemma implicit_pure : forall e l e' t dt nd x k0, good e -> Forall (evaluation ndofs nbr) l -> runOps e l = Ok e' ->
  dt <> (-1)%R -> sized nd x ->
  agree (fun a b => fst a = fst b) (implicitSolve e t dt nd x k0) (implicitSolve e' t dt nd x k0).
Proof.
  intros e l e' t dt nd x k0 Hg Hl Hr Hd Hs. pose proof (evals_keep l e e' Hl Hg Hr) as R1.
  eapply agree_mono; [|apply implicit_agree; [exact Hd|exact R1|exact Hs]]. cbn. tauto.
Qed.

Lemma step_rel : forall e1 e2 s1 s2 f1 f2, relS e1 e2 -> same_outline s1 s2 -> good_step ndofs nbr s1 -> good_step ndofs nbr s2 ->
  runStep e1 s1 = Ok f1 -> runStep e2 s2 = Ok f2 -> relS f1 f2.
Proof.
  intros e1 e2 s1 s2 f1 f2 Hr (O1&O2&O3&O4) [D1 C1] [D2 C2] R1 R2. unfold runStep in *.
  ubind R1. ubind R1. ubind R2. ubind R2.
  rewrite <- O1, <- O2, <- O3 in E1. rewrite <- O4 in R2.
  pose proof (commit_agree e1 e2 (st_base s1) (st_dt s1) (st_fields s1) D1 Hr) as HC. rewrite E, E1 in HC. cbn in HC.
  destruct HC as [HC HE]. pose proof HC as (G1&G2&_).
  pose proof (evals_keep _ _ _ C1 G1 E0) as K1. pose proof (evals_keep _ _ _ C2 G2 E2) as K2.
  assert (HR : rel v0 v2). { eapply rel_trans; [apply rel_sym; exact K1|]. eapply rel_trans; [exact HC|exact K2]. }
  pose proof (finalize_agree v0 v2 (st_end s1) HR) as HF. rewrite R1, R2 in HF. apply HF.
Qed.

Lemma steps_rel : forall l1 l2 e1 e2 f1 f2, relS e1 e2 -> Forall2 same_outline l1 l2 -> Forall (good_step ndofs nbr) l1 -> Forall (good_step ndofs nbr) l2 ->
  runSteps e1 l1 = Ok f1 -> runSteps e2 l2 = Ok f2 -> relS f1 f2.
Proof.
  intros l1 l2 e1 e2 f1 f2 Hr Ho. revert e1 e2 Hr. unfold runSteps.
  induction Ho as [|a b l1 l2 Hab Hl IH]; intros e1 e2 Hr G1 G2 R1 R2; cbn [foldM] in *.
  - congruence.
  - inversion G1; subst. inversion G2; subst. ubind R1. ubind R2. apply (IH v v0); auto. eapply (step_rel e1 e2); eauto.
Qed.

Lemma eq_groups_layers : forall a b, eq_groups (e_groups a) (e_groups b) -> layers a = layers b.
Proof.
  intros a b Hab. unfold layers. induction Hab as [|x y l1 l2 [Hw Hs] Hl IH]; cbn; auto. rewrite Hs, IH. reflexivity.
Qed.

Lemma relS_refl : forall e, good e -> relS e e.
Proof. intros e Hg. split; [apply rel_refl; auto|]. apply Forall2_refl. auto. Qed.

(** The layers after a number of steps do not depend on the evaluations made. *)
Lemma layers_pure : forall e l1 l2 f1 f2, fresh e -> Forall2 same_outline l1 l2 ->
  Forall (good_step ndofs nbr) l1 -> Forall (good_step ndofs nbr) l2 ->
  runSteps e l1 = Ok f1 -> runSteps e l2 = Ok f2 ->
  layers f1 = layers f2 /\
  forall base dt fields t nd input, (0 < dt)%R -> sized nd input ->
    agree (fun a b => fst a = fst b) (c <- commit f1 base dt fields ;; mult c t nd input) (c <- commit f2 base dt fields ;; mult c t nd input).
Proof.
  intros e l1 l2 f1 f2 He Ho G1 G2 R1 R2. pose proof (fresh_good e He) as Hg.
  pose proof (steps_rel l1 l2 e e f1 f2 (relS_refl e Hg) Ho G1 G2 R1 R2) as HR. split; [apply eq_groups_layers; apply HR|].
  intros base dt fields t nd input Hdt Hs. eapply agree_bind; [apply commit_agree; [exact Hdt|exact HR]|].
  intros a b [Hab _]. eapply agree_mono; [|apply mult_agree; [exact Hab|exact Hs]]. cbn. tauto.
Qed.
End H.

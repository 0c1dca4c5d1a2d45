(** Sources on several processes: all processes together, runs. *)
From Coq Require Import ZArith List Bool Reals Lia Lra Permutation.
From Verif Require Import Common Csr_Model Csr_Spec Face_Model Face_Spec Face_Proofs Setup_Model Setup_Spec Assembly_Model Assembly_Spec Assembly_Proofs Form_Model Form_Spec Form_Proofs Nodal_Spec Nodal_Proofs NodalMult_Proofs NodalEnergy_Proofs Global_Spec Global_Proofs GlobalEnergy_Proofs GlobalBalance_Proofs Evol_Model Evol_Spec EvolHist_Proofs EvolRhs_Proofs Tfsf_Spec TfsfLil_Proofs Ode_Model Par_Model Par_Spec Par_Proofs ParRows_Proofs ParMult_Proofs ParSrc_Model ParSrc_Spec ParSrc_Proofs.
Import ListNotations.
Local Open Scope R_scope.

Lemma forall2_three : forall (A B C : Type) (Pab : A -> B -> Prop) (Pac : A -> C -> Prop) l l' l'', Forall2 Pab l l' -> Forall2 Pac l l'' ->
  Forall2 (fun a bc => In a l /\ Pab a (fst bc) /\ Pac a (snd bc)) l (combine l' l'') /\ length l' = length l''.
Proof.
  intros A B C Pab Pac l l' l'' F1. revert l''.
  assert (X : forall k, incl l k -> forall l'', Forall2 Pac l l'' -> Forall2 (fun a bc => In a k /\ Pab a (fst bc) /\ Pac a (snd bc)) l (combine l' l'') /\ length l' = length l'').
  { induction F1 as [|a b t t' H F IH]; intros k I l'' F2; inversion F2 as [|x1 y1 x2 y2 HH FF]; subst; [split; [constructor|reflexivity]|]. cbn [combine length].
    destruct (IH k ltac:(intros z Z; apply I; right; exact Z) y2 FF) as (Y1 & Y2). split; [|lia]. constructor; [|exact Y1]. cbn [fst snd]. split; [apply I; left; reflexivity|split; assumption]. }
  intros l'' F2. apply X; [apply incl_refl|exact F2].
Qed.
Lemma size_nonneg : forall inc t l, 0 <= sizeAt inc t l.
Proof.
  intros inc t l. assert (X : forall (A : Type) (f : A -> R) k, (forall a, 0 <= f a) -> 0 <= suml f k).
  { intros A f k H. unfold suml. induction k as [|a k IH]; cbn [map fold_right]; [lra|]. specialize (H a). lra. }
  unfold sizeAt. apply X. intros c. apply X. intros d. apply Rle_0_sqr.
Qed.
Lemma size_zero : forall inc t l, sizeAt inc t l = 0 -> forall c d, (c < 6)%nat -> In d l -> inc t c d = 0.
Proof.
  intros inc t l H c d Hc Hd.
  assert (X : forall (A : Type) (f : A -> R) k, (forall a, 0 <= f a) -> 0 <= suml f k).
  { intros A f k H0. unfold suml. induction k as [|a k IH]; cbn [map fold_right]; [lra|]. specialize (H0 a). lra. }
  assert (Y : forall (A : Type) (f : A -> R) k a, (forall a, 0 <= f a) -> In a k -> f a <= suml f k).
  { intros A f k a H0 I. unfold suml. induction k as [|b k IH]; [destruct I|]. cbn [map fold_right]. destruct I as [->|I].
    - pose proof (X A f k H0) as Z. unfold suml in Z. lra.
    - specialize (IH I). specialize (H0 b). lra. }
  unfold sizeAt in H. pose proof (Y nat (fun c => suml (fun d => inc t c d * inc t c d) l) (seq 0 6) c ltac:(intros; apply X; intros; apply Rle_0_sqr) ltac:(apply in_seq; lia)) as B1. cbv beta in B1.
  pose proof (Y nat (fun d => inc t c d * inc t c d) l d ltac:(intros; apply Rle_0_sqr) Hd) as B2. cbv beta in B2. pose proof (Rle_0_sqr (inc t c d)) as B3. unfold Rsqr in B3.
  apply Rsqr_0_uniq. unfold Rsqr. lra.
Qed.
Lemma inside_le : forall inc t own sub, sizeAt inc t (inside own sub) <= sizeAt inc t sub.
Proof.
  intros inc t own sub. unfold sizeAt, suml. induction (seq 0 6) as [|c cs IH]; cbn [map fold_right]; [lra|]. apply Rplus_le_compat; [|exact IH]. clear IH.
  unfold inside. induction sub as [|d l IH]; cbn [filter map fold_right]; [lra|]. pose proof (Rle_0_sqr (inc t c d)) as S. unfold Rsqr in S.
  destruct (existsb (Nat.eqb d) own); cbn [map fold_right]; lra.
Qed.

Section All.
Variable N : nat.
Variable m : fmesh.
Variable dim : Z.
Variable alpha : R.
Variable gb gi : list (Z * cond).
Variable ob ib : list (cond * marker).
Variable MInv D : Z -> mat.
Variable MSigma : mat.
Variable sm : marker.
Variable owns : list (list nat).
Variable rks : list prank.
Variable sub : list nat.
Variable inc : R -> nat -> nat -> R.
Variable ss : list psource.
Hypothesis G : goodMesh N m dim.
Hypothesis T : tables m gb gi ob ib.
Hypothesis Msm : Z.of_nat (length sm) = markerSize (fm_battrs m).
Hypothesis Di : distributed N m dim MInv D MSigma owns rks.
Hypothesis Sh : sourcesShared N owns sub inc ss.
Variable junk : nat -> list R.
Hypothesis JL : forall n, length (junk n) = n.
Notation Ts := (buildSourceFaceOperator R Rplus Rmult 1 (-1) (factoryRows N m dim alpha ob ib MInv D MSigma sm) dim (Z.of_nat N) 0).
Notation Mr := (map (rankSource dim alpha ob ib sm) rks).

Lemma sources_all : forall t h w y, heard N owns sub inc t h -> lilApplies Ts N h w -> length y = (6 * N)%nat ->
  mapM (fun q => addSource t (fst (fst (fst q))) (snd (fst (fst q))) (snd (fst q)) (snd q)) (combine (combine (combine rks Mr) ss) (spread N owns y)) = Ok (spread N owns (addv (-1) w y)).
Proof.
  intros t h w y (Lh & Hh) (Lw & Hw) Ly. destruct Sh as (NDs & Bs & Fs).
  pose proof (forall2_owns N m dim MInv D MSigma owns rks Di) as F0.
  destruct (forall2_three _ _ _ _ _ _ _ _ F0 Fs) as (F & LL).
  assert (X : forall os k, Forall2 (fun own bc => In own owns /\ (In own owns /\ process m owns own (fst bc) /\
      (forall f, (f = 0 \/ f = 1)%Z -> within N own (MInv f) (pr_MInv (fst bc) f)) /\
      (forall d, (0 <= d < dim)%Z -> within N own (D d) (pr_D (fst bc) d)) /\ within N own MSigma (pr_Sigma (fst bc))) /\ sourceOf own sub inc (snd bc)) os k ->
    mapM (fun q => addSource t (fst (fst (fst q))) (snd (fst (fst q))) (snd (fst q)) (snd q))
      (combine (combine (combine (map fst k) (map (rankSource dim alpha ob ib sm) (map fst k))) (map snd k)) (spread N os y)) = Ok (spread N os (addv (-1) w y))).
  { intros os k H. induction H as [|own [rk s] t0 t1 (Io & (_ & P & HI & HD & HS) & So) F' IH]; [reflexivity|]. cbn [fst snd] in *.
    cbn [map combine spread mapM fst snd]. destruct (own_facts N m dim MInv D MSigma owns rks Di own Io) as (NDo & Bo).
    destruct (add_ok N m dim owns own rk sm G Msm P NDo Bo (fun F IF => proj1 (proj2 Di) F own IF Io) alpha ob ib MInv D MSigma HI sub inc s NDs So t h (part N own y) Lh
      (fun c d Id Hc => Hh own c d Io Id Hc) (part_len N own y)) as (z & Ez & Lz & Vz).
    rewrite Ez. cbn [bind]. fold (spread N t0 y). rewrite IH. cbn [bind]. f_equal. cbn [spread map]. f_equal.
    apply (nth_split6 (length own)); [exact Lz|apply part_len|]. intros c i Hc Hi. rewrite (Vz c i Hc Hi), !part_nth by assumption.
    rewrite addv_nth by congruence. assert (nth i own 0 < N)%nat by (apply Bo, nth_In; exact Hi). rewrite (Hw (c * N + nth i own 0)%nat) by nia. unfold rowval. rewrite Lh. ring. }
  specialize (X owns (combine rks ss) F).
  assert (E1 : forall (A B : Type) (l : list A) (l' : list B), length l = length l' -> map fst (combine l l') = l /\ map snd (combine l l') = l').
  { intros A B l. induction l as [|a l IH]; intros [|b l'] L; try discriminate; [split; reflexivity|]. cbn [combine map fst snd]. cbn [length] in L. destruct (IH l' ltac:(lia)) as (-> & ->). split; reflexivity. }
  destruct (E1 _ _ rks ss LL) as (Ea & Eb). rewrite Ea, Eb in X. exact X.
Qed.
Lemma lil_act : forall h, exists w, lilApplies Ts N h w.
Proof.
  intros h. exists (map (fun r => sumN (6 * N) (fun c => entry Ts r c * nth c h 0)) (seq 0 (6 * N))). split; [rewrite map_length, seq_length; reflexivity|].
  intros r Hr. rewrite (nth_map_in _ _ _ (seq 0 (6 * N)) r 0 0%nat) by (rewrite seq_length; exact Hr). rewrite seq_nth by exact Hr. reflexivity.
Qed.
Lemma lil_unique : forall h w w', lilApplies Ts N h w -> lilApplies Ts N h w' -> w = w'.
Proof. intros h w w' (L & H) (L' & H'). apply (nth_ext w w' 0 0); [congruence|]. intros r Hr. rewrite H, H' by lia. reflexivity. Qed.

(** ** One process *)
Lemma serial_source : forall t h y, length y = (6 * N)%nat -> fieldOn N sub inc t h ->
  exists z, oneSource N (finalized (6 * N) (6 * N) Ts) (map Z.of_nat sub) (sampled inc sub) t y = Ok z /\
    (quiet (sizeAt inc t sub) -> z = y) /\ (~ quiet (sizeAt inc t sub) -> forall w, lilApplies Ts N h w -> z = addv (-1) w y).
Proof.
  intros t h y Ly (Lh & Hh). destruct Sh as (NDs & Bs & _). unfold oneSource.
  destruct (final_shape (6 * N) (6 * N) Ts) as (FL & FC).
  destruct (tfsf_ok N 0 (Some (finalized (6 * N) (6 * N) Ts)) true (map Z.of_nat sub) (sampled inc sub) t y Ly) as (F & z & HF & EF & Lz & Vz).
  { intros _. split; [apply of_nat_nodup; exact NDs|]. split.
    - intros p I. apply in_map_iff in I. destruct I as (k & <- & I). apply Bs in I. unfold nZ. lia.
    - intros t'. apply sampled_ok. reflexivity. }
  { intros T' E. assert (ET : finalized (6 * N) (6 * N) Ts = T') by congruence. rewrite <- ET. unfold wsize. rewrite Nat.add_0_r. split; [exact FL|exact FC]. }
  unfold wsize in EF. rewrite Nat.add_0_r in EF. rewrite EF. cbn [bind snd]. exists z. split; [reflexivity|].
  assert (On : srcOn true (sampled inc sub) t = true <-> ~ quiet (sizeAt inc t sub)).
  { unfold srcOn. cbn [andb]. rewrite size_sampled, quiet_thr. destruct Rlt_dec; split; intros; try discriminate; try contradiction; try reflexivity; try assumption. }
  split.
  - intros Q. apply (nth_ext z y 0 0); [congruence|]. intros r Hr. specialize (Vz (Z.of_nat r) ltac:(unfold nZ; lia)). unfold nthZ in Vz. rewrite Nat2Z.id in Vz. rewrite Vz.
    destruct (srcOn true (sampled inc sub) t) eqn:E; [|ring]. exfalso. exact (proj1 On eq_refl Q).
  - intros Nq w (Lw & Hw). apply (nth_ext z (addv (-1) w y) 0 0); [rewrite addv_len; congruence|]. intros r Hr. rewrite addv_nth by congruence. specialize (Vz (Z.of_nat r) ltac:(unfold nZ; lia)). unfold nthZ in Vz. rewrite Nat2Z.id in Vz. rewrite Vz.
    apply On in Nq. rewrite Nq in *. destruct (HF ltac:(discriminate) eq_refl) as (LF & V1 & V2). rewrite Nat.add_0_r in *.
    assert (EFh : F = h).
    { apply (nth_split6 N); try assumption. intros c d Hc Hd. destruct (Hh c d Hc Hd) as (H1 & H2). destruct (in_dec Nat.eq_dec d sub) as [I|I].
      - rewrite (H1 I). destruct (In_nth sub d 0%nat I) as (v & Hv & Ev).
        assert (Nv : nth_error (map Z.of_nat sub) v = Some (Z.of_nat d)) by (rewrite nth_error_map, (nth_error_nth' sub 0%nat Hv), Ev; reflexivity).
        specialize (V1 (Z.of_nat c) v (Z.of_nat d) ltac:(lia) Nv). unfold nthZ in V1. rewrite Nat2Z.id in V1.
        replace (Z.to_nat (Z.of_nat c * Z.of_nat N + Z.of_nat d)) with (c * N + d)%nat in V1 by nia. rewrite V1, sampled_nth by assumption. rewrite Ev. reflexivity.
      - rewrite (H2 I). specialize (V2 (Z.of_nat c) (Z.of_nat d) ltac:(lia) ltac:(lia)). unfold nthZ in V2.
        replace (Z.to_nat (Z.of_nat c * Z.of_nat N + Z.of_nat d)) with (c * N + d)%nat in V2 by nia. apply V2. rewrite of_nat_in. exact I. }
    rewrite final_dot by (rewrite ?LF; lia). subst F. rewrite Hw by lia. unfold rowval. rewrite Lh. ring.
Qed.
Definition fieldV (t : R) : list R := flat_map (fun c => map (fun d => if existsb (Nat.eqb d) sub then inc t c d else 0) (seq 0 N)) (seq 0 6).
Lemma field_ok : forall t, fieldOn N sub inc t (fieldV t).
Proof.
  intros t. unfold fieldV. split.
  - rewrite (flat_len _ N) by (intros; rewrite map_length; apply seq_length). reflexivity.
  - intros c d Hc Hd. rewrite (flat_nth _ N); try (intros; rewrite map_length; apply seq_length); try (rewrite seq_length; exact Hc); try exact Hd.
    rewrite seq_nth by exact Hc. rewrite (nth_map_in _ _ _ (seq 0 N) d 0 0%nat) by (rewrite seq_length; exact Hd). rewrite seq_nth by exact Hd. cbn [Nat.add].
    destruct (existsb (Nat.eqb d) sub) eqn:E; split; intros H; try reflexivity.
    + apply member_in in E. contradiction.
    + apply member_in in H. congruence.
Qed.
Lemma zero_heard : forall t, quiet (sizeAt inc t sub) -> heard N owns sub inc t (zeros (6 * N)).
Proof.
  intros t Q. split; [apply repeat_length|]. intros own c d Io Id Hc. unfold zeros. rewrite nth_repeat. split; [|reflexivity].
  intros _ Nq. exfalso. apply Nq. unfold quiet in *. pose proof (inside_le inc t own sub). lra.
Qed.
Lemma field_heard : forall t h, (forall own, In own owns -> sizeAt inc t (inside own sub) = 0 \/ ~ quiet (sizeAt inc t (inside own sub))) -> fieldOn N sub inc t h -> heard N owns sub inc t h.
Proof.
  intros t h V (Lh & Hh). split; [exact Lh|]. intros own c d Io Id Hc. pose proof (proj2 (own_facts N m dim MInv D MSigma owns rks Di own Io) d Id) as Hd. destruct (Hh c d Hc Hd) as (H1 & H2). split.
  - intros Is _. exact (H1 Is).
  - intros [Ns|Q]; [exact (H2 Ns)|]. destruct (in_dec Nat.eq_dec d sub) as [Is|Ns]; [|exact (H2 Ns)]. rewrite (H1 Is). destruct (V own Io) as [Z|Nq]; [|contradiction].
    apply (size_zero inc t (inside own sub) Z c d Hc). unfold inside. apply filter_In. split; [exact Is|apply member_in; exact Id].
Qed.
Lemma same_ok : forall t y z, sameVerdict owns sub inc t -> length y = (6 * N)%nat ->
  oneSource N (finalized (6 * N) (6 * N) Ts) (map Z.of_nat sub) (sampled inc sub) t y = Ok z ->
  exists h w, heard N owns sub inc t h /\ lilApplies Ts N h w /\ z = addv (-1) w y.
Proof.
  intros t y z V Ly E. destruct (serial_source t (fieldV t) y Ly (field_ok t)) as (z' & E' & Z1 & Z2). rewrite E in E'. apply ok_inj in E'. subst z'.
  destruct (Rlt_dec (sizeAt inc t sub) (/ 100000000 * / 100000000)) as [Q|Nq].
  - destruct (lil_act (zeros (6 * N))) as (w & Hw). exists (zeros (6 * N)), w. split; [apply zero_heard; exact Q|]. split; [exact Hw|]. rewrite (Z1 Q).
    pose proof Hw as (Lw & Vw). apply (nth_ext y _ 0 0); [rewrite addv_len; congruence|]. intros r Hr. rewrite addv_nth by congruence. rewrite Vw by lia.
    rewrite sumN_zero; [ring|]. intros c _. unfold zeros. rewrite nth_repeat. ring.
  - destruct (lil_act (fieldV t)) as (w & Hw). exists (fieldV t), w. split.
    + apply field_heard; [|apply field_ok]. destruct V as [Q|V]; [contradiction|exact V].
    + split; [exact Hw|]. apply Z2; [exact Nq|exact Hw].
Qed.

(** ** One evaluation and runs *)
Lemma eval_ok : exists A Ps, serialOperator N m dim alpha ob ib MInv D MSigma sm = Ok A /\ mapM (rankOperator dim alpha ob ib sm) rks = Ok Ps /\
  (forall t h x y w works, heard N owns sub inc t h -> length x = (6 * N)%nat -> applies A N x y -> lilApplies Ts N h w -> length works = length rks ->
     allMultS junk rks Ps Mr ss t works (spread N owns x) = Ok (spread N owns (addv (-1) w y))) /\
  (forall t x, length x = (6 * N)%nat -> exists y z, applies A N x y /\
     oneSource N (finalized (6 * N) (6 * N) Ts) (map Z.of_nat sub) (sampled inc sub) t y = Ok z /\
     (sameVerdict owns sub inc t -> forall works, length works = length rks -> allMultS junk rks Ps Mr ss t works (spread N owns x) = Ok (spread N owns z))).
Proof.
  destruct (all_ok N m dim alpha gb gi ob ib MInv D MSigma sm owns rks G T Di junk JL) as (A & Ps & EA & EP & V). exists A, Ps. split; [exact EA|]. split; [exact EP|].
  assert (X : forall t h x y w works, heard N owns sub inc t h -> length x = (6 * N)%nat -> applies A N x y -> lilApplies Ts N h w -> length works = length rks ->
     allMultS junk rks Ps Mr ss t works (spread N owns x) = Ok (spread N owns (addv (-1) w y))).
  { intros t h x y w works Hh Lx HY Hw Lk. destruct (V x Lx) as (y' & HY' & VY). rewrite <- (applies_unique N A x y y' HY HY') in VY.
    unfold allMultS. rewrite (VY works Lk). cbn [bind]. apply (sources_all t h w y Hh Hw). exact (proj1 HY). }
  split; [exact X|]. intros t x Lx. destruct (V x Lx) as (y & HY & _). destruct (serial_source t (fieldV t) y (proj1 HY) (field_ok t)) as (z & Ez & _).
  exists y, z. split; [exact HY|]. split; [exact Ez|]. intros Sv works Lk. destruct (same_ok t y z Sv (proj1 HY) Ez) as (h & w & Hh & Hw & ->). apply (X t h x y w works); assumption.
Qed.
End All.

Section Steps.
Variable N : nat.
Variable owns : list (list nat).
Variable rks : list prank.
Variable Ps : list (csr R).
Variable Ms : list matrix.
Variable ss : list psource.
Variable junk : nat -> list R.
Variable F : R -> list R -> list R.
Variable good : R -> Prop.
Hypothesis FL : forall t x, length x = (6 * N)%nat -> length (F t x) = (6 * N)%nat.
Hypothesis FM : forall t x works, good t -> length x = (6 * N)%nat -> length works = length rks -> allMultS junk rks Ps Ms ss t works (spread N owns x) = Ok (spread N owns (F t x)).
Lemma step_okS : forall works x t dt, good t -> good (t + dt / 2) -> good (t + dt) -> length x = (6 * N)%nat -> (forall k, length (works k) = length rks) ->
  allStepS junk rks Ps Ms ss works (spread N owns x) t dt = Ok (spread N owns (rk4Step F x t dt)) /\ length (rk4Step F x t dt) = (6 * N)%nat.
Proof.
  intros works x t dt G1 G2 G3 Lx Lw. unfold allStepS, rk4Step.
  set (k1 := F t x). assert (L1 : length k1 = (6 * N)%nat) by (apply FL; exact Lx).
  set (y1 := addv (dt / 2) k1 x). assert (Ly1 : length y1 = (6 * N)%nat) by (unfold y1; rewrite addv_len; congruence).
  set (k2 := F (t + dt / 2) y1). assert (L2 : length k2 = (6 * N)%nat) by (apply FL; exact Ly1).
  set (y2 := addv (dt / 2) k2 x). assert (Ly2 : length y2 = (6 * N)%nat) by (unfold y2; rewrite addv_len; congruence).
  set (k3 := F (t + dt / 2) y2). assert (L3 : length k3 = (6 * N)%nat) by (apply FL; exact Ly2).
  set (y3 := addv dt k3 x). assert (Ly3 : length y3 = (6 * N)%nat) by (unfold y3; rewrite addv_len; congruence).
  set (k4 := F (t + dt) y3). assert (L4 : length k4 = (6 * N)%nat) by (apply FL; exact Ly3).
  set (z1 := addv (dt / 6) k1 x). assert (Lz1 : length z1 = (6 * N)%nat) by (unfold z1; rewrite addv_len; congruence).
  set (z2 := addv (dt / 3) k2 z1). assert (Lz2 : length z2 = (6 * N)%nat) by (unfold z2; rewrite addv_len; congruence).
  set (z3 := addv (dt / 3) k3 z2). assert (Lz3 : length z3 = (6 * N)%nat) by (unfold z3; rewrite addv_len; congruence).
  split; [|rewrite addv_len; congruence].
  rewrite (FM t x (works 0%nat) G1 Lx (Lw _)). cbn [bind]. fold k1. rewrite (spread_add N owns (dt / 2) k1 x) by congruence. fold y1.
  rewrite (FM _ y1 (works 1%nat) G2 Ly1 (Lw _)). cbn [bind]. fold k2. rewrite (spread_add N owns (dt / 2) k2 x) by congruence. fold y2.
  rewrite (FM _ y2 (works 2%nat) G2 Ly2 (Lw _)). cbn [bind]. fold k3. rewrite (spread_add N owns dt k3 x) by congruence. fold y3.
  rewrite (FM _ y3 (works 3%nat) G3 Ly3 (Lw _)). cbn [bind]. fold k4.
  rewrite (spread_add N owns (dt / 6) k1 x) by congruence. fold z1.
  rewrite (spread_add N owns (dt / 3) k2 z1) by congruence. fold z2.
  rewrite (spread_add N owns (dt / 3) k3 z2) by congruence. fold z3.
  rewrite (spread_add N owns (dt / 6) k4 z3) by congruence. reflexivity.
Qed.
Lemma steps_okS : forall dts works x t, Forall good (stages t dts) -> length x = (6 * N)%nat -> (forall s k, length (works s k) = length rks) ->
  allStepsS junk rks Ps Ms ss works (spread N owns x) t dts = Ok (spread N owns (rkRunT F x t dts)).
Proof.
  induction dts as [|dt l IH]; intros works x t Gd Lx Lw; [reflexivity|]. cbn [stages] in Gd. inversion Gd as [|? ? G1 Gd1]; subst. inversion Gd1 as [|? ? G2 Gd2]; subst. inversion Gd2 as [|? ? G3 Gd3]; subst.
  cbn [allStepsS rkRunT]. destruct (step_okS (works (length l)) x t dt G1 G2 G3 Lx (Lw _)) as (E & L). rewrite E. cbn [bind]. apply IH; assumption.
Qed.
End Steps.

Section Run.
Variable N : nat.
Variable m : fmesh.
Variable dim : Z.
Variable alpha : R.
Variable gb gi : list (Z * cond).
Variable ob ib : list (cond * marker).
Variable MInv D : Z -> mat.
Variable MSigma : mat.
Variable sm : marker.
Variable owns : list (list nat).
Variable rks : list prank.
Variable sub : list nat.
Variable inc : R -> nat -> nat -> R.
Variable ss : list psource.
Hypothesis G : goodMesh N m dim.
Hypothesis T : tables m gb gi ob ib.
Hypothesis Msm : Z.of_nat (length sm) = markerSize (fm_battrs m).
Hypothesis Di : distributed N m dim MInv D MSigma owns rks.
Hypothesis Sh : sourcesShared N owns sub inc ss.
Variable junk : nat -> list R.
Hypothesis JL : forall n, length (junk n) = n.
Notation Ts := (buildSourceFaceOperator R Rplus Rmult 1 (-1) (factoryRows N m dim alpha ob ib MInv D MSigma sm) dim (Z.of_nat N) 0).
Notation Mr := (map (rankSource dim alpha ob ib sm) rks).
Lemma srun_ok : exists A Ps, serialOperator N m dim alpha ob ib MInv D MSigma sm = Ok A /\ mapM (rankOperator dim alpha ob ib sm) rks = Ok Ps /\
  forall F, (forall t x, length x = (6 * N)%nat -> exists y, applies A N x y /\ oneSource N (finalized (6 * N) (6 * N) Ts) (map Z.of_nat sub) (sampled inc sub) t y = Ok (F t x)) ->
  forall works x t dts, Forall (sameVerdict owns sub inc) (stages t dts) -> length x = (6 * N)%nat -> (forall s k, length (works s k) = length rks) ->
    allStepsS junk rks Ps Mr ss works (spread N owns x) t dts = Ok (spread N owns (rkRunT F x t dts)).
Proof.
  destruct (eval_ok N m dim alpha gb gi ob ib MInv D MSigma sm owns rks sub inc ss G T Msm Di Sh junk JL) as (A & Ps & EA & EP & V1 & V2).
  exists A, Ps. split; [exact EA|]. split; [exact EP|]. intros F HF works x t dts Gd Lx Lw.
  assert (Y : forall t x, length x = (6 * N)%nat -> exists y, applies A N x y /\ oneSource N (finalized (6 * N) (6 * N) Ts) (map Z.of_nat sub) (sampled inc sub) t y = Ok (F t x)) by exact HF.
  apply (steps_okS N owns rks Ps Mr ss junk F (sameVerdict owns sub inc)); try assumption.
  - intros t0 x0 L0. destruct (Y t0 x0 L0) as (y & HY & E). destruct (serial_source N m dim alpha ob ib MInv D MSigma sm owns sub inc ss Sh t0 (fieldV N sub inc t0) y (proj1 HY) (field_ok N sub inc t0)) as (z & E' & Z1 & Z2).
    rewrite E in E'. apply ok_inj in E'. rewrite E'. destruct (Rlt_dec (sizeAt inc t0 sub) (/ 100000000 * / 100000000)) as [Q|Nq].
    + rewrite (Z1 Q). exact (proj1 HY).
    + destruct (lil_act N m dim alpha ob ib MInv D MSigma sm (fieldV N sub inc t0)) as (w & Hw). rewrite (Z2 Nq w Hw), addv_len; [exact (proj1 HY)|]. rewrite (proj1 Hw). symmetry. exact (proj1 HY).
  - intros t0 x0 wk Sv L0 Lk. destruct (Y t0 x0 L0) as (y & HY & E). destruct (V2 t0 x0 L0) as (y' & z & HY' & Ez & Hz). rewrite (applies_unique N A x0 y' y HY' HY) in Ez. rewrite E in Ez. apply ok_inj in Ez. subst z. apply Hz; assumption.
Qed.
(** Without conditions: the run on one process that uses the part of the incident field that is heard. *)
Lemma hrun_ok : exists A Ps, serialOperator N m dim alpha ob ib MInv D MSigma sm = Ok A /\ mapM (rankOperator dim alpha ob ib sm) rks = Ok Ps /\
  forall h F, (forall t, heard N owns sub inc t (h t)) ->
  (forall t x, length x = (6 * N)%nat -> exists y w, applies A N x y /\ lilApplies Ts N (h t) w /\ F t x = addv (-1) w y) ->
  forall works x t dts, length x = (6 * N)%nat -> (forall s k, length (works s k) = length rks) ->
    allStepsS junk rks Ps Mr ss works (spread N owns x) t dts = Ok (spread N owns (rkRunT F x t dts)).
Proof.
  destruct (eval_ok N m dim alpha gb gi ob ib MInv D MSigma sm owns rks sub inc ss G T Msm Di Sh junk JL) as (A & Ps & EA & EP & V1 & V2).
  exists A, Ps. split; [exact EA|]. split; [exact EP|]. intros h F Hh HF works x t dts Lx Lw.
  apply (steps_okS N owns rks Ps Mr ss junk F (fun _ => True)); try assumption.
  - intros t0 x0 L0. destruct (HF t0 x0 L0) as (y & w & HY & Hw & ->). rewrite addv_len; [exact (proj1 HY)|]. rewrite (proj1 Hw). symmetry. exact (proj1 HY).
  - intros t0 x0 wk _ L0 Lk. destruct (HF t0 x0 L0) as (y & w & HY & Hw & ->). apply (V1 t0 (h t0)); try assumption. apply Hh.
  - clear. revert t. induction dts as [|dt l IH]; intros t; constructor; [exact I|constructor; [exact I|constructor; [exact I|apply IH]]].
Qed.
End Run.

(** ** What is not heard *)
Lemma suml_concat : forall (f : nat -> R) ll, suml f (concat ll) = suml (fun l => suml f l) ll.
Proof.
  intros f ll. induction ll as [|l ll IH]; [reflexivity|]. cbn [concat]. rewrite suml_app, IH. unfold suml at 3. cbn [map fold_right]. reflexivity.
Qed.
Lemma sumN_grid : forall N f k, sumN (k * N) f = suml (fun c => sumN N (fun d => f (c * N + d)%nat)) (seq 0 k).
Proof.
  intros N f k. induction k as [|k IH]; [reflexivity|]. rewrite seq_S, suml_app, <- IH. replace (S k * N)%nat with (k * N + N)%nat by lia. rewrite FaceLoad_Proofs.sumN_app. f_equal.
  unfold suml. cbn [map fold_right Nat.add]. ring.
Qed.
Lemma suml_filter : forall (f : nat -> R) (p : nat -> bool) l, suml f (filter p l) = suml (fun d => if p d then f d else 0) l.
Proof. intros f p l. unfold suml. induction l as [|d l IH]; [reflexivity|]. cbn [filter map fold_right]. destruct (p d); cbn [map fold_right]; rewrite IH; ring. Qed.
Lemma inside_swap : forall f own sub, NoDup own -> NoDup sub -> suml f (inside own sub) = suml (fun d => if existsb (Nat.eqb d) sub then f d else 0) own.
Proof.
  intros f own sub NDo NDs. rewrite <- suml_filter. unfold inside. apply suml_perm. apply NoDup_Permutation; [apply NoDup_filter; exact NDs|apply NoDup_filter; exact NDo|].
  intros d. rewrite !filter_In, !member_in. tauto.
Qed.
Lemma suml_bound : forall (A : Type) (F : A -> R) e l, (forall a, In a l -> F a <= e) -> suml F l <= INR (length l) * e.
Proof.
  intros A F e l. unfold suml. induction l as [|a l IH]; intros H; [cbn; lra|]. cbn [map fold_right length]. rewrite S_INR. pose proof (H a (or_introl eq_refl)).
  pose proof (IH (fun b J => H b (or_intror J))). lra.
Qed.
Lemma dropped : forall N owns sub inc t g h, Permutation (concat owns) (seq 0 N) -> NoDup sub -> fieldOn N sub inc t g -> heard N owns sub inc t h ->
  sumN (6 * N) (fun r => (nth r g 0 - nth r h 0) * (nth r g 0 - nth r h 0)) <= INR (length owns) * (/ 100000000 * / 100000000).
Proof.
  intros N owns sub inc t g h Pm NDs (Lg & Hg) (Lh & Hh). rewrite sumN_grid.
  set (e := fun c d => (nth (c * N + d) g 0 - nth (c * N + d) h 0) * (nth (c * N + d) g 0 - nth (c * N + d) h 0)).
  change (suml (fun c => sumN N (e c)) (seq 0 6) <= INR (length owns) * (/ 100000000 * / 100000000)).
  rewrite (suml_ext _ (fun c => suml (fun own => suml (e c) own) owns)).
  2: { intros c _. rewrite suml_sumN, <- (suml_perm (e c) _ _ Pm). apply suml_concat. }
  rewrite suml_swap.
  assert (B : forall own, In own owns -> NoDup own /\ forall d, In d own -> (d < N)%nat).
  { intros own I. assert (NDc : NoDup (concat owns)) by (apply (Permutation_NoDup (Permutation_sym Pm)), seq_NoDup). split.
    - clear - I NDc. induction owns as [|o l IH]; [destruct I|]. cbn [concat] in NDc. destruct I as [->|I].
      + clear IH. induction own as [|x own IH]; [constructor|]. cbn [Datatypes.app] in NDc. inversion NDc; subst. constructor; [intros Y; apply H1, in_or_app; left; exact Y|apply IH; assumption].
      + apply IH; [exact I|]. clear - NDc. induction o as [|x o IH]; [exact NDc|]. inversion NDc; subst. apply IH; assumption.
    - intros d J. assert (In d (seq 0 N)) by (apply (Permutation_in _ Pm), in_concat; exists own; split; assumption). apply in_seq in H. lia. }
  assert (X : forall own, In own owns -> suml (fun c => suml (e c) own) (seq 0 6) <= / 100000000 * / 100000000).
  { intros own I. destruct (B own I) as (NDo & Bo). destruct (Rlt_dec (sizeAt inc t (inside own sub)) (/ 100000000 * / 100000000)) as [Q|Nq].
    - apply Rlt_le. eapply Rle_lt_trans; [|exact Q]. apply Req_le. unfold sizeAt. apply suml_ext. intros c Ic. apply in_seq in Ic.
      rewrite (inside_swap (fun d => inc t c d * inc t c d) own sub NDo NDs). apply suml_ext. intros d Id. unfold e.
      destruct (Hg c d ltac:(lia) (Bo d Id)) as (G1 & G2). destruct (Hh own c d I Id ltac:(lia)) as (_ & H2). rewrite H2 by (right; exact Q).
      destruct (existsb (Nat.eqb d) sub) eqn:E; [apply member_in in E; rewrite (G1 E); ring|]. rewrite G2; [ring|]. intros Y. apply member_in in Y. congruence.
    - rewrite (suml_ext _ (fun _ => 0)); [rewrite suml_zero by reflexivity; lra|]. intros c Ic. apply in_seq in Ic. apply suml_zero. intros d Id. unfold e.
      destruct (Hg c d ltac:(lia) (Bo d Id)) as (G1 & G2). destruct (Hh own c d I Id ltac:(lia)) as (H1 & H2).
      destruct (in_dec Nat.eq_dec d sub) as [Y|Y]; [rewrite (G1 Y), (H1 Y Nq)|rewrite (G2 Y), (H2 (or_introl Y))]; ring. }
  apply (suml_bound _ _ _ _ X).
Qed.

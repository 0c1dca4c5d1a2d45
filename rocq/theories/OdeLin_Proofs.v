(** Linear algebra: an injective square system has a solution. *)
From Coq Require Import ZArith List Bool Reals Lia Lra Classical.
From Verif Require Import Common Nodal_Spec Ode_Model Ode_Proofs OdeRk_Proofs.
Import ListNotations.
Local Open Scope R_scope.

Fixpoint sm (m : nat) (f : nat -> R) : R := match m with O => 0 | Datatypes.S m => sm m f + f m end.
Lemma sm_ext : forall m f g, (forall i, (i < m)%nat -> f i = g i) -> sm m f = sm m g.
Proof. induction m as [|m IH]; intros f g H; cbn [sm]; [reflexivity|]. rewrite (IH f g), (H m) by (intros; try apply H; lia). reflexivity. Qed.
Lemma sm_plus : forall m f g, sm m (fun i => f i + g i) = sm m f + sm m g.
Proof. induction m as [|m IH]; intros; cbn [sm]; [ring|]. rewrite IH. ring. Qed.
Lemma sm_scal : forall m c f, sm m (fun i => c * f i) = c * sm m f.
Proof. induction m as [|m IH]; intros; cbn [sm]; [ring|]. rewrite IH. ring. Qed.
Lemma sm_zero : forall m f, (forall i, (i < m)%nat -> f i = 0) -> sm m f = 0.
Proof. induction m as [|m IH]; intros f H; cbn [sm]; [reflexivity|]. rewrite IH, (H m) by (intros; try apply H; lia). ring. Qed.
Lemma sm_le : forall m f g, (forall i, (i < m)%nat -> f i <= g i) -> sm m f <= sm m g.
Proof. induction m as [|m IH]; intros f g H; cbn [sm]; [lra|]. apply Rplus_le_compat; [apply IH; intros; apply H; lia|apply H; lia]. Qed.

(** Gaussian elimination. *)
Theorem square_solvable : forall n (M : nat -> nat -> R),
  (forall v, (forall i, (i < n)%nat -> sm n (fun j => M i j * v j) = 0) -> forall j, (j < n)%nat -> v j = 0) ->
  forall y, exists v, forall i, (i < n)%nat -> sm n (fun j => M i j * v j) = y i.
Proof.
  induction n as [|n IH]; intros M Inj y; [exists (fun _ => 0); intros i Hi; lia|].
  assert (Pv : exists p, (p < Datatypes.S n)%nat /\ M p n <> 0).
  { apply NNPP. intros NP. assert (Z : forall p, (p < Datatypes.S n)%nat -> M p n = 0) by (intros p Hp; apply NNPP; intros Q; apply NP; exists p; auto).
    assert (E : (fun j => if (j =? n)%nat then 1 else 0) n = 0).
    { apply (Inj (fun j => if (j =? n)%nat then 1 else 0)); [|lia]. intros i Hi. cbn [sm]. rewrite Nat.eqb_refl, (Z i Hi).
      rewrite sm_zero; [ring|]. intros j Hj. destruct (Nat.eqb_spec j n); [lia|ring]. }
    cbv beta in E. rewrite Nat.eqb_refl in E. lra. }
  destruct Pv as (p & Hp & Np).
  (* row i of the reduced system is row s(i) of M *)
  set (s := fun i => if (i <? p)%nat then i else Datatypes.S i).
  assert (Sb : forall i, (i < n)%nat -> (s i < Datatypes.S n)%nat /\ s i <> p) by (intros i Hi; unfold s; destruct (Nat.ltb_spec i p); lia).
  assert (So : forall r, (r < Datatypes.S n)%nat -> r <> p -> exists i, (i < n)%nat /\ s i = r).
  { intros r Hr Nr. destruct (lt_dec r p); [exists r|exists (r - 1)%nat]; unfold s; (destruct (Nat.ltb_spec r p) || idtac); split; try lia.
    all: try (destruct (Nat.ltb_spec (r - 1) p); lia). }
  set (Q := fun i j => M (s i) j - M (s i) n / M p n * M p j).
  set (last := fun (v : nat -> R) (b : R) => (b - sm n (fun j => M p j * v j)) / M p n).
  set (ext := fun (v : nat -> R) (b : R) j => if (j =? n)%nat then last v b else v j).
  assert (Ex : forall v b i, sm (Datatypes.S n) (fun j => M i j * ext v b j) = sm n (fun j => M i j * v j) + M i n * last v b).
  { intros v b i. cbn [sm]. unfold ext at 2. rewrite Nat.eqb_refl. f_equal. apply sm_ext. intros j Hj. unfold ext. destruct (Nat.eqb_spec j n); [lia|reflexivity]. }
  assert (Ep : forall v b, sm (Datatypes.S n) (fun j => M p j * ext v b j) = b) by (intros; rewrite Ex; unfold last; field; exact Np).
  assert (Ei : forall v b i, sm (Datatypes.S n) (fun j => M (s i) j * ext v b j) = sm n (fun j => Q i j * v j) + M (s i) n / M p n * b).
  { intros v b i. rewrite Ex. unfold Q. rewrite (sm_ext n (fun j => (M (s i) j - M (s i) n / M p n * M p j) * v j) (fun j => M (s i) j * v j + - (M (s i) n / M p n) * (M p j * v j))) by (intros; ring).
    rewrite sm_plus, sm_scal. unfold last. field. exact Np. }
  assert (InjQ : forall v, (forall i, (i < n)%nat -> sm n (fun j => Q i j * v j) = 0) -> forall j, (j < n)%nat -> v j = 0).
  { intros v H j Hj. assert (E : ext v 0 j = 0).
    { apply (Inj (ext v 0)); [|lia]. intros r Hr. destruct (Nat.eq_dec r p) as [->|Nr]; [apply Ep|]. destruct (So r Hr Nr) as (i & Hi & <-). rewrite Ei, (H i Hi). ring. }
    unfold ext in E. destruct (Nat.eqb_spec j n); [lia|exact E]. }
  destruct (IH Q InjQ (fun i => y (s i) - M (s i) n / M p n * y p)) as (v & Hv).
  exists (ext v (y p)). intros r Hr. destruct (Nat.eq_dec r p) as [->|Nr]; [apply Ep|]. destruct (So r Hr Nr) as (i & Hi & <-). rewrite Ei, (Hv i Hi). ring.
Qed.

(** Lists as combinations of unit vectors. *)
Section Units.
Variable n : nat.
Fixpoint lcg (w : nat -> list R) (c : nat -> R) (m : nat) : list R :=
  match m with O => repeat 0 n | Datatypes.S m => addv (c m) (w m) (lcg w c m) end.
Lemma lcg_len : forall w c m, (forall i, length (w i) = n) -> length (lcg w c m) = n.
Proof. intros w c m Hw. induction m; cbn [lcg]; [apply repeat_length|]. apply addv_len; auto. Qed.
Lemma lcg_nth : forall w c m i, (forall i, length (w i) = n) -> nth i (lcg w c m) 0 = sm m (fun j => c j * nth i (w j) 0).
Proof.
  intros w c m i Hw. induction m; cbn [lcg sm]; [apply nth_zero|]. rewrite (addv_nth n) by (auto using lcg_len). rewrite IHm. ring.
Qed.
Definition unit (j : nat) : list R := map (fun i => if (i =? j)%nat then 1 else 0) (seq 0 n).
Lemma unit_len : forall j, length (unit j) = n.
Proof. intros. unfold unit. rewrite map_length, seq_length. reflexivity. Qed.
Lemma unit_nth : forall j i, (i < n)%nat -> nth i (unit j) 0 = if (i =? j)%nat then 1 else 0.
Proof.
  intros j i Hi. unfold unit. rewrite (nth_indep _ 0 ((fun i => if (i =? j)%nat then 1 else 0) 0%nat)) by (rewrite map_length, seq_length; exact Hi).
  rewrite (map_nth (fun i => if (i =? j)%nat then 1 else 0)), seq_nth by exact Hi. reflexivity.
Qed.
Lemma sm_delta : forall m c i, (i < m)%nat -> sm m (fun j => c j * (if (i =? j)%nat then 1 else 0)) = c i.
Proof.
  induction m as [|m IH]; intros c i Hi; [lia|]. cbn [sm]. destruct (Nat.eqb_spec i m) as [->|N].
  - rewrite sm_zero; [ring|]. intros j Hj. destruct (Nat.eqb_spec m j); [lia|ring].
  - rewrite IH by lia. ring.
Qed.
Lemma as_units : forall x, length x = n -> x = lcg unit (fun i => nth i x 0) n.
Proof.
  intros x Hx. apply (nth_ext _ _ 0 0); [rewrite lcg_len by apply unit_len; exact Hx|]. intros i Hi. rewrite lcg_nth by apply unit_len.
  rewrite (sm_ext n _ (fun j => nth j x 0 * (if (i =? j)%nat then 1 else 0))); [|intros; rewrite unit_nth by lia; reflexivity].
  rewrite sm_delta by lia. reflexivity.
Qed.
Variable F : list R -> list R.
Hypothesis Flen : forall x, length x = n -> length (F x) = n.
Hypothesis Fadd : forall a k x, length k = n -> length x = n -> F (addv a k x) = addv a (F k) (F x).
Lemma F_lcg : forall w c m, (forall i, length (w i) = n) -> F (lcg w c m) = lcg (fun i => F (w i)) c m.
Proof.
  intros w c m Hw. induction m; cbn [lcg]; [apply (F_zero n F Flen Fadd (repeat 0 n)), repeat_length|]. rewrite Fadd by (auto using lcg_len). rewrite IHm. reflexivity.
Qed.

Variable B : list R -> list R -> R.
Hypothesis Badd : forall a k x y, length k = n -> length x = n -> length y = n -> B (addv a k x) y = B x y + a * B k y.
Hypothesis Bsym : forall x y, length x = n -> length y = n -> B x y = B y x.
Lemma B_lcg : forall w c m y, (forall i, length (w i) = n) -> length y = n -> B (lcg w c m) y = sm m (fun i => c i * B (w i) y).
Proof.
  intros w c m y Hw Hy. induction m; cbn [lcg sm]; [apply (B_zero n B Badd y Hy)|]. rewrite Badd by (auto using lcg_len). rewrite IHm. ring.
Qed.
Variable c0 : R.
Hypothesis Hc0 : 0 < c0.
Hypothesis Coer : forall x i, length x = n -> c0 * (nth i x 0 * nth i x 0) <= B x x.

(** The operator is bounded in the energy norm. *)
Theorem bound_exists : exists K, 0 <= K /\ forall x, length x = n -> B (F x) (F x) <= K * K * B x x.
Proof.
  set (W := fun i => F (unit i)). assert (LW : forall i, length (W i) = n) by (intros; apply Flen, unit_len).
  set (T := sm n (fun i => sm n (fun j => Rabs (B (W i) (W j))))).
  assert (T0 : 0 <= T).
  { unfold T. replace 0 with (sm n (fun _ => 0)) by (apply sm_zero; reflexivity). apply sm_le. intros i _. replace 0 with (sm n (fun _ => 0)) by (apply sm_zero; reflexivity). apply sm_le. intros. apply Rabs_pos. }
  exists (sqrt (T / c0)). split; [apply sqrt_pos|]. intros x Hx. rewrite sqrt_sqrt by (apply Rmult_le_pos; [exact T0|left; apply Rinv_0_lt_compat; exact Hc0]).
  set (xi := fun i => nth i x 0). assert (E : F x = lcg W xi n) by (rewrite (as_units x Hx) at 1; apply F_lcg, unit_len).
  assert (Q : forall i j, Rabs (xi i * xi j) <= B x x / c0).
  { intros i j. pose proof (Coer x i Hx) as A1. pose proof (Coer x j Hx) as A2. fold (xi i) in A1. fold (xi j) in A2.
    apply Rmult_le_reg_l with c0; [exact Hc0|]. replace (c0 * (B x x / c0)) with (B x x) by (field; lra). set (u := xi i) in *. set (v := xi j) in *. clearbody u v.
    assert (0 <= c0 * ((u - v) * (u - v))) by (apply Rmult_le_pos; [lra|apply Rle_0_sqr]). assert (0 <= c0 * ((u + v) * (u + v))) by (apply Rmult_le_pos; [lra|apply Rle_0_sqr]). unfold Rabs. destruct (Rcase_abs _); lra. }
  assert (V : B (F x) (F x) = sm n (fun i => sm n (fun j => xi i * xi j * B (W i) (W j)))).
  { rewrite E. rewrite B_lcg by (auto using lcg_len). apply sm_ext. intros i _. rewrite Bsym by (auto using lcg_len). rewrite B_lcg by auto. rewrite <- sm_scal. apply sm_ext. intros j _. rewrite (Bsym (W j)) by auto. ring. }
  rewrite V. apply Rle_trans with (B x x / c0 * T).
  - unfold T. rewrite <- sm_scal. apply sm_le. intros i _. rewrite <- sm_scal. apply sm_le. intros j _.
    eapply Rle_trans; [apply Rle_abs|]. rewrite Rabs_mult. apply Rmult_le_compat_r; [apply Rabs_pos|apply Q].
  - apply Req_le. field. lra.
Qed.

(** The stages of the implicit integrators: always solvable, in one way. *)
Hypothesis Diss : forall x, length x = n -> B x (F x) <= 0.
Theorem stage_unique : forall h x k k', 0 <= h -> length x = n -> stage n F h x k -> stage n F h x k' -> k = k'.
Proof.
  intros h x k k' Hh Hx (L & E) (L' & E').
  set (d := addv (-1) k' k). assert (Ld : length d = n) by (unfold d; apply addv_len; assumption).
  assert (Ed : d = addv (h) (F d) (addv (-1) d d)).
  { apply (addv_ext n); auto using addv_len. intros i. rewrite (addv_nth n (-1) d d i) by assumption.
    assert (Fd : nth i (F d) 0 = nth i (F k) 0 - nth i (F k') 0) by (unfold d; rewrite Fadd, (addv_nth n) by auto; ring).
    rewrite Fd. unfold d. rewrite (addv_nth n) by assumption.
    assert (G : nth i k 0 = nth i (F x) 0 + h * nth i (F k) 0) by (rewrite E at 1; rewrite Fadd, (addv_nth n) by auto; ring).
    assert (G' : nth i k' 0 = nth i (F x) 0 + h * nth i (F k') 0) by (rewrite E' at 1; rewrite Fadd, (addv_nth n) by auto; ring).
    lra. }
  assert (BD : B d d = h * B d (F d)).
  { rewrite Ed at 1. rewrite Badd by (auto using addv_len). rewrite Badd by auto. rewrite (Bsym (F d)) by auto. ring. }
  pose proof (Diss d Ld) as D. apply (nth_ext k k' 0 0); [congruence|]. intros i _.
  pose proof (Coer d i Ld) as C. assert (Z : nth i d 0 * nth i d 0 <= 0) by nra. assert (Z' : nth i d 0 = 0) by nra.
  unfold d in Z'. rewrite (addv_nth n) in Z' by assumption. lra.
Qed.
Theorem stage_exists : forall h x, 0 <= h -> length x = n -> exists k, stage n F h x k.
Proof.
  intros h x Hh Hx. set (W := fun i => F (unit i)). assert (LW : forall i, length (W i) = n) by (intros; apply Flen, unit_len).
  set (M := fun i j => (if (i =? j)%nat then 1 else 0) - h * nth i (W j) 0).
  assert (MV : forall v i, (i < n)%nat -> sm n (fun j => M i j * v j) = v i - h * nth i (F (lcg unit v n)) 0).
  { intros v i Hi. rewrite F_lcg by apply unit_len. fold W. rewrite lcg_nth by exact LW.
    rewrite (sm_ext n (fun j => M i j * v j) (fun j => v j * (if (i =? j)%nat then 1 else 0) + - h * (v j * nth i (W j) 0))) by (intros; unfold M; ring).
    rewrite sm_plus, sm_scal, sm_delta by exact Hi. ring. }
  assert (VN : forall v i, (i < n)%nat -> nth i (lcg unit v n) 0 = v i).
  { intros v i Hi. rewrite lcg_nth by apply unit_len. rewrite (sm_ext n _ (fun j => v j * (if (i =? j)%nat then 1 else 0))); [apply sm_delta, Hi|]. intros. rewrite unit_nth by exact Hi. reflexivity. }
  destruct (square_solvable n M) with (y := fun i => nth i (F x) 0) as (v & Hv).
  - intros v H j Hj. set (d := lcg unit v n). assert (Ld : length d = n) by (apply lcg_len, unit_len).
    assert (Ed : d = addv h (F d) (addv (-1) d d)).
    { apply (nth_ext _ _ 0 0); [rewrite (addv_len n); auto using addv_len|]. intros i Hi. rewrite Ld in Hi. rewrite (addv_nth n), (addv_nth n) by (auto using addv_len).
      specialize (H i Hi). rewrite (MV v i Hi) in H. fold d in H. unfold d at 1. rewrite (VN v i Hi). lra. }
    assert (BD : B d d = h * B d (F d)).
    { rewrite Ed at 1. rewrite Badd by (auto using addv_len). rewrite Badd by auto. rewrite (Bsym (F d)) by auto. ring. }
    pose proof (Diss d Ld) as D. pose proof (Coer d j Ld) as C. assert (Z : nth j d 0 * nth j d 0 <= 0) by nra. rewrite <- (VN v j Hj). fold d. nra.
  - exists (lcg unit v n). assert (Ld : length (lcg unit v n) = n) by (apply lcg_len, unit_len). split; [exact Ld|].
    rewrite Fadd by assumption. apply (addv_ext n); auto. intros i. destruct (lt_dec i n) as [Hi|Hi].
    + specialize (Hv i Hi). rewrite (MV v i Hi) in Hv. rewrite (VN v i Hi). lra.
    + rewrite !nth_overflow by (rewrite ?Flen; auto; lia). ring.
Qed.
End Units.

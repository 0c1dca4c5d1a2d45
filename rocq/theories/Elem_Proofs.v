(** Inverse and trace inequalities of spaces made of images of one reference element. *)
From Coq Require Import ZArith List Bool Reals Lia Lra Psatz.
From Verif Require Import Common Csr_Model Geo_Spec Face_Model Face_Spec Face_Proofs Nodal_Spec Nodal_Proofs NodalMult_Proofs NodalEnergy_Spec NodalEnergy_Proofs Setup_Model Setup_Spec Assembly_Model Form_Model Form_Spec Global_Spec Global_Proofs GlobalEnergy_Proofs GlobalBalance_Proofs HestElem_Proofs Step_Model Step_Spec Ode_Spec Cfl_Spec CflLine_Proofs Elem_Spec.
Import ListNotations.
Local Open Scope R_scope.

(** ** Sums *)
Lemma sumN_nn : forall n f, (forall k, (k < n)%nat -> 0 <= f k) -> 0 <= sumN n f.
Proof. intros n f H. rewrite <- (sumN_zero n (fun _ => 0)) by reflexivity. now apply sumN_mono. Qed.
Lemma sumN_abs : forall n f, Rabs (sumN n f) <= sumN n (fun k => Rabs (f k)).
Proof.
  induction n as [|n IH]; intros f; [cbn; rewrite Rabs_R0; lra|]. rewrite !CflLine_Proofs.sumN_S.
  eapply Rle_trans; [apply Rabs_triang|]. pose proof (IH f). lra.
Qed.
Lemma sq_nn : forall x, 0 <= x * x.
Proof. intros x. pose proof (Rle_0_sqr x). exact H. Qed.
(** A sum of terms each bounded by a product. *)
Lemma cs_terms : forall n x a b, (forall k, (k < n)%nat -> 0 <= a k /\ 0 <= b k /\ x k * x k <= a k * b k) ->
  sumN n x * sumN n x <= sumN n a * sumN n b.
Proof.
  intros n x a b H.
  assert (S : forall k, (k < n)%nat -> Rabs (x k) <= sqrt (a k) * sqrt (b k)).
  { intros k Hk. destruct (H k Hk) as (A & B & X). rewrite <- sqrt_mult by assumption. rewrite <- (sqrt_Rsqr_abs (x k)). apply sqrt_le_1_alt. exact X. }
  assert (T : Rabs (sumN n x) <= sumN n (fun k => sqrt (a k) * sqrt (b k))).
  { eapply Rle_trans; [apply sumN_abs|]. now apply sumN_mono. }
  pose proof (sumN_cs n (fun k => sqrt (a k)) (fun k => sqrt (b k))) as CS.
  cbv beta in CS. rewrite (sumN_ext n (fun k => sqrt (a k) * sqrt (a k)) a) in CS by (intros k Hk; apply sqrt_sqrt, H, Hk).
  rewrite (sumN_ext n (fun k => sqrt (b k) * sqrt (b k)) b) in CS by (intros k Hk; apply sqrt_sqrt, H, Hk).
  eapply Rle_trans; [|exact CS]. replace (sumN n x * sumN n x) with (Rabs (sumN n x) * Rabs (sumN n x)) by (rewrite <- Rabs_mult; apply Rabs_pos_eq, sq_nn).
  apply Rmult_le_compat; try apply Rabs_pos; exact T.
Qed.

(** ** Blocks *)
Lemma block_div : forall q k a, (a < q)%nat -> ((k * q + a) / q = k)%nat /\ ((k * q + a) mod q = a)%nat.
Proof.
  intros q k a H. rewrite Nat.div_add_l by lia. rewrite (Nat.div_small a q) by exact H. split; [lia|].
  rewrite Nat.add_comm, Nat.mod_add by lia. now apply Nat.mod_small.
Qed.
Lemma per_form : forall n q B v u, mform (n * q) (perElement q B) v u =
  sumN n (fun k => mform q (B k) (fun a => v (k * q + a)%nat) (fun a => u (k * q + a)%nat)).
Proof.
  intros n q B v u. unfold mform. rewrite sumN_blocks. apply sumN_ext. intros k Hk. apply sumN_ext. intros a Ha. rewrite sumN_blocks.
  rewrite (sumN_ext n _ (fun l => if (k =? l)%nat then sumN q (fun b => v (k * q + a)%nat * B k a b * u (l * q + b)%nat) else 0)).
  - exact (sumN_one n k (fun l => sumN q (fun b => v (k * q + a)%nat * B k a b * u (l * q + b)%nat)) Hk).
  - intros l Hl. destruct (Nat.eqb_spec k l) as [->|Ne].
    + apply sumN_ext. intros b Hb. unfold perElement. destruct (block_div q l a Ha) as (-> & ->). destruct (block_div q l b Hb) as (-> & ->). rewrite Nat.eqb_refl. reflexivity.
    + apply sumN_zero. intros b Hb. unfold perElement. destruct (block_div q k a Ha) as (-> & _). destruct (block_div q l b Hb) as (-> & _).
      replace (k =? l)%nat with false by (symmetry; now apply Nat.eqb_neq). ring.
Qed.
Lemma per_inverse : forall n q A B, (0 < q)%nat -> (forall k a b, (k < n)%nat -> (a < q)%nat -> (b < q)%nat -> sumN q (fun c => A k a c * B k c b) = if (a =? b)%nat then 1 else 0) ->
  forall i j, (i < n * q)%nat -> (j < n * q)%nat -> sumN (n * q) (fun c => perElement q A i c * perElement q B c j) = if (i =? j)%nat then 1 else 0.
Proof.
  intros n q A B Q H i j Hi Hj. rewrite sumN_blocks.
  assert (Ei : i = (i / q * q + i mod q)%nat) by (rewrite (Nat.div_mod i q) at 1 by lia; lia).
  assert (Ej : j = (j / q * q + j mod q)%nat) by (rewrite (Nat.div_mod j q) at 1 by lia; lia).
  assert (Ai : (i mod q < q)%nat) by (apply Nat.mod_upper_bound; lia). assert (Aj : (j mod q < q)%nat) by (apply Nat.mod_upper_bound; lia).
  assert (Ki : (i / q < n)%nat) by (apply Nat.div_lt_upper_bound; lia).
  set (k := (i / q)%nat) in *. set (a := (i mod q)%nat) in *. set (l := (j / q)%nat) in *. set (b := (j mod q)%nat) in *.
  rewrite (sumN_ext n _ (fun p => if (k =? p)%nat then sumN q (fun c => A p a c * (if (p =? l)%nat then B p c b else 0)) else 0)).
  2:{ intros p Hp. destruct (Nat.eqb_spec k p) as [Ep|Ne].
      - apply sumN_ext. intros c Hc. unfold perElement. destruct (block_div q p c Hc) as (-> & ->). fold k a l b. rewrite Ep, Nat.eqb_refl. reflexivity.
      - apply sumN_zero. intros c Hc. unfold perElement. destruct (block_div q p c Hc) as (-> & _). fold k. replace (k =? p)%nat with false by (symmetry; now apply Nat.eqb_neq). ring. }
  rewrite (sumN_one n k (fun p => sumN q (fun c => A p a c * (if (p =? l)%nat then B p c b else 0))) Ki).
  destruct (Nat.eqb_spec k l) as [El|Nl].
  - rewrite H by assumption. destruct (Nat.eqb_spec a b) as [Eab|Nab]; [replace (i =? j)%nat with true by (symmetry; apply Nat.eqb_eq; congruence)|replace (i =? j)%nat with false by (symmetry; apply Nat.eqb_neq; intros Eij; apply Nab; unfold a, b; congruence)]; reflexivity.
  - rewrite sumN_zero by (intros; ring). replace (i =? j)%nat with false; [reflexivity|]. symmetry. apply Nat.eqb_neq. intros Eij. apply Nl. unfold k, l. congruence.
Qed.

(** ** Forms of small matrices *)
Lemma frob_pos : forall q M, 1 <= frob q M.
Proof. intros q M. unfold frob. assert (0 <= sumN q (fun a => sumN q (fun b => M a b * M a b))) by (apply sumN_nn; intros; apply sumN_nn; intros; apply sq_nn). lra. Qed.
Lemma form_bound : forall q M v u, mform q M v u * mform q M v u <= frob q M * frob q M * sumN q (fun a => v a * v a) * sumN q (fun b => u b * u b).
Proof.
  intros q M v u. set (X := sumN q (fun a => v a * v a)). set (Y := sumN q (fun b => u b * u b)). set (G := sumN q (fun a => sumN q (fun b => M a b * M a b))).
  assert (X0 : 0 <= X) by (apply sumN_nn; intros; apply sq_nn). assert (Y0 : 0 <= Y) by (apply sumN_nn; intros; apply sq_nn).
  assert (L : mform q M v u * mform q M v u <= X * (G * Y)).
  { unfold mform. rewrite (sumN_ext q _ (fun a => v a * sumN q (fun b => M a b * u b))) by (intros a _; rewrite <- sumN_scal; apply sumN_ext; intros; ring).
    eapply Rle_trans; [apply (sumN_cs q v (fun a => sumN q (fun b => M a b * u b)))|]. fold X. apply Rmult_le_compat_l; [exact X0|].
    unfold G. rewrite <- sumN_scal_r. apply sumN_mono. intros a _. apply (sumN_cs q (fun b => M a b) u). }
  pose proof (frob_pos q M). assert (Eg : frob q M = 1 + G) by reflexivity. assert (G <= frob q M * frob q M). { rewrite Eg in *. assert (0 <= G) by lra. clearbody G. nra. }
  eapply Rle_trans; [exact L|]. replace (frob q M * frob q M * X * Y) with (X * (frob q M * frob q M * Y)) by ring.
  apply Rmult_le_compat_l; [exact X0|]. apply Rmult_le_compat_r; assumption.
Qed.
Lemma mform_msum : forall q p (c : nat -> R) (M : nat -> mat) v u, mform q (fun a b => sumN p (fun e => c e * M e a b)) v u = sumN p (fun e => c e * mform q (M e) v u).
Proof.
  intros q p c M v u. induction p as [|p IH].
  - cbn [sumN]. unfold mform. apply sumN_zero. intros. apply sumN_zero. intros. change (sumN 0 _) with 0. ring.
  - rewrite CflLine_Proofs.sumN_S, <- IH. unfold mform. rewrite <- sumN_scal, <- sumN_plus. apply sumN_ext. intros a _. rewrite <- sumN_scal, <- sumN_plus. apply sumN_ext. intros b _.
    rewrite CflLine_Proofs.sumN_S. ring.
Qed.
Lemma form_cs : forall q M, (forall a b, M a b = M b a) -> (forall v, 0 <= mform q M v v) -> forall v u, mform q M v u * mform q M v u <= mform q M v v * mform q M u u.
Proof.
  intros q M Sy Ps v u. set (X := mform q M v v). set (Y := mform q M u u). set (Z := mform q M v u).
  assert (Q : forall t, 0 <= X * (t * t) + 2 * t * Z + Y).
  { intros t. pose proof (Ps (fun i => t * v i + u i)) as P.
    assert (E : mform q M (fun i => t * v i + u i) (fun i => t * v i + u i) = X * (t * t) + 2 * t * Z + Y); [|lra].
    rewrite mform_plus, mform_scal, !(mform_sym q M (fun i => t * v i + u i)) by exact Sy. rewrite !mform_plus, !mform_scal. rewrite (mform_sym q M u v Sy). fold X Y Z. ring. }
  assert (X0 : 0 <= X) by apply Ps. assert (Y0 : 0 <= Y) by apply Ps. clearbody X Y Z.
  destruct (Req_dec X 0) as [E|N].
  - subst X. assert (Z = 0). { destruct (Req_dec Z 0) as [|NZ]; [assumption|]. pose proof (Q (- (Y + 1) / (2 * Z))) as P. replace (0 * _ + 2 * (- (Y + 1) / (2 * Z)) * Z + Y) with (-1) in P by (field; exact NZ). lra. } subst Z. lra.
  - pose proof (Q (- Z / X)) as P. replace (X * (- Z / X * (- Z / X)) + 2 * (- Z / X) * Z + Y) with ((X * Y - Z * Z) / X) in P by (field; exact N).
    assert (0 < X) by lra. assert (0 <= X * Y - Z * Z); [|lra]. replace (X * Y - Z * Z) with (X * ((X * Y - Z * Z) / X)) by (field; lra). apply Rmult_le_pos; lra.
Qed.
(** Invertibility gives a lower bound. *)
Lemma ref_coercive : forall r, referenceOk r -> forall v, sumN (r_dofs r) (fun a => v a * v a) <= frob (r_dofs r) (r_inv r) * mform (r_dofs r) (r_mass r) v v.
Proof.
  intros r (_ & Sy & Ps & In) v. set (q := r_dofs r) in *. set (X := sumN q (fun a => v a * v a)).
  set (u := fun a => sumN q (fun b => r_inv r a b * v b)).
  assert (Eu : forall z, mform q (r_mass r) z u = sumN q (fun a => z a * v a)).
  { intros z. unfold mform. apply sumN_ext. intros a Ha. unfold u.
    rewrite (sumN_ext q _ (fun k => sumN q (fun b => z a * (r_mass r a k * r_inv r k b) * v b))) by (intros k _; rewrite <- sumN_scal; apply sumN_ext; intros; ring).
    rewrite sumN_swap. rewrite (sumN_ext q _ (fun b => if (a =? b)%nat then z a * v b else 0)).
    - exact (sumN_one q a (fun b => z a * v b) Ha).
    - intros b Hb. rewrite (sumN_ext q _ (fun k => (z a * v b) * (r_mass r a k * r_inv r k b))) by (intros; ring). rewrite sumN_scal, In by assumption. destruct (a =? b)%nat; ring. }
  pose proof (form_cs q (r_mass r) Sy Ps v u) as CS. rewrite !Eu in CS. fold X in CS.
  assert (E2 : sumN q (fun a => u a * v a) = mform q (r_inv r) v v).
  { unfold mform. apply sumN_ext. intros a _. unfold u. rewrite Rmult_comm, <- sumN_scal. apply sumN_ext. intros; ring. }
  rewrite E2 in CS. pose proof (form_bound q (r_inv r) v v) as FB. fold X in FB. pose proof (frob_pos q (r_inv r)) as F1. pose proof (Ps v) as P.
  assert (X0 : 0 <= X) by (apply sumN_nn; intros; apply sq_nn). set (F := frob q (r_inv r)) in *. set (Y := mform q (r_inv r) v v) in *. set (W := mform q (r_mass r) v v) in *. clearbody F Y W X.
  assert (YF : Y <= F * X). { destruct (Rle_or_lt Y (F * X)) as [|L]; [assumption|]. exfalso. assert (0 <= F * X) by (apply Rmult_le_pos; lra). assert (F * X * (F * X) < Y * Y) by (apply Rmult_le_0_lt_compat; lra). nra. }
  destruct (Req_dec X 0) as [->|NX]; [apply Rmult_le_pos; lra|]. assert (0 < X) by lra.
  assert (X * X <= W * (F * X)). { eapply Rle_trans; [exact CS|]. apply Rmult_le_compat_l; assumption. }
  apply (Rmult_le_reg_r X); [assumption|]. lra.
Qed.

(** ** The space *)
Section Elements.
Variable n : nat.
Variable r : reference.
Variable V : nat -> R.
Variable S : nat -> R.
Variable w : Z -> nat -> R.
Variable rho : R.
Hypothesis RO : referenceOk r.
Hypothesis rho0 : 0 < rho.
Hypothesis HS : forall k, (k < n)%nat -> 0 < S k /\ rho * S k <= V k.
Hypothesis Hw : forall g k, 1 <= w g k.
Notation q := (r_dofs r).
Lemma sq_elem : forall v k, 0 <= elemSq q v k.
Proof. intros. apply sumN_nn. intros. apply sq_nn. Qed.
Lemma vol_pos : forall k, (k < n)%nat -> 0 < V k.
Proof. intros k Hk. destruct (HS k Hk). assert (0 < rho * S k) by (apply Rmult_lt_0_compat; assumption). lra. Qed.
Lemma affine_inverse : forall g i j, (i < n * q)%nat -> (j < n * q)%nat -> sumN (n * q) (fun c => affineMass r V w g i c * affineInv r V w g c j) = if (i =? j)%nat then 1 else 0.
Proof.
  intros g. destruct RO as (Q0 & _ & _ & In). apply per_inverse; [exact Q0|]. intros k a b Hk Ha Hb.
  pose proof (vol_pos k Hk). pose proof (Hw g k).
  rewrite (sumN_ext q _ (fun c => r_mass r a c * r_inv r c b)) by (intros; field; split; lra). now apply In.
Qed.
Lemma affine_form : forall g v u, mform (n * q) (affineMass r V w g) v u = sumN n (fun k => w g k * V k * mform q (r_mass r) (fun a => v (k * q + a)%nat) (fun a => u (k * q + a)%nat)).
Proof.
  intros g v u. unfold affineMass. rewrite per_form. apply sumN_ext. intros k _. unfold mform. rewrite <- sumN_scal. apply sumN_ext. intros a _. rewrite <- sumN_scal. apply sumN_ext. intros; ring.
Qed.
Lemma affine_mass : massForm (n * q) (affineMass r V w).
Proof.
  destruct RO as (Q0 & Sy & Ps & _). split.
  - intros g i j. unfold affineMass, perElement. rewrite (Nat.eqb_sym (i / q) (j / q)). destruct (j / q =? i / q)%nat eqn:E; [|reflexivity]. apply Nat.eqb_eq in E. rewrite E, Sy. reflexivity.
  - intros g v. rewrite affine_form. apply sumN_nn. intros k Hk. pose proof (vol_pos k Hk). pose proof (Hw g k). apply Rmult_le_pos; [apply Rmult_le_pos; lra|apply Ps].
Qed.
(** Coefficients weighted with the boundary measure. *)
Lemma below : forall g v, rho * sumN n (fun k => S k * elemSq q v k) <= frob q (r_inv r) * mform (n * q) (affineMass r V w g) v v.
Proof.
  intros g v. rewrite affine_form, <- !sumN_scal. apply sumN_mono. intros k Hk. destruct (HS k Hk) as (S0 & L). pose proof (Hw g k). pose proof (vol_pos k Hk).
  assert (C : elemSq q v k <= frob q (r_inv r) * mform q (r_mass r) (fun a => v (k * q + a)%nat) (fun a => v (k * q + a)%nat)) by exact (ref_coercive r RO (fun a => v (k * q + a)%nat)). pose proof (sq_elem v k) as E0.
  set (M := mform q (r_mass r) (fun a => v (k * q + a)%nat) (fun a => v (k * q + a)%nat)) in *. set (F := frob q (r_inv r)) in *. set (E := elemSq q v k) in *. clearbody M F E.
  assert (A1 : rho * S k * E <= V k * E) by (apply Rmult_le_compat_r; assumption).
  assert (A2 : V k * E <= w g k * V k * E). { apply Rmult_le_compat_r; [assumption|]. assert (1 * V k <= w g k * V k) by (apply Rmult_le_compat_r; lra). lra. }
  assert (A3 : w g k * V k * E <= w g k * V k * (F * M)). { apply Rmult_le_compat_l; [apply Rmult_le_pos; lra|assumption]. }
  lra.
Qed.
Lemma weighted_nn : forall v, 0 <= sumN n (fun k => S k * elemSq q v k).
Proof. intros v. apply sumN_nn. intros k Hk. destruct (HS k Hk). apply Rmult_le_pos; [lra|apply sq_elem]. Qed.
Variable dim : Z.
Variable C : nat -> Z -> nat -> R.
Hypothesis HC : forall k d e, (k < n)%nat -> (0 <= d < dim)%Z -> (e < Z.to_nat dim)%nat -> Rabs (C k d e) <= S k.
Lemma diff_terms : forall k d v u, (k < n)%nat -> (0 <= d < dim)%Z ->
  Rabs (sumN (Z.to_nat dim) (fun e => C k d e * mform q (r_diff r e) v u)) <=
  S k * sumN (Z.to_nat dim) (fun e => frob q (r_diff r e)) * (sqrt (sumN q (fun a => v a * v a)) * sqrt (sumN q (fun a => u a * u a))).
Proof.
  intros k d v u Hk Hd. set (X := sumN q (fun a => v a * v a)). set (Y := sumN q (fun a => u a * u a)).
  assert (X0 : 0 <= X) by (apply sumN_nn; intros; apply sq_nn). assert (Y0 : 0 <= Y) by (apply sumN_nn; intros; apply sq_nn).
  eapply Rle_trans; [apply sumN_abs|]. rewrite (Rmult_assoc (S k)), <- sumN_scal_r, <- sumN_scal. apply sumN_mono. intros e He. rewrite Rabs_mult.
  apply Rmult_le_compat; try apply Rabs_pos; [now apply HC|].
  pose proof (form_bound q (r_diff r e) v u) as FB. fold X Y in FB. pose proof (frob_pos q (r_diff r e)).
  rewrite <- (sqrt_Rsqr_abs). rewrite <- (sqrt_square (frob q (r_diff r e))) by lra. rewrite <- !sqrt_mult_alt; try (apply sq_nn || assumption). apply sqrt_le_1_alt. unfold Rsqr. lra.
Qed.
Lemma affine_deriv : derivBound (n * q) dim (affineMass r V w) (affineD r (Z.to_nat dim) C) (diffSize r (Z.to_nat dim) / rho).
Proof.
  set (B := sumN (Z.to_nat dim) (fun e => frob q (r_diff r e))). set (F := frob q (r_inv r)).
  assert (B0 : 0 <= B) by (apply sumN_nn; intros e _; pose proof (frob_pos q (r_diff r e)); lra). assert (F1 : 1 <= F) by apply frob_pos.
  assert (E : diffSize r (Z.to_nat dim) / rho = F * B / rho) by reflexivity. rewrite E. clear E. assert (I0 : 0 < / rho) by (apply Rinv_0_lt_compat; exact rho0).
  split; [unfold Rdiv; apply Rmult_le_pos; [apply Rmult_le_pos|]; lra|]. intros d g v u Hd _.
  unfold affineD. rewrite per_form.
  rewrite (sumN_ext n _ (fun k => sumN (Z.to_nat dim) (fun e => C k d e * mform q (r_diff r e) (fun a => v (k * q + a)%nat) (fun a => u (k * q + a)%nat)))).
  2:{ intros k _. apply mform_msum. }
  eapply Rle_trans; [apply (cs_terms n _ (fun k => B * (S k * elemSq q v k)) (fun k => B * (S k * elemSq q u k)))|].
  - intros k Hk. destruct (HS k Hk) as (S0 & _). pose proof (sq_elem v k). pose proof (sq_elem u k). split; [|split]; try (apply Rmult_le_pos; [assumption|apply Rmult_le_pos; lra]).
    pose proof (diff_terms k d (fun a => v (k * q + a)%nat) (fun a => u (k * q + a)%nat) Hk Hd) as T. cbv beta in T. fold B in T. change (sumN q (fun a => v (k * q + a)%nat * v (k * q + a)%nat)) with (elemSq q v k) in T. change (sumN q (fun a => u (k * q + a)%nat * u (k * q + a)%nat)) with (elemSq q u k) in T.
    cbv beta. match type of T with Rabs ?y <= _ => set (x := y) in T |- * end. clearbody x. rewrite <- (Rabs_pos_eq (x * x)) by apply sq_nn. rewrite Rabs_mult.
    eapply Rle_trans; [apply Rmult_le_compat; [apply Rabs_pos|apply Rabs_pos|exact T|exact T]|].
    pose proof (sqrt_sqrt (elemSq q v k) ltac:(assumption)) as Q1. pose proof (sqrt_sqrt (elemSq q u k) ltac:(assumption)) as Q2. set (s1 := sqrt (elemSq q v k)) in *. set (s2 := sqrt (elemSq q u k)) in *. clearbody s1 s2. rewrite <- Q1, <- Q2. right. ring.
  - rewrite !sumN_scal. pose proof (below g v) as L1. pose proof (below (1 - g) u) as L2. fold F in L1, L2. pose proof (weighted_nn v). pose proof (weighted_nn u).
    set (X := sumN n (fun k => S k * elemSq q v k)) in *. set (Y := sumN n (fun k => S k * elemSq q u k)) in *.
    set (M1 := mform (n * q) (affineMass r V w g) v v) in *. set (M2 := mform (n * q) (affineMass r V w (1 - g)) u u) in *. clearbody X Y M1 M2.
    assert (P1 : X <= F * / rho * M1). { apply (Rmult_le_reg_l rho); [exact rho0|]. replace (rho * (F * / rho * M1)) with (F * M1) by (field; lra). exact L1. }
    assert (P2 : Y <= F * / rho * M2). { apply (Rmult_le_reg_l rho); [exact rho0|]. replace (rho * (F * / rho * M2)) with (F * M2) by (field; lra). exact L2. }
    replace (F * B / rho * (F * B / rho) * M1 * M2) with (B * B * ((F * / rho * M1) * (F * / rho * M2))) by (unfold Rdiv; ring). replace (B * X * (B * Y)) with (B * B * (X * Y)) by ring.
    apply Rmult_le_compat_l; [apply sq_nn|]. apply Rmult_le_compat; assumption.
Qed.
Lemma affine_trace : forall m T, traceSize m q n S T -> traceBound (n * q) m (affineMass r V w) (edgeSize r T / rho).
Proof.
  intros m T (T0 & HT). unfold edgeSize. pose proof (frob_pos q (r_inv r)) as F1. set (F := frob q (r_inv r)) in *. assert (I0 : 0 < / rho) by (apply Rinv_0_lt_compat; exact rho0).
  split; [unfold Rdiv; apply Rmult_le_pos; [apply Rmult_le_pos|]; lra|]. intros g v _. eapply Rle_trans; [apply HT|].
  pose proof (below g v) as L. fold F in L. replace (F * T / rho * mform (n * q) (affineMass r V w g) v v) with (T * (/ rho * (F * mform (n * q) (affineMass r V w g) v v))) by (unfold Rdiv; ring).
  apply Rmult_le_compat_l; [exact T0|]. apply (Rmult_le_reg_l rho); [exact rho0|]. rewrite <- Rmult_assoc, Rinv_r, Rmult_1_l by lra. exact L.
Qed.
End Elements.

(** Plane waves and dipoles solve Maxwell's equations. *)
From Coq Require Import ZArith List Bool Reals Lia Lra.
From Verif Require Import Common Geo_Model Geo_Proofs Source_Model Source_Spec.
From Coquelicot Require Import Coquelicot.
Import ListNotations.
Local Open Scope R_scope.

(** ** Norms *)
Lemma norm3 : forall a b c, norml2 [a; b; c] = sqrt (a * a + b * b + c * c).
Proof. intros. unfold norml2. cbn [fold_right]. f_equal. ring. Qed.
Lemma norm3_sq : forall a b c, norml2 [a; b; c] * norml2 [a; b; c] = a * a + b * b + c * c.
Proof. intros. rewrite norm3. apply sqrt_sqrt. pose proof (Rle_0_sqr a). pose proof (Rle_0_sqr b). pose proof (Rle_0_sqr c). unfold Rsqr in *. lra. Qed.

Ltac zn := change (Z.to_nat 0) with 0%nat in *; change (Z.to_nat 1) with 1%nat in *; change (Z.to_nat 2) with 2%nat in *.
Lemma d3 : forall d : Z, (0 <= d <= 2)%Z -> (d = 0 \/ d = 1 \/ d = 2)%Z.
Proof. lia. Qed.
Lemma three : forall l : list R, length l = 3%nat -> exists a b c, l = [a; b; c].
Proof. intros [|a [|b [|c [|e l]]]] H; try discriminate. eauto. Qed.
Lemma unit_of : forall l, length l = 3%nat -> norml2 l <> 0 -> dot3 (map (fun c => c / norml2 l) l) (map (fun c => c / norml2 l) l) = 1.
Proof.
  intros l H N. destruct (three l H) as (a & b & c & ->). pose proof (norm3_sq a b c) as Q. unfold dot3. cbn [map nth].
  set (n := norml2 [a; b; c]) in *. transitivity ((a * a + b * b + c * c) / (n * n)); [field; exact N|]. rewrite <- Q. field. exact N.
Qed.
Section Plane.
Variable f : func.
Variable g : R -> R.
Hypothesis Pf : forall x, funcEval f [x] = Ok (g x).
Variable pol dir : list R.
Variable ft : Z.
Hypothesis Lp : length pol = 3%nat.
Hypothesis Ld : length dir = 3%nat.
Hypothesis Hft : (ft = 0 \/ ft = 1)%Z.
Variable w : planewave.
Hypothesis W : newPlanewave f pol dir ft = Ok w.

Definition khat : list R := map (fun c => c / norml2 dir) dir.
Definition phat : list R := map (fun c => c / norml2 pol) pol.
Definition amp (fi : Z) : list R :=
  if (fi =? ft)%Z then phat else if (ft =? 0)%Z then cross3 khat phat else cross3 phat khat.
Definition PW : vfield := fun fi d t p => g (dot3 p khat - t) * nth (Z.to_nat d) (amp fi) 0.

Lemma w_is : w = mkPW f phat khat ft /\ norml2 pol <> 0 /\ norml2 dir <> 0.
Proof.
  unfold newPlanewave in W. destruct (Req_EM_T (norml2 pol) 0) as [|N1]; [discriminate|]. destruct (Req_EM_T (norml2 dir) 0) as [|N2]; [discriminate|].
  injection W as <-. auto.
Qed.
Lemma pw_eval : forall p t fi d, length p = 3%nat -> (0 <= fi <= 1)%Z -> (0 <= d <= 2)%Z -> planeEval w p t fi d = Ok (PW fi d t p).
Proof.
  intros p t fi d Lq Hf Hd. destruct w_is as (Ew & N1 & N2). rewrite Ew. destruct (three p Lq) as (x & y & z & ->).
  destruct (three pol Lp) as (a0 & a1 & a2 & Ep). destruct (three dir Ld) as (b0 & b1 & b2 & Ed).
  unfold planeEval, PW, amp. cbn [pw_fn pw_pol pw_prop pw_ft].
  assert (V : funcEval f [dotv [x; y; z] khat / speedOfLight - t] = Ok (g (dot3 [x; y; z] khat - t))).
  { rewrite Pf. do 2 f_equal. unfold khat. rewrite Ed. unfold dotv, dot3, speedOfLight. cbn [map combine fold_right fst snd nth]. field. rewrite <- Ed. exact N2. }
  destruct (Z.eqb_spec fi ft).
  - unfold phat. rewrite Ep. cbn [map]. destruct (d3 d Hd) as [->|[->| ->]]; zn; cbn [zget Z.ltb Z.compare nth_error bind nth]; rewrite V; cbn [bind]; reflexivity.
  - destruct (Z.eqb_spec ft 0); unfold phat; unfold khat at 1; rewrite Ep, Ed; cbn [map crossProduct bind];
    (destruct (d3 d Hd) as [->|[->| ->]]; zn; cbn [zget Z.ltb Z.compare nth_error bind nth]; rewrite V; cbn [bind]; do 2 f_equal; unfold cross3, khat; rewrite Ed; cbn [map nth]; reflexivity).
Qed.
Lemma rigid : forall p t s fi d, PW fi d (t + s) (move p khat s) = PW fi d t p.
Proof.
  intros p t s fi d. unfold PW. do 2 f_equal.
  pose proof (unit_of dir Ld (proj2 (proj2 w_is))) as U. fold khat in U.
  transitivity (dot3 p khat + s * dot3 khat khat - (t + s)); [unfold move, dot3; cbn [nth]; ring|rewrite U; ring].
Qed.
(** The unit vectors are orthogonal when the given ones are. *)
Hypothesis O : dot3 pol dir = 0.
Lemma orth : dot3 phat khat = 0.
Proof.
  destruct w_is as (_ & N1 & N2). unfold phat, khat. destruct (three pol Lp) as (a0 & a1 & a2 & Ep). destruct (three dir Ld) as (b0 & b1 & b2 & Ed).
  rewrite Ep, Ed in *. unfold dot3 in *. cbn [map nth] in *. set (n1 := norml2 [a0; a1; a2]) in *. set (n2 := norml2 [b0; b1; b2]) in *.
  transitivity ((a0 * b0 + a1 * b1 + a2 * b2) / (n1 * n2)); [field; auto|]. rewrite O. field. auto.
Qed.
Lemma amp_facts : exists kx ky kz ex ey ez hx hy hz, khat = [kx; ky; kz] /\ amp 0%Z = [ex; ey; ez] /\ amp 1%Z = [hx; hy; hz] /\
  kx * kx + ky * ky + kz * kz = 1 /\ ex * ex + ey * ey + ez * ez = 1 /\ kx * ex + ky * ey + kz * ez = 0 /\
  hx = ky * ez - kz * ey /\ hy = kz * ex - kx * ez /\ hz = kx * ey - ky * ex.
Proof.
  destruct w_is as (_ & N1 & N2). pose proof (unit_of dir Ld N2) as Uk. pose proof (unit_of pol Lp N1) as Up. pose proof orth as Op. fold khat in Uk. fold phat in Up.
  assert (Lk : length khat = 3%nat) by (unfold khat; rewrite map_length; exact Ld). assert (Lh : length phat = 3%nat) by (unfold phat; rewrite map_length; exact Lp).
  unfold amp. destruct (three khat Lk) as (kx & ky & kz & Ek). destruct (three phat Lh) as (a & b & c & Ea). rewrite Ek, Ea in *. unfold dot3, cross3 in *. cbn [nth] in *.
  destruct Hft as [->| ->]; cbn [Z.eqb Pos.eqb].
  - exists kx, ky, kz, a, b, c, (ky * c - kz * b), (kz * a - kx * c), (kx * b - ky * a). repeat split; lra.
  - exists kx, ky, kz, (b * kz - c * ky), (c * kx - a * kz), (a * ky - b * kx), a, b, c.
    split; [reflexivity|]. split; [reflexivity|]. split; [reflexivity|]. split; [lra|]. split; [|split; [ring|]].
    + replace ((b * kz - c * ky) * (b * kz - c * ky) + (c * kx - a * kz) * (c * kx - a * kz) + (a * ky - b * kx) * (a * ky - b * kx))
        with ((a * a + b * b + c * c) * (kx * kx + ky * ky + kz * kz) - (a * kx + b * ky + c * kz) * (a * kx + b * ky + c * kz)) by ring. rewrite Up, Uk, Op. ring.
    + assert (Q : forall X Y Z : R, Y = 1 -> Z = 0 -> X = X * Y - Z * kx) by (intros; subst; ring).
      repeat split.
      * replace (ky * (a * ky - b * kx) - kz * (c * kx - a * kz)) with (a * (kx * kx + ky * ky + kz * kz) - kx * (a * kx + b * ky + c * kz)) by ring. rewrite Uk, Op. ring.
      * replace (kz * (b * kz - c * ky) - kx * (a * ky - b * kx)) with (b * (kx * kx + ky * ky + kz * kz) - ky * (a * kx + b * ky + c * kz)) by ring. rewrite Uk, Op. ring.
      * replace (kx * (c * kx - a * kz) - ky * (b * kz - c * ky)) with (c * (kx * kx + ky * ky + kz * kz) - kz * (a * kx + b * ky + c * kz)) by ring. rewrite Uk, Op. ring.
Qed.
Lemma transverse : forall t p,
  dot3 (vec PW 0 t p) khat = 0 /\ dot3 (vec PW 1 t p) khat = 0 /\ dot3 (vec PW 0 t p) (vec PW 1 t p) = 0 /\
  dot3 (vec PW 0 t p) (vec PW 0 t p) = dot3 (vec PW 1 t p) (vec PW 1 t p) /\
  cross3 (vec PW 0 t p) (vec PW 1 t p) = map (Rmult (dot3 (vec PW 0 t p) (vec PW 0 t p))) khat.
Proof.
  intros t p. destruct amp_facts as (kx & ky & kz & ex & ey & ez & hx & hy & hz & Ek & E0 & E1 & Uk & Ue & Oe & -> & -> & ->).
  unfold vec, PW. rewrite E0, E1. set (v := g _). rewrite Ek. unfold dot3, cross3.
  zn; cbn [nth map]. repeat split.
  - transitivity (v * (kx * ex + ky * ey + kz * ez)); [ring|]. rewrite Oe. ring.
  - ring.
  - ring.
  - transitivity (v * v * (ex * ex + ey * ey + ez * ez)); [ring|].
    transitivity (v * v * ((kx * kx + ky * ky + kz * kz) * (ex * ex + ey * ey + ez * ez) - (kx * ex + ky * ey + kz * ez) * (kx * ex + ky * ey + kz * ez))); [rewrite Uk, Ue, Oe; ring|ring].
  - assert (Q : forall k e : R, v * v * (k * (ex * ex + ey * ey + ez * ez) - e * (kx * ex + ky * ey + kz * ez)) = (v * ex * (v * ex) + v * ey * (v * ey) + v * ez * (v * ez)) * k) by (intros; rewrite Oe; ring).
    f_equal; [rewrite <- (Q kx ex); ring|f_equal; [rewrite <- (Q ky ey); ring|f_equal; rewrite <- (Q kz ez); ring]].
Qed.
Variable g' : R -> R.
Hypothesis Dg : forall x, derivable_pt_lim g x (g' x).
Lemma maxwell : forall t p, length p = 3%nat -> maxwellAt PW t p.
Proof.
  intros t p L. destruct (three p L) as (x & y & z & ->).
  destruct amp_facts as (kx & ky & kz & ex & ey & ez & hx & hy & hz & Ek & E0 & E1 & Uk & Ue & Oe & Hx & Hy & Hz).
  set (u := dot3 [x; y; z] khat - t).
  exists (fun f d => - g' u * nth (Z.to_nat d) (amp f) 0), (fun f d k => g' u * nth (Z.to_nat k) khat 0 * nth (Z.to_nat d) (amp f) 0).
  split; [|split; [|split; [|split]]].
  - intros fi d Hf Hd. unfold PW. apply (derivable_pt_lim_ext (mult_real_fct (nth (Z.to_nat d) (amp fi) 0) (fun s => g (dot3 [x; y; z] khat - s)))); [intros; unfold mult_real_fct; ring|].
    replace (- g' u * nth (Z.to_nat d) (amp fi) 0) with (nth (Z.to_nat d) (amp fi) 0 * (g' u * (0 - 1))) by ring. apply derivable_pt_lim_scal.
    apply (derivable_pt_lim_comp (fun s => dot3 [x; y; z] khat - s) g t (0 - 1) (g' u)); [|apply Dg].
    apply derivable_pt_lim_minus; [apply derivable_pt_lim_const|apply derivable_pt_lim_id].
  - intros fi d k Hf Hd Hk. unfold PW. apply (derivable_pt_lim_ext (mult_real_fct (nth (Z.to_nat d) (amp fi) 0) (fun s => g (dot3 (upd [x; y; z] (Z.to_nat k) s) khat - t)))); [intros; unfold mult_real_fct; ring|].
    replace (g' u * nth (Z.to_nat k) khat 0 * nth (Z.to_nat d) (amp fi) 0) with (nth (Z.to_nat d) (amp fi) 0 * (g' u * nth (Z.to_nat k) khat 0)) by ring. apply derivable_pt_lim_scal.
    assert (B : forall c : R, derivable_pt_lim (fun s => (u - nth (Z.to_nat k) [x; y; z] 0 * nth (Z.to_nat k) khat 0) + s * nth (Z.to_nat k) khat 0) c (nth (Z.to_nat k) khat 0)).
    { intros c. apply is_derive_Reals. auto_derive; [exact I|ring]. }
    assert (Eu : forall s, dot3 (upd [x; y; z] (Z.to_nat k) s) khat - t = (u - nth (Z.to_nat k) [x; y; z] 0 * nth (Z.to_nat k) khat 0) + s * nth (Z.to_nat k) khat 0).
    { intros s. unfold u, dot3. destruct (d3 k Hk) as [->|[->| ->]]; zn; cbn [upd nth]; ring. }
    apply (derivable_pt_lim_comp (fun s => dot3 (upd [x; y; z] (Z.to_nat k) s) khat - t) g).
    + apply (derivable_pt_lim_ext (fun s => (u - nth (Z.to_nat k) [x; y; z] 0 * nth (Z.to_nat k) khat 0) + s * nth (Z.to_nat k) khat 0)); [intros; symmetry; apply Eu|apply B].
    + rewrite Eu. replace (u - nth (Z.to_nat k) [x; y; z] 0 * nth (Z.to_nat k) khat 0 + nth (Z.to_nat k) [x; y; z] 0 * nth (Z.to_nat k) khat 0) with u by ring. apply Dg.
  - rewrite Ek, E0, E1, Hx, Hy, Hz. zn; cbn [nth].
    assert (Q : forall k e : R, - g' u * e = g' u * (k * (kx * ex + ky * ey + kz * ez) - e * (kx * kx + ky * ky + kz * kz))) by (intros; rewrite Oe, Uk; ring).
    split; [rewrite (Q kx ex); ring|]. split; [rewrite (Q ky ey); ring|rewrite (Q kz ez); ring].
  - rewrite Ek, E0, E1, Hx, Hy, Hz. zn; cbn [nth]. repeat split; ring.
  - intros fi Hf. assert (fi = 0 \/ fi = 1)%Z as [->| ->] by lia; rewrite Ek; [rewrite E0|rewrite E1, Hx, Hy, Hz]; zn; cbn [nth].
    + transitivity (g' u * (kx * ex + ky * ey + kz * ez)); [ring|rewrite Oe; ring].
    + ring.
Qed.
End Plane.

(** ** Profiles *)
Definition smooth (f : func) : Prop := exists g g', (forall x, funcEval f [x] = Ok (g x)) /\ forall x, derivable_pt_lim g x (g' x).
Lemma gauss_smooth : forall sp m, sp <> 0 -> smooth (FGauss sp [m] 1).
Proof.
  intros sp m Hs. exists (fun x => exp (- (0 + (x - m) ^ 2) / (2 * sp ^ 2))), (fun x => - (2 * (x - m)) / (2 * sp ^ 2) * exp (- (0 + (x - m) ^ 2) / (2 * sp ^ 2))).
  split; [reflexivity|]. intros x. apply is_derive_Reals. auto_derive; [exact I|]. unfold Rdiv, Rminus. cbn [pow]. field. exact Hs.
Qed.
Lemma mod_smooth : forall sp m fr, sp <> 0 -> smooth (FModGauss sp [m] fr).
Proof.
  intros sp m fr Hs. exists (fun x => exp (- (x - m) * (x - m) / (2 * sp * sp)) * cos (2 * PI * fr * (x - m))).
  exists (fun x => - (2 * (x - m)) / (2 * sp * sp) * exp (- (x - m) * (x - m) / (2 * sp * sp)) * cos (2 * PI * fr * (x - m)) -
                   exp (- (x - m) * (x - m) / (2 * sp * sp)) * (2 * PI * fr * sin (2 * PI * fr * (x - m)))).
  split; [reflexivity|]. intros x. apply is_derive_Reals. auto_derive; [exact I|]. unfold Rdiv, Rminus. field. exact Hs.
Qed.

(** ** The dipole *)
Section Dipole.
Variable w : dipole.
Hypothesis Hs : dp_spread w <> 0.
Definition wd : R := dp_spread w * sqrt 2.
Lemma wd_nz : wd <> 0.
Proof. unfold wd. apply Rmult_integral_contrapositive. split; [exact Hs|]. assert (0 < sqrt 2) by (apply sqrt_lt_R0; lra). lra. Qed.
Definition q0 (s : R) : R := wd * exp 1 / 2 * exp (- ((s - dp_mean w) / wd * ((s - dp_mean w) / wd))).
Definition q1 (s : R) : R := - (2 * ((s - dp_mean w) / wd) / wd) * q0 s.
Definition q2 (s : R) : R := - (2 * ((s - dp_mean w) / wd) / wd) * q1 s - 2 / wd / wd * q0 s.
Definition q3 (s : R) : R := - (2 * ((s - dp_mean w) / wd) / wd) * q2 s - 2 * (2 / wd / wd) * q1 s.
Ltac req := match goal with |- @eq _ ?a ?b => change (@eq R a b) end; unfold plus, scal; cbn -[IZR INR Rplus Rmult Rinv Ropp Rminus pow q0 q1 q2 q3].
Lemma q0_d : forall s, is_derive q0 s (q1 s).
Proof. intros s. unfold q1, q0. auto_derive; [exact I|]. unfold Rdiv, Rminus. field. exact wd_nz. Qed.
Lemma q1_d : forall s, is_derive q1 s (q2 s).
Proof.
  intros s. unfold q2, q1 at 2. unfold q1. auto_derive; [exists (q1 s); apply q0_d|]. assert (E : Derive (fun x => q0 x) s = q1 s) by (apply is_derive_unique, q0_d). rewrite E. unfold q1, Rdiv, Rminus. field. exact wd_nz.
Qed.
Lemma q2_d : forall s, is_derive q2 s (q3 s).
Proof.
  intros s. unfold q3, q2 at 1. auto_derive; [split; [exists (q2 s); apply q1_d|split; [exists (q1 s); apply q0_d|exact I]]|].
  assert (E : Derive (fun x => q0 x) s = q1 s) by (apply is_derive_unique, q0_d). assert (E' : Derive (fun x => q1 x) s = q2 s) by (apply is_derive_unique, q1_d).
  rewrite E, E'. unfold q2, q1, Rdiv, Rminus. field. exact wd_nz.
Qed.
Definition L : R := dp_len w * invFourPi.
(** Radial factors. *)
Definition fa (t r : R) : R := 3 * q0 (t - r) / r ^ 5 + 3 * q1 (t - r) / r ^ 4 + q2 (t - r) / r ^ 3.
Definition fb (t r : R) : R := - (q0 (t - r) / r ^ 3 + q1 (t - r) / r ^ 2 + q2 (t - r) / r).
Definition fc (t r : R) : R := q2 (t - r) / r ^ 2 + q1 (t - r) / r ^ 3.
Definition rad (p : list R) : R := sqrt (nth 0 p 0 * nth 0 p 0 + nth 1 p 0 * nth 1 p 0 + nth 2 p 0 * nth 2 p 0).
Definition DP : vfield := fun f d t p =>
  if (f =? 0)%Z then
    (if (d =? 0)%Z then L * (nth 0 p 0 * nth 2 p 0 * fa t (rad p))
     else if (d =? 1)%Z then L * (nth 1 p 0 * nth 2 p 0 * fa t (rad p))
     else L * (nth 2 p 0 * nth 2 p 0 * fa t (rad p) + fb t (rad p)))
  else
    (if (d =? 0)%Z then - (L * (nth 1 p 0 * fc t (rad p)))
     else if (d =? 1)%Z then L * (nth 0 p 0 * fc t (rad p))
     else 0).

Definition fat (t r : R) : R := 3 * q1 (t - r) / r ^ 5 + 3 * q2 (t - r) / r ^ 4 + q3 (t - r) / r ^ 3.
Definition fbt (t r : R) : R := - (q1 (t - r) / r ^ 3 + q2 (t - r) / r ^ 2 + q3 (t - r) / r).
Definition fct (t r : R) : R := q3 (t - r) / r ^ 2 + q2 (t - r) / r ^ 3.
Definition far (t r : R) : R := - fat t r - (15 * q0 (t - r) / r ^ 6 + 12 * q1 (t - r) / r ^ 5 + 3 * q2 (t - r) / r ^ 4).
Definition fbr (t r : R) : R := - fbt t r + (3 * q0 (t - r) / r ^ 4 + 2 * q1 (t - r) / r ^ 3 + q2 (t - r) / r ^ 2).
Definition fcr (t r : R) : R := - fct t r - (2 * q2 (t - r) / r ^ 3 + 3 * q1 (t - r) / r ^ 4).
Lemma qt : forall (q q' : R -> R) (t r : R), (forall s, is_derive q s (q' s)) -> is_derive (fun t => q (t - r)) t (q' (t - r)).
Proof.
  intros q q' t r H. evar_last; [apply (is_derive_comp q (fun t => t - r) t (q' (t - r)) 1); [apply H|]|apply Rmult_1_l].
  auto_derive; [exact I|ring].
Qed.
Lemma qr : forall (q q' : R -> R) (t r : R), (forall s, is_derive q s (q' s)) -> is_derive (fun r => q (t - r)) r (- q' (t - r)).
Proof.
  intros q q' t r H. evar_last; [apply (is_derive_comp q (fun r => t - r) r (q' (t - r)) (-1)); [apply H|]|cbn; ring].
  auto_derive; [exact I|ring].
Qed.
Lemma comb_t : forall (q q' : R -> R) (k t r : R), (forall s, is_derive q s (q' s)) -> is_derive (fun t => k * q (t - r)) t (k * q' (t - r)).
Proof. intros q q' k t r H. apply (is_derive_scal (fun t => q (t - r)) t k). apply qt. exact H. Qed.
Lemma radial : forall (q q' : R -> R) (n : nat) (t r : R), r <> 0 -> (forall s, is_derive q s (q' s)) ->
  is_derive (fun r => q (t - r) / r ^ (S n)) r (- q' (t - r) / r ^ S n - INR (S n) * q (t - r) / r ^ S (S n)).
Proof.
  intros q q' n t r Hr H. pose proof (qr q q' t r H) as Q. assert (P : r ^ S n <> 0) by (apply pow_nonzero; exact Hr).
  evar_last; [apply (is_derive_div (fun r => q (t - r)) (fun r => r ^ S n) r); [exact Q|apply (is_derive_pow (fun x => x) (S n) r 1); apply @is_derive_id|exact P]|].
  cbn [pow Nat.pred]. field. split; [|exact Hr]. apply pow_nonzero. exact Hr.
Qed.
Lemma fa_t : forall t r, r <> 0 -> is_derive (fun t => fa t r) t (fat t r).
Proof.
  intros t r Hr. apply (is_derive_ext (fun t => 3 / r ^ 5 * q0 (t - r) + 3 / r ^ 4 * q1 (t - r) + / r ^ 3 * q2 (t - r))); [intros; req; unfold fa; field; exact Hr|].
  evar_last; [apply @is_derive_plus; [apply @is_derive_plus|]; [apply comb_t, q0_d|apply comb_t, q1_d|apply comb_t, q2_d]|]. unfold fat. req. field. exact Hr.
Qed.
Lemma fb_t : forall t r, r <> 0 -> is_derive (fun t => fb t r) t (fbt t r).
Proof.
  intros t r Hr. apply (is_derive_ext (fun t => - / r ^ 3 * q0 (t - r) + - / r ^ 2 * q1 (t - r) + - / r * q2 (t - r))); [intros; req; unfold fb; field; exact Hr|].
  evar_last; [apply @is_derive_plus; [apply @is_derive_plus|]; [apply comb_t, q0_d|apply comb_t, q1_d|apply comb_t, q2_d]|]. unfold fbt. req. field. exact Hr.
Qed.
Lemma fc_t : forall t r, r <> 0 -> is_derive (fun t => fc t r) t (fct t r).
Proof.
  intros t r Hr. apply (is_derive_ext (fun t => / r ^ 2 * q2 (t - r) + / r ^ 3 * q1 (t - r))); [intros; req; unfold fc; field; exact Hr|].
  evar_last; [apply @is_derive_plus; [apply comb_t, q2_d|apply comb_t, q1_d]|]. unfold fct. req. field. exact Hr.
Qed.
Lemma fa_r : forall t r, r <> 0 -> is_derive (fun r => fa t r) r (far t r).
Proof.
  intros t r Hr. apply (is_derive_ext (fun r => 3 * (q0 (t - r) / r ^ 5) + 3 * (q1 (t - r) / r ^ 4) + q2 (t - r) / r ^ 3)); [intros; req; unfold fa, Rdiv; ring|].
  evar_last; [apply @is_derive_plus; [apply @is_derive_plus; apply is_derive_scal; [apply (radial q0 q1 4), q0_d|apply (radial q1 q2 3), q1_d]; exact Hr|apply (radial q2 q3 2), q2_d; exact Hr]|].
  unfold far, fat. req. cbn [INR]. field. exact Hr.
Qed.
Lemma fb_r : forall t r, r <> 0 -> is_derive (fun r => fb t r) r (fbr t r).
Proof.
  intros t r Hr. apply (is_derive_ext (fun r => (-1) * (q0 (t - r) / r ^ 3) + (-1) * (q1 (t - r) / r ^ 2) + (-1) * (q2 (t - r) / r ^ 1))); [intros; req; unfold fb, Rdiv; cbn [pow]; rewrite !Rmult_1_r; ring|].
  evar_last; [apply @is_derive_plus; [apply @is_derive_plus|]; apply is_derive_scal; [apply (radial q0 q1 2), q0_d|apply (radial q1 q2 1), q1_d|apply (radial q2 q3 0), q2_d]; exact Hr|].
  unfold fbr, fbt. req. cbn [INR]. field. exact Hr.
Qed.
Lemma fc_r : forall t r, r <> 0 -> is_derive (fun r => fc t r) r (fcr t r).
Proof.
  intros t r Hr. unfold fc.
  evar_last; [apply @is_derive_plus; [apply (radial q2 q3 1), q2_d|apply (radial q1 q2 2), q1_d]; exact Hr|].
  unfold fcr, fct. req. cbn [INR]. field. exact Hr.
Qed.
Lemma id_c : forall t r, r <> 0 -> fct t r = fbr t r / r - fa t r.
Proof. intros t r Hr. unfold fct, fbr, fbt, fa. field. exact Hr. Qed.
Lemma id_a : forall t r, r <> 0 -> fat t r = - fcr t r / r.
Proof. intros t r Hr. unfold fat, fcr, fct. field. exact Hr. Qed.
Lemma id_b : forall t r, r <> 0 -> fbt t r = 2 * fc t r + r * fcr t r.
Proof. intros t r Hr. unfold fbt, fc, fcr, fct. field. exact Hr. Qed.
Lemma id_div : forall t r, r <> 0 -> 4 * fa t r + r * far t r + fbr t r / r = 0.
Proof. intros t r Hr. unfold fa, far, fbr, fat, fbt. field. exact Hr. Qed.

Lemma rad_sq : forall p, rad p * rad p = nth 0 p 0 * nth 0 p 0 + nth 1 p 0 * nth 1 p 0 + nth 2 p 0 * nth 2 p 0.
Proof.
  intros p. apply sqrt_sqrt. pose proof (Rle_0_sqr (nth 0 p 0)). pose proof (Rle_0_sqr (nth 1 p 0)). pose proof (Rle_0_sqr (nth 2 p 0)). unfold Rsqr in *. lra.
Qed.
Lemma rad_d : forall x y z k, (0 <= k <= 2)%Z -> rad [x; y; z] <> 0 ->
  is_derive (fun s => rad (upd [x; y; z] (Z.to_nat k) s)) (nth (Z.to_nat k) [x; y; z] 0) (nth (Z.to_nat k) [x; y; z] 0 / rad [x; y; z]).
Proof.
  intros x y z k Hk Hr. pose proof (rad_sq [x; y; z]) as Q. cbn [nth] in Q.
  assert (P : 0 < x * x + y * y + z * z). { rewrite <- Q. destruct (Rtotal_order 0 (rad [x; y; z])) as [H|[H|H]]; nra. }
  destruct (d3 k Hk) as [->|[->| ->]]; zn; unfold rad in *; cbn [upd nth] in *; auto_derive; try (split; [exact P|exact I]); try exact P; field; exact Hr.
Qed.
Lemma rad_comp : forall phi phi' x y z k, (0 <= k <= 2)%Z -> rad [x; y; z] <> 0 -> (forall r : R, r <> 0 -> is_derive phi r (phi' r)) ->
  is_derive (fun s : R => phi (rad (upd [x; y; z] (Z.to_nat k) s)) : R) (nth (Z.to_nat k) [x; y; z] 0) (nth (Z.to_nat k) [x; y; z] 0 / rad [x; y; z] * phi' (rad [x; y; z])).
Proof.
  intros phi phi' x y z k Hk Hr H. apply (is_derive_comp phi (fun s => rad (upd [x; y; z] (Z.to_nat k) s))).
  - assert (E : upd [x; y; z] (Z.to_nat k) (nth (Z.to_nat k) [x; y; z] 0) = [x; y; z]) by (destruct (d3 k Hk) as [->|[->| ->]]; reflexivity). rewrite E. apply H. exact Hr.
  - apply rad_d; assumption.
Qed.
Lemma rad_prod : forall phi phi' x y z k c (P : R -> R) P', (0 <= k <= 2)%Z -> rad [x; y; z] <> 0 -> (forall r : R, r <> 0 -> is_derive phi r (phi' r)) ->
  is_derive P (nth (Z.to_nat k) [x; y; z] 0) P' ->
  is_derive (fun s : R => c * (P s * phi (rad (upd [x; y; z] (Z.to_nat k) s)))) (nth (Z.to_nat k) [x; y; z] 0)
    (c * (P' * phi (rad [x; y; z]) + P (nth (Z.to_nat k) [x; y; z] 0%R) * (nth (Z.to_nat k) [x; y; z] 0 / rad [x; y; z] * phi' (rad [x; y; z])))).
Proof.
  intros phi phi' x y z k c P P' Hk Hr H HP. apply is_derive_scal.
  pose proof (rad_comp phi phi' x y z k Hk Hr H) as C.
  assert (E : upd [x; y; z] (Z.to_nat k) (nth (Z.to_nat k) [x; y; z] 0) = [x; y; z]) by (destruct (d3 k Hk) as [->|[->| ->]]; reflexivity).
  evar_last; [apply (is_derive_mult P (fun s => phi (rad (upd [x; y; z] (Z.to_nat k) s))) _ P' _ HP C); intros; apply Rmult_comm|]. rewrite E. reflexivity.
Qed.
Definition del (k j : Z) : R := if (k =? j)%Z then 1 else 0.
Definition DT (x y z t : R) (f d : Z) : R :=
  let r := rad [x; y; z] in
  if (f =? 0)%Z then (if (d =? 0)%Z then L * (x * z * fat t r) else if (d =? 1)%Z then L * (y * z * fat t r) else L * (z * z * fat t r + fbt t r))
  else (if (d =? 0)%Z then - (L * (y * fct t r)) else if (d =? 1)%Z then L * (x * fct t r) else 0).
Definition DG (x y z t : R) (f d k : Z) : R :=
  let r := rad [x; y; z] in let pk := nth (Z.to_nat k) [x; y; z] 0 in
  if (f =? 0)%Z then
    (if (d =? 0)%Z then L * ((del k 0 * z + x * del k 2) * fa t r + x * z * (pk / r * far t r))
     else if (d =? 1)%Z then L * ((del k 1 * z + y * del k 2) * fa t r + y * z * (pk / r * far t r))
     else L * ((del k 2 * z + z * del k 2) * fa t r + z * z * (pk / r * far t r)) + L * (0 * fb t r + 1 * (pk / r * fbr t r)))
  else
    (if (d =? 0)%Z then - (L * (del k 1 * fc t r + y * (pk / r * fcr t r)))
     else if (d =? 1)%Z then L * (del k 0 * fc t r + x * (pk / r * fcr t r)) else 0).
Lemma coord : forall x y z k j, (0 <= k <= 2)%Z -> (0 <= j <= 2)%Z ->
  is_derive (fun s => nth (Z.to_nat j) (upd [x; y; z] (Z.to_nat k) s) 0) (nth (Z.to_nat k) [x; y; z] 0) (del k j).
Proof.
  intros x y z k j Hk Hj. destruct (d3 k Hk) as [->|[->| ->]]; destruct (d3 j Hj) as [->|[->| ->]]; zn; cbn [upd nth]; unfold del; cbn [Z.eqb Pos.eqb];
  first [apply @is_derive_id|apply @is_derive_const].
Qed.
Lemma coord_at : forall x y z k j, (0 <= k <= 2)%Z -> nth j (upd [x; y; z] (Z.to_nat k) (nth (Z.to_nat k) [x; y; z] 0)) 0 = nth j [x; y; z] 0.
Proof. intros x y z k j Hk. destruct (d3 k Hk) as [->|[->| ->]]; reflexivity. Qed.
Lemma coord2 : forall x y z k i j, (0 <= k <= 2)%Z -> (0 <= i <= 2)%Z -> (0 <= j <= 2)%Z ->
  is_derive (fun s : R => nth (Z.to_nat i) (upd [x; y; z] (Z.to_nat k) s) 0 * nth (Z.to_nat j) (upd [x; y; z] (Z.to_nat k) s) 0) (nth (Z.to_nat k) [x; y; z] 0)
    (del k i * nth (Z.to_nat j) [x; y; z] 0 + nth (Z.to_nat i) [x; y; z] 0 * del k j).
Proof.
  intros x y z k i j Hk Hi Hj. evar_last; [apply (is_derive_mult (fun s => nth (Z.to_nat i) (upd [x; y; z] (Z.to_nat k) s) 0) (fun s => nth (Z.to_nat j) (upd [x; y; z] (Z.to_nat k) s) 0) _ _ _ (coord x y z k i Hk Hi) (coord x y z k j Hk Hj)); intros; apply Rmult_comm|].
  cbv beta. rewrite !coord_at by exact Hk. reflexivity.
Qed.
Lemma dp_space : forall x y z t f d k, (0 <= f <= 1)%Z -> (0 <= d <= 2)%Z -> (0 <= k <= 2)%Z -> rad [x; y; z] <> 0 ->
  is_derive (fun s => DP f d t (upd [x; y; z] (Z.to_nat k) s)) (nth (Z.to_nat k) [x; y; z] 0) (DG x y z t f d k).
Proof.
  intros x y z t f d k Hf Hd Hk Hr.
  pose proof (fun r H => fa_r t r H) as HA. pose proof (fun r H => fb_r t r H) as HB. pose proof (fun r H => fc_r t r H) as HC.
  assert (f = 0 \/ f = 1)%Z as [->| ->] by lia; destruct (d3 d Hd) as [->|[->| ->]]; unfold DP, DG; cbn [Z.eqb Pos.eqb].
  - evar_last; [apply (rad_prod (fa t) (far t) x y z k L _ _ Hk Hr HA (coord2 x y z k 0 2 Hk ltac:(lia) ltac:(lia)))|]. zn. rewrite !coord_at by exact Hk. reflexivity.
  - evar_last; [apply (rad_prod (fa t) (far t) x y z k L _ _ Hk Hr HA (coord2 x y z k 1 2 Hk ltac:(lia) ltac:(lia)))|]. zn. rewrite !coord_at by exact Hk. reflexivity.
  - apply (is_derive_ext (fun s => L * (nth 2 (upd [x; y; z] (Z.to_nat k) s) 0 * nth 2 (upd [x; y; z] (Z.to_nat k) s) 0 * fa t (rad (upd [x; y; z] (Z.to_nat k) s))) +
       L * (1 * fb t (rad (upd [x; y; z] (Z.to_nat k) s))))); [intros; req; ring|].
    evar_last; [apply @is_derive_plus; [apply (rad_prod (fa t) (far t) x y z k L _ _ Hk Hr HA (coord2 x y z k 2 2 Hk ltac:(lia) ltac:(lia)))
      |apply (rad_prod (fb t) (fbr t) x y z k L (fun _ => 1) 0 Hk Hr HB); apply @is_derive_const]|]. zn. cbv beta. rewrite !coord_at by exact Hk. reflexivity.
  - apply (is_derive_opp (fun s => L * (nth 1 (upd [x; y; z] (Z.to_nat k) s) 0 * fc t (rad (upd [x; y; z] (Z.to_nat k) s))))).
    evar_last; [apply (rad_prod (fc t) (fcr t) x y z k L _ _ Hk Hr HC (coord x y z k 1 Hk ltac:(lia)))|]. zn. rewrite !coord_at by exact Hk. reflexivity.
  - evar_last; [apply (rad_prod (fc t) (fcr t) x y z k L _ _ Hk Hr HC (coord x y z k 0 Hk ltac:(lia)))|]. zn. rewrite !coord_at by exact Hk. reflexivity.
  - apply @is_derive_const.
Qed.
Lemma dp_time : forall x y z t f d, (0 <= f <= 1)%Z -> (0 <= d <= 2)%Z -> rad [x; y; z] <> 0 ->
  is_derive (fun s => DP f d s [x; y; z]) t (DT x y z t f d).
Proof.
  intros x y z t f d Hf Hd Hr. pose proof (fa_t t _ Hr) as HA. pose proof (fb_t t _ Hr) as HB. pose proof (fc_t t _ Hr) as HC.
  assert (f = 0 \/ f = 1)%Z as [->| ->] by lia; destruct (d3 d Hd) as [->|[->| ->]]; unfold DP, DT; cbn [Z.eqb Pos.eqb nth]; zn; cbn [nth].
  - apply is_derive_scal, is_derive_scal. exact HA.
  - apply is_derive_scal, is_derive_scal. exact HA.
  - apply is_derive_scal. apply @is_derive_plus; [apply is_derive_scal; exact HA|exact HB].
  - apply (is_derive_opp (fun s => L * (y * fc s (rad [x; y; z])))). apply is_derive_scal, is_derive_scal. exact HC.
  - apply is_derive_scal, is_derive_scal. exact HC.
  - apply @is_derive_const.
Qed.
Lemma dp_maxwell : forall t p, length p = 3%nat -> rad p <> 0 -> maxwellAt DP t p.
Proof.
  intros t p Lp Hr. destruct (three p Lp) as (x & y & z & ->). exists (DT x y z t), (DG x y z t).
  split; [intros f d Hf Hd; apply is_derive_Reals, dp_time; assumption|]. split; [intros f d k Hf Hd Hk; apply is_derive_Reals, dp_space; assumption|].
  pose proof (id_a t _ Hr) as IA. pose proof (id_b t _ Hr) as IB. pose proof (id_c t _ Hr) as IC. pose proof (id_div t _ Hr) as ID. pose proof (rad_sq [x; y; z]) as Q. cbn [nth] in Q.
  unfold DT, DG, del. zn. cbn [Z.eqb Pos.eqb nth]. set (r := rad [x; y; z]) in *.
  split; [split; [|split]|split; [split; [|split]|]].
  - rewrite IA. field. exact Hr.
  - rewrite IA. field. exact Hr.
  - transitivity (L * (2 * fc t r + (x * x + y * y) / r * fcr t r)); [|field; exact Hr].
    rewrite IA, IB. replace (x * x + y * y) with (r * r - z * z) by lra. field. exact Hr.
  - rewrite IC. field. exact Hr.
  - rewrite IC. field. exact Hr.
  - field. exact Hr.
  - intros f Hf. assert (f = 0 \/ f = 1)%Z as [->| ->] by lia; cbn [Z.eqb Pos.eqb].
    + transitivity (L * z * (4 * fa t r + (x * x + y * y + z * z) / r * far t r + fbr t r / r)); [field; exact Hr|].
      rewrite <- Q. replace (r * r / r) with r by (field; exact Hr). rewrite ID. ring.
    + field. exact Hr.
Qed.
Lemma dp_eval : forall p t f d, length p = 3%nat -> (0 <= f <= 1)%Z -> (0 <= d <= 2)%Z -> rad p <> 0 -> dipoleEval w p t f d = Ok (DP f d t p).
Proof.
  intros p t f d Lp Hf Hd Hr. destruct (three p Lp) as (x & y & z & ->). unfold dipoleEval, fromCartesian.
  assert (ER : sqrt (0 + x ^ 2 + y ^ 2 + z ^ 2) = rad [x; y; z]) by (unfold rad; cbn [nth]; f_equal; ring). rewrite ER.
  cbn [bind sp_theta sp_radius sp_phi]. destruct (Req_EM_T (rad [x; y; z]) 0); [contradiction|].
  pose proof (rad_sq [x; y; z]) as Q. cbn [nth] in Q. set (r := rad [x; y; z]) in *.
  assert (Rp : 0 < r). { assert (0 <= r) by (apply sqrt_pos). lra. }
  assert (B : -1 <= z / r <= 1).
  { assert (z * z <= r * r) by nra. assert (Rabs z <= r) by (apply Rsqr_le_abs_0 in H; rewrite (Rabs_pos_eq r) in H by lra; exact H).
    apply Rabs_le_between in H0. split; [apply (Rmult_le_reg_r r); [exact Rp|]|apply (Rmult_le_reg_r r); [exact Rp|]]; unfold Rdiv; rewrite Rmult_assoc, Rinv_l by lra; lra. }
  rewrite (cos_acos _ B), (sin_acos _ B).
  set (rho := sqrt (x ^ 2 + y ^ 2)).
  assert (Es : sqrt (1 - (z / r)²) = rho / r).
  { unfold rho. rewrite <- (sqrt_pow2 r) at 2 by lra. rewrite <- sqrt_div_alt by nra. f_equal. unfold Rsqr. replace (x ^ 2 + y ^ 2) with (r * r - z * z) by (rewrite Q; ring). field. lra. }
  rewrite Es.
  assert (CS : rho * cos (atan2 y x) = x /\ rho * sin (atan2 y x) = y).
  { destruct (Req_dec x 0) as [X|X]; [destruct (Req_dec y 0) as [Y|Y]|].
    - subst. unfold rho. replace (0 ^ 2 + 0 ^ 2) with 0 by ring. rewrite sqrt_0. split; ring.
    - destruct (atan2_spec x y (or_intror Y)) as (A1 & A2 & _). split; assumption.
    - destruct (atan2_spec x y (or_introl X)) as (A1 & A2 & _). split; assumption. }
  assert (Rh : rho * rho = x * x + y * y) by (unfold rho; rewrite sqrt_sqrt by nra; ring).
  destruct CS as (C & S). set (cp := cos (atan2 y x)) in *. set (sp := sin (atan2 y x)) in *.
  pose proof wd_nz as Wn.
  assert (E0 : dp_spread w * sqrt 2 * exp 1 / 2 * 1 * exp (- ((t - dp_mean w - r / speedOfLight) / (dp_spread w * sqrt 2) * ((t - dp_mean w - r / speedOfLight) / (dp_spread w * sqrt 2)))) = q0 (t - r)).
  { unfold q0. fold wd. unfold speedOfLight. replace ((t - dp_mean w - r / 1) / wd) with ((t - r - dp_mean w) / wd) by (field; exact Wn). ring. }
  assert (EX : (t - dp_mean w - r / speedOfLight) / (dp_spread w * sqrt 2) = (t - r - dp_mean w) / wd) by (fold wd; unfold speedOfLight; field; exact Wn).
  cbv zeta. rewrite E0, EX. fold wd.
  assert (E1 : - q0 (t - r) * 2 * ((t - r - dp_mean w) / wd) / wd = q1 (t - r)) by (unfold q1; field; exact Wn). rewrite E1.
  assert (E2 : q1 (t - r) * -2 * ((t - r - dp_mean w) / wd) / wd + q0 (t - r) * -2 / wd / wd = q2 (t - r)) by (unfold q2; field; exact Wn). rewrite E2.
  assert (f = 0 \/ f = 1)%Z as [->| ->] by lia; destruct (d3 d Hd) as [->|[->| ->]]; unfold DP, fieldToCartesian; cbn [Z.eqb Pos.eqb nth];
    unfold zget; cbn [Z.ltb Z.compare]; zn; cbn [nth_error]; f_equal; fold r; rewrite ?(cos_acos _ B), ?(sin_acos _ B), ?Es; fold cp; fold sp; unfold L, invFourPiEps0, speedOfLight.
  - transitivity (dp_len w * invFourPi * ((rho * cp) * z * fa t r)); [|rewrite C; ring]. unfold fa. field. lra.
  - transitivity (dp_len w * invFourPi * ((rho * sp) * z * fa t r)); [|rewrite S; ring]. unfold fa. field. lra.
  - transitivity (dp_len w * invFourPi * (z * z * fa t r - ((rho * rho + z * z) / (r * r)) * (q0 (t - r) / r ^ 3 + q1 (t - r) / r ^ 2 + q2 (t - r) / r))).
    + unfold fa. field. lra.
    + replace (rho * rho + z * z) with (r * r) by (rewrite Rh, Q; ring). unfold fb. field. lra.
  - transitivity (- (dp_len w * invFourPi * ((rho * sp) * fc t r))); [|rewrite S; ring]. unfold fc. field. lra.
  - transitivity (dp_len w * invFourPi * ((rho * cp) * fc t r)); [|rewrite C; ring]. unfold fc. field. lra.
  - ring.
Qed.
End Dipole.

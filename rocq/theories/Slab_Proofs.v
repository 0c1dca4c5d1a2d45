From Coq Require Import ZArith List Bool Reals Lra Psatz.
From Coquelicot Require Import Coquelicot.
From Verif Require Import Common Fit_Model Slab_Model Slab_Spec.
Import ListNotations.
Local Open Scope R_scope.

(** * Roots *)
Lemma Cmod_sq : forall z : C, Cmod z * Cmod z = fst z * fst z + snd z * snd z.
Proof. intros z. unfold Cmod. rewrite sqrt_sqrt; [ring|]. pose proof (pow2_ge_0 (fst z)). pose proof (pow2_ge_0 (snd z)). lra. Qed.
Lemma Cmod_fst : forall z : C, - Cmod z <= fst z <= Cmod z.
Proof.
  intros z. pose proof (Cmod_sq z) as Q. pose proof (Cmod_ge_0 z). split; nra.
Qed.
Lemma csqrt_sq : forall z, Cmult (csqrt z) (csqrt z) = z.
Proof.
  intros z. unfold csqrt, Cmult. cbn [fst snd]. pose proof (Cmod_fst z) as (A & B). pose proof (Cmod_sq z) as Q.
  set (a := sqrt ((Cmod z + fst z) / 2)). set (b := sqrt ((Cmod z - fst z) / 2)).
  assert (Ha : a * a = (Cmod z + fst z) / 2) by (apply sqrt_sqrt; lra).
  assert (Hb : b * b = (Cmod z - fst z) / 2) by (apply sqrt_sqrt; lra).
  assert (Hab : a * b = Rabs (snd z) / 2).
  { unfold a, b. rewrite <- sqrt_mult by lra. replace ((Cmod z + fst z) / 2 * ((Cmod z - fst z) / 2)) with ((snd z / 2)²) by (unfold Rsqr; nra).
    rewrite sqrt_Rsqr_abs. unfold Rdiv. rewrite Rabs_mult, (Rabs_pos_eq (/ 2)) by lra. reflexivity. }
  destruct z as [x y]. cbn [fst snd] in *. unfold Rabs in Hab. destruct (Rlt_dec y 0) as [L|L]; destruct (Rcase_abs y); try lra; f_equal; nra.
Qed.
Lemma csqrt_re : forall z, 0 <= fst (csqrt z).
Proof. intros z. apply sqrt_pos. Qed.
Lemma csqrt_im : forall z, (0 <= snd z -> 0 <= snd (csqrt z)) /\ (snd z < 0 -> snd (csqrt z) <= 0).
Proof.
  intros z. unfold csqrt. cbn [snd]. pose proof (sqrt_pos ((Cmod z - fst z) / 2)). split; intros H1; destruct (Rlt_dec (snd z) 0); lra.
Qed.
Lemma csqrt_pos : forall x, 0 < x -> csqrt (x, 0) = (sqrt x, 0).
Proof.
  intros x Hx. unfold csqrt. cbn [fst snd]. assert (M : Cmod (x, 0) = x).
  { unfold Cmod. cbn [fst snd]. replace (x ^ 2 + 0 ^ 2) with (x * x) by ring. apply sqrt_square. lra. }
  rewrite M. destruct (Rlt_dec 0 0); [lra|]. replace ((x - x) / 2) with 0 by lra. rewrite sqrt_0. f_equal; [f_equal; lra|ring].
Qed.

(** * Wave number and wave impedance *)
Lemma isZero_false : forall z : C, isZero z = false <-> z <> RtoC 0.
Proof.
  intros [x y]. unfold isZero. cbn [fst snd]. destruct (Req_EM_T x 0) as [A|A]; [destruct (Req_EM_T y 0) as [B|B]|]; split; intros Q; try discriminate; try reflexivity.
  - exfalso. apply Q. rewrite A, B. reflexivity.
  - intros E. injection E. intros. contradiction.
  - intros E. injection E. intros. contradiction.
Qed.
Lemma wave : forall eps mu sigma w, 0 < eps -> 0 < mu -> 0 <= sigma -> 0 < w ->
  let eps_c : C := (eps, - (sigma / w)) in
  exists p q, csqrt (Cmult (mu, 0) eps_c) = (p, - q) /\ 0 < p /\ 0 <= q /\ p * p - q * q = mu * eps /\ 2 * p * q = mu * sigma / w /\
    csqrt (Cdiv (mu, 0) eps_c) = (mu * p / (p * p + q * q), mu * q / (p * p + q * q)).
Proof.
  intros eps mu sigma w He Hm Hs Hw eps_c.
  assert (Ht : 0 <= sigma / w) by (apply Rmult_le_pos; [lra|left; apply Rinv_0_lt_compat; lra]). set (t := sigma / w) in *.
  set (k := csqrt (Cmult (mu, 0) eps_c)). set (h := csqrt (Cdiv (mu, 0) eps_c)).
  assert (Kq : Cmult k k = (mu * eps, - (mu * t))) by (unfold k; rewrite csqrt_sq; unfold eps_c, Cmult; cbn [fst snd]; f_equal; ring).
  assert (N : eps * eps + t * t > 0) by nra.
  assert (Hq : Cmult h h = (mu * eps / (eps * eps + t * t), mu * t / (eps * eps + t * t))).
  { unfold h. rewrite csqrt_sq. unfold eps_c, Cdiv, Cinv, Cmult. cbn [fst snd]. f_equal; field; nra. }
  assert (K1 : 0 <= fst k) by apply csqrt_re. assert (H1 : 0 <= fst h) by apply csqrt_re.
  assert (K2 : snd k <= 0).
  { destruct (Rle_lt_or_eq_dec 0 t Ht) as [L|L].
    - apply (proj2 (csqrt_im _)). unfold eps_c, Cmult. cbn [fst snd]. nra.
    - unfold k, eps_c. rewrite <- L. replace (Cmult (mu, 0) (eps, - 0)) with ((mu * eps, 0) : C) by (unfold Cmult; cbn [fst snd]; f_equal; ring).
      rewrite csqrt_pos by nra. cbn. lra. }
  assert (H2 : 0 <= snd h).
  { apply (proj1 (csqrt_im _)). unfold eps_c, Cdiv, Cinv, Cmult. cbn [fst snd].
    match goal with |- 0 <= ?e => replace e with (mu * t / (eps * eps + t * t)) by (field; nra) end.
    apply Rmult_le_pos; [nra|left; apply Rinv_0_lt_compat; lra]. }
  destruct k as [p s] eqn:Ek. destruct h as [a b] eqn:Eh. cbn [fst snd] in *. unfold Cmult in Kq, Hq. cbn [fst snd] in Kq, Hq.
  injection Kq as Kr Ki. injection Hq as Hr Hi. clear Ek Eh.
  assert (Pp : 0 < p) by nra.
  (* the product of the two roots is mu *)
  assert (X1 : (a * p - b * s) * (a * p - b * s) - (a * s + b * p) * (a * s + b * p) = mu * mu).
  { replace ((a * p - b * s) * (a * p - b * s) - (a * s + b * p) * (a * s + b * p)) with ((a * a - b * b) * (p * p - s * s) - (a * b + b * a) * (p * s + s * p)) by ring.
    rewrite Kr, Ki, Hr, Hi. field. lra. }
  assert (X2 : (a * p - b * s) * (a * s + b * p) = 0).
  { replace ((a * p - b * s) * (a * s + b * p)) with (((a * a - b * b) * (p * s + s * p) + (a * b + b * a) * (p * p - s * s)) / 2) by field.
    rewrite Kr, Ki, Hr, Hi. field. lra. }
  assert (X3 : 0 <= a * p - b * s) by nra.
  assert (X4 : a * s + b * p = 0).
  { apply Rmult_integral in X2. destruct X2 as [X2|X2]; [|exact X2]. exfalso. rewrite X2 in X1. pose proof (Rle_0_sqr (a * s + b * p)) as Y. unfold Rsqr in Y. nra. }
  assert (X5 : a * p - b * s = mu).
  { rewrite X4 in X1. assert (Y : (a * p - b * s - mu) * (a * p - b * s + mu) = 0) by lra. apply Rmult_integral in Y. destruct Y; lra. }
  assert (D : p * p + s * s > 0) by nra.
  exists p, (- s).
  split; [f_equal; ring|]. split; [exact Pp|]. split; [lra|]. split; [lra|].
  split; [unfold t in Ki; unfold Rdiv in *; nra|]. replace (p * p + - s * - s) with (p * p + s * s) by ring. f_equal.
  - apply Rmult_eq_reg_r with (p * p + s * s); [|lra]. field_simplify; [|lra].
    replace (a * p ^ 2 + a * s ^ 2) with (p * (a * p - b * s) + s * (a * s + b * p)) by ring. rewrite X4, X5. ring.
  - apply Rmult_eq_reg_r with (p * p + s * s); [|lra]. field_simplify; [|lra].
    replace (b * p ^ 2 + b * s ^ 2) with (p * (a * s + b * p) - s * (a * p - b * s)) by ring. rewrite X4, X5. ring.
Qed.

(** * The hyperbolic functions *)
Lemma cosh_sinh : forall x, cosh x * cosh x - sinh x * sinh x = 1.
Proof. intros x. unfold cosh, sinh. replace ((exp x + exp (- x)) / 2 * ((exp x + exp (- x)) / 2) - (exp x - exp (- x)) / 2 * ((exp x - exp (- x)) / 2)) with (exp x * exp (- x)) by field. rewrite <- exp_plus, Rplus_opp_r. apply exp_0. Qed.
Lemma cosh_gt : forall x, x <> 0 -> 1 < cosh x.
Proof.
  intros x Hx. unfold cosh. pose proof (exp_ineq1 x Hx). assert (- x <> 0) by lra. pose proof (exp_ineq1 (- x) H0). lra.
Qed.
Lemma sinh_gt : forall x, 0 < x -> x < sinh x.
Proof.
  intros x Hx. destruct (MVT_cor2 sinh cosh 0 x Hx) as (c & E & Hc).
  - intros c _. apply derivable_pt_lim_sinh.
  - rewrite sinh_0 in E. pose proof (cosh_gt c ltac:(lra)). nra.
Qed.
Lemma sinh_cosh_gt : forall x, 0 < x -> x < sinh x * cosh x.
Proof. intros x Hx. pose proof (sinh_gt x Hx). pose proof (cosh_gt x ltac:(lra)). nra. Qed.
Lemma sin_cos_small : forall y, 0 <= y -> Rabs (sin y * cos y) <= y.
Proof.
  intros y Hy. rewrite Rabs_mult. assert (A : Rabs (sin y) <= y).
  { destruct (Rle_lt_or_eq_dec 0 y Hy) as [L| <-]; [|rewrite sin_0, Rabs_R0; lra].
    destruct (MVT_cor2 sin cos 0 y L) as (c & E & Hc); [intros c _; apply derivable_pt_lim_sin|].
    rewrite sin_0 in E. replace (sin y) with (cos c * y) by lra. rewrite Rabs_mult, (Rabs_pos_eq y) by lra.
    assert (Rabs (cos c) <= 1) by (apply Rabs_le; apply COS_bound). nra. }
  assert (B : Rabs (cos y) <= 1) by (apply Rabs_le; apply COS_bound).
  pose proof (Rabs_pos (sin y)). pose proof (Rabs_pos (cos y)). nra.
Qed.

(** * The impedance in terms of the wave number *)
Lemma impedance_value : forall eps mu sigma d f, 0 < eps -> 0 < mu -> 0 <= sigma -> 0 < f ->
  exists p q, 0 < p /\ 0 <= q /\ p * p - q * q = mu * eps /\ 2 * p * q = mu * sigma / (2 * PI * f) /\
  let g : C := (2 * PI * f * q * d, 2 * PI * f * p * d) in
  let eta : C := (mu * p / (p * p + q * q), mu * q / (p * p + q * q)) in
  impedance eps mu sigma d f = cdiv (Some eta) (cdiv (Some (csinh g)) (Some (ccosh g))).
Proof.
  intros eps mu sigma d f He Hm Hs Hf. pose proof PI_RGT_0 as P. assert (Hw : 0 < 2 * PI * f) by nra.
  unfold impedance. set (w := 2 * PI * f) in *. destruct (wave eps mu sigma w He Hm Hs Hw) as (p & q & A & Pp & Qq & D & E & F).
  exists p, q. split; [exact Pp|]. split; [exact Qq|]. split; [exact D|]. split; [exact E|]. cbv zeta.
  destruct (Req_EM_T w 0); [lra|].
  assert (Z : isZero (eps, - (sigma / w)) = false) by (apply isZero_false; intros Q; injection Q; intros; lra).
  cbn [cdiv]. rewrite Z. cbv iota. rewrite F, A. unfold ctanh.
  replace (Cmult (Cmult (Cmult Ci (RtoC w)) (p, - q)) (RtoC d)) with ((w * q * d, w * p * d) : C); [reflexivity|].
  unfold Cmult, Ci, RtoC. cbn [fst snd]. f_equal; ring.
Qed.
Lemma cdiv2 : forall (e s c z : C), cdiv (Some e) (cdiv (Some s) (Some c)) = Some z -> s <> RtoC 0 /\ c <> RtoC 0 /\ Cmult z s = Cmult e c.
Proof.
  intros e s c z. cbn [cdiv]. destruct (isZero c) eqn:Zc; [discriminate|]. apply isZero_false in Zc.
  destruct (isZero (Cdiv s c)) eqn:Zs; [discriminate|]. apply isZero_false in Zs. intros Q. injection Q as <-.
  assert (Hs : s <> RtoC 0) by (intros ->; apply Zs; unfold Cdiv; apply Cmult_0_l).
  split; [exact Hs|]. split; [exact Zc|]. field. split; assumption.
Qed.
Lemma cdiv2_some : forall (e s c : C), s <> RtoC 0 -> c <> RtoC 0 -> exists z, cdiv (Some e) (cdiv (Some s) (Some c)) = Some z.
Proof.
  intros e s c Hs Hc. cbn [cdiv]. rewrite (proj2 (isZero_false c) Hc). cbn [cdiv].
  assert (Q : Cdiv s c <> RtoC 0). { intros E. apply Hs. replace s with (Cmult (Cdiv s c) c) by (field; exact Hc). rewrite E. apply Cmult_0_l. }
  rewrite (proj2 (isZero_false _) Q). eauto.
Qed.
(** The real part of eta cosh / sinh. *)
Lemma real_part : forall (z : C) a b x y, Cmult z (csinh (x, y)) = Cmult (a, b) (ccosh (x, y)) ->
  fst z * (sinh x * sinh x + sin y * sin y) = a * (sinh x * cosh x) + b * (sin y * cos y).
Proof.
  intros [u v] a b x y E. unfold Cmult, csinh, ccosh in E. cbn [fst snd] in *. injection E as E1 E2.
  pose proof (cosh_sinh x) as K. pose proof (sin2_cos2 y) as T. unfold Rsqr in T.
  set (S := sinh x) in *. set (Ch := cosh x) in *. set (s := sin y) in *. set (c := cos y) in *.
  assert (M : u * (S * S * (c * c) + Ch * Ch * (s * s)) = a * (Ch * S) * (c * c + s * s) + b * (s * c) * (Ch * Ch - S * S)).
  { transitivity ((u * (S * c) - v * (Ch * s)) * (S * c) + (u * (Ch * s) + v * (S * c)) * (Ch * s)); [ring|]. rewrite E1, E2. ring. }
  replace (S * S * (c * c) + Ch * Ch * (s * s)) with (S * S * (c * c + s * s) + (Ch * Ch - S * S) * (s * s)) in M by ring.
  rewrite K in M. replace (c * c + s * s) with 1 in M by lra. lra.
Qed.

Lemma sinh_nonneg : forall x, 0 <= x -> x <= sinh x * cosh x.
Proof. intros x Hx. destruct (Rle_lt_or_eq_dec 0 x Hx) as [L| <-]; [left; apply sinh_cosh_gt; exact L|rewrite sinh_0; lra]. Qed.

Lemma passive : forall eps mu sigma d f z, 0 < eps -> 0 < mu -> 0 <= sigma -> 0 < d -> 0 < f ->
  impedance eps mu sigma d f = Some z -> 0 <= fst z.
Proof.
  intros eps mu sigma d f z He Hm Hs Hd Hf. destruct (impedance_value eps mu sigma d f He Hm Hs Hf) as (p & q & Pp & Qq & D & E & V).
  cbv zeta in V. rewrite V. intros Q. apply cdiv2 in Q. destruct Q as (S0 & C0 & M). apply real_part in M.
  pose proof PI_RGT_0 as P. assert (Hw : 0 < 2 * PI * f) by nra. set (w := 2 * PI * f) in *.
  set (x := w * q * d) in *. set (y := w * p * d) in *.
  assert (Hx : 0 <= x) by (unfold x; apply Rmult_le_pos; [apply Rmult_le_pos|]; lra).
  assert (Hy : 0 <= y) by (unfold y; apply Rmult_le_pos; [apply Rmult_le_pos|]; lra).
  pose proof (sinh_nonneg x Hx) as A. pose proof (sin_cos_small y Hy) as B. apply Rabs_le_between in B.
  assert (N : 0 < p * p + q * q) by nra.
  assert (R0 : 0 <= p * (sinh x * cosh x) + q * (sin y * cos y)).
  { assert (p * x = q * y) by (unfold x, y; ring). nra. }
  assert (W : 0 < sinh x * sinh x + sin y * sin y).
  { destruct (Req_dec (sinh x) 0) as [X|X]; [destruct (Req_dec (sin y) 0) as [Y|Y]|]; [|nra|nra]. exfalso. apply S0. unfold csinh. cbn [fst snd]. rewrite X, Y. unfold RtoC. f_equal; ring. }
  assert (G : fst z * (sinh x * sinh x + sin y * sin y) = mu / (p * p + q * q) * (p * (sinh x * cosh x) + q * (sin y * cos y))) by (rewrite M; field; lra).
  assert (0 <= mu / (p * p + q * q)) by (apply Rmult_le_pos; [lra|left; apply Rinv_0_lt_compat; lra]).
  assert (0 <= fst z * (sinh x * sinh x + sin y * sin y)) by (rewrite G; apply Rmult_le_pos; assumption). nra.
Qed.
Lemma lossy : forall eps mu sigma d f, 0 < eps -> 0 < mu -> 0 < sigma -> 0 < d -> 0 < f ->
  exists z, impedance eps mu sigma d f = Some z /\ 0 < fst z.
Proof.
  intros eps mu sigma d f He Hm Hs Hd Hf. destruct (impedance_value eps mu sigma d f He Hm (Rlt_le _ _ Hs) Hf) as (p & q & Pp & Qq & D & E & V).
  cbv zeta in V. rewrite V. pose proof PI_RGT_0 as P. assert (Hw : 0 < 2 * PI * f) by nra. set (w := 2 * PI * f) in *.
  assert (Q0 : 0 < q). { assert (0 < mu * sigma / w) by (apply Rdiv_lt_0_compat; nra). nra. }
  set (x := w * q * d) in *. set (y := w * p * d) in *.
  assert (Hx : 0 < x) by (unfold x; apply Rmult_lt_0_compat; [apply Rmult_lt_0_compat|]; lra).
  assert (Hy : 0 <= y) by (unfold y; apply Rmult_le_pos; [apply Rmult_le_pos|]; lra).
  pose proof (sinh_gt x Hx) as Sx. pose proof (cosh_gt x ltac:(lra)) as Cx. pose proof (sin2_cos2 y) as T. unfold Rsqr in T.
  assert (S0 : csinh (x, y) <> RtoC 0).
  { unfold csinh, RtoC. cbn [fst snd]. intros Q. injection Q as Q1 Q2. apply Rmult_integral in Q1. apply Rmult_integral in Q2. nra. }
  assert (C0 : ccosh (x, y) <> RtoC 0).
  { unfold ccosh, RtoC. cbn [fst snd]. intros Q. injection Q as Q1 Q2. apply Rmult_integral in Q1. apply Rmult_integral in Q2. nra. }
  destruct (cdiv2_some (mu * p / (p * p + q * q), mu * q / (p * p + q * q)) _ _ S0 C0) as (z & Ez). exists z. split; [exact Ez|].
  apply cdiv2 in Ez. destruct Ez as (_ & _ & M). apply real_part in M.
  pose proof (sinh_cosh_gt x Hx) as A. pose proof (sin_cos_small y Hy) as B. apply Rabs_le_between in B.
  assert (N : 0 < p * p + q * q) by nra.
  assert (R0 : 0 < p * (sinh x * cosh x) + q * (sin y * cos y)).
  { assert (p * x = q * y) by (unfold x, y; ring). nra. }
  assert (W : 0 < sinh x * sinh x + sin y * sin y) by nra.
  assert (G : fst z * (sinh x * sinh x + sin y * sin y) = mu / (p * p + q * q) * (p * (sinh x * cosh x) + q * (sin y * cos y))) by (rewrite M; field; lra).
  assert (0 < mu / (p * p + q * q)) by (apply Rdiv_lt_0_compat; lra).
  assert (0 < fst z * (sinh x * sinh x + sin y * sin y)) by (rewrite G; apply Rmult_lt_0_compat; assumption). nra.
Qed.

(** * The fields in the slab *)
Lemma cderiv_mult : forall f g x a b, cderiv f x a -> cderiv g x b -> cderiv (fun t => Cmult (f t) (g t)) x (Cplus (Cmult a (g x)) (Cmult (f x) b)).
Proof.
  intros f g x a b (F1 & F2) (G1 & G2). split; cbn [Cmult Cplus fst snd].
  - replace (fst a * fst (g x) - snd a * snd (g x) + (fst (f x) * fst b - snd (f x) * snd b)) with
      ((fst a * fst (g x) + fst (f x) * fst b) - (snd a * snd (g x) + snd (f x) * snd b)) by ring.
    apply (derivable_pt_lim_minus (fun t => fst (f t) * fst (g t)) (fun t => snd (f t) * snd (g t))); apply derivable_pt_lim_mult; assumption.
  - replace (fst a * snd (g x) + snd a * fst (g x) + (fst (f x) * snd b + snd (f x) * fst b)) with
      ((fst a * snd (g x) + fst (f x) * snd b) + (snd a * fst (g x) + snd (f x) * fst b)) by ring.
    apply (derivable_pt_lim_plus (fun t => fst (f t) * snd (g t)) (fun t => snd (f t) * fst (g t))); apply derivable_pt_lim_mult; assumption.
Qed.
Lemma cderiv_minus : forall f g x a b, cderiv f x a -> cderiv g x b -> cderiv (fun t => Cminus (f t) (g t)) x (Cminus a b).
Proof.
  intros f g x a b (F1 & F2) (G1 & G2). split; cbn [Cminus Cplus Copp fst snd].
  - apply (derivable_pt_lim_minus (fun t => fst (f t)) (fun t => fst (g t))); assumption.
  - apply (derivable_pt_lim_minus (fun t => snd (f t)) (fun t => snd (g t))); assumption.
Qed.
Lemma cderiv_const : forall c x, cderiv (fun _ => c) x (RtoC 0).
Proof. intros c x. split; apply derivable_pt_lim_const. Qed.
Lemma cderiv_sinh : forall al be d x, cderiv (fun t => csinh (al * (d - t), be * (d - t))) x (Copp (Cmult (al, be) (ccosh (al * (d - x), be * (d - x))))).
Proof.
  intros al be d x. split; apply is_derive_Reals; unfold csinh, ccosh, Cmult, Copp, sinh, cosh; cbn [fst snd]; auto_derive; auto; unfold Rminus; field.
Qed.
Lemma cderiv_cosh : forall al be d x, cderiv (fun t => ccosh (al * (d - t), be * (d - t))) x (Copp (Cmult (al, be) (csinh (al * (d - x), be * (d - x))))).
Proof.
  intros al be d x. split; apply is_derive_Reals; unfold csinh, ccosh, Cmult, Copp, sinh, cosh; cbn [fst snd]; auto_derive; auto; unfold Rminus; field.
Qed.
Lemma constant : forall f, (forall x, cderiv f x (RtoC 0)) -> forall a b, a < b -> f a = f b.
Proof.
  intros f H a b Hab. assert (A : fst (f a) = fst (f b)).
  { apply (eq_is_derive (fun t => fst (f t))); [|exact Hab]. intros t _. apply is_derive_Reals. exact (proj1 (H t)). }
  assert (B : snd (f a) = snd (f b)).
  { apply (eq_is_derive (fun t => snd (f t))); [|exact Hab]. intros t _. apply is_derive_Reals. exact (proj2 (H t)). }
  destruct (f a), (f b). cbn in *. congruence.
Qed.
Lemma cderiv_eq : forall f x a b, cderiv f x a -> a = b -> cderiv f x b.
Proof. intros f x a b H <-. exact H. Qed.

Lemma slab_impedance : forall eps mu sigma d f z E H, 0 < eps -> 0 < mu -> 0 <= sigma -> 0 < d -> 0 < f ->
  impedance eps mu sigma d f = Some z -> slabFields eps mu sigma (2 * PI * f) d E H -> E 0 = Cmult z (H 0).
Proof.
  intros eps mu sigma d f z E H He Hm Hs Hd Hf. destruct (impedance_value eps mu sigma d f He Hm Hs Hf) as (p & q & Pp & Qq & D & T & V).
  cbv zeta in V. rewrite V. intros Q (DE & DH & H0). apply cdiv2 in Q. destruct Q as (S0 & C0 & M).
  pose proof PI_RGT_0 as P. assert (Hw : 0 < 2 * PI * f) by nra. set (w := 2 * PI * f) in *.
  assert (N : 0 < p * p + q * q) by nra.
  set (eta := (mu * p / (p * p + q * q), mu * q / (p * p + q * q)) : C) in *.
  set (ga := (w * q, w * p) : C).
  assert (G1 : Cmult eta ga = (0, w * mu)) by (unfold eta, ga, Cmult; cbn [fst snd]; f_equal; field; lra).
  assert (G2 : Cmult eta (sigma, w * eps) = ga).
  { assert (Sg : mu * sigma = 2 * p * q * w) by (rewrite T; field; lra).
    unfold eta, ga, Cmult. cbn [fst snd]. f_equal.
    - transitivity ((p * (mu * sigma) - q * w * (mu * eps)) / (p * p + q * q)); [field; lra|]. rewrite Sg, <- D. field; lra.
    - transitivity ((p * w * (mu * eps) + q * (mu * sigma)) / (p * p + q * q)); [field; lra|]. rewrite Sg, <- D. field; lra. }
  set (S := fun t => csinh (w * q * (d - t), w * p * (d - t))). set (K := fun t => ccosh (w * q * (d - t), w * p * (d - t))).
  set (Qf := fun t => Cminus (Cmult (E t) (S t)) (Cmult (Cmult eta (H t)) (K t))).
  assert (DQ : forall x, cderiv Qf x (RtoC 0)).
  { intros x. eapply cderiv_eq.
    - unfold Qf. apply cderiv_minus.
      + apply cderiv_mult; [apply DE|apply cderiv_sinh].
      + apply (cderiv_mult (fun t => Cmult eta (H t)) K); [apply (cderiv_mult (fun _ => eta) H); [apply cderiv_const|apply DH]|apply cderiv_cosh].
    - fold (S x) (K x). cbv beta. fold ga. rewrite <- G1.
      transitivity (Cmult (Cmult (E x) (K x)) (Cminus (Cmult eta (sigma, w * eps)) ga)); [ring|]. rewrite G2. ring. }
  assert (EQ : Qf 0 = Qf d) by (apply constant; [exact DQ|exact Hd]).
  unfold Qf in EQ. rewrite H0 in EQ.
  assert (Sd : S d = RtoC 0).
  { unfold S, csinh, RtoC. cbn [fst snd]. replace (d - d) with 0 by ring. rewrite !Rmult_0_r, sinh_0, sin_0. f_equal; ring. }
  rewrite Sd in EQ. replace (Cminus (Cmult (E d) (RtoC 0)) (Cmult (Cmult eta (RtoC 0)) (K d))) with (RtoC 0) in EQ by ring.
  assert (S00 : S 0 = csinh (w * q * d, w * p * d)) by (unfold S; rewrite Rminus_0_r; reflexivity).
  assert (K00 : K 0 = ccosh (w * q * d, w * p * d)) by (unfold K; rewrite Rminus_0_r; reflexivity).
  rewrite <- S00 in M, S0. rewrite <- K00 in M.
  assert (X : Cmult (Cminus (E 0) (Cmult z (H 0))) (S 0) = RtoC 0).
  { transitivity (Cminus (Cmult (E 0) (S 0)) (Cmult (H 0) (Cmult z (S 0)))); [ring|]. rewrite M. rewrite <- EQ. ring. }
  destruct (Ceq_dec (Cminus (E 0) (Cmult z (H 0))) (RtoC 0)) as [Y|Y].
  - replace (E 0) with (Cplus (Cminus (E 0) (Cmult z (H 0))) (Cmult z (H 0))) by ring. rewrite Y. ring.
  - exfalso. apply (Cmult_neq_0 _ _ Y S0). exact X.
Qed.

(** Proofs about Geo_Model: spherical coordinates and face frames. *)
From Coq Require Import ZArith List Bool Reals Lra Lia Psatz.
From Verif Require Import Common Geo_Model Geo_Spec.
Import ListNotations.
Local Open Scope R_scope.

(** ** atan2 *)
Lemma sin_atan' : forall u, sin (atan u) = u / sqrt (1 + u ^ 2).
Proof.
  intros u. assert (P : 0 < 1 + u ^ 2) by nra. assert (S := sqrt_lt_R0 _ P).
  assert (C : cos (atan u) <> 0). { rewrite cos_atan. replace (1 + u²) with (1 + u ^ 2) by (unfold Rsqr; ring). apply Rgt_not_eq. apply Rdiv_lt_0_compat; lra. }
  assert (T := atan_right_inv u). unfold tan in T.
  replace (sin (atan u)) with (u * cos (atan u)) by (rewrite <- T at 1; field; assumption).
  rewrite cos_atan. replace (1 + u²) with (1 + u ^ 2) by (unfold Rsqr; ring). field. lra.
Qed.
Lemma cos_atan' : forall u, cos (atan u) = 1 / sqrt (1 + u ^ 2).
Proof. intros u. rewrite cos_atan. replace (1 + u²) with (1 + u ^ 2) by (unfold Rsqr; ring). reflexivity. Qed.
Lemma hyp_quot : forall x y, x <> 0 -> sqrt (1 + (y / x) ^ 2) = sqrt (x ^ 2 + y ^ 2) / Rabs x.
Proof.
  intros x y Hx. assert (A := Rabs_pos_lt x Hx).
  replace (1 + (y / x) ^ 2) with ((x ^ 2 + y ^ 2) / (Rabs x) ^ 2).
  - rewrite sqrt_div_alt by (apply pow_lt; assumption). rewrite sqrt_pow2 by lra. reflexivity.
  - rewrite pow2_abs. field. assumption.
Qed.
Lemma hyp_pos : forall x y, x <> 0 \/ y <> 0 -> 0 < sqrt (x ^ 2 + y ^ 2).
Proof. intros x y H. apply sqrt_lt_R0. destruct H; [assert (0 < x ^ 2) by nra; nra | assert (0 < y ^ 2) by nra; nra]. Qed.

Lemma atan2_spec : forall x y, x <> 0 \/ y <> 0 ->
  sqrt (x ^ 2 + y ^ 2) * cos (atan2 y x) = x /\ sqrt (x ^ 2 + y ^ 2) * sin (atan2 y x) = y /\ - PI < atan2 y x <= PI.
Proof.
  intros x y H. assert (P := hyp_pos x y H). assert (HP := PI_RGT_0). unfold atan2.
  destruct (Rlt_dec 0 x) as [Hx|Hx].
  - rewrite cos_atan', sin_atan', hyp_quot by lra. rewrite (Rabs_right x) by lra. destruct (atan_bound (y / x)).
    repeat split; try lra; field; lra.
  - destruct (Rlt_dec x 0) as [Hx'|Hx'].
    + assert (Rabs x = - x) as Ax by (apply Rabs_left; assumption). destruct (atan_bound (y / x)).
      destruct (Rlt_dec y 0) as [Hy|Hy].
      * assert (0 < y / x). { replace (y / x) with ((- y) * / (- x)) by (field; lra). apply Rmult_lt_0_compat; [lra | apply Rinv_0_lt_compat; lra]. }
        assert (atan 0 < atan (y / x)) by (apply atan_increasing; assumption). rewrite atan_0 in *.
        rewrite cos_minus, sin_minus, cos_PI, sin_PI, cos_atan', sin_atan', hyp_quot, Ax by lra.
        repeat split; try lra; field; lra.
      * assert (y / x <= 0). { replace (y / x) with (- (y * / (- x))) by (field; lra). assert (0 < / - x) by (apply Rinv_0_lt_compat; lra). nra. }
        assert (atan (y / x) <= 0). { destruct (Req_dec (y / x) 0) as [E|E]; [rewrite E, atan_0; lra|]. left. rewrite <- atan_0. apply atan_increasing. lra. }
        rewrite cos_plus, sin_plus, cos_PI, sin_PI, cos_atan', sin_atan', hyp_quot, Ax by lra.
        repeat split; try lra; field; lra.
    + assert (x = 0) by lra; subst x. assert (y <> 0) by (destruct H; [lra|assumption]).
      replace (0 ^ 2 + y ^ 2) with ((Rabs y) ^ 2) by (rewrite pow2_abs; ring). rewrite sqrt_pow2 by apply Rabs_pos.
      destruct (Rlt_dec 0 y) as [Hy|Hy].
      * rewrite cos_PI2, sin_PI2, Rabs_right by lra. repeat split; lra.
      * destruct (Rlt_dec y 0) as [Hy'|Hy']; [|lra]. rewrite cos_neg, sin_neg, cos_PI2, sin_PI2, Rabs_left by lra. repeat split; lra.
Qed.

Lemma cos_1_small : forall d, - (2 * PI) < d < 2 * PI -> cos d = 1 -> d = 0.
Proof.
  intros d H C. assert (HP := PI_RGT_0).
  assert (S : sin (d / 2) = 0). { replace d with (2 * (d / 2)) in C by field. rewrite cos_2a_sin in C. nra. }
  destruct (Rtotal_order d 0) as [L|[E|G]]; [|assumption|].
  - assert (0 < sin (- (d / 2))) by (apply sin_gt_0; lra). rewrite sin_neg in *. lra.
  - assert (0 < sin (d / 2)) by (apply sin_gt_0; lra). lra.
Qed.
Lemma angle_unique : forall a b, - PI < a <= PI -> - PI < b <= PI -> cos a = cos b -> sin a = sin b -> a = b.
Proof.
  intros a b Ha Hb C S. assert (a - b = 0); [|lra]. apply cos_1_small; [lra|].
  rewrite cos_minus, C, S. assert (Q := sin2_cos2 b). unfold Rsqr in Q. lra.
Qed.
Lemma atan2_polar : forall r ph, 0 < r -> - PI < ph <= PI -> atan2 (r * sin ph) (r * cos ph) = ph.
Proof.
  intros r ph Hr Hp.
  assert (Q := sin2_cos2 ph). unfold Rsqr in Q.
  assert (N : r * cos ph <> 0 \/ r * sin ph <> 0).
  { destruct (Req_dec (cos ph) 0) as [E|E]; [right|left]; apply Rmult_integral_contrapositive; split; try lra. intros F. rewrite E, F in Q. lra. }
  destruct (atan2_spec _ _ N) as (C & S & B).
  replace (sqrt ((r * cos ph) ^ 2 + (r * sin ph) ^ 2)) with r in C, S.
  - apply angle_unique; try assumption; apply (Rmult_eq_reg_l r); lra.
  - replace ((r * cos ph) ^ 2 + (r * sin ph) ^ 2) with (r ^ 2) by (transitivity (r ^ 2 * (sin ph * sin ph + cos ph * cos ph)); [rewrite Q; ring | ring]).
    symmetry. apply sqrt_pow2. lra.
Qed.

(** ** Spherical coordinates *)
Lemma sum3_pos : forall x y z, (x, y, z) <> (0, 0, 0) -> 0 < x ^ 2 + y ^ 2 + z ^ 2.
Proof.
  intros x y z H. destruct (Req_dec x 0) as [->|X]; [|assert (0 < x ^ 2) by nra; nra].
  destruct (Req_dec y 0) as [->|Y]; [|assert (0 < y ^ 2) by nra; nra].
  destruct (Req_dec z 0) as [->|Z]; [congruence|assert (0 < z ^ 2) by nra; nra].
Qed.
Lemma sph_round3 : forall x y z, (x, y, z) <> (0, 0, 0) ->
  exists r th ph, fromCartesian [x; y; z] = Ok (mkSph r (Some th) ph) /\ toCartesian r th ph = [x; y; z] /\
    r = lenp (x, y, z) /\ 0 < r /\ 0 <= th <= PI /\ - PI < ph <= PI.
Proof.
  intros x y z H. assert (P := sum3_pos x y z H). unfold fromCartesian.
  replace (0 + x ^ 2 + y ^ 2 + z ^ 2) with (x ^ 2 + y ^ 2 + z ^ 2) by ring.
  set (r := sqrt (x ^ 2 + y ^ 2 + z ^ 2)). assert (Hr : 0 < r) by (apply sqrt_lt_R0; assumption).
  assert (R2 : r * r = x ^ 2 + y ^ 2 + z ^ 2) by (apply sqrt_sqrt; lra).
  destruct (Req_EM_T r 0) as [E|_]; [lra|].
  exists r, (acos (z / r)), (atan2 y x). split; [reflexivity|].
  assert (B : -1 <= z / r <= 1).
  { assert (- r <= z <= r) by nra. split; apply (Rmult_le_reg_r r); try assumption; unfold Rdiv; rewrite Rmult_assoc, Rinv_l by lra; lra. }
  assert (LR : r = lenp (x, y, z)). { unfold r, lenp, dotp. f_equal. ring. }
  destruct (acos_bound (z / r)) as [T1 T2].
  assert (HP := PI_RGT_0).
  assert (S : r * sin (acos (z / r)) = sqrt (x ^ 2 + y ^ 2)).
  { rewrite sin_acos by assumption. rewrite <- (sqrt_pow2 r) at 1 by lra. rewrite <- sqrt_mult_alt by nra. f_equal. unfold Rsqr.
    replace (r ^ 2 * (1 - z / r * (z / r))) with (r * r - z ^ 2) by (field; lra). rewrite R2. ring. }
  destruct (Req_dec x 0) as [X|X]; [destruct (Req_dec y 0) as [Y|Y]|].
  - subst x y. split; [|repeat split; try assumption; try lra; unfold atan2; destruct (Rlt_dec 0 0); lra].
    unfold toCartesian. replace (sqrt (0 ^ 2 + 0 ^ 2)) with 0 in S by (replace (0 ^ 2 + 0 ^ 2) with 0 by ring; rewrite sqrt_0; reflexivity).
    rewrite S, cos_acos by assumption. rewrite !Rmult_0_l. replace (r * (z / r)) with z by (field; lra). reflexivity.
  - destruct (atan2_spec x y (or_intror Y)) as (C1 & C2 & C3). split; [|repeat split; tauto || assumption || lra].
    unfold toCartesian. rewrite S, C1, C2, cos_acos by assumption. replace (r * (z / r)) with z by (field; lra). reflexivity.
  - destruct (atan2_spec x y (or_introl X)) as (C1 & C2 & C3). split; [|repeat split; tauto || assumption || lra].
    unfold toCartesian. rewrite S, C1, C2, cos_acos by assumption. replace (r * (z / r)) with z by (field; lra). reflexivity.
Qed.
Lemma sph_round2 : forall x y, (x, y) <> (0, 0) ->
  exists r ph, fromCartesian [x; y] = Ok (mkSph r (Some (PI / 2)) ph) /\ toCartesian r (PI / 2) ph = [x; y; 0] /\
    r = lenp (x, y, 0) /\ 0 < r /\ - PI < ph <= PI.
Proof.
  intros x y H. unfold fromCartesian. replace (0 + x ^ 2 + y ^ 2) with (x ^ 2 + y ^ 2) by ring.
  exists (sqrt (x ^ 2 + y ^ 2)), (atan2 y x). split; [reflexivity|].
  assert (N : x <> 0 \/ y <> 0). { destruct (Req_dec x 0) as [->|X]; [right; intros ->; apply H; reflexivity | left; assumption]. }
  destruct (atan2_spec x y N) as (C1 & C2 & C3). unfold toCartesian. rewrite sin_PI2, cos_PI2, Rmult_1_r, Rmult_0_r, C1, C2.
  split; [reflexivity|]. split; [unfold lenp, dotp; f_equal; ring|]. split; [apply hyp_pos; assumption | assumption].
Qed.
Lemma sph_back : forall r th ph, 0 < r -> 0 < th < PI -> - PI < ph <= PI ->
  fromCartesian (toCartesian r th ph) = Ok (mkSph r (Some th) ph).
Proof.
  intros r th ph Hr Ht Hp. unfold toCartesian, fromCartesian.
  assert (S : 0 < sin th) by (apply sin_gt_0; lra).
  assert (Q := sin2_cos2 th). assert (Q' := sin2_cos2 ph). unfold Rsqr in Q, Q'.
  assert (E : 0 + (r * sin th * cos ph) ^ 2 + (r * sin th * sin ph) ^ 2 + (r * cos th) ^ 2 = r ^ 2).
  { transitivity (r ^ 2 * ((sin th * sin th) * (sin ph * sin ph + cos ph * cos ph) + cos th * cos th)); [ring|]. rewrite Q', Rmult_1_r, Q. ring. }
  rewrite E, sqrt_pow2 by lra. destruct (Req_EM_T r 0); [lra|].
  rewrite atan2_polar; [|apply Rmult_lt_0_compat; assumption | assumption].
  replace (r * cos th / r) with (cos th) by (field; assumption). rewrite acos_cos by lra. reflexivity.
Qed.

(** A vector given by its spherical components at a point off the axis. *)
Lemma field_spec : forall x y z Ar At Ap, x <> 0 \/ y <> 0 ->
  exists r th ph, fromCartesian [x; y; z] = Ok (mkSph r (Some th) ph) /\
    fieldToCartesian th ph Ar At Ap =
      listp (addp (addp (scalep Ar (outward (x, y, z))) (scalep At (downward (x, y, z)))) (scalep Ap (around (x, y, z)))).
Proof.
  intros x y z Ar At Ap N.
  assert (H : (x, y, z) <> (0, 0, 0)) by (intros E; injection E; intros; destruct N; contradiction).
  destruct (sph_round3 x y z H) as (r & th & ph & F & T & LR & Hr & Ht & Hp). exists r, th, ph. split; [assumption|].
  unfold toCartesian in T. injection T as Tx Ty Tz.
  assert (Q := sin2_cos2 th). assert (Q' := sin2_cos2 ph). unfold Rsqr in Q, Q'.
  assert (S : 0 < sin th).
  { destruct (Req_dec (sin th) 0) as [E|E]; [exfalso; rewrite E in Tx, Ty; destruct N; nra|].
    assert (0 <= sin th) by (apply sin_ge_0; lra). lra. }
  assert (A : lenp (crossp (0, 0, 1) (x, y, z)) = r * sin th).
  { unfold lenp, crossp, dotp. rewrite <- (sqrt_pow2 (r * sin th)) by nra. f_equal.
    transitivity (x * x + y * y); [ring|]. rewrite <- Tx, <- Ty. transitivity (r ^ 2 * (sin th * sin th) * (sin ph * sin ph + cos ph * cos ph)); [ring|rewrite Q'; ring]. }
  assert (O : outward (x, y, z) = (sin th * cos ph, sin th * sin ph, cos th)).
  { unfold outward, unitp. rewrite <- LR. unfold scalep. rewrite <- Tx, <- Ty, <- Tz. f_equal; [f_equal|]; field; lra. }
  assert (D : around (x, y, z) = (- sin ph, cos ph, 0)).
  { unfold around, unitp. rewrite A. unfold crossp, scalep. rewrite <- Tx, <- Ty. f_equal; [f_equal|]; field; lra. }
  unfold downward. rewrite O, D. unfold crossp, scalep, addp, listp, fieldToCartesian.
  f_equal; [ring|f_equal; [ring|f_equal]].
  replace (- sin ph * (sin th * sin ph) - cos ph * (sin th * cos ph)) with (- sin th * (sin ph * sin ph + cos ph * cos ph)) by ring. rewrite Q'. ring.
Qed.
Lemma field_length : forall th ph Ar At Ap v, fieldToCartesian th ph Ar At Ap = listp v -> dotp v v = Ar ^ 2 + At ^ 2 + Ap ^ 2.
Proof.
  intros th ph Ar At Ap [[a b] c] E. unfold listp, fieldToCartesian in E. injection E as <- <- <-. unfold dotp.
  assert (Q := sin2_cos2 th). assert (Q' := sin2_cos2 ph). unfold Rsqr in Q, Q'.
  transitivity ((sin ph * sin ph + cos ph * cos ph) * ((sin th * Ar + cos th * At) ^ 2 + Ap ^ 2) + (cos th * Ar - sin th * At) ^ 2); [ring|].
  rewrite Q'. transitivity ((sin th * sin th + cos th * cos th) * (Ar ^ 2 + At ^ 2) + Ap ^ 2); [ring|]. rewrite Q'||rewrite Q. ring.
Qed.
Lemma hats_frame : forall th ph, rightFrame (sin th * cos ph, sin th * sin ph, cos th) (cos th * cos ph, cos th * sin ph, - sin th) (- sin ph, cos ph, 0).
Proof.
  intros th ph. assert (Q := sin2_cos2 th). assert (Q' := sin2_cos2 ph). unfold Rsqr in Q, Q'. unfold rightFrame, dotp, crossp.
  repeat split.
  - transitivity (sin th * sin th * (sin ph * sin ph + cos ph * cos ph) + cos th * cos th); [ring|rewrite Q'; lra].
  - transitivity (cos th * cos th * (sin ph * sin ph + cos ph * cos ph) + sin th * sin th); [ring|rewrite Q'; lra].
  - lra.
  - transitivity (sin th * cos th * (sin ph * sin ph + cos ph * cos ph - 1)); [ring|rewrite Q'; ring].
  - ring.
  - ring.
  - f_equal; [f_equal|].
    + transitivity (- sin ph * (sin th * sin th + cos th * cos th)); [ring|rewrite Q; ring].
    + transitivity (cos ph * (sin th * sin th + cos th * cos th)); [ring|rewrite Q; ring].
    + ring.
Qed.

(** ** Face frames *)
Definition row (r : list R) (i : nat) : v3 := (nth (3 * i) r 0, nth (3 * i + 1) r 0, nth (3 * i + 2) r 0).
Lemma rot2 : forall nx ny, (nx, ny) <> (0, 0) -> exists r, faceRotation [nx; ny] 2 = Ok r /\ List.length r = 9%nat /\
  rightFrame (row r 0) (row r 1) (row r 2) /\ row r 0 = unitp (nx, ny, 0).
Proof.
  intros nx ny H. assert (P : 0 < nx * nx + ny * ny + 0 * 0). { assert (N : nx <> 0 \/ ny <> 0) by (destruct (Req_dec nx 0) as [->|]; [right; intros ->; apply H; reflexivity | left; assumption]). destruct N; nra. }
  unfold faceRotation. cbn [Z.leb Z.eqb Z.compare Pos.compare Pos.compare_cont Pos.eqb nth]. unfold Z.eqb, Pos.eqb.
  set (len := sqrt (nx * nx + ny * ny + 0 * 0)). assert (L : 0 < len) by (apply sqrt_lt_R0; assumption).
  assert (L2 : len * len = nx * nx + ny * ny + 0 * 0) by (apply sqrt_sqrt; lra).
  destruct (Req_EM_T len 0); [lra|]. eexists. split; [reflexivity|]. split; [reflexivity|].
  assert (U : (nx / len) * (nx / len) + (ny / len) * (ny / len) = 1). { transitivity ((nx * nx + ny * ny + 0 * 0) / (len * len)); [field; lra|]. rewrite <- L2. field. lra. }
  unfold row. cbn [nth Nat.mul Nat.add]. split.
  - unfold rightFrame, dotp, crossp. repeat split; try lra. f_equal; [f_equal; lra|]. lra.
  - unfold unitp, lenp, dotp. replace (nx * nx + ny * ny + 0 * 0) with (nx * nx + ny * ny + 0 * 0) in * by reflexivity. fold len. unfold scalep. f_equal; [f_equal|]; field; lra.
Qed.

Lemma frame_of : forall a b, dotp a a = 1 -> dotp b b = 1 -> dotp a b = 0 -> rightFrame a b (crossp a b).
Proof.
  intros [[a1 a2] a3] [[b1 b2] b3] A B C. unfold dotp in *. unfold rightFrame, dotp, crossp. repeat split; try assumption; try ring.
  transitivity ((a1 * a1 + a2 * a2 + a3 * a3) * (b1 * b1 + b2 * b2 + b3 * b3) - (a1 * b1 + a2 * b2 + a3 * b3) ^ 2); [ring|]. rewrite A, B, C. ring.
Qed.
Lemma rot3 : forall dim nx ny nz, (3 <= dim)%Z -> (nx, ny, nz) <> (0, 0, 0) -> exists r, faceRotation [nx; ny; nz] dim = Ok r /\ List.length r = 9%nat /\
  rightFrame (row r 0) (row r 1) (row r 2) /\ row r 0 = unitp (nx, ny, nz).
Proof.
  intros dim x y z D H. assert (P := sum3_pos _ _ _ H). unfold faceRotation.
  destruct (Z.leb_spec dim 1); [lia|]. destruct (Z.eqb_spec dim 2); [lia|]. cbn [nth].
  set (len := sqrt (x * x + y * y + z * z)). assert (L : 0 < len) by (apply sqrt_lt_R0; nra).
  assert (L2 : len * len = x * x + y * y + z * z) by (apply sqrt_sqrt; nra).
  destruct (Req_EM_T len 0); [lra|].
  assert (U0 : unitp (x, y, z) = (x / len, y / len, z / len)). { unfold unitp, lenp, dotp. fold len. unfold scalep. f_equal; [f_equal|]; field; lra. }
  assert (U : (x / len) * (x / len) + (y / len) * (y / len) + (z / len) * (z / len) = 1). { transitivity ((x * x + y * y + z * z) / (len * len)); [field; lra|]. rewrite <- L2. field. lra. }
  rewrite U0. clear U0. clearbody len. revert U. generalize (x / len) (y / len) (z / len). intros nx ny nz U.
  assert (K : forall rx ry rz, 0 < (ny * rz - nz * ry) * (ny * rz - nz * ry) + (nz * rx - nx * rz) * (nz * rx - nx * rz) + (nx * ry - ny * rx) * (nx * ry - ny * rx) ->
    exists r, (let t1x := ny * rz - nz * ry in let t1y := nz * rx - nx * rz in let t1z := nx * ry - ny * rx in
        let t1l := sqrt (t1x * t1x + t1y * t1y + t1z * t1z) in
        let t1x := t1x / t1l in let t1y := t1y / t1l in let t1z := t1z / t1l in
        Ok [nx; ny; nz; t1x; t1y; t1z; ny * t1z - nz * t1y; nz * t1x - nx * t1z; nx * t1y - ny * t1x]) = Ok r /\
      List.length r = 9%nat /\ rightFrame (row r 0) (row r 1) (row r 2) /\ row r 0 = (nx, ny, nz)).
  { intros rx ry rz Q. cbv zeta. set (l := sqrt _). assert (Hl : 0 < l) by (apply sqrt_lt_R0; assumption).
    assert (Hl2 : l * l = (ny * rz - nz * ry) * (ny * rz - nz * ry) + (nz * rx - nx * rz) * (nz * rx - nx * rz) + (nx * ry - ny * rx) * (nx * ry - ny * rx)) by (apply sqrt_sqrt; lra).
    clearbody l. eexists. split; [reflexivity|]. split; [reflexivity|]. split; [|reflexivity].
    unfold row. cbn [nth Nat.mul Nat.add]. apply frame_of.
    - unfold dotp. exact U.
    - unfold dotp. match goal with |- ?t = 1 => replace t with ((l * l) / (l * l)); [field; lra|] end. rewrite Hl2 at 1. field. lra.
    - unfold dotp. field. lra. }
  destruct (Rlt_dec (Rabs nx) (9 / 10)) as [A|A].
  - apply K. assert (-9/10 < nx < 9/10) by (unfold Rabs in A; destruct (Rcase_abs nx); lra). nra.
  - apply K. assert (9/10 <= nx \/ nx <= -9/10) by (unfold Rabs in A; destruct (Rcase_abs nx); lra). nra.
Qed.
Definition det3 (a b c : v3) : R := dotp (crossp a b) c.
Lemma frame_det : forall a b c, rightFrame a b c -> det3 a b c = 1.
Proof. intros a b c (A & B & C & _ & _ & _ & X). unfold det3. rewrite X. exact C. Qed.
Lemma frame_first : forall a b c, rightFrame a b c -> (dotp a a, dotp b a, dotp c a) = (1, 0, 0).
Proof.
  intros [[a1 a2] a3] [[b1 b2] b3] [[c1 c2] c3] (A & B & C & AB & BC & AC & X). unfold dotp in *. rewrite A. f_equal; [f_equal|]; lra.
Qed.

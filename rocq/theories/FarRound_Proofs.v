From Coq Require Import ZArith List Bool Reals Lra Lia.
From Flocq Require Import Core.Core IEEE754.BinarySingleNaN.
From Verif Require Import Common Time_Model TimeIeee_Proofs FarRound_Model.
Import ListNotations.
Local Open Scope R_scope.

Lemma done_val : B2R done = 1 /\ is_finite done = true.
Proof. split; [|reflexivity]. unfold done, B2R, F2R, cond_Zopp, bpow. cbn [Fnum Fexp]. change (Z.pow_pos radix2 52) with 4503599627370496%Z. lra. Qed.
Lemma dmone_val : B2R dmone = -1 /\ is_finite dmone = true.
Proof. split; [|reflexivity]. unfold dmone, B2R, F2R, cond_Zopp, bpow. cbn [Fnum Fexp Z.opp]. change (Z.pow_pos radix2 52) with 4503599627370496%Z. lra. Qed.

Lemma acos_domain : forall x : double, acosIsNaN x = false <-> is_finite x = true /\ -1 <= B2R x <= 1.
Proof.
  intros x. unfold acosIsNaN. rewrite negb_false_iff, andb_true_iff.
  destruct (is_finite x) eqn:F.
  - rewrite (dle_ok dmone x (proj2 dmone_val) F), (dle_ok x done F (proj2 done_val)), (proj1 done_val), (proj1 dmone_val). tauto.
  - split; [|intros [H _]; discriminate]. destruct x as [s|s| |s m e B]; try discriminate F.
    + destruct s; intros [H1 H2]; [vm_compute in H1|vm_compute in H2]; discriminate.
    + intros [H _]. vm_compute in H. discriminate.
Qed.

Lemma ddiv_ok : forall x y : double, is_finite x = true -> B2R y <> 0 ->
  Rabs (rnd (B2R x / B2R y)) < bpow radix2 1024 ->
  B2R (ddiv x y) = rnd (B2R x / B2R y) /\ is_finite (ddiv x y) = true.
Proof.
  intros x y Hx Hy Hb. pose proof (Bdiv_correct 53 1024 (eq_refl _) (eq_refl _) mode_NE x y Hy) as Hc.
  unfold rnd in Hb. rewrite Rlt_bool_true in Hc by exact Hb. split; [apply Hc|].
  destruct Hc as (_ & Hc & _). etransitivity; [exact Hc|]. exact Hx.
Qed.
Lemma dsqrt_ok : forall x : double, B2R (dsqrt x) = rnd (sqrt (B2R x)).
Proof. intros x. exact (proj1 (Bsqrt_correct 53 1024 (eq_refl _) (eq_refl _) mode_NE x)). Qed.
Lemma dabs_ok : forall x : double, B2R (dabs x) = Rabs (B2R x).
Proof. intros x. apply B2R_Babs. Qed.

Lemma root_ok : forall x : double, B2R (dsqrt x) = rnd (sqrt (B2R x)) /\ B2R (dabs x) = Rabs (B2R x).
Proof. intros x. split; [apply dsqrt_ok|apply dabs_ok]. Qed.

(** The witness: sines and cosines that are unit vectors up to the last bit, and the point (1, 1, 1). *)
Definition rst : double := @B754_finite 53 1024 false 7354347395230782 (-53) (eq_refl _).
Definition rct : double := @B754_finite 53 1024 false 5200308914369309 (-53) (eq_refl _).
Definition rsp : double := @B754_finite 53 1024 false 6369051672525772 (-53) (eq_refl _).
Definition rcp : double := @B754_finite 53 1024 false 6369051672525773 (-53) (eq_refl _).

Lemma from_sf : forall (x : double) s m e, B2SF x = SpecFloat.S754_finite s m e -> B2R x = F2R (Float radix2 (cond_Zopp s (Zpos m)) e) /\ is_finite x = true.
Proof. intros x s m e H. split; [rewrite <- SF2R_B2SF, H; reflexivity|]. destruct x; try discriminate; reflexivity. Qed.

Ltac numbers := unfold F2R, cond_Zopp, bpow; cbn [Fnum Fexp B2R];
  try change (Z.pow_pos radix2 53) with 9007199254740992%Z; try change (Z.pow_pos radix2 52) with 4503599627370496%Z; try change (Z.pow_pos radix2 33) with 8589934592%Z.
Lemma rst_val : B2R rst = 7354347395230782 / 9007199254740992. Proof. unfold rst, B2R. numbers. reflexivity. Qed.
Lemma rct_val : B2R rct = 5200308914369309 / 9007199254740992. Proof. unfold rct, B2R. numbers. reflexivity. Qed.
Lemma rsp_val : B2R rsp = 6369051672525772 / 9007199254740992. Proof. unfold rsp, B2R. numbers. reflexivity. Qed.
Lemma rcp_val : B2R rcp = 6369051672525773 / 9007199254740992. Proof. unfold rcp, B2R. numbers. reflexivity. Qed.

Lemma rounding_refuted : exists st ct sp cp one : double, B2R one = 1 /\
  Rabs (B2R st ^ 2 + B2R ct ^ 2 - 1) <= / 2 ^ 52 /\ Rabs (B2R sp ^ 2 + B2R cp ^ 2 - 1) <= / 2 ^ 52 /\
  Forall2 (fun x y => Rabs (B2R x - y) <= / 10 ^ 9) (obsPointF st ct sp cp)
    [10 ^ 6 * B2R st * B2R cp; 10 ^ 6 * B2R st * B2R sp; 10 ^ 6 * B2R ct] /\
  forall norm, norm = normScaled \/ norm = normPlain ->
    Rabs (B2R (norm (obsPointF st ct sp cp)) - 10 ^ 6) <= / 10 ^ 9 /\ Rabs (B2R (norm [one; one; one]) ^ 2 - 3) <= / 2 ^ 50 /\
    is_finite (acosArg norm (obsPointF st ct sp cp) [one; one; one]) = true /\
    1 < B2R (acosArg norm (obsPointF st ct sp cp) [one; one; one]) /\
    acosIsNaN (acosArg norm (obsPointF st ct sp cp) [one; one; one]) = true.
Proof.
  exists rst, rct, rsp, rcp, done. split; [exact (proj1 done_val)|].
  split; [rewrite rst_val, rct_val; apply Rabs_le; split; lra|].
  split; [rewrite rsp_val, rcp_val; apply Rabs_le; split; lra|].
  split.
  { rewrite rst_val, rct_val, rsp_val, rcp_val. unfold obsPointF.
    assert (A : B2SF (dmul (dmul dradius rst) rcp) = SpecFloat.S754_finite false 4959401049012478 (-33)) by (vm_compute; reflexivity).
    assert (B : B2SF (dmul (dmul dradius rst) rsp) = SpecFloat.S754_finite false 4959401049012478 (-33)) by (vm_compute; reflexivity).
    assert (C : B2SF (dmul dradius rct) = SpecFloat.S754_finite false 4959401049012479 (-33)) by (vm_compute; reflexivity).
    apply from_sf in A, B, C. destruct A as [A _], B as [B _], C as [C _].
    apply Forall2_cons; [rewrite A; numbers; apply Rabs_le; split; lra|].
    apply Forall2_cons; [rewrite B; numbers; apply Rabs_le; split; lra|].
    apply Forall2_cons; [rewrite C; numbers; apply Rabs_le; split; lra|]. apply Forall2_nil. }
  intros norm Hn.
  assert (N : B2SF (norm (obsPointF rst rct rsp rcp)) = SpecFloat.S754_finite false 8589934592000000 (-33)) by (destruct Hn; subst norm; vm_compute; reflexivity).
  assert (M : B2SF (norm [done; done; done]) = SpecFloat.S754_finite false 7800463371553962 (-52)) by (destruct Hn; subst norm; vm_compute; reflexivity).
  assert (Q : B2SF (acosArg norm (obsPointF rst rct rsp rcp) [done; done; done]) = SpecFloat.S754_finite false 4503599627370497 (-52)) by (destruct Hn; subst norm; vm_compute; reflexivity).
  assert (W : acosIsNaN (acosArg norm (obsPointF rst rct rsp rcp) [done; done; done]) = true) by (destruct Hn; subst norm; vm_compute; reflexivity).
  apply from_sf in N, M, Q. destruct N as [N _], M as [M _], Q as [Q F].
  rewrite N, M, Q. split; [numbers; apply Rabs_le; split; lra|]. split; [numbers; apply Rabs_le; split; lra|].
  split; [exact F|]. split; [numbers; lra|exact W].
Qed.

(** Points for which the phase is a number. *)
Lemma ex_domain : acosIsNaN done = false /\ acosIsNaN (acosArg normPlain [done; dzero; dzero] [done; done; dzero]) = false /\ acosIsNaN (B754_nan) = true.
Proof. repeat split; vm_compute; reflexivity. Qed.

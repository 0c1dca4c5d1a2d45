From Coq Require Import ZArith List Bool Reals Lia Lra Psatz.
From Verif Require Import Common Nodal_Proofs Sub_Proofs SubGeo_Proofs Step_Model Step_Spec.
Import ListNotations.
Local Open Scope R_scope.

(** ** Lengths and areas *)
Lemma edge_dist : forall n a b, (n <= 3)%Z -> edgeLength n [a; b] = Ok (dist n a b).
Proof.
  intros n [[a1 a2] a3] [[b1 b2] b3] Hn. unfold edgeLength, dist. cbn [zget bind].
  assert (n <= 0 \/ n = 1 \/ n = 2 \/ n = 3)%Z as [C|[C|[C|C]]] by lia.
  - replace (Z.to_nat n) with 0%nat by lia. unfold dist2.
    rewrite !(proj2 (Z.ltb_ge _ n)) by lia.
    change (zget [(a1, a2, a3); (b1, b2, b3)] 0) with (Ok (a1, a2, a3)).
    change (zget [(a1, a2, a3); (b1, b2, b3)] 1) with (Ok (b1, b2, b3)). cbn [bind].
    change (zseq 0) with (@nil Z). cbn [fold_left]. f_equal. f_equal. ring.
  - subst n. change (Z.to_nat 1) with 1%nat. change (zseq 1) with [0%Z].
    change (zget [(a1, a2, a3); (b1, b2, b3)] 0) with (Ok (a1, a2, a3)).
    change (zget [(a1, a2, a3); (b1, b2, b3)] 1) with (Ok (b1, b2, b3)). cbn [bind fold_left].
    f_equal. f_equal. unfold dist2, sq, coord. cbn. ring.
  - subst n. change (Z.to_nat 2) with 2%nat. change (zseq 2) with [0%Z; 1%Z].
    change (zget [(a1, a2, a3); (b1, b2, b3)] 0) with (Ok (a1, a2, a3)).
    change (zget [(a1, a2, a3); (b1, b2, b3)] 1) with (Ok (b1, b2, b3)). cbn [bind fold_left].
    f_equal. f_equal. unfold dist2, sq, coord. cbn. ring.
  - subst n. change (Z.to_nat 3) with 3%nat. change (zseq 3) with [0%Z; 1%Z; 2%Z].
    change (zget [(a1, a2, a3); (b1, b2, b3)] 0) with (Ok (a1, a2, a3)).
    change (zget [(a1, a2, a3); (b1, b2, b3)] 1) with (Ok (b1, b2, b3)). cbn [bind fold_left].
    f_equal. f_equal. unfold dist2, sq, coord. cbn. ring.
Qed.

Lemma face_area : forall a b c rest, faceArea (a :: b :: c :: rest) = Ok (triArea a b c).
Proof.
  intros [[a1 a2] a3] [[b1 b2] b3] [[c1 c2] c3] rest. unfold faceArea.
  change (zget ((a1, a2, a3) :: (b1, b2, b3) :: (c1, c2, c3) :: rest) 0) with (Ok (a1, a2, a3)).
  change (zget ((a1, a2, a3) :: (b1, b2, b3) :: (c1, c2, c3) :: rest) 1) with (Ok (b1, b2, b3)).
  change (zget ((a1, a2, a3) :: (b1, b2, b3) :: (c1, c2, c3) :: rest) 2) with (Ok (c1, c2, c3)).
  cbn [bind]. f_equal. unfold triArea, coord.
  change (0 =? 0)%Z with true. change (1 =? 0)%Z with false. change (1 =? 1)%Z with true.
  change (2 =? 0)%Z with false. change (2 =? 1)%Z with false. cbn [fst snd].
  match goal with |- _ = sqrt ?h / 4 => match goal with |- _ * sqrt ?g = _ =>
    replace h with (2 * 2 * g) end end.
  2:{ unfold heron16, dist2, sq. change (0 <? 3)%Z with true. change (1 <? 3)%Z with true.
      change (2 <? 3)%Z with true. cbv iota. ring. }
  rewrite sqrt_mult_alt by lra. rewrite sqrt_square by lra. lra.
Qed.

Lemma measure_face : forall m f x, (m_sdim m <= 3)%Z -> measure m f x ->
  (if (m_dim m =? 2)%Z then edgeLength (m_sdim m) f else faceArea f) = Ok x.
Proof.
  unfold measure. intros m f x Hs H. destruct (m_dim m =? 2)%Z.
  - destruct H as (a & b & -> & ->). now apply edge_dist.
  - destruct H as (a & b & c & r & -> & ->). apply face_area.
Qed.

Lemma area_sum : forall m fs xs s0, (m_sdim m <= 3)%Z -> Forall2 (measure m) fs xs ->
  foldM (fun s f => a <- (if (m_dim m =? 2)%Z then edgeLength (m_sdim m) f else faceArea f) ;; Ok (s + a)) fs s0
  = Ok (s0 + fold_right Rplus 0 xs).
Proof.
  intros m fs xs s0 Hs H. revert s0. induction H as [|f x fs xs Hf _ IH]; intros s0; cbn [foldM fold_right].
  - f_equal; lra.
  - rewrite (measure_face _ _ _ Hs Hf). cbn [bind]. rewrite IH. f_equal; lra.
Qed.

Lemma boundary_sum : forall m e s, (m_sdim m <= 3)%Z -> boundary m e s -> faceAreaSum m e = Ok s.
Proof. intros m e s Hs (xs & F & ->). unfold faceAreaSum. rewrite (area_sum _ _ _ _ Hs F). f_equal; lra. Qed.

Lemma boundary_fun : forall m e s s', (m_sdim m <= 3)%Z -> boundary m e s -> boundary m e s' -> s = s'.
Proof. intros m e s s' Hs A B. apply boundary_sum in A; auto. apply boundary_sum in B; auto. congruence. Qed.

Lemma scale1 : forall m e s, (m_sdim m <= 3)%Z -> boundary m e s ->
  timeStepScale1 m e = Ok (e_volume e / (s / 2)).
Proof. intros m e s Hs B. unfold timeStepScale1. now rewrite (boundary_sum _ _ _ Hs B). Qed.

(** ** The minimum *)
Lemma fold_min : forall rest x,
  let r := fold_left (fun m y => if Rlt_dec y m then y else m) rest x in
  In r (x :: rest) /\ (forall y, In y (x :: rest) -> r <= y).
Proof.
  induction rest as [|y rest IH]; intros x; cbn [fold_left].
  - split; [now left|]. intros y [<-|[]]; lra.
  - destruct (Rlt_dec y x) as [l|l].
    + destruct (IH y) as (A & B). split.
      * right. exact A.
      * intros z [<-|Hz]; [|now apply B]. specialize (B y (or_introl eq_refl)). lra.
    + destruct (IH x) as (A & B). split.
      * destruct A as [A|A]; [left; exact A|right; right; exact A].
      * intros z [<-|[<-|Hz]]; [apply B; now left| |apply B; now right].
        specialize (B x (or_introl eq_refl)). lra.
Qed.

Lemma min_spec : forall l, l <> [] -> exists r, vectorMin l = Ok r /\ In r l /\ (forall y, In y l -> r <= y).
Proof.
  intros [|x rest] H; [congruence|]. destruct (fold_min rest x) as (A & B).
  eexists; split; [reflexivity|]. now split.
Qed.

Lemma min_unique : forall l r, vectorMin l = Ok r -> In r l /\ (forall y, In y l -> r <= y).
Proof. intros [|x rest] r H; [discriminate|]. injection H as <-. apply fold_min. Qed.

Lemma scales : forall m, (m_sdim m <= 3)%Z -> Forall (usable m) (m_elements m) ->
  exists l, timeStepScale m = Ok l /\
    Forall2 (fun e x => exists s, boundary m e s /\ 0 < s /\ 0 < e_volume e /\ x = 2 * e_volume e / s) (m_elements m) l.
Proof.
  intros m Hs F. unfold timeStepScale. induction (m_elements m) as [|e es IH]; cbn [mapM].
  - exists []. split; constructor.
  - inversion F as [|? ? (V & s & B & P) F']; subst. destruct (IH F') as (l & E & G).
    rewrite (scale1 _ _ _ Hs B), E. cbn [bind]. eexists; split; [reflexivity|].
    constructor; auto. exists s. repeat split; auto. field. lra.
Qed.

Definition divisorOf (dim : Z) : R := if (dim =? 2)%Z then 2 else 6.
Definition specialOf (dim : Z) : etype := if (dim =? 2)%Z then Quadrilateral else Hexahedron.
(** One half of the node spacing times the measure. *)
Lemma mesh_step : forall gl m p n0 n1 ns d sp, (m_sdim m <= 3)%Z -> m_elements m <> [] ->
  Forall (usable m) (m_elements m) -> gl p = n0 :: n1 :: ns ->
  exists x, calcMeshTimeStep gl m p d sp
     = Ok (x * Rabs (n0 - n1) / 2 / (if elemTypeInMesh (m_elements m) sp then d else 1)) /\ 0 < x /\
    (exists e s, In e (m_elements m) /\ boundary m e s /\ x = 2 * e_volume e / s) /\
    (forall e s, In e (m_elements m) -> boundary m e s -> x <= 2 * e_volume e / s).
Proof.
  intros gl m p n0 n1 ns d sp Hs Hne F G. destruct (scales m Hs F) as (l & El & Fl).
  assert (l <> []) as Hl.
  { intros ->. inversion Fl as [E|]. now rewrite <- E in Hne. }
  destruct (min_spec l Hl) as (r & Er & Hin & Hmin).
  unfold calcMeshTimeStep. rewrite El. cbn [bind]. unfold jacobiRMin. rewrite G.
  change (zget (n0 :: n1 :: ns) 0) with (Ok n0). change (zget (n0 :: n1 :: ns) 1) with (Ok n1). cbn [bind].
  rewrite Er. cbn [bind]. exists r. destruct (F2_in_r _ _ _ _ Fl Hin) as (e & He & s & B & P & V & ->).
  split; [|split; [|split]].
  - unfold speedOfLight, Rdiv. rewrite !Rinv_1. generalize (Rabs (n0 - n1)). intros ab.
    destruct (elemTypeInMesh _ _); rewrite ?Rinv_1; [generalize (/ d); intros i|]; apply f_equal; field; lra.
  - apply Rmult_lt_0_compat; [lra|now apply Rinv_0_lt_compat].
  - exists e, s. auto.
  - intros e' s' He' B'. destruct (F2_in_l _ _ _ _ Fl He') as (y & Hy & s2 & B2 & _ & _ & ->).
    rewrite (boundary_fun m e' s' s2 Hs B' B2). now apply Hmin.
Qed.

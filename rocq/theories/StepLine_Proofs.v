From Coq Require Import ZArith List Bool Reals Lia Lra Psatz Permutation.
From Verif Require Import Common Nodal_Proofs Sub_Proofs SubGeo_Proofs Step_Model Step_Spec Step_Proofs StepGeo_Proofs StepMain_Proofs.
Import ListNotations.
Local Open Scope R_scope.

(** ** One dimension *)
Lemma stdmin_spec : forall a b, (stdmin a b = a \/ stdmin a b = b) /\ stdmin a b <= a /\ stdmin a b <= b.
Proof. intros a b. unfold stdmin. destruct (Rlt_dec b a); lra. Qed.

Lemma row_min : forall x l r,
  let s := fold_left (fun r y => stdmin r (Rabs (x - y))) l r in
  (s = r \/ exists y, In y l /\ s = Rabs (x - y)) /\ s <= r /\ (forall y, In y l -> s <= Rabs (x - y)).
Proof.
  intros x l. induction l as [|z l IH]; intros r; cbn [fold_left].
  - split; [now left|split; [lra|intros y []]].
  - destruct (IH (stdmin r (Rabs (x - z)))) as (A & B & C). destruct (stdmin_spec r (Rabs (x - z))) as (A1 & B1 & C1).
    split; [|split].
    + destruct A as [A|(y & I & A)]; [|right; exists y; split; [now right|exact A]].
      rewrite A. destruct A1 as [A1|A1]; rewrite A1; [now left|]. right. exists z. split; [now left|reflexivity].
    + lra.
    + intros y [<-|I]; [lra|]. now apply C.
Qed.

Lemma pairs_min : forall l r,
  (pairsMin r l = r \/ exists i j x y, i <> j /\ nth_error l i = Some x /\ nth_error l j = Some y /\ pairsMin r l = Rabs (x - y)) /\
  pairsMin r l <= r /\
  (forall i j x y, i <> j -> nth_error l i = Some x -> nth_error l j = Some y -> pairsMin r l <= Rabs (x - y)).
Proof.
  induction l as [|z l IH]; intros r; cbn [pairsMin].
  - split; [now left|split; [lra|]]. intros [|i] j x y _ H; discriminate H.
  - destruct (row_min z l r) as (A & B & C). set (s := fold_left _ l r) in *.
    destruct (IH s) as (A1 & B1 & C1). split; [|split].
    + destruct A1 as [A1|(i & j & x & y & N & Hi & Hj & A1)].
      * rewrite A1. destruct A as [A|(y & I & A)]; [now left|]. right.
        apply In_nth_error in I. destruct I as (j & Hj). exists 0%nat, (S j), z, y. repeat split; auto.
      * right. exists (S i), (S j), x, y. repeat split; auto.
    + lra.
    + intros i j x y N Hi Hj. destruct i as [|i], j as [|j]; cbn [nth_error] in *; try congruence.
      * injection Hi as <-. apply nth_error_In in Hj. specialize (C y Hj). lra.
      * injection Hj as <-. apply nth_error_In in Hi. specialize (C x Hi). rewrite Rabs_minus_sym. lra.
      * apply (C1 i j); auto.
Qed.

Lemma element_min : forall e r,
  let s := match e_nodes e with [_] => stdmin r (e_size e) | ns => pairsMin r ns end in
  (s = r \/ nodeGap e s) /\ s <= r /\ (forall d, nodeGap e d -> s <= d).
Proof.
  intros e r. unfold nodeGap. destruct (e_nodes e) as [|a [|b l]].
  - destruct (pairs_min [] r) as (A & B & C). split; [|split]; auto.
    intros d (i & j & x & y & N & Hi & Hj & ->). eauto.
  - destruct (stdmin_spec r (e_size e)) as ([A|A] & B & C); rewrite ?A in *; (split; [|split]); auto; intros d ->; lra.
  - destruct (pairs_min (a :: b :: l) r) as (A & B & C). split; [|split]; auto.
    + intros d (i & j & x & y & N & Hi & Hj & ->). eauto.
Qed.

Lemma line_min : forall es r,
  let s := minimumInterNodeDistance r es in
  (s = r \/ exists e, In e es /\ nodeGap e s) /\ s <= r /\ (forall e d, In e es -> nodeGap e d -> s <= d).
Proof.
  unfold minimumInterNodeDistance. induction es as [|e es IH]; intros r; cbn [fold_left].
  - split; [now left|split; [lra|intros e d []]].
  - destruct (element_min e r) as (A & B & C).
    set (s := match e_nodes e with [_] => stdmin r (e_size e) | ns => pairsMin r ns end) in *.
    destruct (IH s) as (A1 & B1 & C1). split; [|split].
    + destruct A1 as [A1|(e' & I & A1)]; [|right; exists e'; split; [now right|exact A1]].
      rewrite A1. destruct A as [A|A]; [now left|]. right. exists e. split; [now left|exact A].
    + lra.
    + intros e' d [<-|I] N; [specialize (C d N); lra|eauto].
Qed.

Lemma power_three_halves : forall p, 0 < p -> Rpower p (3 / 2) = p * sqrt p.
Proof.
  intros p H. replace (3 / 2) with (1 + / 2) by field. rewrite Rpower_plus, Rpower_1, Rpower_sqrt; auto.
Qed.

Theorem step_line : forall dmax gl st m o e0 d0,
  m_dim m = 1%Z -> (0 <= so_order o)%Z -> In e0 (m_elements m) -> nodeGap e0 d0 -> d0 <= dmax ->
  exists d, estimateTimeStep dmax gl st m o
      = Ok (so_cfl o * (d / (if (so_order o =? 0)%Z then 1 else IZR (so_order o) * sqrt (IZR (so_order o))))) /\
    (exists e, In e (m_elements m) /\ nodeGap e d) /\
    (forall e d', In e (m_elements m) -> nodeGap e d' -> d <= d').
Proof.
  intros dmax gl st m o e0 d0 D P I0 G0 L0.
  destruct (line_min (m_elements m) dmax) as (A & B & C). set (s := minimumInterNodeDistance dmax (m_elements m)) in *.
  exists s. split; [|split].
  - unfold estimateTimeStep. rewrite D. cbn [Z.eqb Pos.eqb]. fold s. unfold speedOfLight.
    destruct (Z.eqb_spec (so_order o) 0) as [|N]; apply f_equal; [field|].
    assert (0 < IZR (so_order o)) as Q by (apply IZR_lt; lia).
    rewrite power_three_halves by exact Q. pose proof (sqrt_lt_R0 _ Q). field. split; lra.
  - destruct A as [A|A]; auto. exists e0. split; auto. specialize (C e0 d0 I0 G0).
    replace s with d0; auto. lra.
  - exact C.
Qed.

Theorem step_line_positive : forall dmax gl st m o e0 d0,
  m_dim m = 1%Z -> (0 <= so_order o)%Z -> In e0 (m_elements m) -> nodeGap e0 d0 -> d0 <= dmax -> 0 < so_cfl o ->
  (forall e d, In e (m_elements m) -> nodeGap e d -> 0 < d) ->
  exists dt, estimateTimeStep dmax gl st m o = Ok dt /\ 0 < dt.
Proof.
  intros dmax gl st m o e0 d0 D P I0 G0 L0 Hc Hp.
  destruct (step_line dmax gl st m o e0 d0 D P I0 G0 L0) as (d & E & (e & I & G) & _).
  eexists; split; [exact E|]. specialize (Hp e d I G).
  destruct (Z.eqb_spec (so_order o) 0) as [|N].
  - apply Rmult_lt_0_compat; auto. lra.
  - assert (0 < IZR (so_order o)) as Q by (apply IZR_lt; lia). pose proof (sqrt_lt_R0 _ Q).
    apply Rmult_lt_0_compat; auto. apply Rmult_lt_0_compat; auto. apply Rinv_0_lt_compat. now apply Rmult_lt_0_compat.
Qed.

(** ** The factor of the options *)
Theorem step_cfl : forall dmax gl st m p c op dt,
  estimateTimeStep dmax gl st m (mkStepOptions p 1 op) = Ok dt ->
  estimateTimeStep dmax gl st m (mkStepOptions p c op) = Ok (c * dt).
Proof.
  unfold estimateTimeStep. intros dmax gl st m p c op dt. cbn [so_order so_cfl so_op].
  destruct (m_dim m =? 1)%Z.
  { intros H. injection H as <-. apply f_equal. ring. }
  assert (forall d sp, (t <- calcMeshTimeStep gl m p d sp ;; Ok (t * c))
    = (b <- (t <- calcMeshTimeStep gl m p d sp ;; Ok (t * 1)) ;; Ok (c * b))) as K.
  { intros. destruct (calcMeshTimeStep gl m p d sp); cbn [bind]; auto. apply f_equal. ring. }
  rewrite !K. clear K.
  set (B := if (m_dim m =? 2)%Z then _ else _). intros H.
  assert ((if (m_dim m =? 2)%Z
      then b <- (t <- calcMeshTimeStep gl m p 2 Quadrilateral;; Ok (t * 1));; Ok (c * b)
      else if (m_dim m =? 3)%Z
           then b <- (t <- calcMeshTimeStep gl m p 6 Hexahedron;; Ok (t * 1));; Ok (c * b) else Throw)
    = (b <- B ;; Ok (c * b))) as ->.
  { subst B. destruct (m_dim m =? 2)%Z; auto. destruct (m_dim m =? 3)%Z; auto. }
  destruct B as [b| |]; cbn [bind] in *; try discriminate H.
  destruct op, (m_dim m =? 3)%Z; try (injection H as <-; apply f_equal; unfold Rdiv; ring).
  destruct (foldM _ _ _) as [mx| |]; cbn [bind] in *; try discriminate H.
  injection H as <-. apply f_equal. unfold Rdiv. ring.
Qed.

(** ** The ranks *)
Theorem step_ranks : forall dmax gl st st' m o, (so_op o = Hesthaven -> m_dim m <> 3%Z) ->
  estimateTimeStep dmax gl st m o = estimateTimeStep dmax gl st' m o.
Proof.
  intros dmax gl st st' m o H. unfold estimateTimeStep. destruct (m_dim m =? 1)%Z; auto.
  match goal with |- (b <- ?B ;; _) = _ => destruct B as [b| |]; cbn [bind]; auto end.
  destruct (so_op o); auto. destruct (Z.eqb_spec (m_dim m) 3) as [E|]; auto. now contradiction (H eq_refl).
Qed.

(** ** The nodal operator in space *)
Lemma fold_max : forall rest x,
  let r := fold_left (fun m y => if Rlt_dec m y then y else m) rest x in
  In r (x :: rest) /\ (forall y, In y (x :: rest) -> y <= r).
Proof.
  induction rest as [|y rest IH]; intros x; cbn [fold_left].
  - split; [now left|]. intros y [<-|[]]; lra.
  - destruct (Rlt_dec x y) as [l|l].
    + destruct (IH y) as (A & B). split.
      * right. exact A.
      * intros z [<-|Hz]; [|now apply B]. specialize (B y (or_introl eq_refl)). lra.
    + destruct (IH x) as (A & B). split.
      * destruct A as [A|A]; [left; exact A|right; right; exact A].
      * intros z [<-|[<-|Hz]]; [apply B; now left| |apply B; now right].
        specialize (B x (or_introl eq_refl)). lra.
Qed.

Definition hesFold (st : list (list R)) :=
  fun mx e => fs <- zget st e ;; f <- maxCoeff fs ;; Ok (if Rlt_dec mx f then f else mx).

Lemma hes_scan : forall st n, (n <= length st)%nat -> Forall (fun l => l <> []) (firstn n st) ->
  exists M, foldM (hesFold st) (zseq n) 0 = Ok M /\ 0 <= M /\
    (M = 0 \/ exists l, In l (firstn n st) /\ In M l) /\
    (forall l x, In l (firstn n st) -> In x l -> x <= M).
Proof.
  intros st. induction n as [|n IH]; intros L F.
  - exists 0. repeat split; auto; try lra. intros l x [].
  - assert (exists l, nth_error st n = Some l) as (l & El).
    { destruct (nth_error st n) eqn:E; eauto. apply nth_error_None in E. lia. }
    assert (firstn (S n) st = firstn n st ++ [l]) as Ef.
    { clear - El. revert n El. induction st as [|a st IH]; intros [|n] H; try discriminate H; cbn in *.
      - now injection H as ->.
      - now rewrite (IH n H). }
    rewrite Ef in F. apply Forall_app in F. destruct F as (F & Fl). inversion Fl as [|? ? Nl _]; subst.
    destruct (IH ltac:(lia) F) as (M & E & P & A & B).
    rewrite zseq_S, foldM_app, E. cbn [bind foldM]. unfold hesFold at 1.
    destruct (zget_in_range st (Z.of_nat n) ltac:(lia)) as (l' & Eg & En). rewrite Nat2Z.id, El in En. injection En as <-.
    rewrite Eg. cbn [bind].
    destruct l as [|x rest]; [congruence|]. cbn [maxCoeff bind].
    destruct (fold_max rest x) as (X & Y). set (r := fold_left _ rest x) in *.
    eexists; split; [reflexivity|]. rewrite Ef. destruct (Rlt_dec M r) as [lt|ge].
    + split; [lra|]. split.
      * right. exists (x :: rest). split; [apply in_or_app; right; now left|exact X].
      * intros l' y I Iy. apply in_app_or in I. destruct I as [I|[<-|[]]]; [|now apply Y].
        specialize (B l' y I Iy). lra.
    + split; [lra|]. split.
      * destruct A as [A|(l' & I & A)]; [now left|right; exists l'; split; [apply in_or_app; now left|exact A]].
      * intros l' y I Iy. apply in_app_or in I. destruct I as [I|[<-|[]]]; [now apply (B l')|].
        specialize (Y y Iy). lra.
Qed.

Lemma base_ok : forall gl m o n0 n1 ns, m_dim m = 3%Z -> (m_sdim m <= 3)%Z ->
  m_elements m <> [] -> Forall (usable m) (m_elements m) -> gl (so_order o) = n0 :: n1 :: ns ->
  exists t, calcMeshTimeStep gl m (so_order o) 6 Hexahedron = Ok t.
Proof.
  intros gl m o n0 n1 ns D S Hne F G.
  destruct (mesh_step gl m (so_order o) n0 n1 ns 6 Hexahedron S Hne F G) as (x & E & _). eauto.
Qed.

Theorem step_hesthaven : forall dmax gl st m o n0 n1 ns l0 x0,
  m_dim m = 3%Z -> (m_sdim m <= 3)%Z -> so_op o = Hesthaven -> (0 < so_order o)%Z ->
  m_elements m <> [] -> Forall (usable m) (m_elements m) -> gl (so_order o) = n0 :: n1 :: ns ->
  length st = length (m_elements m) -> Forall (fun l => l <> []) st ->
  In l0 st -> In x0 l0 -> 0 < x0 ->
  exists M, estimateTimeStep dmax gl st m o = Ok (so_cfl o / (M * (IZR (so_order o) * IZR (so_order o)))) /\ 0 < M /\
    (exists l, In l st /\ In M l) /\ (forall l x, In l st -> In x l -> x <= M).
Proof.
  intros dmax gl st m o n0 n1 ns l0 x0 D S Op P Hne F G L Fs I0 Ix P0.
  destruct (base_ok gl m o n0 n1 ns D S Hne F G) as (t & E).
  assert (firstn (length (m_elements m)) st = st) as Ef by (rewrite <- L; apply firstn_all).
  destruct (hes_scan st (length (m_elements m))) as (M & EM & PM & A & B); [lia|now rewrite Ef|].
  rewrite Ef in A, B. exists M. unfold estimateTimeStep. rewrite D, Op. cbn [Z.eqb Pos.eqb].
  rewrite E. cbn [bind]. unfold hesFold in EM. rewrite EM. cbn [bind].
  assert (0 < M) by (specialize (B l0 x0 I0 Ix); lra).
  split; [|split; [auto|split]].
  - apply f_equal. assert (0 < IZR (so_order o)) by (apply IZR_lt; lia). field. lra.
  - destruct A as [A|A]; [lra|exact A].
  - exact B.
Qed.

(** ** What fails *)
Lemma hes_oob : forall st n, (length st < n)%nat -> Forall (fun l => l <> []) st ->
  foldM (hesFold st) (zseq n) 0 = UB.
Proof.
  intros st n L F. induction n as [|n IH]; [lia|]. rewrite zseq_S, foldM_app.
  destruct (Nat.eq_dec (length st) n) as [E|N].
  - destruct (hes_scan st n) as (M & -> & _); [lia| |].
    { rewrite <- E, firstn_all. exact F. }
    cbn [bind foldM]. unfold hesFold at 1. rewrite zget_oob; auto. lia.
  - rewrite IH by lia. reflexivity.
Qed.

(** A rank that does not store every element of the whole mesh as straight-sided
    reads past the end of its storage. *)
Theorem step_hesthaven_oob : forall dmax gl st m o n0 n1 ns,
  m_dim m = 3%Z -> (m_sdim m <= 3)%Z -> so_op o = Hesthaven ->
  m_elements m <> [] -> Forall (usable m) (m_elements m) -> gl (so_order o) = n0 :: n1 :: ns ->
  Forall (fun l => l <> []) st -> (length st < length (m_elements m))%nat ->
  estimateTimeStep dmax gl st m o = UB.
Proof.
  intros dmax gl st m o n0 n1 ns D S Op Hne F G Fs L.
  destruct (base_ok gl m o n0 n1 ns D S Hne F G) as (t & E).
  unfold estimateTimeStep. rewrite D, Op. cbn [Z.eqb Pos.eqb]. rewrite E. cbn [bind].
  change (foldM _ (zseq (length (m_elements m))) 0) with (foldM (hesFold st) (zseq (length (m_elements m))) 0).
  rewrite hes_oob; auto.
Qed.

Theorem step_order0 : forall dmax gl st m o n0,
  (m_dim m = 2 \/ m_dim m = 3)%Z -> (m_sdim m <= 3)%Z -> so_order o = 0%Z ->
  Forall (usable m) (m_elements m) -> gl 0%Z = [n0] -> estimateTimeStep dmax gl st m o = UB.
Proof.
  intros dmax gl st m o n0 D S P F G. unfold estimateTimeStep. rewrite P.
  destruct (scales m S F) as (l & El & _).
  assert (forall d sp, calcMeshTimeStep gl m 0 d sp = UB) as K.
  { intros. unfold calcMeshTimeStep. rewrite El. cbn [bind]. unfold jacobiRMin. rewrite G. reflexivity. }
  destruct D as [D|D]; rewrite D; cbn [Z.eqb Pos.eqb]; rewrite K; reflexivity.
Qed.

(** A face that is a parallelogram counts half of its area. *)
Theorem face_half : forall a1 a2 a3 u1 u2 u3 v1 v2 v3,
  let a := (a1, a2, a3) in let b := (a1 + u1, a2 + u2, a3 + u3) in
  let d := (a1 + v1, a2 + v2, a3 + v3) in let c := (a1 + u1 + v1, a2 + u2 + v2, a3 + u3 + v3) in
  exists x, faceArea [a; b; c; d] = Ok x /\ triArea a b c + triArea a c d = 2 * x.
Proof.
  intros. exists (triArea a b c). split; [apply face_area|].
  enough (triArea a c d = triArea a b c) by lra. unfold triArea. rewrite !heron_normal. f_equal. f_equal. f_equal.
  subst a b c d. unfold normal2, sq. ring.
Qed.

(** Proofs about the face integrators. *)
From Coq Require Import ZArith List Bool Reals Lia Lra.
From Verif Require Import Common Nodal_Spec Nodal_Proofs NodalMult_Proofs NodalEnergy_Proofs Face_Model Face_Spec.
Import ListNotations.
Local Open Scope R_scope.

(** ** Sums over an index *)
Lemma sumN_zero : forall n f, (forall i, (i < n)%nat -> f i = 0) -> sumN n f = 0.
Proof.
  intros n f H. rewrite (sumN_ext n f (fun _ => 0)) by exact H. unfold sumN.
  induction (seq 0 n); cbn [map fold_right]; [|rewrite IHl]; ring.
Qed.
Lemma sumN_delta : forall n k g, (k < n)%nat -> sumN n (fun i => if (i =? k)%nat then g i else 0) = g k.
Proof.
  intros n k g Hk. rewrite suml_sumN.
  assert (In k (seq 0 n)) as Hin by (apply in_seq; lia).
  pose proof (seq_NoDup n 0) as ND. revert Hin ND. generalize (seq 0 n).
  induction l as [|a t IH]; intros Hin ND; [destruct Hin|].
  unfold suml in *. cbn [map fold_right]. inversion ND; subst. destruct Hin as [->|Hin].
  - rewrite Nat.eqb_refl.
    replace (fold_right Rplus 0 (map (fun i => if (i =? k)%nat then g i else 0) t)) with 0; [ring|].
    symmetry. clear IH. induction t as [|b t IHt]; [reflexivity|]. cbn [map fold_right]. inversion H2; subst.
    rewrite IHt; [|intro; apply H1; right; assumption|constructor; [|apply H4]; intro; apply H1; right; assumption|assumption].
    replace (b =? k)%nat with false; [ring|]. symmetry. apply Nat.eqb_neq. intro; subst. apply H1. left; reflexivity.
  - replace (a =? k)%nat with false; [|symmetry; apply Nat.eqb_neq; intro; subst; contradiction].
    rewrite IH by assumption. ring.
Qed.

(** ** One block *)
Lemma mform_madd : forall n i j x M M', madd n i j x M = Ok M' ->
  forall v u, mform n M' v u = mform n M v u + v i * x * u j.
Proof.
  intros n i j x M M' H v u. unfold madd in H. destruct ((i <? n)%nat && (j <? n)%nat)%bool eqn:E; [|discriminate].
  apply andb_true_iff in E. destruct E as [Ei Ej]. apply Nat.ltb_lt in Ei, Ej. injection H as <-. unfold mform.
  rewrite (sumN_ext n _ (fun a => sumN n (fun b => v a * M a b * u b) + (if (a =? i)%nat then v a * x * u j else 0))).
  - rewrite sumN_plus. f_equal. rewrite (sumN_delta n i (fun a => v a * x * u j) Ei). reflexivity.
  - intros a Ha. destruct (a =? i)%nat eqn:Ea; cbn [andb].
    + rewrite (sumN_ext n _ (fun b => v a * M a b * u b + (if (b =? j)%nat then v a * x * u b else 0))).
      * rewrite sumN_plus. f_equal. apply (sumN_delta n j (fun b => v a * x * u b) Ej).
      * intros b _. destruct (b =? j)%nat; ring.
    + ring.
Qed.

Lemma vget_ok : forall l i, (i < length l)%nat -> vget l i = Ok (nth i l 0).
Proof. intros l i H. unfold vget. rewrite (nth_error_nth' l 0 H). reflexivity. Qed.
Lemma madd_ok : forall n i j x M, (i < n)%nat -> (j < n)%nat -> exists M', madd n i j x M = Ok M'.
Proof.
  intros n i j x M Hi Hj. unfold madd. apply Nat.ltb_lt in Hi, Hj. rewrite Hi, Hj. eexists; reflexivity.
Qed.

Lemma inner_loop : forall n w i oR oC sA sB l M,
  (i < length sA)%nat -> (i + oR < n)%nat -> (forall j, In j l -> (j < length sB)%nat /\ (j + oC < n)%nat) ->
  exists M', foldM (fun M j => a <- vget sA i ;; b <- vget sB j ;;
      madd n (i + oR) (j + oC) (if (oR =? oC)%nat then w * a * b else - (w * a * b)) M) l M = Ok M' /\
    forall v u, mform n M' v u = mform n M v u +
      (if (oR =? oC)%nat then 1 else -1) * w * (nth i sA 0 * v (i + oR)%nat) * suml (fun j => nth j sB 0 * u (j + oC)%nat) l.
Proof.
  intros n w i oR oC sA sB l. induction l as [|j t IH]; intros M Hi Hr Hl.
  - exists M. split; [reflexivity|]. intros. unfold suml. cbn [map fold_right]. ring.
  - cbn [foldM]. destruct (Hl j (or_introl eq_refl)) as [H1 H2].
    rewrite (vget_ok sA i Hi), (vget_ok sB j H1). cbn [bind].
    destruct (madd_ok n (i + oR) (j + oC) (if (oR =? oC)%nat then w * nth i sA 0 * nth j sB 0 else - (w * nth i sA 0 * nth j sB 0)) M Hr H2) as [M1 E1].
    rewrite E1. cbn [bind]. destruct (IH M1 Hi Hr (fun k Hk => Hl k (or_intror Hk))) as [M' [E' F']].
    rewrite (vget_ok sA i Hi) in E'. cbn [bind] in E'.
    exists M'. split; [exact E'|]. intros v u. rewrite F', (mform_madd _ _ _ _ _ _ E1). unfold suml. cbn [map fold_right].
    destruct (oR =? oC)%nat; ring.
Qed.

Lemma block_loop : forall n w nB oR oC sA sB l M,
  length sB = nB -> (nB + oC <= n)%nat -> (forall i, In i l -> (i < length sA)%nat /\ (i + oR < n)%nat) ->
  exists M', foldM (fun M i => foldM (fun M j => a <- vget sA i ;; b <- vget sB j ;;
      madd n (i + oR) (j + oC) (if (oR =? oC)%nat then w * a * b else - (w * a * b)) M) (seq 0 nB) M) l M = Ok M' /\
    forall v u, mform n M' v u = mform n M v u +
      (if (oR =? oC)%nat then 1 else -1) * w * suml (fun i => nth i sA 0 * v (i + oR)%nat) l * tr u oC sB.
Proof.
  intros n w nB oR oC sA sB l. induction l as [|i t IH]; intros M HB Hn Hl.
  - exists M. split; [reflexivity|]. intros. unfold suml. cbn [map fold_right]. ring.
  - cbn [foldM]. destruct (Hl i (or_introl eq_refl)) as [H1 H2].
    destruct (inner_loop n w i oR oC sA sB (seq 0 nB) M H1 H2) as [M1 [E1 F1]].
    { intros j Hj. apply in_seq in Hj. lia. }
    rewrite E1. cbn [bind]. destruct (IH M1 HB Hn (fun k Hk => Hl k (or_intror Hk))) as [M' [E' F']].
    exists M'. split; [exact E'|]. intros v u. rewrite F', F1. unfold tr. rewrite HB, <- suml_sumN.
    unfold suml. cbn [map fold_right]. destruct (oR =? oC)%nat; ring.
Qed.

Lemma block_value : forall n w nA nB oR oC sA sB M,
  length sA = nA -> length sB = nB -> (nA + oR <= n)%nat -> (nB + oC <= n)%nat ->
  exists M', buildFaceMatrix n w nA nB oR oC sA sB M = Ok M' /\
    forall v u, mform n M' v u = mform n M v u + (if (oR =? oC)%nat then 1 else -1) * w * tr v oR sA * tr u oC sB.
Proof.
  intros n w nA nB oR oC sA sB M HA HB H1 H2. unfold buildFaceMatrix.
  destruct (block_loop n w nB oR oC sA sB (seq 0 nA) M HB H2) as [M' [E F]].
  { intros i Hi. apply in_seq in Hi. lia. }
  exists M'. split; [exact E|]. intros v u. rewrite F. unfold tr. rewrite HA, <- suml_sumN. reflexivity.
Qed.

(** ** The four blocks *)
Definition adds (n : nat) (k : mat -> res mat) (g : (nat -> R) -> (nat -> R) -> R) : Prop :=
  forall M, exists M', k M = Ok M' /\ forall v u, mform n M' v u = mform n M v u + g v u.

Lemma adds_seq : forall n k1 k2 g1 g2, adds n k1 g1 -> adds n k2 g2 ->
  adds n (fun M => M <- k1 M ;; k2 M) (fun v u => g1 v u + g2 v u).
Proof.
  intros n k1 k2 g1 g2 H1 H2 M. destruct (H1 M) as [M1 [E1 F1]]. destruct (H2 M1) as [M2 [E2 F2]].
  exists M2. rewrite E1. cbn [bind]. split; [exact E2|]. intros. rewrite F2, F1. ring.
Qed.
Lemma adds_ext : forall n k g h, adds n k g -> (forall v u, g v u = h v u) -> adds n k h.
Proof. intros n k g h H E M. destruct (H M) as [M' [A B]]. exists M'. split; [exact A|]. intros. rewrite B, E. reflexivity. Qed.
Lemma adds_nonzero : forall n w k g, adds n k g -> (w = 0 -> forall v u, g v u = 0) -> adds n (ifNonZero w k) g.
Proof.
  intros n w k g H Z M. unfold ifNonZero. destruct (Req_EM_T w 0) as [E|]; [|apply H].
  exists M. split; [reflexivity|]. intros. rewrite (Z E). ring.
Qed.
Lemma adds_bind : forall {A} n (r : res A) (a : A) k g, r = Ok a -> adds n (k a) g -> adds n (fun M => x <- r ;; k x M) g.
Proof. intros A n r a k g E H M. rewrite E. cbn [bind]. apply H. Qed.

Section Blocks.
Variable F : face.
Variable q : qpoint.
Hypothesis Hq : wfPoint F q.
Local Notation n := (faceSize F).

Lemma nbr : setNeighbourNDoF F = match f_el2 F with Some k => k | None => 0%nat end.
Proof. reflexivity. Qed.
Lemma TL_adds : forall w, adds n (TL F q w) (fun v u => w * side1 F v q * side1 F u q).
Proof.
  intros w M. destruct Hq as (_ & H1 & H2). unfold TL.
  destruct (block_value n w (f_el1 F) (f_el1 F) 0 0 (q_s1 q) (q_s1 q) M H1 H1) as [M' [E V]]; try (unfold faceSize; lia).
  exists M'. split; [exact E|]. intros. rewrite V. cbn [Nat.eqb]. unfold side1. ring.
Qed.
Lemma tr_nil : forall v o s, length s = 0%nat -> tr v o s = 0.
Proof. intros v o s H. unfold tr. rewrite H. reflexivity. Qed.
Lemma TR_adds : forall w k, f_el2 F = Some k -> adds n (TR F q w) (fun v u => - (w * side1 F v q * side2 F u q)).
Proof.
  intros w k Hk M. destruct Hq as (_ & H1 & H2). rewrite Hk in H2. unfold TR. rewrite nbr, Hk.
  destruct (block_value n w (f_el1 F) k 0 (f_el1 F) (q_s1 q) (q_s2 q) M H1 H2) as [M' [E V]]; try (unfold faceSize; rewrite Hk; lia).
  exists M'. split; [unfold faceSize in E; rewrite Hk in E; exact E|]. intros. rewrite V. unfold side1, side2. rewrite Hk.
  destruct (f_el1 F) as [|m] eqn:Em; cbn [Nat.eqb]; [rewrite (tr_nil v 0 (q_s1 q) H1)|]; ring.
Qed.
Lemma BL_adds : forall w k, f_el2 F = Some k -> adds n (BL F q w) (fun v u => - (w * side2 F v q * side1 F u q)).
Proof.
  intros w k Hk M. destruct Hq as (_ & H1 & H2). rewrite Hk in H2. unfold BL. rewrite nbr, Hk.
  destruct (block_value n w k (f_el1 F) (f_el1 F) 0 (q_s2 q) (q_s1 q) M H2 H1) as [M' [E V]]; try (unfold faceSize; rewrite Hk; lia).
  exists M'. split; [unfold faceSize in E; rewrite Hk in E; exact E|]. intros. rewrite V. unfold side1, side2. rewrite Hk.
  destruct (f_el1 F) as [|m] eqn:Em; cbn [Nat.eqb]; [rewrite (tr_nil u 0 (q_s1 q) H1)|]; ring.
Qed.
Lemma BR_adds : forall w k, f_el2 F = Some k -> adds n (BR F q w) (fun v u => w * side2 F v q * side2 F u q).
Proof.
  intros w k Hk M. destruct Hq as (_ & H1 & H2). rewrite Hk in H2. unfold BR. rewrite nbr, Hk.
  destruct (block_value n w k k (f_el1 F) (f_el1 F) (q_s2 q) (q_s2 q) M H2 H2) as [M' [E V]]; try (unfold faceSize; rewrite Hk; lia).
  exists M'. split; [unfold faceSize in E; rewrite Hk in E; exact E|]. intros. rewrite V. rewrite Nat.eqb_refl. unfold side2. rewrite Hk. ring.
Qed.

(** Blocks guarded by [if (ndof2)]: without neighbour, or with a neighbour without dofs,
    the second traces are zero. *)
Lemma nbr_adds : forall k g, (forall m, f_el2 F = Some m -> adds n k g) ->
  ((forall v, side2 F v q = 0) -> forall v u, g v u = 0) -> adds n (ifNeighbour F k) g.
Proof.
  intros k g H Z M. unfold ifNeighbour. rewrite nbr. destruct (f_el2 F) as [m|] eqn:Em.
  - destruct (m =? 0)%nat eqn:E0; [|apply (H m eq_refl)].
    apply Nat.eqb_eq in E0; subst. exists M. split; [reflexivity|]. intros. rewrite Z; [ring|].
    intros v'. unfold side2. rewrite Em. apply tr_nil. destruct Hq as (_ & _ & H2). rewrite Em in H2. exact H2.
  - cbn [Nat.eqb]. exists M. split; [reflexivity|]. intros. rewrite Z; [ring|]. intros v'. unfold side2. rewrite Em. reflexivity.
Qed.

(** TL, then TR, BL and BR with weights a, b, c, d. *)
Lemma four_adds : forall a b c d,
  adds n (fun M => M <- TL F q a M ;; ifNeighbour F (fun M => M <- TR F q b M ;; M <- BL F q c M ;; BR F q d M) M)
    (fun v u => a * side1 F v q * side1 F u q - b * side1 F v q * side2 F u q - c * side2 F v q * side1 F u q + d * side2 F v q * side2 F u q).
Proof.
  intros a b c d.
  apply adds_ext with (g := fun v u => a * side1 F v q * side1 F u q +
     (- (b * side1 F v q * side2 F u q) + (- (c * side2 F v q * side1 F u q) + d * side2 F v q * side2 F u q))); [|intros; ring].
  apply (adds_seq n (TL F q a) (ifNeighbour F (fun M => M <- TR F q b M ;; M <- BL F q c M ;; BR F q d M))); [apply TL_adds|].
  apply nbr_adds.
  - intros m Hm. apply (adds_seq n (TR F q b) (fun M => M <- BL F q c M ;; BR F q d M)); [eapply TR_adds; eassumption|].
    apply (adds_seq n (BL F q c) (BR F q d)); [eapply BL_adds|eapply BR_adds]; eassumption.
  - intros Z v u. rewrite !Z. ring.
Qed.
Lemma two_adds : forall a d,
  adds n (fun M => M <- TL F q a M ;; ifNeighbour F (fun M => BR F q d M) M)
    (fun v u => a * side1 F v q * side1 F u q + d * side2 F v q * side2 F u q).
Proof.
  intros a d. apply (adds_seq n (TL F q a) (ifNeighbour F (fun M => BR F q d M))); [apply TL_adds|].
  apply nbr_adds; [intros m Hm M; eapply (BR_adds d m Hm M)|]. intros Z v u. rewrite !Z. ring.
Qed.
Lemma two_adds' : forall a d, f_el2 F <> None ->
  adds n (fun M => M <- TL F q a M ;; BR F q d M)
    (fun v u => a * side1 F v q * side1 F u q + d * side2 F v q * side2 F u q).
Proof.
  intros a d Hn. destruct (f_el2 F) as [m|] eqn:Em; [|congruence].
  apply (adds_seq n (TL F q a) (BR F q d)); [apply TL_adds|eapply BR_adds; exact Em].
Qed.

Lemma normal_term : forall d, (d < 3)%nat -> buildNormalTerm (calculateNormal (q_geo q)) d = Ok (normalOf (q_geo q) d).
Proof.
  intros d Hd. unfold buildNormalTerm. destruct (q_geo q); cbn [calculateNormal length Nat.ltb Nat.leb Nat.sub repeat app];
  (destruct d as [|[|[|d]]]; [| | |lia]); reflexivity.
Qed.
Lemma weight_pos : 0 < weightOf (q_geo q).
Proof. destruct Hq as (H & _). unfold geoOk in H. destruct (q_geo q) eqn:E; try exact H. cbn [weightOf]. lra. Qed.
Lemma normal_unit : forall d, normalOf (q_geo q) d = weightOf (q_geo q) * unitN q d.
Proof. intros d. unfold unitN. pose proof weight_pos. field. lra. Qed.
Lemma beta_term : forall dir beta, Forall (fun d => (d < 3)%nat) dir -> (length dir <= 2)%nat ->
  calculateBetaTerm (calculateNormal (q_geo q)) dir beta = Ok (beta * (weightOf (q_geo q) ^ length dir * normals dir q)).
Proof.
  intros dir beta H3 Hl. unfold normals. destruct dir as [|d [|e [|]]]; cbn [length] in Hl; [| | |lia]; unfold calculateBetaTerm.
  - cbn [length pow fold_right]. f_equal. ring.
  - inversion H3; subst. rewrite normal_term by assumption. cbn [bind length pow fold_right]. rewrite normal_unit. f_equal. ring.
  - inversion H3; subst. inversion H2; subst. rewrite !normal_term by assumption. cbn [bind length pow fold_right]. rewrite !normal_unit. f_equal. ring.
Qed.
End Blocks.

(** ** The loop over points *)
Lemma over_points : forall F step g, wfFace F ->
  (forall q, In q (f_pts F) -> wfPoint F q -> adds (faceSize F) (step q) (fun v u => ds q * g v u q)) ->
  integrates F (overPoints F step) g.
Proof.
  intros F step g Hw H. unfold integrates, overPoints. unfold wfFace in Hw.
  assert (G : forall l M, incl l (f_pts F) -> exists M', foldM (fun M q => step q M) l M = Ok M' /\
    forall v u, mform (faceSize F) M' v u = mform (faceSize F) M v u + suml (fun q => ds q * g v u q) l).
  { induction l as [|q t IH]; intros M Hl.
    - exists M. split; [reflexivity|]. intros. unfold suml. cbn [map fold_right]. ring.
    - cbn [foldM]. rewrite Forall_forall in Hw. pose proof (Hl q (or_introl eq_refl)) as Hin.
      destruct (H q Hin (Hw q Hin) M) as [M1 [E1 F1]]. rewrite E1. cbn [bind].
      destruct (IH M1 (fun x Hx => Hl x (or_intror Hx))) as [M' [E' F']].
      exists M'. split; [exact E'|]. intros. rewrite F', F1. unfold suml. cbn [map fold_right]. ring. }
  destruct (G (f_pts F) mzero (incl_refl _)) as [M [E V]]. exists M. split; [exact E|].
  intros. rewrite V. replace (mform (faceSize F) mzero v u) with 0; [ring|].
  symmetry. apply sumN_zero. intros. apply sumN_zero. intros. unfold mzero. ring.
Qed.

Section Integrators.
Variable F : face.
Hypothesis HF : wfFace F.

Ltac start := apply over_points; [exact HF|]; intros q Hin Hq; pose proof (weight_pos F q Hq) as Wp.

Lemma zero_value : forall beta,
  integrates F (zeroNormalJump beta F) (fun v u q => beta / 2 * (jump F v q * jump F u q)).
Proof.
  intros beta. unfold zeroNormalJump. start.
  eapply adds_ext; [apply adds_nonzero; [apply (four_adds F q Hq)|]|].
  - intros E v u. rewrite E. ring.
  - intros v u. cbv beta. unfold jump, ds. field.
Qed.
Lemma one_value : forall d beta, (d < 3)%nat ->
  integrates F (oneNormalJump [d] beta F) (fun v u q => beta * (unitN q d * jump F u q * avg F v q)).
Proof.
  intros d beta Hd. unfold oneNormalJump. start. cbn [dirAt nth_error bind]. rewrite (normal_term q d Hd). cbn [bind].
  eapply adds_ext; [apply adds_nonzero; [apply (four_adds F q Hq)|]|].
  - intros E v u. rewrite E. ring.
  - intros v u. cbv beta. rewrite (normal_unit F q Hq d). unfold jump, avg, ds. field.
Qed.
Lemma two_value : forall d e beta, (d < 3)%nat -> (e < 3)%nat ->
  integrates F (twoNormalJump [d; e] beta F) (fun v u q => beta / 2 * (unitN q d * unitN q e * jump F v q * jump F u q)).
Proof.
  intros d e beta Hd He. unfold twoNormalJump. start. cbn [dirAt nth_error bind].
  rewrite (normal_term q d Hd), (normal_term q e He). cbn [bind].
  eapply adds_ext; [apply adds_nonzero; [apply (four_adds F q Hq)|]|].
  - intros E v u. rewrite E. ring.
  - intros v u. cbv beta. rewrite (normal_unit F q Hq d), (normal_unit F q Hq e). unfold jump, ds. field. lra.
Qed.
Lemma dec_zero_value : forall beta,
  integrates F (decoupledZeroNormal beta F) (fun v u q => beta / 2 * (side1 F v q * side1 F u q + side2 F v q * side2 F u q)).
Proof.
  intros beta. unfold decoupledZeroNormal. start.
  eapply adds_ext; [apply adds_nonzero; [apply (two_adds F q Hq)|]|].
  - intros E v u. rewrite E. ring.
  - intros v u. cbv beta. unfold ds. field.
Qed.
Lemma dec_one_value : forall d beta, (d < 3)%nat ->
  integrates F (decoupledOneNormal [d] beta F) (fun v u q => beta / 2 * unitN q d * (side1 F v q * side1 F u q - side2 F v q * side2 F u q)).
Proof.
  intros d beta Hd. unfold decoupledOneNormal. start. cbn [dirAt nth_error bind]. rewrite (normal_term q d Hd). cbn [bind].
  eapply adds_ext; [apply adds_nonzero; [apply (two_adds F q Hq)|]|].
  - intros E v u. rewrite E. ring.
  - intros v u. cbv beta. rewrite (normal_unit F q Hq d). unfold ds. field.
Qed.
Lemma dec_two_value : forall d e beta, (d < 3)%nat -> (e < 3)%nat ->
  integrates F (decoupledTwoNormal [d; e] beta F)
    (fun v u q => beta / 2 * (unitN q d * unitN q e) * (side1 F v q * side1 F u q + side2 F v q * side2 F u q)).
Proof.
  intros d e beta Hd He. unfold decoupledTwoNormal. start. cbn [dirAt nth_error bind].
  rewrite (normal_term q d Hd), (normal_term q e He). cbn [bind].
  eapply adds_ext; [apply adds_nonzero; [apply (two_adds F q Hq)|]|].
  - intros E v u. rewrite E. ring.
  - intros v u. cbv beta. rewrite (normal_unit F q Hq d), (normal_unit F q Hq e). unfold ds. field. lra.
Qed.

Lemma scale_ok : forall dir g w, (length dir <= 2)%nat -> exists s, scaleBy dir g w = Ok (w * s) /\
  (0 < weightOf g -> s * weightOf g ^ length dir = weightOf g).
Proof.
  intros dir g w Hl. destruct dir as [|d [|e [|]]]; cbn [length] in Hl; [| | |lia]; cbn [scaleBy length pow].
  - exists (weightOf g). split; [reflexivity|]. intros. ring.
  - exists 1. split; [f_equal; ring|]. intros. ring.
  - exists (/ weightOf g). split; [reflexivity|]. intros. field. lra.
Qed.
Lemma sideSign_flip : forall dir w, sideSign dir w = flip dir * w.
Proof. intros dir w. destruct dir as [|d [|e t]]; cbn [sideSign flip]; ring. Qed.
Lemma scale_zero : forall (w s : R), w = 0 -> w * s = 0.
Proof. intros; subst; ring. Qed.

Lemma trace_value : forall dir beta, Forall (fun d => (d < 3)%nat) dir -> (length dir <= 2)%nat ->
  integrates F (traceJump dir beta F)
    (fun v u q => beta / 2 * normals dir q * ((side1 F v q + flip dir * - side2 F v q) * jump F u q)).
Proof.
  intros dir beta Hd Hl. unfold traceJump. start.
  eapply adds_bind; [apply (beta_term F q Hq dir beta Hd Hl)|].
  set (w := q_w q * (beta * (weightOf (q_geo q) ^ length dir * normals dir q)) * / 2).
  destruct (scale_ok dir (q_geo q) w Hl) as [s [Es Hs]]. specialize (Hs Wp).
  eapply adds_ext; [apply adds_nonzero; [eapply adds_bind; [exact Es|apply (four_adds F q Hq)]|]|].
  - intros E v u. cbv beta. rewrite sideSign_flip, (scale_zero w s E). ring.
  - intros v u. cbv beta. rewrite sideSign_flip. unfold w, jump, ds.
    revert Hs. generalize (weightOf (q_geo q) ^ length dir). intros P Hs. rewrite <- Hs. field.
Qed.
Lemma interior_value : forall dir beta, f_el2 F <> None -> Forall (fun d => (d < 3)%nat) dir -> (length dir <= 2)%nat ->
  integrates F (interiorJump dir beta F)
    (fun v u q => beta / 2 * normals dir q * (side1 F v q * side1 F u q + flip dir * (side2 F v q * side2 F u q))).
Proof.
  intros dir beta Hn Hd Hl. unfold interiorJump. start.
  eapply adds_bind; [apply (beta_term F q Hq dir beta Hd Hl)|].
  set (w := q_w q * (beta * (weightOf (q_geo q) ^ length dir * normals dir q)) * / 2).
  destruct (scale_ok dir (q_geo q) w Hl) as [s [Es Hs]]. specialize (Hs Wp).
  eapply adds_ext; [apply adds_nonzero; [eapply adds_bind; [exact Es|apply (two_adds' F q Hq); exact Hn]|]|].
  - intros E v u. cbv beta. rewrite sideSign_flip, (scale_zero w s E). ring.
  - intros v u. cbv beta. rewrite sideSign_flip. unfold w, ds.
    revert Hs. generalize (weightOf (q_geo q) ^ length dir). intros P Hs. rewrite <- Hs. field.
Qed.
Lemma sma_value : forall dir beta, Forall (fun d => (d < 3)%nat) dir -> (length dir <= 2)%nat ->
  integrates F (smaJump dir beta F) (fun v u q => beta / 2 * normals dir q * (side1 F v q * side1 F u q)).
Proof.
  intros dir beta Hd Hl. unfold smaJump. start.
  eapply adds_bind; [apply (beta_term F q Hq dir beta Hd Hl)|].
  set (w := q_w q * (beta * (weightOf (q_geo q) ^ length dir * normals dir q)) * / 2).
  destruct (scale_ok dir (q_geo q) w Hl) as [s [Es Hs]]. specialize (Hs Wp).
  eapply adds_ext; [apply adds_nonzero; [eapply adds_bind; [exact Es|apply (TL_adds F q Hq)]|]|].
  - intros E v u. cbv beta. rewrite (scale_zero w s E). ring.
  - intros v u. cbv beta. unfold w, ds.
    revert Hs. generalize (weightOf (q_geo q) ^ length dir). intros P Hs. rewrite <- Hs. field.
Qed.
Lemma total_value : forall d beta, (d < 3)%nat ->
  integrates F (oneNormalTotalField [d] beta F) (fun v u q => beta * (unitN q d * jump F v q * avg F u q)).
Proof.
  intros d beta Hd. unfold oneNormalTotalField. start. cbn [dirAt nth_error bind]. rewrite (normal_term q d Hd). cbn [bind].
  eapply adds_ext; [apply adds_nonzero; [apply (four_adds F q Hq)|]|].
  - intros E v u. rewrite E. ring.
  - intros v u. cbv beta. rewrite (normal_unit F q Hq d). unfold jump, avg, ds. field.
Qed.
Lemma hesthaven_value :
  integrates F (hesthavenFlux F) (fun v u q => / weightOf (q_geo q) * (8 * (avg F v q * avg F u q))).
Proof.
  unfold hesthavenFlux. start.
  eapply adds_ext; [apply adds_nonzero; [apply (four_adds F q Hq)|]|].
  - intros E v u. rewrite E. ring.
  - intros v u. cbv beta. unfold avg, ds. field. lra.
Qed.
End Integrators.

(** ** Integrators that reset the matrix at each point *)
Lemma last_point : forall F step, (forall q M M', step q M = step q M') ->
  forall q t M, overPoints (mkFace (f_el1 F) (f_el2 F) (t ++ [q])) step = Ok M -> step q mzero = Ok M.
Proof.
  intros F step H q t M. unfold overPoints. cbn [f_pts]. rewrite foldM_app. cbn [foldM].
  destruct (foldM (fun M q => step q M) t mzero) as [M0| |]; cbn [bind]; try discriminate.
  rewrite (H q mzero M0). destruct (step q M0); cbn [bind]; auto; discriminate.
Qed.

(** ** Geometry *)
Lemma weight_normal : forall g, geoOk g ->
  normalOf g 0 * normalOf g 0 + normalOf g 1 * normalOf g 1 + normalOf g 2 * normalOf g 2 = weightOf g * weightOf g.
Proof.
  intros g H. destruct g as [x|a b|a0 a1 a2 b0 b1 b2]; cbn [normalOf weightOf geoOk] in *.
  - destruct H; subst; ring.
  - rewrite sqrt_sqrt; [ring|]. pose proof (Rle_0_sqr a). pose proof (Rle_0_sqr b). unfold Rsqr in *. lra.
  - cbv zeta. rewrite sqrt_sqrt; [ring|].
    replace ((a0 * a0 + a1 * a1 + a2 * a2) * (b0 * b0 + b1 * b1 + b2 * b2) - (a0 * b0 + a1 * b1 + a2 * b2) * (a0 * b0 + a1 * b1 + a2 * b2))
      with (Rsqr (a1 * b2 - a2 * b1) + Rsqr (a2 * b0 - a0 * b2) + Rsqr (a0 * b1 - a1 * b0)) by (unfold Rsqr; ring).
    pose proof (Rle_0_sqr (a1 * b2 - a2 * b1)). pose proof (Rle_0_sqr (a2 * b0 - a0 * b2)). pose proof (Rle_0_sqr (a0 * b1 - a1 * b0)). lra.
Qed.
Lemma unit_normal : forall F q, wfPoint F q -> unitN q 0 * unitN q 0 + unitN q 1 * unitN q 1 + unitN q 2 * unitN q 2 = 1.
Proof.
  intros F q Hq. pose proof (weight_pos F q Hq) as W. destruct Hq as (Hg & _). pose proof (weight_normal _ Hg) as E. unfold unitN.
  replace 1 with ((weightOf (q_geo q) * weightOf (q_geo q)) / (weightOf (q_geo q) * weightOf (q_geo q))) by (field; lra).
  rewrite <- E at 1. field. lra.
Qed.

(** ** Consequences for the rows of the matrix *)
Lemma row_of_form : forall n M u i, (i < n)%nat ->
  sumN n (fun j => M i j * u j) = mform n M (fun k => if (k =? i)%nat then 1 else 0) u.
Proof.
  intros n M u i Hi. unfold mform.
  rewrite (sumN_ext n (fun a => sumN n (fun j => (if (a =? i)%nat then 1 else 0) * M a j * u j))
            (fun a => if (a =? i)%nat then sumN n (fun j => M a j * u j) else 0)).
  - rewrite (sumN_delta n i (fun a => sumN n (fun j => M a j * u j)) Hi). reflexivity.
  - intros a _. destruct (a =? i)%nat; [apply sumN_ext; intros; ring|]. apply sumN_zero. intros; ring.
Qed.
Lemma agree_rows : forall F r g, integrates F r g ->
  forall u, (forall v q, In q (f_pts F) -> g v u q = 0) ->
  exists M, r = Ok M /\ forall i, (i < faceSize F)%nat -> sumN (faceSize F) (fun j => M i j * u j) = 0.
Proof.
  intros F r g (M & E & V) u H. exists M. split; [exact E|]. intros i Hi. rewrite row_of_form by exact Hi. rewrite V.
  replace (suml (fun q => ds q * g (fun k => if (k =? i)%nat then 1 else 0) u q) (f_pts F)) with (suml (fun _ : qpoint => 0) (f_pts F)).
  - generalize (f_pts F). intros l. unfold suml. induction l as [|a t IH]; cbn [map fold_right]; [reflexivity|rewrite IH]; ring.
  - apply suml_ext. intros q Hq. rewrite H by exact Hq. ring.
Qed.

(** ** Linear forms *)
Lemma shape_form : forall n w s e, length s = n -> exists e', vaddShape n w s e = Ok e' /\
  forall v, sumN n (fun i => v i * e' i) = sumN n (fun i => v i * e i) + w * tr v 0 s.
Proof.
  intros n w s e H. unfold vaddShape. rewrite (proj2 (Nat.eqb_eq _ _) H). eexists. split; [reflexivity|]. intros v. unfold tr. rewrite H.
  rewrite <- sumN_scal, <- sumN_plus. apply sumN_ext. intros i Hi. rewrite (proj2 (Nat.ltb_lt _ _) Hi), Nat.add_0_r. ring.
Qed.
Lemma loop_form : forall n (w : qpoint -> R) l e, Forall (fun q => length (q_s1 q) = n) l ->
  exists e', foldM (fun e q => vaddShape n (w q) (q_s1 q) e) l e = Ok e' /\
  forall v, sumN n (fun i => v i * e' i) = sumN n (fun i => v i * e i) + suml (fun q => w q * tr v 0 (q_s1 q)) l.
Proof.
  intros n w l. induction l as [|q t IH]; intros e H; cbn [foldM].
  - exists e. split; [reflexivity|]. intros v. unfold suml. cbn [map fold_right]. ring.
  - inversion H as [|? ? Hq Ht]; subst. destruct (shape_form _ (w q) (q_s1 q) e eq_refl) as (e1 & E1 & V1).
    rewrite E1. cbn [bind]. destruct (IH e1 Ht) as (e2 & E2 & V2). exists e2. split; [exact E2|].
    intros v. rewrite V2, V1. unfold suml. cbn [map fold_right]. ring.
Qed.
Lemma load_value : forall F (w : qpoint -> R) g, wfFace F ->
  (forall v q, In q (f_pts F) -> w q * side1 F v q = q_w q * g v q) ->
  loads (f_el1 F) F (foldM (fun e q => vaddShape (f_el1 F) (w q) (q_s1 q) e) (f_pts F) vzero) g.
Proof.
  intros F w g H Hg.
  destruct (loop_form (f_el1 F) w (f_pts F) vzero) as (e & E & V).
  { eapply Forall_impl; [|exact H]. intros q Hq. apply Hq. }
  exists e. split; [exact E|]. intros v. rewrite V. unfold vzero.
  rewrite (sumN_zero (f_el1 F) (fun i => v i * 0)) by (intros; ring). rewrite Rplus_0_l. apply suml_ext. intros q Hq. apply (Hg v q Hq).
Qed.
Lemma inner_normal : forall g d, innerNormal g d = - normalOf g d.
Proof.
  intros g d. unfold innerNormal. destruct g; cbn [calculateNormal map]; do 4 (try destruct d as [|d]); cbn [nth normalOf]; try ring; destruct d; cbn [nth]; ring.
Qed.
Lemma sma_normal : forall F q, wfPoint F q -> forall d, nth d (calculateSMANormal (q_geo q)) 0 = unitN q d.
Proof.
  intros F q Hq d. pose proof (weight_pos F q Hq) as W. unfold unitN, calculateSMANormal.
  destruct (q_geo q) as [x|a b|a0 a1 a2 b0 b1 b2]; cbn [calculateNormal map] in *; do 4 (try destruct d as [|d]); cbn [nth normalOf weightOf] in *; try (field; lra); try (unfold Rdiv; rewrite Rmult_0_l; reflexivity); try reflexivity; destruct d; unfold Rdiv; cbn [nth]; try (rewrite Rmult_0_l; reflexivity); field.
Qed.
Lemma dot_three : forall u n, (length n <= 3)%nat -> (length u <= length n)%nat -> dotV u n = sumN 3 (fun d => nth d u 0 * nth d n 0).
Proof.
  intros u n Hn Hu. unfold dotV.
  destruct n as [|n0 [|n1 [|n2 [|]]]]; cbn [length] in *; try lia; destruct u as [|u0 [|u1 [|u2 [|]]]]; cbn [length] in *; try lia;
    unfold sumN; cbn [combine map fold_right fst snd nth seq]; ring.
Qed.
Lemma boundary1_value : forall F u beta, wfFace F -> (forall q, In q (f_pts F) -> (length (u q) <= length (calculateNormal (q_geo q)))%nat) ->
  loads (f_el1 F) F (boundaryJump1 u beta F) (fun v q => beta * sumN 3 (fun d => nth d (u q) 0 * unitN q d) * side1 F v q).
Proof.
  intros F u beta H Hu. unfold boundaryJump1.
  apply (load_value F (fun q => beta * dotV (u q) (calculateSMANormal (q_geo q)) * q_w q)); [exact H|].
  intros v q Hq. cbv beta. pose proof (proj1 (Forall_forall _ _) H q Hq) as Wq. specialize (Hu q Hq).
  assert (L : length (calculateSMANormal (q_geo q)) = length (calculateNormal (q_geo q))) by (destruct (q_geo q); reflexivity).
  rewrite dot_three by (rewrite L; first [exact Hu|destruct (q_geo q); cbn [calculateNormal length]; lia]).
  rewrite (sumN_ext 3 _ (fun d => nth d (u q) 0 * unitN q d)); [ring|]. intros d _. rewrite (sma_normal F q Wq d). reflexivity.
Qed.
Lemma farfield_value : forall F c d, wfFace F ->
  loads (f_el1 F) F (farFieldFace c d F) (fun v q => c q * - unitN q d * side1 F v q).
Proof.
  intros F c d H. unfold farFieldFace. apply (load_value F (fun q => q_w q * c q * innerNormal (q_geo q) d / weightOf (q_geo q))); [exact H|].
  intros v q Hq. cbv beta. rewrite inner_normal. unfold unitN, Rdiv. ring.
Qed.
Lemma ntff_value : forall F c d, wfFace F ->
  loads (f_el1 F) F (ntffFace c d F) (fun v q => weightOf (q_geo q) * (c q * - unitN q d * side1 F v q)).
Proof.
  intros F c d H. unfold ntffFace. apply (load_value F (fun q => q_w q * c q * innerNormal (q_geo q) d)); [exact H|].
  intros v q Hq. cbv beta. rewrite inner_normal. unfold unitN.
  pose proof (proj1 (Forall_forall _ _) H q Hq) as Wq. pose proof (weight_pos F q Wq). field. lra.
Qed.
Lemma continuous_rows : forall F, wfFace F -> forall u, (forall q, In q (f_pts F) -> side1 F u q = side2 F u q) ->
  forall d e beta, (d < 3)%nat -> (e < 3)%nat ->
  (exists M, zeroNormalJump beta F = Ok M /\ forall i, (i < faceSize F)%nat -> sumN (faceSize F) (fun j => M i j * u j) = 0) /\
  (exists M, oneNormalJump [d] beta F = Ok M /\ forall i, (i < faceSize F)%nat -> sumN (faceSize F) (fun j => M i j * u j) = 0) /\
  (exists M, twoNormalJump [d; e] beta F = Ok M /\ forall i, (i < faceSize F)%nat -> sumN (faceSize F) (fun j => M i j * u j) = 0).
Proof.
  intros F H u Hu d e beta Hd He. split; [|split].
  - apply (agree_rows _ _ _ (zero_value F H beta)). intros v q Hq. unfold jump. rewrite (Hu q Hq). ring.
  - apply (agree_rows _ _ _ (one_value F H d beta Hd)). intros v q Hq. unfold jump. rewrite (Hu q Hq). ring.
  - apply (agree_rows _ _ _ (two_value F H d e beta Hd He)). intros v q Hq. unfold jump. rewrite (Hu q Hq). ring.
Qed.

(** Direction terms the integrators cannot use. *)
Lemma normal_bad : forall g d, (3 <= d)%nat -> buildNormalTerm (calculateNormal g) d = Throw.
Proof.
  intros g d H. unfold buildNormalTerm. destruct g; cbn [calculateNormal length Nat.ltb Nat.leb Nat.sub repeat app]; rewrite (proj2 (nth_error_None _ d)) by (cbn [length]; lia); reflexivity.
Qed.
Lemma normal_len : forall g, (length (calculateNormal g) <= 3)%nat. Proof. intros []; cbn; lia. Qed.
Lemma beta_bad : forall g dir beta, (2 < length dir)%nat \/ Exists (fun d => (3 <= d)%nat) dir -> calculateBetaTerm (calculateNormal g) dir beta = Throw.
Proof.
  intros g dir beta H. destruct dir as [|a [|b [|c r]]]; cbn [calculateBetaTerm].
  - destruct H as [H|H]; [cbn in H; lia|inversion H].
  - destruct H as [H|H]; [cbn in H; lia|]. inversion H as [? ? X|? ? X]; subst; [|inversion X]. rewrite (normal_bad _ _ X). reflexivity.
  - destruct H as [H|H]; [cbn in H; lia|]. destruct (le_lt_dec 3 a) as [A|A]; [rewrite (normal_bad _ _ A); reflexivity|].
    assert (B : (3 <= b)%nat) by (inversion H as [? ? X|? ? X]; subst; [lia|]; inversion X as [? ? Y|? ? Y]; subst; [exact Y|inversion Y]).
    rewrite (normal_bad _ _ B). unfold buildNormalTerm. rewrite (proj2 (Nat.ltb_ge 3 (length (calculateNormal g)))) by apply normal_len. destruct (nth_error _ a); reflexivity.
  - reflexivity.
Qed.
Lemma jumps_refused : forall F dir beta, f_pts F <> [] -> (2 < length dir)%nat \/ Exists (fun d => (3 <= d)%nat) dir ->
  traceJump dir beta F = Throw /\ interiorJump dir beta F = Throw /\ smaJump dir beta F = Throw.
Proof.
  intros F dir beta N H. unfold traceJump, interiorJump, smaJump, overPoints. destruct (f_pts F) as [|q t]; [destruct (N eq_refl)|]. cbn [foldM]. rewrite (beta_bad _ _ _ H).
  split; [reflexivity|split; reflexivity].
Qed.

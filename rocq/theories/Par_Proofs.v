(** The rows a process computes are those of the serial operator. *)
From Coq Require Import ZArith List Bool Reals Lia Lra Permutation.
From Verif Require Import Common Csr_Model Face_Model Face_Spec Face_Proofs FaceLoad_Proofs Setup_Model Setup_Spec Assembly_Model Assembly_Spec Assembly_Proofs Form_Model Form_Spec Form_Proofs Nodal_Spec Nodal_Proofs NodalMult_Proofs NodalEnergy_Spec NodalEnergy_Proofs Global_Spec Global_Proofs GlobalEnergy_Proofs Par_Model Par_Spec.
Import ListNotations.
Local Open Scope R_scope.

(** ** Sums *)
Lemma sum_in : forall (g : nat -> R) l n, NoDup l -> (forall i, In i l -> (i < n)%nat) ->
  suml g l = sumN n (fun i => if in_dec Nat.eq_dec i l then g i else 0).
Proof.
  intros g l n. induction l as [|a t IH]; intros ND B.
  - symmetry. apply sumN_zero. intros i _. destruct (in_dec Nat.eq_dec i []) as [[]|]. reflexivity.
  - inversion ND as [|? ? N1 N2]; subst. change (suml g (a :: t)) with (g a + suml g t). rewrite IH by (try exact N2; intros; apply B; right; assumption).
    rewrite <- (sumN_delta n a g) by (apply B; left; reflexivity). rewrite <- sumN_plus. apply sumN_ext. intros i _.
    destruct (in_dec Nat.eq_dec i t) as [It|It]; destruct (in_dec Nat.eq_dec i (a :: t)) as [Ia|Ia]; destruct (Nat.eqb_spec i a) as [E|E]; subst; try ring; exfalso; cbn [In] in Ia; intuition congruence.
Qed.
Lemma own_sum : forall (own : list nat) N (f : nat -> R), NoDup own -> (forall i, In i own -> (i < N)%nat) ->
  (forall k, (k < N)%nat -> ~ In k own -> f k = 0) -> sumN N f = sumN (length own) (fun k => f (nth k own 0%nat)).
Proof.
  intros own N f ND B Z. transitivity (suml f own).
  - rewrite (sum_in f own N ND B). apply sumN_ext. intros i Hi. destruct (in_dec Nat.eq_dec i own) as [|O]; [reflexivity|apply Z; assumption].
  - rewrite suml_sumN. unfold suml. f_equal. rewrite <- (map_map (fun k => nth k own 0%nat) f). f_equal.
    clear. induction own as [|a t IH]; [reflexivity|]. cbn [length seq map nth]. f_equal. rewrite <- seq_shift, map_map. exact IH.
Qed.
Lemma two_sum_pos : forall {A B} (P : A -> B -> Prop) (h : nat -> B -> R) (g : A -> R) l l' s, Forall2 P l l' ->
  (forall k a b, nth_error l k = Some a -> nth_error l' k = Some b -> P a b -> h (s + k)%nat b = g a) ->
  suml (fun k => match nth_error l' (k - s) with Some b => h k b | None => 0 end) (seq s (length l')) = suml g l.
Proof.
  intros A B P h g l l' s F. revert s. induction F as [|a b t t' Pab F IH]; intros s H; [reflexivity|].
  cbn [length seq]. change (suml g (a :: t)) with (g a + suml g t). rewrite <- (IH (S s)).
  - unfold suml at 1. cbn [map fold_right]. rewrite Nat.sub_diag. cbn [nth_error]. f_equal.
    + rewrite <- (H 0%nat a b eq_refl eq_refl Pab), Nat.add_0_r. reflexivity.
    + fold (suml (fun k => match nth_error (b :: t') (k - s) with Some b0 => h k b0 | None => 0 end) (seq (S s) (length t'))).
      apply suml_ext. intros k Hk. apply in_seq in Hk. replace (k - s)%nat with (S (k - S s)) by lia. reflexivity.
  - intros k a' b' E1 E2 P'. replace (S s + k)%nat with (s + S k)%nat by lia. apply (H (S k) a' b' E1 E2 P').
Qed.
Lemma two_suml : forall {A B} (P : A -> B -> Prop) (h : B -> R) (g : A -> R) l l', Forall2 P l l' ->
  (forall a b, In a l -> P a b -> h b = g a) -> suml h l' = suml g l.
Proof.
  intros A B P h g l l' F. induction F as [|a b t t' Pab F IH]; intros H; [reflexivity|].
  change (suml h (b :: t')) with (h b + suml h t'). change (suml g (a :: t)) with (g a + suml g t). rewrite (H a b (or_introl eq_refl) Pab), IH; [reflexivity|].
  intros a' b' I P'. apply (H a' b' (or_intror I) P').
Qed.
Lemma mform_ext2 : forall n M v v' u u', (forall i, (i < n)%nat -> v i = v' i) -> (forall i, (i < n)%nat -> u i = u' i) -> mform n M v u = mform n M v' u'.
Proof. intros n M v v' u u' H H'. unfold mform. apply sumN_ext. intros i Hi. apply sumN_ext. intros j Hj. rewrite (H i Hi), (H' j Hj). reflexivity. Qed.

(** ** Rectangular forms *)
Definition pform (n w : nat) (M : mat) (v u : nat -> R) : R := sumN n (fun i => sumN w (fun j => v i * M i j * u j)).
Definition padds (n w : nat) (k : mat -> res mat) (g : (nat -> R) -> (nat -> R) -> R) : Prop :=
  forall M, exists M', k M = Ok M' /\ forall v u, pform n w M' v u = pform n w M v u + g v u.
Lemma padds_fold : forall {A} n w (k : A -> mat -> res mat) (g : A -> (nat -> R) -> (nat -> R) -> R) l,
  (forall a, In a l -> padds n w (k a) (g a)) -> padds n w (fun M => foldM (fun M a => k a M) l M) (fun v u => suml (fun a => g a v u) l).
Proof.
  intros A n w k g l. induction l as [|a t IH]; intros H M; cbn [foldM].
  - exists M. split; [reflexivity|]. intros. unfold suml. cbn [map fold_right]. ring.
  - destruct (H a (or_introl eq_refl) M) as (M1 & E1 & V1). rewrite E1. cbn [bind].
    destruct (IH (fun b I => H b (or_intror I)) M1) as (M2 & E2 & V2). exists M2. split; [exact E2|].
    intros v u. rewrite V2, V1. unfold suml. cbn [map fold_right]. ring.
Qed.
Lemma pform_add : forall n w di dj x M v u, (di < n)%nat -> (dj < w)%nat ->
  pform n w (fun a b => if ((a =? di) && (b =? dj))%nat then M a b + x else M a b) v u = pform n w M v u + v di * x * u dj.
Proof.
  intros n w di dj x M v u Hi Hj. unfold pform.
  rewrite (sumN_ext n _ (fun i => sumN w (fun j => v i * M i j * u j) + (if (i =? di)%nat then v i * x * u dj else 0))).
  - rewrite sumN_plus. f_equal. apply (sumN_delta n di (fun i => v i * x * u dj) Hi).
  - intros i _. rewrite (sumN_ext w _ (fun j => v i * M i j * u j + (if (j =? dj)%nat then (if (i =? di)%nat then v i * x * u j else 0) else 0))).
    + rewrite sumN_plus. f_equal. rewrite (sumN_delta w dj (fun j => if (i =? di)%nat then v i * x * u j else 0) Hj). reflexivity.
    + intros j _. destruct (i =? di)%nat, (j =? dj)%nat; cbn [andb]; ring.
Qed.
Lemma rows_adds : forall n w rows cols K, Forall (fun d => (d < n)%nat) rows -> Forall (fun d => (d < w)%nat) cols ->
  padds n w (addRows n w rows cols K)
    (fun v u => sumN (length rows) (fun i => sumN (length cols) (fun j => v (nth i rows 0%nat) * K i j * u (nth j cols 0%nat)))).
Proof.
  intros n w rows cols K HR HC. rewrite Forall_forall in HR, HC. unfold addRows.
  apply (padds_fold n w (fun i M => foldM (fun M j => di <- dofAt rows i ;; dj <- dofAt cols j ;;
    if ((di <? n) && (dj <? w))%nat then Ok (fun a b => if ((a =? di) && (b =? dj))%nat then (M a b + K i j)%R else M a b) else UB) (seq 0 (length cols)) M)
    (fun i v u => suml (fun j => v (nth i rows 0%nat) * K i j * u (nth j cols 0%nat)) (seq 0 (length cols)))).
  intros i Hi. apply in_seq in Hi.
  apply (padds_fold n w (fun j M => di <- dofAt rows i ;; dj <- dofAt cols j ;;
    if ((di <? n) && (dj <? w))%nat then Ok (fun a b => if ((a =? di) && (b =? dj))%nat then (M a b + K i j)%R else M a b) else UB)
    (fun j v u => v (nth i rows 0%nat) * K i j * u (nth j cols 0%nat))).
  intros j Hj. apply in_seq in Hj. intros M. rewrite !dofAt_ok by lia. cbn [bind].
  assert (Bi : (nth i rows 0 < n)%nat) by (apply HR, nth_In; lia). assert (Bj : (nth j cols 0 < w)%nat) by (apply HC, nth_In; lia).
  rewrite (proj2 (Nat.ltb_lt _ _) Bi), (proj2 (Nat.ltb_lt _ _) Bj). cbn [andb]. eexists. split; [reflexivity|]. intros v u. apply pform_add; assumption.
Qed.
(** One shared face, with a test function that vanishes on the neighbour. *)
Lemma shared_adds : forall n w sh (k : integ), (forall f, In f sh -> Forall (fun d => (d < n)%nat) (mf_dofs1 f) /\ Forall (fun d => (d < w)%nat) (vdofs f) /\
    length (vdofs f) = faceSize (mf_face f) /\ exists K, k (mf_face f) = Ok K) ->
  exists g, padds n w (assembleShared n w sh k) (fun v u => suml (fun f => g f v u) sh) /\
    forall f v u, In f sh -> (forall d, In d (mf_dofs2 f) -> v d = 0) -> g f v u = bil k f v u.
Proof.
  intros n w sh k H.
  exists (fun f v u => match k (mf_face f) with Ok K => sumN (length (mf_dofs1 f)) (fun i => sumN (length (vdofs f)) (fun j => v (nth i (mf_dofs1 f) 0%nat) * K i j * u (nth j (vdofs f) 0%nat))) | _ => 0 end).
  split.
  - unfold assembleShared. apply (padds_fold n w (fun f M => K <- k (mf_face f) ;; addRows n w (mf_dofs1 f) (vdofs f) K M)).
    intros f I. destruct (H f I) as (H1 & H2 & _ & K & E). rewrite E. cbn [bind]. apply rows_adds; assumption.
  - intros f v u I Z. destruct (H f I) as (H1 & H2 & L & K & E). unfold bil. rewrite E. unfold mform. rewrite <- L.
    unfold local. fold (vdofs f). unfold vdofs at 3. rewrite app_length, sumN_app.
    rewrite (sumN_zero (length (mf_dofs2 f))).
    + rewrite Rplus_0_r. apply sumN_ext. intros i Hi. apply sumN_ext. intros j Hj. unfold vdofs at 2. rewrite app_nth1 by exact Hi. reflexivity.
    + intros i Hi. apply sumN_zero. intros j Hj. unfold vdofs at 1. rewrite app_nth2 by lia. rewrite Z; [ring|]. apply nth_In. lia.
Qed.

(** ** A face in the numbering of a process *)
Definition seen (cols : list nat) (V : nat -> R) : nat -> R := fun k => V (nth k cols 0%nat).
Lemma nth_col : forall cols l i, (i < length l)%nat -> nth i (map (fun k => nth k cols 0%nat) l) 0%nat = nth (nth i l 0%nat) cols 0%nat.
Proof. intros cols l i H. rewrite (nth_indep _ 0%nat ((fun k => nth k cols 0%nat) 0%nat)) by (rewrite map_length; exact H). apply (map_nth (fun k => nth k cols 0%nat)). Qed.
Lemma vdofs_map : forall F, local F = fun v i => v (nth i (vdofs F) 0%nat).
Proof. reflexivity. Qed.
Lemma same_local : forall cols F F' V i, sameFace cols F F' -> (i < length (vdofs F'))%nat -> local F' (seen cols V) i = local F V i.
Proof.
  intros cols F F' V i (_ & _ & E1 & E2) Hi. rewrite !vdofs_map. unfold seen. unfold vdofs at 2. rewrite E1, E2, <- map_app. fold (vdofs F'). f_equal.
  symmetry. apply nth_col. exact Hi.
Qed.
Lemma same_lengths : forall cols F F', sameFace cols F F' -> length (mf_dofs1 F') = length (mf_dofs1 F) /\ length (mf_dofs2 F') = length (mf_dofs2 F).
Proof. intros cols F F' (_ & _ & E1 & E2). rewrite E1, E2, !map_length. split; reflexivity. Qed.
Lemma same_bil : forall N k cols F F' V U, wfMF N F -> sameFace cols F F' -> bil k F' (seen cols V) (seen cols U) = bil k F V U.
Proof.
  intros N k cols F F' V U W S. pose proof (face_size N F W) as L. pose proof (same_lengths _ _ _ S) as (L1 & L2).
  unfold bil. rewrite (proj1 S). destruct (k (mf_face F)) as [K| |]; try reflexivity.
  assert (LL : length (vdofs F') = faceSize (mf_face F)) by (rewrite <- L; unfold vdofs; rewrite !app_length, L1, L2; reflexivity).
  apply mform_ext2; intros i Hi; apply same_local; try exact S; rewrite LL; exact Hi.
Qed.
Lemma other_sides : forall N cols F F' V q q', wfMF N F -> wfPoint (mf_face F) q -> otherFace cols F F' -> flippedPoint q q' ->
  side1 (mf_face F') (local F' (seen cols V)) q' = side2 (mf_face F) (local F V) q /\
  side2 (mf_face F') (local F' (seen cols V)) q' = side1 (mf_face F) (local F V) q.
Proof.
  intros N cols F F' V q q' (W1 & W2 & _) (_ & P1 & P2) ((F2 & F2' & _) & _ & E1 & E2) (_ & _ & S1 & S2).
  rewrite F2 in W2, P2. unfold side1, side2. rewrite F2, F2', S1, S2. unfold tr, local, seen. rewrite E1, map_length in W1. rewrite E2, map_length in W2. rewrite E1, E2.
  split; apply sumN_ext; intros i Hi; f_equal; f_equal.
  - rewrite P2 in Hi. rewrite Nat.add_0_r, app_nth1 by lia. rewrite app_nth2 by (rewrite map_length; lia). rewrite map_length, W1.
    replace (i + f_el1 (mf_face F) - f_el1 (mf_face F))%nat with i by lia.
    symmetry. apply nth_col. lia.
  - rewrite P1 in Hi. rewrite Nat.add_0_r. rewrite app_nth2 by lia. rewrite (app_nth1 (map _ _)) by (rewrite map_length; lia).
    replace (i + f_el1 (mf_face F') - length (mf_dofs1 F'))%nat with i by lia.
    symmetry. apply nth_col. lia.
Qed.
Lemma forall2_in_l : forall {A B} (P : A -> B -> Prop) l l' a, Forall2 P l l' -> In a l -> exists b, In b l' /\ P a b.
Proof. intros A B P l l' a F. induction F as [|x y t t' Pxy F IH]; intros I; [destruct I|]. destruct I as [->|I]; [exists y; split; [left; reflexivity|exact Pxy]|]. destruct (IH I) as (b & Ib & Pb). exists b. split; [right; exact Ib|exact Pb]. Qed.
(** An integrator whose value does not depend on the side from which the face is seen. *)
Definition evenHanded (k : integ) : Prop := forall N cols F F' V U, wfMF N F -> wfFace (mf_face F) -> otherFace cols F F' ->
  bil k F' (seen cols V) (seen cols U) = bil k F V U.
Lemma even_of : forall (k : integ) (g : (qpoint -> R) -> (qpoint -> R) -> (qpoint -> R) -> (qpoint -> R) -> qpoint -> R),
  (forall F, wfFace F -> integrates F (k F) (fun v u q => g (side1 F v) (side2 F v) (side1 F u) (side2 F u) q)) ->
  (forall v1 v2 u1 u2 v1' v2' u1' u2' q q', flippedPoint q q' -> v1' q' = v2 q -> v2' q' = v1 q -> u1' q' = u2 q -> u2' q' = u1 q ->
     g v1' v2' u1' u2' q' = g v1 v2 u1 u2 q) -> evenHanded k.
Proof.
  intros k g HI HG N cols F F' V U W WF O. pose proof O as O'. destruct O' as ((_ & _ & WF' & l & Pm & F2) & _).
  rewrite (bil_of k F' _ (HI _ WF')), (bil_of k F _ (HI _ WF)). rewrite <- (suml_perm _ _ _ Pm).
  assert (WP : forall q, In q (f_pts (mf_face F)) -> wfPoint (mf_face F) q) by (apply Forall_forall; exact WF).
  apply (two_suml flippedPoint _ _ _ _ F2). intros q q' Iq Fp.
  destruct (other_sides N cols F F' V q q' W (WP q Iq) O Fp) as (A1 & A2). destruct (other_sides N cols F F' U q q' W (WP q Iq) O Fp) as (B1 & B2).
  rewrite (proj1 Fp). f_equal. apply HG; assumption.
Qed.
Lemma even_zero : forall beta, evenHanded (zeroNormalJump beta).
Proof.
  intros beta. apply even_of with (g := fun v1 v2 u1 u2 q => beta / 2 * ((v1 q - v2 q) * (u1 q - u2 q))).
  - intros F WF. apply (zero_value F WF beta).
  - intros v1 v2 u1 u2 v1' v2' u1' u2' q q' _ -> -> -> ->. ring.
Qed.
Lemma even_one : forall d beta, (d < 3)%nat -> evenHanded (oneNormalJump [d] beta).
Proof.
  intros d beta Hd. apply even_of with (g := fun v1 v2 u1 u2 q => beta * (unitN q d * (u1 q - u2 q) * ((v1 q + v2 q) / 2))).
  - intros F WF. apply (one_value F WF d beta Hd).
  - intros v1 v2 u1 u2 v1' v2' u1' u2' q q' (_ & Un & _) -> -> -> ->. rewrite Un. field.
Qed.
Lemma even_two : forall d e beta, (d < 3)%nat -> (e < 3)%nat -> evenHanded (twoNormalJump [d; e] beta).
Proof.
  intros d e beta Hd He. apply even_of with (g := fun v1 v2 u1 u2 q => beta / 2 * (unitN q d * unitN q e * (v1 q - v2 q) * (u1 q - u2 q))).
  - intros F WF. apply (two_value F WF d e beta Hd He).
  - intros v1 v2 u1 u2 v1' v2' u1' u2' q q' (_ & Un & _) -> -> -> ->. rewrite !Un. ring.
Qed.

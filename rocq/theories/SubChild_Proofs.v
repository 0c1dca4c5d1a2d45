From Coq Require Import ZArith List Bool Reals Lra Lia.
From Verif Require Import Common Conn_Model Sub_Model Sub_Spec Sub_Proofs.
Import ListNotations.
Local Open Scope Z_scope.

Lemma findFrom_none : forall l v k, 0 <= k -> findFrom l v k < 0 -> ~ In v l.
Proof.
  induction l as [|x l IH]; intros v k Hk H; [intros []|]. cbn [findFrom] in H. destruct (Z.eqb_spec x v) as [E|E]; [lia|].
  intros [Q|Q]; [congruence|]. apply (IH v (k + 1)); [lia|exact H|exact Q].
Qed.
Lemma findFrom_some : forall l v k, 0 <= k -> 0 <= findFrom l v k -> exists i, findFrom l v k = k + i /\ zget l i = Ok v.
Proof.
  induction l as [|x l IH]; intros v k Hk H; cbn [findFrom] in *; [lia|]. destruct (Z.eqb_spec x v) as [->|E].
  - exists 0. split; [lia|reflexivity].
  - destruct (IH v (k + 1)) as [i [E1 E2]]; [lia|exact H|]. exists (i + 1). split; [lia|].
    apply zget_ok in E2 as [Hi Hn]. apply zget_ok. split; [lia|]. replace (Z.to_nat (i + 1)) with (S (Z.to_nat i)) by lia. exact Hn.
Qed.
Lemma findZ_cases : forall l v, (findZ l v < 0 /\ ~ In v l) \/ (0 <= findZ l v /\ zget l (findZ l v) = Ok v).
Proof.
  intros l v. destruct (Z_lt_le_dec (findZ l v) 0) as [H|H].
  - left. split; [exact H|]. apply (findFrom_none l v 0); [lia|exact H].
  - right. split; [exact H|]. destruct (findFrom_some l v 0) as [i [E1 E2]]; [lia|exact H|]. unfold findZ. rewrite E1, Z.add_0_l. exact E2.
Qed.
Lemma nodup_zget : forall (l : list Z) i j v, NoDup l -> zget l i = Ok v -> zget l j = Ok v -> i = j.
Proof.
  intros l i j v N H1 H2. pose proof (zget_len _ _ _ H1) as L1. apply zget_ok in H1 as [P1 Q1]. apply zget_ok in H2 as [P2 Q2].
  assert (Z.to_nat i = Z.to_nat j) by (apply (proj1 (NoDup_nth_error l) N); [lia|congruence]). lia.
Qed.
(** Boundary elements appear at most once in the face maps. *)
Definition onceNonneg (l : list Z) : Prop := forall i j v, 0 <= v -> zget l i = Ok v -> zget l j = Ok v -> i = j.

Lemma setChild_ok : forall (m : mesh) (marker f2b cf2b fmap cattr : list Z) (code : Z), covers m marker -> onceNonneg f2b -> NoDup fmap ->
  length cf2b = length fmap -> (forall cb, In cb cf2b -> cb < Z.of_nat (length cattr)) ->
  exists a, setChild m marker f2b cf2b fmap code cattr = Ok a /\ length a = length cattr /\
    forall cb, 0 <= cb < Z.of_nat (length cattr) ->
      ((exists be, In be (marked m marker) /\ inherits f2b cf2b fmap be cb) -> zget a cb = Ok code) /\
      ((forall be, In be (marked m marker) -> ~ inherits f2b cf2b fmap be cb) -> zget a cb = zget cattr cb).
Proof.
  intros m marker f2b cf2b fmap cattr code C O1 N2 L2 R2. unfold setChild.
  set (step := fun (a : list Z) be => let pf := findZ f2b be in if pf <? 0 then Ok a else
      let cf := findZ fmap pf in if cf <? 0 then Ok a else
      cb <- zget cf2b cf ;; if cb <? 0 then Ok a else zset a cb code).
  rewrite (foldM_filter m marker step) by (exact C || apply numBdr_ok). fold (marked m marker).
  assert (ST : forall be a, 0 <= be -> length a = length cattr -> exists a', step a be = Ok a' /\ length a' = length cattr /\ forall cb, 0 <= cb < Z.of_nat (length cattr) ->
     (inherits f2b cf2b fmap be cb /\ zget a' cb = Ok code) \/ (~ inherits f2b cf2b fmap be cb /\ zget a' cb = zget a cb)).
  { intros be a Hbe La. unfold step. cbv zeta. destruct (findZ_cases f2b be) as [[F1 F2]|[F1 F2]].
    - destruct (Z.ltb_spec (findZ f2b be) 0); [|lia]. exists a. split; [reflexivity|]. split; [exact La|]. intros cb Hcb. right. split; [|reflexivity].
      intros [pf [cf [A _]]]. apply F2. apply (zget_in _ _ _ A).
    - destruct (Z.ltb_spec (findZ f2b be) 0); [lia|]. set (pf := findZ f2b be) in *. destruct (findZ_cases fmap pf) as [[G1 G2]|[G1 G2]].
      + destruct (Z.ltb_spec (findZ fmap pf) 0); [|lia]. exists a. split; [reflexivity|]. split; [exact La|]. intros cb Hcb. right. split; [|reflexivity].
        intros [pf' [cf [A [B _]]]]. assert (pf' = pf) by (apply (O1 pf' pf be Hbe A F2)). subst pf'. apply G2. apply (zget_in _ _ _ B).
      + destruct (Z.ltb_spec (findZ fmap pf) 0); [lia|]. set (cf := findZ fmap pf) in *. pose proof (zget_len _ _ _ G2) as Lc. rewrite <- L2 in Lc.
        destruct (zget_some cf2b cf Lc) as [c Ec]. rewrite Ec. cbn [bind].
        assert (U : forall cb, inherits f2b cf2b fmap be cb -> cb = c).
        { intros cb [pf' [cf' [A [B [D _]]]]]. assert (pf' = pf) by (apply (O1 pf' pf be Hbe A F2)). subst pf'.
          assert (cf' = cf) by (apply (nodup_zget fmap cf' cf pf N2 B G2)). subst cf'. rewrite Ec in D. injection D as <-. reflexivity. }
        destruct (Z.ltb_spec c 0) as [Hc|Hc].
        * exists a. split; [reflexivity|]. split; [exact La|]. intros cb Hcb. right. split; [|reflexivity]. intros Q. apply U in Q. lia.
        * specialize (R2 c (zget_in _ _ _ Ec)). rewrite zset_spec by lia. eexists. split; [reflexivity|]. split; [rewrite upd_length; exact La|].
          intros cb Hcb. destruct (Z.eq_dec cb c) as [->|N].
          -- left. split; [exists pf, cf; auto|]. apply zget_ok. split; [lia|]. apply nth_error_upd_same. lia.
          -- right. split; [intros Q; apply N; apply U; exact Q|]. unfold zget. destruct (Z.ltb_spec cb 0); [reflexivity|]. rewrite nth_error_upd_other by lia. reflexivity. }
  assert (LP : forall l a, (forall be, In be l -> 0 <= be) -> length a = length cattr -> exists a', foldM step l a = Ok a' /\ length a' = length cattr /\ forall cb, 0 <= cb < Z.of_nat (length cattr) ->
     ((exists be, In be l /\ inherits f2b cf2b fmap be cb) -> zget a' cb = Ok code) /\ ((forall be, In be l -> ~ inherits f2b cf2b fmap be cb) -> zget a' cb = zget a cb) /\
     (zget a cb = Ok code -> zget a' cb = Ok code)).
  { induction l as [|be l IH]; intros a Hl La.
    - exists a. split; [reflexivity|]. split; [exact La|]. intros cb Hcb. split; [intros [be [[] _]]|split; [reflexivity|auto]].
    - destruct (ST be a (Hl be (or_introl eq_refl)) La) as [a1 [E1 [L1 P1]]]. destruct (IH a1) as [a' [E' [L' P']]]; [intros x Hx; apply Hl; right; exact Hx|exact L1|].
      exists a'. cbn [foldM]. rewrite E1. cbn [bind]. split; [exact E'|]. split; [exact L'|]. intros cb Hcb. specialize (P1 cb Hcb). specialize (P' cb Hcb) as [A [B D]]. split; [|split].
      + intros [be' [[<-|Hin] Hi]]; [|apply A; exists be'; split; assumption]. destruct P1 as [[_ P1]|[P1 _]]; [apply D; exact P1|contradiction].
      + intros N. rewrite B by (intros x Hx; apply N; right; exact Hx). destruct P1 as [[P1 _]|[_ P1]]; [exfalso; apply (N be (or_introl eq_refl) P1)|exact P1].
      + intros Q. destruct P1 as [[_ P1]|[_ P1]]; [apply D; exact P1|apply D; congruence]. }
  destruct (LP (marked m marker) cattr) as [a [E [L P]]]; [intros be Hb; destruct (marked_ok m marker be Hb) as [b Hz]; apply zget_len in Hz; lia|reflexivity|].
  exists a. split; [exact E|]. split; [exact L|]. intros cb Hcb. destruct (P cb Hcb) as [A [B _]]. split; assumption.
Qed.

(** ** Transfers *)
Local Open Scope R_scope.
Definition nthR (l : list R) (k : Z) : R := nth (Z.to_nat k) l 0.
Lemma gathered_app : forall map_ src i x k, length map_ = length src -> gathered (map_ ++ [i]) (src ++ [x]) k = gathered map_ src k + (if (i =? k)%Z then x else 0).
Proof.
  intros map_. induction map_ as [|a l IH]; intros src i x k L; destruct src as [|y src]; try discriminate L.
  - unfold gathered. cbn [app combine map fold_right fst snd]. ring.
  - unfold gathered in *. cbn [app combine map fold_right fst snd]. rewrite IH by (injection L; auto). ring.
Qed.
Lemma nth_upd_R : forall (l : list R) n m x, (n < length l)%nat -> nth m (upd l n x) 0 = if (m =? n)%nat then x else nth m l 0.
Proof.
  intros l n m x H. destruct (Nat.eqb_spec m n) as [->|N].
  - apply nth_error_nth. apply nth_error_upd_same. exact H.
  - pose proof (nth_error_upd_other l n m x) as Q. rewrite <- (nth_default_eq m (upd l n x)), <- (nth_default_eq m l). unfold nth_default. rewrite Q by congruence. reflexivity.
Qed.
Lemma transfer_gen : forall (op : R -> R -> R) (sg : R) (map_ : list Z) (src dst : list R), (forall x y, op y x = y + sg * x) -> (length map_ <= length src)%nat ->
  (forall k, In k map_ -> 0 <= k < Z.of_nat (length dst))%Z ->
  exists d, transfer op map_ src dst = Ok d /\ length d = length dst /\ forall k, (0 <= k)%Z -> nthR d k = nthR dst k + sg * gathered map_ (firstn (length map_) src) k
    \/ (Z.of_nat (length dst) <= k)%Z.
Proof.
  intros op sg map_ src dst Hop HL HR. unfold transfer.
  assert (Q : forall n, (n <= length map_)%nat -> exists d, foldM (fun d i => k <- zget map_ i ;; x <- zget src i ;; y <- zget d k ;; zset d k (op y x)) (zseq n) dst = Ok d /\ length d = length dst /\
     forall k, (0 <= k < Z.of_nat (length dst))%Z -> nthR d k = nthR dst k + sg * gathered (firstn n map_) (firstn n src) k).
  { induction n as [|n IH]; intros Hn.
    - exists dst. split; [reflexivity|]. split; [reflexivity|]. intros k _. unfold gathered. cbn. ring.
    - destruct IH as [d [E [L P]]]; [lia|]. rewrite zseq_S, foldM_app, E. cbn [bind foldM].
      destruct (zget_in_range map_ (Z.of_nat n)) as [k0 [K1 K2]]; [lia|]. destruct (zget_in_range src (Z.of_nat n)) as [x [X1 X2]]; [lia|].
      rewrite Nat2Z.id in K2, X2. pose proof (HR k0 (nth_error_In _ _ K2)) as Rk. rewrite K1, X1. cbn [bind].
      destruct (zget_in_range d k0) as [y [Y1 Y2]]; [lia|]. rewrite Y1. cbn [bind].
      assert (ZS : zset d k0 (op y x) = Ok (upd d (Z.to_nat k0) (op y x))).
      { unfold zset. destruct (Z.ltb_spec k0 0); [lia|]. destruct (Nat.ltb_spec (Z.to_nat k0) (length d)); [reflexivity|lia]. }
      rewrite ZS. cbn [bind]. eexists. split; [reflexivity|]. split; [rewrite upd_length; exact L|]. intros k Hk.
      assert (F : forall {A} (l : list A) a, nth_error l n = Some a -> firstn (S n) l = firstn n l ++ [a]).
      { intros A l a H. clear -H. revert l H. induction n as [|n IH]; intros l H; destruct l; try discriminate H; cbn [firstn app].
        - injection H as <-. reflexivity.
        - cbn in H. rewrite <- (IH l H). reflexivity. }
      rewrite (F Z map_ k0 K2), (F R src x X2), gathered_app by (rewrite !firstn_length; lia). unfold nthR. rewrite nth_upd_R by lia.
      specialize (P k Hk). unfold nthR in P. destruct (Nat.eqb_spec (Z.to_nat k) (Z.to_nat k0)) as [Ek|Ek].
      + assert (k = k0) by lia. subst k0. rewrite Z.eqb_refl, Hop. apply (nth_error_nth _ _ 0) in Y2. rewrite <- Y2, P. ring.
      + destruct (Z.eqb_spec k0 k) as [->|_]; [contradiction Ek; reflexivity|]. rewrite P. ring. }
  destruct (Q (length map_) (Nat.le_refl _)) as [d [E [L P]]]. exists d. split; [exact E|]. split; [exact L|]. intros k Hk.
  destruct (Z_lt_le_dec k (Z.of_nat (length dst))) as [H|H]; [left|right; exact H]. rewrite P by lia. rewrite firstn_all. reflexivity.
Qed.
Lemma nthR_ext : forall a b : list R, length a = length b -> (forall k, (0 <= k < Z.of_nat (length a))%Z -> nthR a k = nthR b k) -> a = b.
Proof.
  intros a b L H. apply (nth_ext a b 0 0 L). intros n Hn. specialize (H (Z.of_nat n)). unfold nthR in H. rewrite Nat2Z.id in H. apply H. lia.
Qed.
Lemma add_ok : forall (map_ : list Z) (src dst : list R), length map_ = length src -> (forall k, In k map_ -> 0 <= k < Z.of_nat (length dst))%Z ->
  exists d, transferAdd map_ src dst = Ok d /\ length d = length dst /\ forall k, (0 <= k < Z.of_nat (length dst))%Z -> nth (Z.to_nat k) d 0 = nth (Z.to_nat k) dst 0 + gathered map_ src k.
Proof.
  intros map_ src dst L HR. destruct (transfer_gen Rplus 1 map_ src dst) as [d [E [Ld P]]]; [intros; ring|lia|exact HR|].
  exists d. split; [exact E|]. split; [exact Ld|]. intros k Hk. destruct (P k) as [Q|Q]; [lia| |lia]. unfold nthR in Q. rewrite Q, L, firstn_all. ring.
Qed.
Lemma sub_ok : forall (map_ : list Z) (src dst : list R), length map_ = length src -> (forall k, In k map_ -> 0 <= k < Z.of_nat (length dst))%Z ->
  exists d, transferSub map_ src dst = Ok d /\ length d = length dst /\ forall k, (0 <= k < Z.of_nat (length dst))%Z -> nth (Z.to_nat k) d 0 = nth (Z.to_nat k) dst 0 - gathered map_ src k.
Proof.
  intros map_ src dst L HR. destruct (transfer_gen Rminus (-1) map_ src dst) as [d [E [Ld P]]]; [intros; ring|lia|exact HR|].
  exists d. split; [exact E|]. split; [exact Ld|]. intros k Hk. destruct (P k) as [Q|Q]; [lia| |lia]. unfold nthR in Q. rewrite Q, L, firstn_all. ring.
Qed.
Lemma add_sub : forall (map_ : list Z) (src dst d : list R), length map_ = length src -> (forall k, In k map_ -> 0 <= k < Z.of_nat (length dst))%Z ->
  transferAdd map_ src dst = Ok d -> transferSub map_ src d = Ok dst.
Proof.
  intros map_ src dst d L HR E. destruct (add_ok map_ src dst L HR) as [d1 [E1 [L1 P1]]]. rewrite E in E1. injection E1 as <-.
  destruct (sub_ok map_ src d L) as [d2 [E2 [L2 P2]]]; [rewrite L1; exact HR|]. rewrite E2. f_equal. apply nthR_ext; [congruence|].
  intros k Hk. unfold nthR. rewrite P2 by lia. rewrite P1 by lia. ring.
Qed.

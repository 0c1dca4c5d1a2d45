(** The matrix operator applied to any state. *)
From Coq Require Import ZArith List Bool Reals Lia Lra.
From Verif Require Import Common Csr_Model Csr_Spec Assembly_Model Assembly_Spec Assembly_Proofs Matrix_Model Matrix_Spec.
Import ListNotations.
Local Open Scope Z_scope.

Definition dot (row : list (Z * R)) (x : list R) : R := rsum (map (fun e => snd e * nth (Z.to_nat (fst e)) x 0)%R row).

Lemma zget_nth : forall (l : list R) i, 0 <= i < Z.of_nat (length l) -> zget l i = Ok (nth (Z.to_nat i) l 0%R).
Proof.
  intros l i Hi. apply zget_ok. split; [lia|]. apply nth_error_nth'. lia.
Qed.
Lemma nth_upd : forall (l : list R) i a k, (i < length l)%nat -> nth k (upd l i a) 0%R = if (k =? i)%nat then a else nth k l 0%R.
Proof.
  induction l as [|x t IH]; intros [|i] a [|k] Hi; cbn in *; try lia; try reflexivity. apply IH. lia.
Qed.
Lemma zset_nth : forall (l : list R) i a, 0 <= i < Z.of_nat (length l) ->
  exists l', zset l i a = Ok l' /\ length l' = length l /\ forall k, nth k l' 0%R = if (k =? Z.to_nat i)%nat then a else nth k l 0%R.
Proof.
  intros l i a Hi. exists (upd l (Z.to_nat i) a). unfold zset.
  destruct (Z.ltb_spec i 0); [lia|]. destruct (Nat.ltb_spec (Z.to_nat i) (length l)); [|lia].
  split; [reflexivity|]. split; [apply upd_length|]. intros k. apply nth_upd. lia.
Qed.
Lemma row_times : forall row x, (forall e, In e row -> 0 <= fst e < Z.of_nat (length x)) -> rowTimes row x = Ok (dot row x).
Proof.
  intros row x HR. unfold rowTimes.
  assert (G : forall l s, (forall e, In e l -> 0 <= fst e < Z.of_nat (length x)) ->
    foldM (fun s e => v <- zget x (fst e) ;; Ok (s + snd e * v)%R) l s = Ok (s + dot l x)%R).
  { induction l as [|e t IH]; intros s HI; cbn [foldM].
    - f_equal. unfold dot. cbn. lra.
    - rewrite zget_nth by (apply HI; left; reflexivity). cbn [bind]. rewrite IH by (intros; apply HI; right; assumption).
      f_equal. unfold dot. cbn [map]. unfold rsum. cbn [fold_right]. lra. }
  rewrite G by exact HR. f_equal. lra.
Qed.

Lemma add_mult : forall rows x off a out,
  0 <= off -> off + Z.of_nat (length rows) <= Z.of_nat (length out) ->
  (forall row e, In row rows -> In e row -> 0 <= fst e < Z.of_nat (length x)) ->
  exists out', addMult rows x off a out = Ok out' /\ length out' = length out /\
    forall k, nth k out' 0%R = (nth k out 0 + (if (Z.to_nat off <=? k)%nat && (k <? Z.to_nat off + length rows)%nat then a * dot (nth (k - Z.to_nat off) rows []) x else 0))%R.
Proof.
  intros rows x off a out H0 HL HR. unfold addMult.
  set (step := fun (out : list R) (i : Z) => _).
  assert (G : forall m, (m <= length rows)%nat -> exists out', foldM step (zseq m) out = Ok out' /\ length out' = length out /\
    forall k, nth k out' 0%R = (nth k out 0 + (if (Z.to_nat off <=? k)%nat && (k <? Z.to_nat off + m)%nat then a * dot (nth (k - Z.to_nat off) rows []) x else 0))%R).
  { induction m as [|m IH]; intros Hm.
    - exists out. split; [reflexivity|]. split; [reflexivity|]. intros k.
      replace ((Z.to_nat off <=? k)%nat && (k <? Z.to_nat off + 0)%nat) with false; [lra|].
      destruct (Nat.leb_spec (Z.to_nat off) k), (Nat.ltb_spec k (Z.to_nat off + 0)); try reflexivity; lia.
    - destruct (IH ltac:(lia)) as (o & E1 & L1 & V1). rewrite zseq_S, foldM_app, E1. cbn [bind foldM]. unfold step at 1.
      assert (ER : zget rows (Z.of_nat m) = Ok (nth m rows [])).
      { apply zget_ok. split; [lia|]. rewrite Nat2Z.id. apply nth_error_nth'. lia. }
      rewrite ER. cbn [bind]. rewrite row_times by (intros e I; apply (HR (nth m rows []) e); [apply nth_In; lia|exact I]). cbn [bind].
      rewrite zget_nth by lia. cbn [bind].
      destruct (zset_nth o (off + Z.of_nat m) (nth (Z.to_nat (off + Z.of_nat m)) o 0 + a * dot (nth m rows []) x)%R ltac:(lia)) as (o' & E2 & L2 & V2).
      rewrite E2. cbn [bind]. exists o'. split; [reflexivity|]. split; [congruence|]. intros k. rewrite V2.
      replace (Z.to_nat (off + Z.of_nat m)) with (Z.to_nat off + m)%nat by lia.
      destruct (Nat.eqb_spec k (Z.to_nat off + m)) as [->|N].
      + rewrite V1. replace (Z.to_nat off + m - Z.to_nat off)%nat with m by lia.
        destruct (Nat.leb_spec (Z.to_nat off) (Z.to_nat off + m)); [|lia].
        destruct (Nat.ltb_spec (Z.to_nat off + m) (Z.to_nat off + m)); [lia|]. destruct (Nat.ltb_spec (Z.to_nat off + m) (Z.to_nat off + S m)); [|lia]. cbn [andb]. lra.
      + rewrite V1. destruct (Nat.leb_spec (Z.to_nat off) k); cbn [andb]; [|reflexivity].
        destruct (Nat.ltb_spec k (Z.to_nat off + m)), (Nat.ltb_spec k (Z.to_nat off + S m)); try reflexivity; lia. }
  apply G. lia.
Qed.

Section Mult.
Variable op : opname -> list (list (Z * R)).
Variable n nb : Z.
Hypothesis Hn : 0 <= n.
Hypothesis Hnb : 0 <= nb.
Hypothesis OK : ops_ok op n nb.

Definition good (t : term) : Prop := 0 <= t_part t < 6 /\
  forall row e, In row (op (t_op t)) -> In e row -> 0 <= fst e < Z.of_nat (length (t_vec t)).
Definition contr (c : Z) (i : nat) (t : term) : R :=
  if t_part t =? c then (t_fac t * dot (nth i (op (t_op t)) []) (t_vec t))%R else 0%R.

Lemma part_range : forall (p c : Z) i, 0 <= p < 6 -> 0 <= c < 6 -> (i < Z.to_nat n)%nat ->
  ((Z.to_nat (p * n) <=? Z.to_nat (c * n + Z.of_nat i))%nat && (Z.to_nat (c * n + Z.of_nat i) <? Z.to_nat (p * n) + Z.to_nat n)%nat) = (p =? c).
Proof.
  intros p c i Hp Hc Hi.
  destruct (Z.eqb_spec p c) as [->|N].
  - apply andb_true_intro. split; [apply Nat.leb_le|apply Nat.ltb_lt]; nia.
  - apply andb_false_iff. assert (C : p < c \/ c < p) by lia. destruct C; [right; apply Nat.ltb_ge|left; apply Nat.leb_gt]; nia.
Qed.

Lemma terms_sum : forall ts out, length out = Z.to_nat (6 * n) -> (forall t, In t ts -> good t) ->
  exists out', foldM (fun out t => addMult (op (t_op t)) (t_vec t) (t_part t * n) (t_fac t) out) ts out = Ok out' /\ length out' = length out /\
    forall c i, 0 <= c < 6 -> (i < Z.to_nat n)%nat -> nth (Z.to_nat (c * n + Z.of_nat i)) out' 0%R =
      (nth (Z.to_nat (c * n + Z.of_nat i)) out 0 + rsum (map (contr c i) ts))%R.
Proof.
  induction ts as [|t ts IH]; intros out HL HG; cbn [foldM].
  - exists out. split; [reflexivity|]. split; [reflexivity|]. intros. cbn. lra.
  - destruct (HG t (or_introl eq_refl)) as (P & C). destruct (OK (t_op t)) as (LR & _).
    destruct (add_mult (op (t_op t)) (t_vec t) (t_part t * n) (t_fac t) out ltac:(nia) ltac:(nia) C) as (o & E1 & L1 & V1).
    rewrite E1. cbn [bind]. destruct (IH o ltac:(congruence) (fun t' I => HG t' (or_intror I))) as (o' & E2 & L2 & V2).
    exists o'. split; [exact E2|]. split; [congruence|]. intros c i Hc Hi. rewrite (V2 c i Hc Hi), V1, LR, part_range by assumption.
    cbn [map]. unfold rsum. cbn [fold_right]. fold (rsum (map (contr c i) ts)). unfold contr at 2. destruct (Z.eqb_spec (t_part t) c) as [->|N]; [|lra].
    replace (Z.to_nat (c * n + Z.of_nat i) - Z.to_nat (c * n))%nat with i by nia. lra.
Qed.

Lemma clear_ok : forall k out, 0 <= k < 6 -> length out = Z.to_nat (6 * n) ->
  exists out', clear n k out = Ok out' /\ length out' = length out /\
   forall c i, 0 <= c < 6 -> (i < Z.to_nat n)%nat -> nth (Z.to_nat (c * n + Z.of_nat i)) out' 0%R = if c =? k then 0%R else nth (Z.to_nat (c * n + Z.of_nat i)) out 0%R.
Proof.
  intros k out Hk HL. unfold clear.
  assert (G : forall m, (m <= Z.to_nat n)%nat -> exists out', foldM (fun out i => zset out (k * n + i) 0%R) (zseq m) out = Ok out' /\ length out' = length out /\
    forall j, nth j out' 0%R = if (Z.to_nat (k * n) <=? j)%nat && (j <? Z.to_nat (k * n) + m)%nat then 0%R else nth j out 0%R).
  { induction m as [|m IH]; intros Hm.
    - exists out. split; [reflexivity|]. split; [reflexivity|]. intros j.
      destruct (Nat.leb_spec (Z.to_nat (k * n)) j), (Nat.ltb_spec j (Z.to_nat (k * n) + 0)); cbn [andb]; try reflexivity; lia.
    - destruct (IH ltac:(lia)) as (o & E1 & L1 & V1). rewrite zseq_S, foldM_app, E1. cbn [bind foldM].
      destruct (zset_nth o (k * n + Z.of_nat m) 0%R ltac:(nia)) as (o' & E2 & L2 & V2). rewrite E2. cbn [bind].
      exists o'. split; [reflexivity|]. split; [congruence|]. intros j. rewrite V2, V1.
      replace (Z.to_nat (k * n + Z.of_nat m)) with (Z.to_nat (k * n) + m)%nat by nia.
      destruct (Nat.eqb_spec j (Z.to_nat (k * n) + m)) as [->|N].
      + destruct (Nat.leb_spec (Z.to_nat (k * n)) (Z.to_nat (k * n) + m)); [|lia]. destruct (Nat.ltb_spec (Z.to_nat (k * n) + m) (Z.to_nat (k * n) + S m)); [reflexivity|lia].
      + destruct (Nat.leb_spec (Z.to_nat (k * n)) j); cbn [andb]; [|reflexivity].
        destruct (Nat.ltb_spec j (Z.to_nat (k * n) + m)), (Nat.ltb_spec j (Z.to_nat (k * n) + S m)); try reflexivity; lia. }
  destruct (G (Z.to_nat n) (le_n _)) as (o & E1 & L1 & V1). exists o. split; [exact E1|]. split; [exact L1|].
  intros c i Hc Hi. rewrite V1, part_range by assumption. rewrite Z.eqb_sym. reflexivity.
Qed.

Lemma view_ok : forall inp f d, length inp = Z.to_nat (6 * n) -> 0 <= f <= 1 -> 0 <= d <= 2 ->
  exists v, view n inp f d = Ok v /\ length v = Z.to_nat n /\ forall k, (k < Z.to_nat n)%nat -> nth k v 0%R = nth (Z.to_nat ((3 * f + d) * n + Z.of_nat k)) inp 0%R.
Proof.
  intros inp f d HL Hf Hd. unfold view.
  assert (G : forall m s, (s + m <= Z.to_nat n)%nat -> exists v, mapM (fun i => zget inp ((3 * f + d) * n + i)) (map Z.of_nat (seq s m)) = Ok v /\ length v = m /\
    forall k, (k < m)%nat -> nth k v 0%R = nth (Z.to_nat ((3 * f + d) * n + Z.of_nat (s + k))) inp 0%R).
  { induction m as [|m IH]; intros s Hs; cbn [seq map mapM].
    - exists []. split; [reflexivity|]. split; [reflexivity|]. intros; lia.
    - rewrite zget_nth by nia. cbn [bind]. destruct (IH (S s) ltac:(lia)) as (v & E & L & V). rewrite E. cbn [bind].
      eexists. split; [reflexivity|]. split; [cbn [length]; lia|]. intros [|k] Hk; cbn [nth]; [rewrite Nat.add_0_r; reflexivity|]. rewrite V by lia. do 2 f_equal. lia. }
  destruct (G (Z.to_nat n) 0%nat ltac:(lia)) as (v & E & L & V). exists v. split; [exact E|]. split; [exact L|]. intros k Hk. apply V. exact Hk.
Qed.

Lemma views_ok : forall inp, length inp = Z.to_nat (6 * n) ->
  exists parts, mapM (fun c => view n inp (c / 3) (c mod 3)) [0; 1; 2; 3; 4; 5] = Ok parts /\
    forall f d, 0 <= f <= 1 -> 0 <= d <= 2 -> length (nth (Z.to_nat (3 * f + d)) parts []) = Z.to_nat n /\
      forall k, (k < Z.to_nat n)%nat -> nth k (nth (Z.to_nat (3 * f + d)) parts []) 0%R = nth (Z.to_nat ((3 * f + d) * n + Z.of_nat k)) inp 0%R.
Proof.
  intros inp HL. cbn [mapM].
  change (0 / 3) with 0. change (1 / 3) with 0. change (2 / 3) with 0. change (3 / 3) with 1. change (4 / 3) with 1. change (5 / 3) with 1.
  change (0 mod 3) with 0. change (1 mod 3) with 1. change (2 mod 3) with 2. change (3 mod 3) with 0. change (4 mod 3) with 1. change (5 mod 3) with 2.
  destruct (view_ok inp 0 0 HL ltac:(lia) ltac:(lia)) as (v0 & E0 & V0). destruct (view_ok inp 0 1 HL ltac:(lia) ltac:(lia)) as (v1 & E1 & V1).
  destruct (view_ok inp 0 2 HL ltac:(lia) ltac:(lia)) as (v2 & E2 & V2). destruct (view_ok inp 1 0 HL ltac:(lia) ltac:(lia)) as (v3 & E3 & V3).
  destruct (view_ok inp 1 1 HL ltac:(lia) ltac:(lia)) as (v4 & E4 & V4). destruct (view_ok inp 1 2 HL ltac:(lia) ltac:(lia)) as (v5 & E5 & V5).
  rewrite E0, E1, E2, E3, E4, E5. cbn [bind]. eexists. split; [reflexivity|].
  intros f d Hf Hd. assert (C : f = 0 \/ f = 1) by lia. assert (C' : d = 0 \/ d = 1 \/ d = 2) by lia.
  destruct C as [->| ->], C' as [->|[->| ->]]; assumption.
Qed.

Lemma cleared : forall out, length out = Z.to_nat (6 * n) ->
  exists out', foldM (fun out d => o <- clear n d out ;; clear n (d + 3) o) [0; 1; 2] out = Ok out' /\ length out' = length out /\
   forall c i, 0 <= c < 6 -> (i < Z.to_nat n)%nat -> nth (Z.to_nat (c * n + Z.of_nat i)) out' 0%R = 0%R.
Proof.
  intros out HL. cbn [foldM].
  destruct (clear_ok 0 out ltac:(lia) HL) as (o0 & E0 & L0 & V0). rewrite E0. cbn [bind].
  destruct (clear_ok 3 o0 ltac:(lia) ltac:(congruence)) as (o3 & E3 & L3 & V3). change (0 + 3) with 3. rewrite E3. cbn [bind].
  destruct (clear_ok 1 o3 ltac:(lia) ltac:(congruence)) as (o1 & E1 & L1 & V1). rewrite E1. cbn [bind].
  destruct (clear_ok 4 o1 ltac:(lia) ltac:(congruence)) as (o4 & E4 & L4 & V4). change (1 + 3) with 4. rewrite E4. cbn [bind].
  destruct (clear_ok 2 o4 ltac:(lia) ltac:(congruence)) as (o2 & E2 & L2 & V2). rewrite E2. cbn [bind].
  destruct (clear_ok 5 o2 ltac:(lia) ltac:(congruence)) as (o5 & E5 & L5 & V5). change (2 + 3) with 5. rewrite E5. cbn [bind].
  exists o5. split; [reflexivity|]. split; [congruence|]. intros c i Hc Hi.
  rewrite V5, V2, V4, V1, V3, V0 by assumption.
  destruct (Z.eqb_spec c 5), (Z.eqb_spec c 2), (Z.eqb_spec c 4), (Z.eqb_spec c 1), (Z.eqb_spec c 3), (Z.eqb_spec c 0); try reflexivity; lia.
Qed.

Section State.
Variable dim : Z.
Hypothesis Hdim : 1 <= dim <= 3.
Hypothesis LD : localDerivatives op n.
Variable x inp out : list R.
Variable nbr : Z -> Z -> list R.
Hypothesis TG : together n nb x inp nbr.
Hypothesis LO : length out = Z.to_nat (6 * n).
Variable intBdr : bool.
Variable parts : list (list R).
Hypothesis PV : forall f d, 0 <= f <= 1 -> 0 <= d <= 2 -> length (nth (Z.to_nat (3 * f + d)) parts []) = Z.to_nat n /\
  forall k, (k < Z.to_nat n)%nat -> nth k (nth (Z.to_nat (3 * f + d)) parts []) 0%R = nth (Z.to_nat ((3 * f + d) * n + Z.of_nat k)) inp 0%R.
Definition oldOf (f d : Z) : list R := nth (Z.to_nat (3 * f + d)) parts [].
Definition fluxOf (f d : Z) : list R := loadFluxVector (oldOf f d) (nbr f d).
Notation ap := (app op n nb).

Lemma flux_value : forall f d k, 0 <= f <= 1 -> 0 <= d <= 2 -> 0 <= k < n + nb -> nth (Z.to_nat k) (fluxOf f d) 0%R = comp n nb x f d k.
Proof.
  intros f d k Hf Hd Hk. destruct TG as (_ & T). destruct (T f d Hf Hd) as (LN & T1 & T2). destruct (PV f d Hf Hd) as (LP & P).
  unfold fluxOf, loadFluxVector, oldOf. destruct (Z.lt_ge_cases k n).
  - rewrite app_nth1 by lia. rewrite P by lia. rewrite Z2Nat.id by lia. apply T1. lia.
  - rewrite app_nth2 by lia. rewrite LP. replace (Z.to_nat k - Z.to_nat n)%nat with (Z.to_nat (k - n)) by lia. rewrite T2 by lia. f_equal. lia.
Qed.
Lemma flux_length : forall f d, 0 <= f <= 1 -> 0 <= d <= 2 -> Z.of_nat (length (fluxOf f d)) = n + nb.
Proof.
  intros f d Hf Hd. destruct TG as (_ & T). destruct (T f d Hf Hd) as (LN & _). destruct (PV f d Hf Hd) as (LP & _).
  unfold fluxOf, loadFluxVector, oldOf. rewrite app_length. lia.
Qed.
Lemma row_in : forall o i e, In e (nth i (op o) []) -> exists row, In row (op o) /\ In e row.
Proof.
  intros o i e I. destruct (Nat.lt_ge_cases i (length (op o))).
  - exists (nth i (op o) []). split; [apply nth_In; assumption|exact I].
  - rewrite nth_overflow in I by lia. destruct I.
Qed.
Lemma flux_dot : forall o f d i, 0 <= f <= 1 -> 0 <= d <= 2 -> dot (nth i (op o) []) (fluxOf f d) = ap o x f d i.
Proof.
  intros o f d i Hf Hd. unfold dot, app. f_equal. apply map_ext_in. intros e I. rewrite flux_value; try assumption; [reflexivity|].
  destruct (row_in o i e I) as (row & I1 & I2). destruct (OK o) as (_ & B). apply (B row e I1 I2).
Qed.
Lemma old_dot : forall g k f d i, 0 <= f <= 1 -> 0 <= d <= 2 -> dot (nth i (op (OpDerivative g k)) []) (oldOf f d) = ap (OpDerivative g k) x f d i.
Proof.
  intros g k f d i Hf Hd. rewrite <- flux_dot by assumption. unfold dot. f_equal. apply map_ext_in. intros e I. f_equal.
  destruct (row_in _ i e I) as (row & I1 & I2). pose proof (LD g k row e I1 I2) as B. destruct (PV f d Hf Hd) as (LP & _).
  unfold fluxOf, loadFluxVector. rewrite app_nth1; [reflexivity|]. unfold oldOf. lia.
Qed.
Lemma good_flux : forall o f d p a, 0 <= f <= 1 -> 0 <= d <= 2 -> 0 <= p < 6 -> good (mkTerm o (fluxOf f d) p a).
Proof.
  intros o f d p a Hf Hd Hp. split; [exact Hp|]. cbn [t_op t_vec]. intros row e I1 I2. rewrite flux_length by assumption. destruct (OK o) as (_ & B). apply (B row e I1 I2).
Qed.
Lemma good_old : forall g k f d p a, 0 <= f <= 1 -> 0 <= d <= 2 -> 0 <= p < 6 -> good (mkTerm (OpDerivative g k) (oldOf f d) p a).
Proof.
  intros g k f d p a Hf Hd Hp. split; [exact Hp|]. cbn [t_op t_vec]. intros row e I1 I2. destruct (PV f d Hf Hd) as (LP & _). unfold oldOf. rewrite LP.
  pose proof (LD g k row e I1 I2). lia.
Qed.

Lemma terms_good : forall t, In t (flat_map (terms intBdr oldOf fluxOf) [0; 1; 2]) -> good t.
Proof.
  intros t I. apply in_flat_map in I. destruct I as (c & C & I).
  assert (H0 : 0 <= c <= 2) by (cbn in C; lia). unfold terms in I. apply in_app_or in I.
  pose proof (Z.mod_pos_bound (c + 1) 3 ltac:(lia)) as B1. pose proof (Z.mod_pos_bound (c + 2) 3 ltac:(lia)) as B2.
  destruct I as [I|I].
  - repeat (destruct I as [<-|I]; [first [apply good_old|apply good_flux]; unfold E, H; lia|]). destruct I.
  - destruct intBdr; [|destruct I]. repeat (destruct I as [<-|I]; [apply good_flux; unfold E, H; lia|]). destruct I.
Qed.

Hypothesis FB : flatBeyond op dim.
Hypothesis SW : swapsNormals op.
Lemma act_app : forall o f d i, act op o i (comp n nb x f d) = ap o x f d i.
Proof. reflexivity. Qed.
Lemma if_zero : forall k (v : R), (dim <= k -> v = 0%R) -> ifdim dim k v = v.
Proof. intros k v Hv. unfold ifdim. destruct (Z.ltb_spec k dim); [reflexivity|]. symmetry. apply Hv. lia. Qed.
Lemma if_der : forall g k f d i, 0 <= g <= 1 -> 0 <= k < 3 -> ifdim dim k (ap (OpDerivative g k) x f d i) = ap (OpDerivative g k) x f d i.
Proof. intros. apply if_zero. intros L. apply (FB g k i (comp n nb x f d)); lia. Qed.
Lemma if_one : forall g a k f d i, 0 <= g <= 1 -> a = 1 - g -> 0 <= k < 3 -> ifdim dim k (ap (OpOneNormal g a k) x f d i) = ap (OpOneNormal g a k) x f d i.
Proof. intros g a k f d i Hg -> Hk. apply if_zero. intros L. apply (FB g k i (comp n nb x f d)); lia. Qed.
Lemma if_oneI : forall g a k f d i, 0 <= g <= 1 -> a = 1 - g -> 0 <= k < 3 -> ifdim dim k (ap (OpOneNormalIBFI g a k) x f d i) = ap (OpOneNormalIBFI g a k) x f d i.
Proof. intros g a k f d i Hg -> Hk. apply if_zero. intros L. apply (FB g k i (comp n nb x f d)); lia. Qed.
Lemma two_zero : forall g k l f d i, 0 <= g <= 1 -> 0 <= k < 3 -> 0 <= l < 3 -> dim <= k \/ dim <= l -> ap (OpTwoNormal g k l) x f d i = 0%R /\ ap (OpTwoNormalIBFI g k l) x f d i = 0%R.
Proof.
  intros g k l f d i Hg Hk Hl [C|C].
  - destruct (SW g k l i (comp n nb x f d)) as (S1 & S2); try lia. destruct (FB g k i (comp n nb x f d)) as (_ & _ & _ & F); try lia. destruct (F l ltac:(lia)) as (F1 & F2).
    rewrite <- S1 in F1. rewrite <- S2 in F2. split; assumption.
  - destruct (FB g l i (comp n nb x f d)) as (_ & _ & _ & F); try lia. apply (F k). lia.
Qed.
Lemma penalty_flat : forall o0 o2 g d i, 0 <= g <= 1 -> 0 <= d < 3 -> (o2 = OpTwoNormal \/ o2 = OpTwoNormalIBFI) ->
  penalty_term op dim n nb o0 o2 x g d i =
  (- ap (o0 g) x g d i + (ap (o2 g 0%Z d) x g 0%Z i + ap (o2 g 1%Z d) x g 1%Z i + ap (o2 g 2%Z d) x g 2%Z i))%R.
Proof.
  intros o0 o2 g d i Hg Hd Ho. unfold penalty_term. f_equal.
  assert (Z0 : forall k f' d', 0 <= k < 3 -> dim <= d \/ dim <= k -> ap (o2 g d k) x f' d' i = 0%R).
  { intros k f' d' Hk C. destruct (two_zero g d k f' d' i Hg Hd Hk C). destruct Ho as [->| ->]; assumption. }
  rewrite (if_zero 0), (if_zero 1), (if_zero 2) by (intros L; apply Z0; lia).
  rewrite if_zero by (intros L; rewrite !Z0 by lia; lra).
  assert (SY : forall k f' d', 0 <= k < 3 -> ap (o2 g d k) x f' d' i = ap (o2 g k d) x f' d' i).
  { intros k f' d' Hk. destruct (SW g d k i (comp n nb x f' d') Hg Hd Hk). destruct Ho as [->| ->]; assumption. }
  rewrite !SY by lia. reflexivity.
Qed.

Ltac mods := change ((0 + 1) mod 3) with 1; change ((0 + 2) mod 3) with 2; change ((1 + 1) mod 3) with 2; change ((1 + 2) mod 3) with 0;
  change ((2 + 1) mod 3) with 0; change ((2 + 2) mod 3) with 1.
Lemma sum_terms : forall f d i, 0 <= f <= 1 -> 0 <= d <= 2 ->
  rsum (map (contr (3 * f + d) i) (flat_map (terms intBdr oldOf fluxOf) [0; 1; 2])) =
  (rhs op dim n nb intBdr x f d i - conductive_term op n nb x f d i)%R.
Proof.
  intros f d i Hf Hd. unfold rhs, curl_term, jump_term.
  rewrite !penalty_flat by (first [lia | left; reflexivity | right; reflexivity]).
  pose proof (Z.mod_pos_bound (d + 1) 3 ltac:(lia)) as B1. pose proof (Z.mod_pos_bound (d + 2) 3 ltac:(lia)) as B2.
  rewrite !if_der, !if_one, !if_oneI by lia.
  unfold terms. cbn [flat_map app]. mods.
  assert (C : f = 0 \/ f = 1) by lia. assert (C' : d = 0 \/ d = 1 \/ d = 2) by lia.
  destruct C as [->| ->], C' as [->|[->| ->]], intBdr; mods; unfold contr; cbn [List.app map t_part t_op t_vec t_fac Z.add Z.mul Z.eqb Pos.eqb Pos.add Pos.succ Pos.mul Z.sub Z.opp Z.pos_sub Pos.pred_double sgn E H Pos.sub];
    unfold rsum; cbn [fold_right]; unfold MS, MFN, MFNN, MP, MFNB, MFNNB, MPB, E, H;
    rewrite ?old_dot, ?flux_dot by lia; change (0 =? 0) with true; cbv iota; lra.
Qed.
End State.

Theorem matrix_is_global : forall dim, 1 <= dim <= 3 -> localDerivatives op n -> flatBeyond op dim -> swapsNormals op ->
  forall x inp out nbr intBdr, together n nb x inp nbr -> length out = Z.to_nat (6 * n) ->
  exists y, matrixMult op n nbr intBdr inp out = Ok y /\ length y = length out /\
    forall f d i, 0 <= f <= 1 -> 0 <= d <= 2 -> (i < Z.to_nat n)%nat ->
      nth (Z.to_nat ((3 * f + d) * n + Z.of_nat i)) y 0%R = (rhs op dim n nb intBdr x f d i - conductive_term op n nb x f d i)%R.
Proof.
  intros dim Hdim LD FB SW x inp out nbr intBdr TG LO. unfold matrixMult.
  destruct (views_ok inp (proj1 TG)) as (parts & E1 & PV). rewrite E1. cbn [bind].
  destruct (cleared out LO) as (o & E2 & L2 & V2). rewrite E2. cbn [bind].
  destruct (terms_sum (flat_map (terms intBdr (oldOf parts) (fun f d => loadFluxVector (oldOf parts f d) (nbr f d))) [0; 1; 2]) o ltac:(congruence)) as (y & E3 & L3 & V3).
  - eapply terms_good; eassumption.
  - exists y. split; [exact E3|]. split; [congruence|]. intros f d i Hf Hd Hi. rewrite V3, V2 by lia.
    erewrite <- sum_terms by eassumption. rewrite Rplus_0_l. reflexivity.
Qed.
End Mult.

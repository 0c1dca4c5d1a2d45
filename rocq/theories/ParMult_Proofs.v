(** All processes together: one evaluation, Runge-Kutta steps, runs. *)
From Coq Require Import ZArith List Bool Reals Lia Lra Permutation.
From Verif Require Import Common Csr_Model Csr_Spec Face_Model Face_Spec Face_Proofs Setup_Model Setup_Spec Assembly_Model Assembly_Spec Assembly_Proofs Form_Model Form_Spec Form_Proofs Nodal_Spec Nodal_Proofs Global_Spec Global_Proofs GlobalEnergy_Proofs GlobalBalance_Proofs Evol_Model Evol_Spec EvolHist_Proofs EvolRhs_Proofs Ode_Model Par_Model Par_Spec Par_Proofs ParRows_Proofs.
Import ListNotations.
Local Open Scope R_scope.

Lemma nth_map_in : forall (A B : Type) (h : A -> B) l i d e, (i < length l)%nat -> nth i (map h l) d = h (nth i l e).
Proof. intros A B h l i d e H. rewrite (nth_indep _ d (h e)) by (rewrite map_length; exact H). apply map_nth. Qed.

Lemma ok_inj : forall (A : Type) (a b : A), Ok a = Ok b -> a = b.
Proof. congruence. Qed.

(** ** Parts of a vector *)
Lemma flat_nth : forall {A} (h : nat -> list A) n d l c i, (forall a, In a l -> length (h a) = n) -> (c < length l)%nat -> (i < n)%nat ->
  nth (c * n + i) (flat_map h l) d = nth i (h (nth c l 0%nat)) d.
Proof.
  intros A h n d l. induction l as [|a t IH]; intros c i H Hc Hi; [cbn in Hc; lia|]. cbn [flat_map]. destruct c as [|c].
  - cbn [Nat.mul Nat.add nth]. apply app_nth1. rewrite H by (left; reflexivity). exact Hi.
  - rewrite app_nth2 by (rewrite H by (left; reflexivity); lia). rewrite H by (left; reflexivity). replace (S c * n + i - n)%nat with (c * n + i)%nat by lia.
    cbn [nth]. apply IH; [intros b I; apply H; right; exact I|cbn in Hc; lia|exact Hi].
Qed.
Lemma flat_len : forall {A} (h : nat -> list A) n l, (forall a, In a l -> length (h a) = n) -> length (flat_map h l) = (length l * n)%nat.
Proof.
  intros A h n l. induction l as [|a t IH]; intros H; [reflexivity|]. cbn [flat_map length]. rewrite app_length, H by (left; reflexivity). rewrite IH; [lia|]. intros b I. apply H. right. exact I.
Qed.
Lemma part_len : forall N own x, length (part N own x) = (6 * length own)%nat.
Proof. intros. unfold part. rewrite (flat_len _ (length own)) by (intros; apply map_length). rewrite seq_length. reflexivity. Qed.
Lemma part_nth : forall N own x c i, (c < 6)%nat -> (i < length own)%nat -> nth (c * length own + i) (part N own x) 0 = nth (c * N + nth i own 0%nat) x 0.
Proof.
  intros N own x c i Hc Hi. unfold part. rewrite (flat_nth _ (length own)); try (intros; apply map_length); try (rewrite seq_length; exact Hc); try exact Hi.
  rewrite seq_nth by exact Hc. rewrite (nth_indep _ 0 ((fun d => nth ((0 + c) * N + d) x 0) 0%nat)) by (rewrite map_length; exact Hi). apply (map_nth (fun d => nth ((0 + c) * N + d) x 0)).
Qed.
Lemma addv_len : forall a k x, length k = length x -> length (addv a k x) = length x.
Proof. intros a k x H. unfold addv. rewrite map_length, combine_length, H. apply Nat.min_id. Qed.
Lemma addv_nth : forall a k x i, length k = length x -> nth i (addv a k x) 0 = nth i x 0 + a * nth i k 0.
Proof.
  intros a k x i H. destruct (Nat.lt_ge_cases i (length x)) as [L|L].
  - unfold addv. rewrite (nth_indep _ 0 ((fun p => fst p + a * snd p) (0, 0))) by (rewrite map_length, combine_length; lia).
    rewrite (map_nth (fun p => fst p + a * snd p)), combine_nth by congruence. reflexivity.
  - rewrite !nth_overflow; try lia; [ring|]. rewrite addv_len by exact H. exact L.
Qed.
Lemma nth_split6 : forall n (x y : list R), length x = (6 * n)%nat -> length y = (6 * n)%nat ->
  (forall c i, (c < 6)%nat -> (i < n)%nat -> nth (c * n + i) x 0 = nth (c * n + i) y 0) -> x = y.
Proof.
  intros n x y Lx Ly H. apply (nth_ext x y 0 0); [congruence|]. intros r Hr. rewrite Lx in Hr.
  destruct (row_split n r Hr) as (H1 & H2 & H3 & H4 & H5). rewrite H5. apply H; [lia|exact H4].
Qed.
Lemma part_addv : forall N own a k x, length k = length x -> part N own (addv a k x) = addv a (part N own k) (part N own x).
Proof.
  intros N own a k x H. apply (nth_split6 (length own)).
  - apply part_len.
  - rewrite addv_len; rewrite !part_len; reflexivity.
  - intros c i Hc Hi. rewrite part_nth by assumption. rewrite !addv_nth; [|rewrite !part_len; reflexivity|exact H]. rewrite !part_nth by assumption. reflexivity.
Qed.
Lemma spread_add : forall N owns a k x, length k = length x -> addAll a (spread N owns k) (spread N owns x) = spread N owns (addv a k x).
Proof.
  intros N owns a k x H. unfold addAll, spread. induction owns as [|own t IH]; [reflexivity|]. cbn [map combine fst snd]. rewrite (part_addv N own a k x H). f_equal. exact IH.
Qed.

(** ** One operator *)
Lemma rows_apply : forall op n nb, ops_ok op (Z.of_nat n) (Z.of_nat nb) -> forall dim b, (1 <= dim <= 3)%Z ->
  exists A, buildGlobalOperator R Rplus Rmult 1 (-1) op dim (Z.of_nat n) (Z.of_nat nb) b = Ok A /\
  forall x r, length x = (6 * (n + nb))%nat -> (r < 6 * n)%nat ->
    csr_mult_row A x (Z.of_nat r) = Ok (rhs op dim (Z.of_nat n) (Z.of_nat nb) b x (Z.of_nat (r / n / 3)) (Z.of_nat (r / n mod 3)) (r mod n)).
Proof.
  intros op n nb HO dim b Hd.
  pose proof (fun x f d i Hf Hd' Hi Hx => global_action op (Z.of_nat n) (Z.of_nat nb) ltac:(lia) ltac:(lia) HO dim b x f d i Hd Hf Hd' Hi Hx) as G.
  assert (Hop : exists A, buildGlobalOperator R Rplus Rmult 1 (-1) op dim (Z.of_nat n) (Z.of_nat nb) b = Ok A).
  { destruct (Nat.eq_dec n 0) as [E|E].
    - unfold buildGlobalOperator, globalRows. rewrite E. cbn [Z.of_nat].
      change (Z.to_nat (6 * 0)) with 0%nat. unfold mergeBlocksToCSR. eexists. reflexivity.
    - destruct (G (repeat 0 (6 * (n + nb))) 0%Z 0%Z 0%nat ltac:(lia) ltac:(lia) ltac:(lia)) as (A & E1 & _); [rewrite repeat_length; lia|]. exists A. exact E1. }
  destruct Hop as (A & EA). exists A. split; [exact EA|]. intros x r Hx Hr. destruct (row_split n r Hr) as (H1 & H2 & H3 & H4 & H5).
  destruct (G x (Z.of_nat (r / n / 3)) (Z.of_nat (r / n mod 3)) (r mod n)%nat ltac:(lia) ltac:(lia)) as (A' & E1 & E2); [rewrite Nat2Z.id; exact H4|lia|].
  rewrite EA in E1. injection E1 as <-. rewrite <- E2. f_equal. lia.
Qed.
Lemma prows_ok : forall dim alpha ob ib sm rk, ops_ok (pfactoryRows dim alpha ob ib sm rk) (Z.of_nat (pr_n rk)) (Z.of_nat (length (pr_nbr rk))).
Proof.
  intros. intros o. unfold pfactoryRows. rewrite Nat2Z.id. destruct (pfactoryMat _ _ _ _ _ _ o) as [A| |].
  - rewrite map_length, seq_length. split; [reflexivity|]. intros row e I J. apply in_map_iff in I. destruct I as (i & <- & _).
    apply in_map_iff in J. destruct J as (j & <- & J). apply in_seq in J. cbn [fst]. assert (pcols rk o <= pr_n rk + length (pr_nbr rk))%nat by (destruct o; cbn [pcols]; unfold pwidth; lia). lia.
  - rewrite repeat_length. split; [reflexivity|]. intros row e I J. apply repeat_spec in I. subst row. destruct J.
  - rewrite repeat_length. split; [reflexivity|]. intros row e I J. apply repeat_spec in I. subst row. destruct J.
Qed.

Lemma forall2_at : forall (A B : Type) (P : A -> B -> Prop) l l' k a, Forall2 P l l' -> nth_error l k = Some a -> exists b, nth_error l' k = Some b /\ P a b.
Proof.
  intros A B P l l' k a F. revert k. induction F as [|x y t t' H F IH]; intros k E; [destruct k; discriminate|].
  destruct k as [|k]; [cbn in E; injection E as <-; exists y; split; [reflexivity|exact H]|]. exact (IH k E).
Qed.

Section All.
Variable N : nat.
Variable m : fmesh.
Variable dim : Z.
Variable alpha : R.
Variable gb gi : list (Z * cond).
Variable ob ib : list (cond * marker).
Variable MInv D : Z -> mat.
Variable MSigma : mat.
Variable sm : marker.
Variable owns : list (list nat).
Variable rks : list prank.
Hypothesis G : goodMesh N m dim.
Hypothesis T : tables m gb gi ob ib.
Hypothesis Di : distributed N m dim MInv D MSigma owns rks.
Variable junk : nat -> list R.
Hypothesis JL : forall n, length (junk n) = n.
Notation sop := (factoryRows N m dim alpha ob ib MInv D MSigma sm).
Notation hb := (match ib with [] => false | _ => true end).
Definition serialOperator : res (csr R) := buildGlobalOperator R Rplus Rmult 1 (-1) sop dim (Z.of_nat N) 0 hb.

Lemma own_facts : forall own, In own owns -> NoDup own /\ forall d, In d own -> (d < N)%nat.
Proof.
  intros own I. pose proof (proj1 Di) as P. split.
  - assert (X : NoDup (concat owns)) by (apply (Permutation_NoDup (Permutation_sym P)); apply seq_NoDup).
    clear Di P. induction owns as [|a t IH]; [destruct I|]. cbn [concat] in X. destruct I as [->|I].
    + clear IH. induction own as [|b l IHl]; [constructor|]. cbn [Datatypes.app] in X. inversion X as [|? ? N1 N2]; subst. constructor; [intros J; apply N1; apply in_or_app; left; exact J|exact (IHl N2)].
    + apply IH; [exact I|]. clear - X. induction a as [|b l IHl]; [exact X|]. cbn [Datatypes.app] in X. inversion X; subst. apply IHl. assumption.
  - intros d Id. assert (J : In d (seq 0 N)) by (apply (Permutation_in _ P); apply in_concat; exists own; split; assumption). apply in_seq in J. lia.
Qed.
Lemma rank_at : forall k own, nth_error owns k = Some own -> exists rk, nth_error rks k = Some rk /\ process m owns own rk.
Proof. intros k own E. destruct (forall2_at _ _ _ _ _ k own (proj2 (proj2 Di)) E) as (rk & Er & P & _). exists rk. split; assumption. Qed.
Lemma spread_at : forall k own x, nth_error owns k = Some own -> nth_error (spread N owns x) k = Some (part N own x).
Proof. intros k own x E. unfold spread. rewrite nth_error_map, E. reflexivity. Qed.

Section One.
Variable own : list nat.
Variable rk : prank.
Hypothesis Io : In own owns.
Hypothesis P : process m owns own rk.
Hypothesis HI : forall f, (f = 0 \/ f = 1)%Z -> within N own (MInv f) (pr_MInv rk f).
Hypothesis HD : forall d, (0 <= d < dim)%Z -> within N own (D d) (pr_D rk d).
Hypothesis HS : within N own MSigma (pr_Sigma rk).
Notation n := (length own).
Notation g := (length (pr_nbr rk)).
Definition nd (x : list R) : list (list R) := map (fun c => map (fun e => nth (Z.to_nat c * N + nth (snd e) (nth (fst e) owns []) 0%nat) x 0) (pr_nbr rk)) comps.
Lemma nbr_ok : forall x, mapM (nbrData rks (spread N owns x) rk) comps = Ok (nd x).
Proof.
  intros x. apply mapM_ok. intros c Ic. unfold nbrData. apply mapM_ok. intros [q j] Ie. cbn [fst snd].
  destruct P as (_ & HN & _). rewrite Forall_forall in HN. destruct (HN _ Ie) as (Hq & Hj). cbn [fst snd] in Hq, Hj.
  assert (E : nth_error owns q = Some (nth q owns [])) by (apply nth_error_nth'; exact Hq).
  destruct (rank_at _ _ E) as (rq & Er & (Pq & _)). rewrite Er, (spread_at _ _ x E), Pq.
  assert (Hc : (0 <= c < 6)%Z) by (unfold comps in Ic; cbn [In] in Ic; lia).
  rewrite zget_nthZ by (rewrite part_len; nia). f_equal. unfold nthZ.
  replace (Z.to_nat (c * Z.of_nat (length (nth q owns [])) + Z.of_nat j)) with (Z.to_nat c * length (nth q owns []) + j)%nat by nia.
  apply part_nth; lia.
Qed.
Lemma nd_sized : forall x, sized n g (nd x) (part N own x).
Proof.
  intros x. split; [apply part_len|]. intros _. unfold nd. rewrite map_length. split; [reflexivity|]. apply Forall_forall. intros v I. apply in_map_iff in I. destruct I as (c & <- & _). apply map_length.
Qed.
Lemma work_ok : forall x f d j, (0 <= f <= 1)%Z -> (0 <= d <= 2)%Z -> (j < n + g)%nat ->
  comp (Z.of_nat n) (Z.of_nat g) (packed n g (nd x) (part N own x)) f d (Z.of_nat j) = fld N x f d (nth j (own ++ ghosts owns rk) 0%nat).
Proof.
  intros x f d j Hf Hd Hj. destruct (packed_spec n g junk JL (nd x) (part N own x) (nd_sized x)) as (_ & W1 & W2).
  set (Wv := packed n g (nd x) (part N own x)) in *. unfold comp, fld.
  set (c := (3 * f + d)%Z). assert (Hc : (0 <= c < 6)%Z) by (unfold c; lia).
  destruct (Nat.lt_ge_cases j n) as [L|L].
  - specialize (W1 c (Z.of_nat j) Hc ltac:(lia)). unfold nthZ in W1. rewrite Nat2Z.inj_add in W1. rewrite W1, app_nth1 by exact L.
    replace (Z.to_nat (c * Z.of_nat n + Z.of_nat j)) with (Z.to_nat c * n + j)%nat by nia. rewrite part_nth by lia. f_equal. nia.
  - specialize (W2 c (Z.of_nat (j - n)) Hc ltac:(lia)). unfold nthZ in W2. rewrite Nat2Z.inj_add in W2.
    replace (c * (Z.of_nat n + Z.of_nat g) + Z.of_nat j)%Z with (c * (Z.of_nat n + Z.of_nat g) + Z.of_nat n + Z.of_nat (j - n))%Z by lia. rewrite W2, Nat2Z.id.
    rewrite app_nth2 by exact L. unfold nd, ghosts. assert (J : (j - n < g)%nat) by lia.
    rewrite (nth_map_in _ _ _ comps (Z.to_nat c) [] 0%Z) by (cbn [length comps]; lia).
    replace (nth (Z.to_nat c) comps 0%Z) with c by (assert (C : (c = 0 \/ c = 1 \/ c = 2 \/ c = 3 \/ c = 4 \/ c = 5)%Z) by lia; destruct C as [->|[->|[->|[->|[->| ->]]]]]; reflexivity).
    rewrite (nth_map_in _ _ _ (pr_nbr rk) (j - n) 0 (0%nat, 0%nat) J), (nth_map_in _ _ _ (pr_nbr rk) (j - n) 0%nat (0%nat, 0%nat) J). f_equal. nia.
Qed.
Lemma rank_ok : exists Q, rankOperator dim alpha ob ib sm rk = Ok Q /\ forall A x y work, serialOperator = Ok A -> length x = (6 * N)%nat -> applies A N x y ->
  rankMult junk rks (spread N owns x) rk Q work (part N own x) = Ok (part N own y).
Proof.
  pose proof P as (Pn & _ & Pb & fs & gs & NDf & NDg & Hf & Hg & Lf & Lg & NDb & Hb & Hs).
  destruct (own_facts own Io) as (NDo & Bo).
  assert (El : forall F, In F (fm_faces m) ->
    (incl (mf_dofs1 F) own \/ forall d, In d (mf_dofs1 F) -> ~ In d own) /\ (incl (mf_dofs2 F) own \/ forall d, In d (mf_dofs2 F) -> ~ In d own))
    by (intros F IF; exact (proj1 (proj2 Di) F own IF Io)).
  destruct (rows_apply _ _ _ (prows_ok dim alpha ob ib sm rk) dim hb (proj1 G)) as (Q & EQ & VQ). exists Q. split; [exact EQ|].
  intros A x y work EA Lx (Ly & HY). unfold rankMult. rewrite nbr_ok. cbn [bind]. rewrite Pn. rewrite (pack_value n g junk JL work (nd x) (part N own x) (nd_sized x)). cbn [bind].
  destruct (rows_apply sop N 0 (rows_ok N m dim alpha ob ib MInv D MSigma sm) dim hb (proj1 G)) as (A' & EA' & VA). unfold serialOperator in EA. change (Z.of_nat 0) with 0%Z in *.
  rewrite EA in EA'. injection EA' as <-.
  rewrite (mapM_ok _ (fun r => nth (Z.to_nat r) (part N own y) 0)).
  - f_equal. unfold zseq. rewrite map_map. apply (nth_ext _ _ 0 0); [rewrite map_length, seq_length, part_len; reflexivity|].
    intros i Hi. rewrite map_length, seq_length in Hi. rewrite (nth_indep _ 0 ((fun r => nth (Z.to_nat (Z.of_nat r)) (part N own y) 0) 0%nat)) by (rewrite map_length, seq_length; exact Hi).
    rewrite (map_nth (fun r => nth (Z.to_nat (Z.of_nat r)) (part N own y) 0)), seq_nth by exact Hi. rewrite Nat2Z.id. reflexivity.
  - intros r' Ir. unfold zseq in Ir. apply in_map_iff in Ir. destruct Ir as (r & <- & Ir). apply in_seq in Ir. assert (Hr : (r < 6 * n)%nat) by lia. rewrite Nat2Z.id.
    destruct (packed_spec n g junk JL (nd x) (part N own x) (nd_sized x)) as (LW & _).
    rewrite VQ by (rewrite ?Pn; assumption). rewrite Pn.
    destruct (row_split n r Hr) as (H1 & H2 & H3 & H4 & H5).
    assert (Hi : (nth (r mod n) own 0 < N)%nat) by (apply Bo, nth_In; exact H4).
    rewrite (rhs_agree N m dim gb gi ob ib owns own rk G T NDo Bo El Pn Pb fs gs NDf NDg Hf Hg Lf Lg NDb Hb Hs alpha MInv D MSigma sm HI HD HS x _ (work_ok x) hb (Z.of_nat (r / n / 3)) (Z.of_nat (r / n mod 3)) (r mod n)%nat ltac:(lia) ltac:(lia) H4).
    f_equal. set (c := (r / n)%nat) in *. set (i := nth (r mod n) own 0%nat) in *.
    assert (C : (3 * (c / 3) + c mod 3 = c)%nat) by (symmetry; apply Nat.div_mod; lia).
    assert (RN : (c * N + i < 6 * N)%nat) by nia.
    pose proof (VA x (c * N + i)%nat ltac:(lia) RN) as V1. pose proof (HY (Z.of_nat (c * N + i)) ltac:(lia)) as V2. rewrite V1 in V2. apply ok_inj in V2. rewrite Nat2Z.id in V2.
    replace ((c * N + i) / N)%nat with c in V2 by (rewrite Nat.div_add_l by lia; rewrite Nat.div_small by exact Hi; lia).
    replace ((c * N + i) mod N)%nat with i in V2 by (rewrite Nat.add_comm, Nat.mod_add by lia; symmetry; apply Nat.mod_small; exact Hi).
    rewrite V2. unfold i. rewrite <- part_nth by lia. f_equal. rewrite C in H5. lia.
Qed.
End One.

(** ** All processes *)
Lemma forall2_owns : Forall2 (fun own rk => In own owns /\ process m owns own rk /\
    (forall f, (f = 0 \/ f = 1)%Z -> within N own (MInv f) (pr_MInv rk f)) /\
    (forall d, (0 <= d < dim)%Z -> within N own (D d) (pr_D rk d)) /\ within N own MSigma (pr_Sigma rk)) owns rks.
Proof.
  pose proof (proj2 (proj2 Di)) as F.
  assert (X : forall os k, Forall2 (fun own rk => process m owns own rk /\
    (forall f, (f = 0 \/ f = 1)%Z -> within N own (MInv f) (pr_MInv rk f)) /\
    (forall d, (0 <= d < dim)%Z -> within N own (D d) (pr_D rk d)) /\ within N own MSigma (pr_Sigma rk)) os k -> incl os owns ->
    Forall2 (fun own rk => In own owns /\ process m owns own rk /\
    (forall f, (f = 0 \/ f = 1)%Z -> within N own (MInv f) (pr_MInv rk f)) /\
    (forall d, (0 <= d < dim)%Z -> within N own (D d) (pr_D rk d)) /\ within N own MSigma (pr_Sigma rk)) os k).
  { intros os k H. induction H as [|o rk t t' H F' IH]; intros I; constructor.
    - split; [apply I; left; reflexivity|exact H].
    - apply IH. intros z J. apply I. right. exact J. }
  apply X; [exact F|apply incl_refl].
Qed.
Lemma all_ok : exists A Ps, serialOperator = Ok A /\ mapM (rankOperator dim alpha ob ib sm) rks = Ok Ps /\
  forall x, length x = (6 * N)%nat -> exists y, applies A N x y /\
    forall works, length works = length rks -> allMult junk rks Ps works (spread N owns x) = Ok (spread N owns y).
Proof.
  destruct (rows_apply sop N 0 (rows_ok N m dim alpha ob ib MInv D MSigma sm) dim hb (proj1 G)) as (A & EA & VA). change (Z.of_nat 0) with 0%Z in *.
  exists A.
  assert (X : forall os k, Forall2 (fun own rk => In own owns /\ process m owns own rk /\
    (forall f, (f = 0 \/ f = 1)%Z -> within N own (MInv f) (pr_MInv rk f)) /\
    (forall d, (0 <= d < dim)%Z -> within N own (D d) (pr_D rk d)) /\ within N own MSigma (pr_Sigma rk)) os k ->
    exists Ps, mapM (rankOperator dim alpha ob ib sm) k = Ok Ps /\ forall x y works, length x = (6 * N)%nat -> applies A N x y -> length works = length k ->
      mapM (fun q => rankMult junk rks (spread N owns x) (fst (fst (fst q))) (snd (fst (fst q))) (snd (fst q)) (snd q)) (combine (combine (combine k Ps) works) (spread N os x)) = Ok (spread N os y)).
  { intros os k H. induction H as [|own rk t t' (Io & P & HI & HD & HS) F IH].
    - exists []. split; [reflexivity|]. intros. reflexivity.
    - destruct IH as (Ps & EP & VP). destruct (rank_ok own rk Io P HI HD HS) as (Q & EQ & VQ). exists (Q :: Ps). cbn [mapM]. rewrite EQ, EP. cbn [bind]. split; [reflexivity|].
      intros x y works Lx HY Lw. destruct works as [|w works]; [discriminate|]. cbn [length] in Lw. cbn [combine spread map mapM fst snd].
      rewrite (VQ A x y w EA Lx HY). cbn [bind]. fold (spread N t x). rewrite (VP x y works Lx HY) by lia. cbn [bind]. reflexivity. }
  destruct (X owns rks forall2_owns) as (Ps & EP & VP). exists Ps. split; [exact EA|]. split; [exact EP|]. intros x Lx.
  exists (map (fun r => rhs sop dim (Z.of_nat N) 0 hb x (Z.of_nat (r / N / 3)) (Z.of_nat (r / N mod 3)) (r mod N)) (seq 0 (6 * N))).
  assert (HY : applies A N x (map (fun r => rhs sop dim (Z.of_nat N) 0 hb x (Z.of_nat (r / N / 3)) (Z.of_nat (r / N mod 3)) (r mod N)) (seq 0 (6 * N)))).
  { split; [rewrite map_length, seq_length; reflexivity|]. intros r Hr. rewrite (nth_map_in _ _ _ (seq 0 (6 * N)) (Z.to_nat r) 0 0%nat) by (rewrite seq_length; lia).
    rewrite seq_nth by lia. rewrite <- (Z2Nat.id r) at 1 by lia. rewrite VA by lia. reflexivity. }
  split; [exact HY|]. intros works Lw. unfold allMult. apply VP; assumption.
Qed.
End All.

(** ** Steps *)
Section Steps.
Variable N : nat.
Variable owns : list (list nat).
Variable rks : list prank.
Variable Ps : list (csr R).
Variable junk : nat -> list R.
Variable F : list R -> list R.
Hypothesis FL : forall x, length x = (6 * N)%nat -> length (F x) = (6 * N)%nat.
Hypothesis FM : forall x works, length x = (6 * N)%nat -> length works = length rks -> allMult junk rks Ps works (spread N owns x) = Ok (spread N owns (F x)).
Lemma step_ok : forall works x t dt, length x = (6 * N)%nat -> (forall k, length (works k) = length rks) ->
  allStep junk rks Ps works (spread N owns x) dt = Ok (spread N owns (rk4Step (fun _ => F) x t dt)) /\ length (rk4Step (fun _ => F) x t dt) = (6 * N)%nat.
Proof.
  intros works x t dt Lx Lw. unfold allStep, rk4Step.
  set (k1 := F x). assert (L1 : length k1 = (6 * N)%nat) by (apply FL; exact Lx).
  set (y1 := addv (dt / 2) k1 x). assert (Ly1 : length y1 = (6 * N)%nat) by (unfold y1; rewrite addv_len; congruence).
  set (k2 := F y1). assert (L2 : length k2 = (6 * N)%nat) by (apply FL; exact Ly1).
  set (y2 := addv (dt / 2) k2 x). assert (Ly2 : length y2 = (6 * N)%nat) by (unfold y2; rewrite addv_len; congruence).
  set (k3 := F y2). assert (L3 : length k3 = (6 * N)%nat) by (apply FL; exact Ly2).
  set (y3 := addv dt k3 x). assert (Ly3 : length y3 = (6 * N)%nat) by (unfold y3; rewrite addv_len; congruence).
  set (k4 := F y3). assert (L4 : length k4 = (6 * N)%nat) by (apply FL; exact Ly3).
  set (z1 := addv (dt / 6) k1 x). assert (Lz1 : length z1 = (6 * N)%nat) by (unfold z1; rewrite addv_len; congruence).
  set (z2 := addv (dt / 3) k2 z1). assert (Lz2 : length z2 = (6 * N)%nat) by (unfold z2; rewrite addv_len; congruence).
  set (z3 := addv (dt / 3) k3 z2). assert (Lz3 : length z3 = (6 * N)%nat) by (unfold z3; rewrite addv_len; congruence).
  split; [|rewrite addv_len; congruence].
  rewrite (FM x (works 0%nat) Lx (Lw _)). cbn [bind]. fold k1. rewrite (spread_add N owns (dt / 2) k1 x) by congruence. fold y1.
  rewrite (FM y1 (works 1%nat) Ly1 (Lw _)). cbn [bind]. fold k2. rewrite (spread_add N owns (dt / 2) k2 x) by congruence. fold y2.
  rewrite (FM y2 (works 2%nat) Ly2 (Lw _)). cbn [bind]. fold k3. rewrite (spread_add N owns dt k3 x) by congruence. fold y3.
  rewrite (FM y3 (works 3%nat) Ly3 (Lw _)). cbn [bind]. fold k4.
  rewrite (spread_add N owns (dt / 6) k1 x) by congruence. fold z1.
  rewrite (spread_add N owns (dt / 3) k2 z1) by congruence. fold z2.
  rewrite (spread_add N owns (dt / 3) k3 z2) by congruence. fold z3.
  rewrite (spread_add N owns (dt / 6) k4 z3) by congruence. reflexivity.
Qed.
Lemma steps_ok : forall dts works x t, length x = (6 * N)%nat -> (forall s k, length (works s k) = length rks) ->
  allSteps junk rks Ps works (spread N owns x) dts = Ok (spread N owns (rkRun F x t dts)).
Proof.
  induction dts as [|dt l IH]; intros works x t Lx Lw; [reflexivity|]. cbn [allSteps rkRun].
  destruct (step_ok (works (length l)) x t dt Lx (Lw _)) as (E & L). rewrite E. cbn [bind]. apply IH; assumption.
Qed.
End Steps.
Lemma spread_inj : forall N owns x y, Permutation (concat owns) (seq 0 N) -> length x = (6 * N)%nat -> length y = (6 * N)%nat -> spread N owns x = spread N owns y -> x = y.
Proof.
  intros N owns x y P Lx Ly E. apply (nth_split6 N); try assumption. intros c d Hc Hd.
  assert (I : In d (concat owns)) by (apply (Permutation_in _ (Permutation_sym P)); apply in_seq; lia).
  apply in_concat in I. destruct I as (own & Io & Id). destruct (In_nth own d 0%nat Id) as (i & Hi & En). subst d.
  assert (EP : part N own x = part N own y).
  { clear - E Io. unfold spread in E. induction owns as [|a t IH]; [destruct Io|]. cbn [map] in E. destruct Io as [->|Io]; [congruence|apply IH; [congruence|exact Io]]. }
  rewrite <- !part_nth by assumption. rewrite EP. reflexivity.
Qed.
Section Run.
Variable N : nat.
Variable m : fmesh.
Variable dim : Z.
Variable alpha : R.
Variable gb gi : list (Z * cond).
Variable ob ib : list (cond * marker).
Variable MInv D : Z -> mat.
Variable MSigma : mat.
Variable sm : marker.
Variable owns : list (list nat).
Variable rks : list prank.
Hypothesis G : goodMesh N m dim.
Hypothesis T : tables m gb gi ob ib.
Hypothesis Di : distributed N m dim MInv D MSigma owns rks.
Variable junk : nat -> list R.
Hypothesis JL : forall n, length (junk n) = n.
Lemma run_ok : exists A Ps, serialOperator N m dim alpha ob ib MInv D MSigma sm = Ok A /\ mapM (rankOperator dim alpha ob ib sm) rks = Ok Ps /\
  (exists F, forall x, length x = (6 * N)%nat -> applies A N x (F x)) /\
  forall F works x t dts, (forall x, length x = (6 * N)%nat -> applies A N x (F x)) -> length x = (6 * N)%nat -> (forall s k, length (works s k) = length rks) ->
    allSteps junk rks Ps works (spread N owns x) dts = Ok (spread N owns (rkRun F x t dts)).
Proof.
  destruct (all_ok N m dim alpha gb gi ob ib MInv D MSigma sm owns rks G T Di junk JL) as (A & Ps & EA & EP & V). exists A, Ps. split; [exact EA|]. split; [exact EP|]. split.
  - destruct (rows_apply (factoryRows N m dim alpha ob ib MInv D MSigma sm) N 0 (rows_ok N m dim alpha ob ib MInv D MSigma sm) dim (match ib with [] => false | _ => true end) (proj1 G)) as (A' & EA' & VA).
    change (Z.of_nat 0) with 0%Z in *. unfold serialOperator in EA. rewrite EA in EA'. injection EA' as <-.
    exists (fun x => map (fun r => rhs (factoryRows N m dim alpha ob ib MInv D MSigma sm) dim (Z.of_nat N) 0 (match ib with [] => false | _ => true end) x (Z.of_nat (r / N / 3)) (Z.of_nat (r / N mod 3)) (r mod N)) (seq 0 (6 * N))).
    intros x Lx. split; [rewrite map_length, seq_length; reflexivity|]. intros r Hr. rewrite (nth_map_in _ _ _ (seq 0 (6 * N)) (Z.to_nat r) 0 0%nat) by (rewrite seq_length; lia).
    rewrite seq_nth by lia. rewrite <- (Z2Nat.id r) at 1 by lia. rewrite VA by lia. reflexivity.
  - intros F works x t dts HF Lx Lw. apply steps_ok; try assumption.
    + intros z Lz. exact (proj1 (HF z Lz)).
    + intros z wk Lz Lk. destruct (V z Lz) as (y & HY & VY). rewrite (applies_unique N A z (F z) y (HF z Lz) HY). apply VY. exact Lk.
Qed.
End Run.

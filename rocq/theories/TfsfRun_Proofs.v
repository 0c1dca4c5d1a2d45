(** The rows of the assembled operators for a total-field/scattered-field run. *)
From Coq Require Import ZArith List Bool Reals Lia Lra.
From Verif Require Import Common Csr_Model Csr_Spec Geo_Spec Face_Model Face_Spec Face_Proofs Setup_Model Setup_Spec Assembly_Model Assembly_Spec Assembly_Proofs Form_Model Form_Spec Form_Proofs FormEx_Proofs Nodal_Spec Nodal_Proofs NodalMult_Proofs NodalEnergy_Spec NodalEnergy_Proofs Global_Spec Global_Proofs GlobalEnergy_Proofs GlobalBalance_Proofs Tfsf_Spec TfsfLil_Proofs Tfsf_Proofs.
Import ListNotations.
Local Open Scope R_scope.

Section Run.
Variable N : nat.
Variable m : fmesh.
Variable dim : Z.
Variable alpha : R.
Variable gb gi : list (Z * cond).
Variable ob ib : list (cond * marker).
Variable Mass MInv D : Z -> mat.
Variable MSigma : mat.
Variable sm : marker.
Variable s : nat -> bool.
Hypothesis S : dgSpace N m dim Mass MInv D.
Hypothesis T : tables m gb gi ob ib.
Hypothesis Msm : marks (markerSize (fm_battrs m)) gi TotalFieldIn sm.
Hypothesis Sp : splits m gi s.
Hypothesis Zn : zoned N dim s Mass MInv D MSigma.
Notation op := (factoryRows N m dim alpha ob ib MInv D MSigma sm).

Lemma zone_zero : forall b f (e : nat -> R), (f = 0 \/ f = 1)%Z ->
  (forall v, (forall i, (i < N)%nat -> s i <> b -> v i = 0) -> mform N (Mass f) v e = 0) -> forall i, (i < N)%nat -> s i = b -> e i = 0.
Proof.
  intros b f e Hf H i Hi Hb. destruct Zn as (_ & _ & ZI & LI).
  assert (B : forall j, (j < N)%nat -> s j = b -> sumN N (fun k => Mass f j k * e k) = 0).
  { intros j Hj Hs. transitivity (mform N (Mass f) (unitV j) e); [|apply H].
    - unfold mform. transitivity (sumN N (fun a => if (a =? j)%nat then sumN N (fun k => Mass f a k * e k) else 0)).
      + symmetry. apply (sumN_delta N j (fun a => sumN N (fun k => Mass f a k * e k)) Hj).
      + apply sumN_ext. intros a _. unfold unitV. destruct (a =? j)%nat; [apply sumN_ext; intros; ring|symmetry; apply sumN_zero; intros; ring].
    - intros a Ha X. unfold unitV. destruct (Nat.eqb_spec a j); [subst; contradiction|reflexivity]. }
  transitivity (sumN N (fun j => MInv f i j * sumN N (fun k => Mass f j k * e k))).
  - transitivity (sumN N (fun k => (if (k =? i)%nat then e k else 0))); [symmetry; apply (sumN_delta N i e Hi)|].
    rewrite (sumN_ext N (fun j => MInv f i j * sumN N (fun k => Mass f j k * e k)) (fun j => sumN N (fun k => MInv f i j * Mass f j k * e k))) by (intros; rewrite <- sumN_scal; apply sumN_ext; intros; ring).
    rewrite sumN_swap. apply sumN_ext. intros k Hk.
    rewrite (sumN_ext N _ (fun j => e k * (MInv f i j * Mass f j k))) by (intros; ring). rewrite sumN_scal, (LI f i k Hf Hi Hk), (Nat.eqb_sym i k).
    destruct (k =? i)%nat; ring.
  - apply sumN_zero. intros j Hj. destruct (bool_dec (s j) b) as [E|E]; [rewrite (B j Hj E); ring|]. rewrite (ZI f Hf i j Hi Hj) by congruence. ring.
Qed.

Definition proj (b : bool) (inc : list R) : list R := map (fun r => if Bool.eqb (s (r mod N)) b then 0 else nth r inc 0) (seq 0 (6 * N)).
Lemma proj_nth : forall b inc r, (r < 6 * N)%nat -> nth r (proj b inc) 0 = if Bool.eqb (s (r mod N)) b then 0 else nth r inc 0.
Proof.
  intros b inc r Hr. unfold proj. set (h := fun r => _). rewrite (nth_indep _ 0 (h 0%nat)) by (rewrite map_length, seq_length; exact Hr).
  rewrite (map_nth h), seq_nth by exact Hr. reflexivity.
Qed.
Lemma proj_len : forall b inc, length (proj b inc) = (6 * N)%nat.
Proof. intros. unfold proj. rewrite map_length, seq_length. reflexivity. Qed.
Lemma idx : forall f d i, (0 <= f <= 1)%Z -> (0 <= d <= 2)%Z -> (i < N)%nat ->
  (Z.to_nat ((3 * f + d) * Z.of_nat N + Z.of_nat i) < 6 * N)%nat /\ (Z.to_nat ((3 * f + d) * Z.of_nat N + Z.of_nat i) mod N = i)%nat.
Proof.
  intros f d i Hf Hd Hi. assert (E : Z.to_nat ((3 * f + d) * Z.of_nat N + Z.of_nat i) = ((3 * Z.to_nat f + Z.to_nat d) * N + i)%nat) by nia.
  rewrite E. split; [nia|]. rewrite Nat.add_comm, Nat.mod_add by lia. apply Nat.mod_small. exact Hi.
Qed.
Lemma proj_fld : forall b inc f d i, (0 <= f <= 1)%Z -> (0 <= d <= 2)%Z -> (i < N)%nat ->
  fld N (proj b inc) f d i = if Bool.eqb (s i) b then 0 else fld N inc f d i.
Proof. intros b inc f d i Hf Hd Hi. destruct (idx f d i Hf Hd Hi) as (H1 & H2). unfold fld. rewrite proj_nth by exact H1. rewrite H2. reflexivity. Qed.
Lemma fld_all : forall x y, length x = (6 * N)%nat -> length y = (6 * N)%nat ->
  (forall f d i, (0 <= f <= 1)%Z -> (0 <= d <= 2)%Z -> (i < N)%nat -> fld N x f d i = fld N y f d i) -> forall r, nth r x 0 = nth r y 0.
Proof.
  intros x y Lx Ly H r. destruct (lt_dec r (6 * N)) as [Hr|Hr]; [|rewrite !nth_overflow by lia; reflexivity].
  destruct (row_split N r Hr) as (H1 & H2 & H3 & H4 & H5).
  specialize (H (Z.of_nat (r / N / 3)) (Z.of_nat (r / N mod 3)) (r mod N)%nat ltac:(lia) ltac:(lia) H4). unfold fld in H.
  replace (Z.to_nat ((3 * Z.of_nat (r / N / 3) + Z.of_nat (r / N mod 3)) * Z.of_nat N + Z.of_nat (r mod N))) with r in H by lia. exact H.
Qed.
Lemma applies_sub : forall A u p x yu yp yx, length u = (6 * N)%nat -> length p = (6 * N)%nat -> length x = (6 * N)%nat ->
  (forall r, nth r x 0 = nth r u 0 - nth r p 0) -> applies A N u yu -> applies A N p yp -> applies A N x yx ->
  forall f d i, (0 <= f <= 1)%Z -> (0 <= d <= 2)%Z -> (i < N)%nat -> fld N yx f d i = fld N yu f d i - fld N yp f d i.
Proof.
  intros A u p x yu yp yx Lu Lp Lx H (_ & Hu) (_ & Hp) (_ & Hx) f d i Hf Hd Hi. destruct (idx f d i Hf Hd Hi) as (B & _).
  assert (B' : (0 <= (3 * f + d) * Z.of_nat N + Z.of_nat i < 6 * Z.of_nat N)%Z) by nia.
  specialize (Hu _ B'). specialize (Hp _ B'). specialize (Hx _ B').
  rewrite (csr_lin A u p x _ _ _ ltac:(lia) ltac:(lia) H Hu Hp) in Hx. injection Hx as E. unfold fld. symmetry. exact E.
Qed.

Notation Tm := (buildSourceFaceOperator R Rplus Rmult 1 (-1) op dim (Z.of_nat N) 0).
Lemma zone_rows : forall A b inc g yp z,
  theOperator N m dim alpha ob ib MInv D MSigma sm = Ok A -> length g = (6 * N)%nat ->
  continuous m gi N inc -> halved m gi N s inc g -> applies A N (proj b inc) yp -> lilApplies Tm N g z ->
  forall f d i, (0 <= f <= 1)%Z -> (0 <= d <= 2)%Z -> (i < N)%nat -> s i = b -> fld N yp f d i = sg b * fld N z f d i.
Proof.
  intros A b inc g yp z EA Lg Hc Hg Hp (Lz & Hz) f d i Hf Hd Hi Hs. destruct Zn as (Zd & Zs & _ & _).
  assert (Hf' : (f = 0 \/ f = 1)%Z) by lia. assert (Hd' : (0 <= d < 3)%Z) by lia.
  destruct (operator_rows N m dim alpha ob ib Mass MInv D MSigma sm S) as (A' & EA' & HA). rewrite EA in EA'. injection EA' as <-.
  destruct (HA (proj b inc) (proj_len b inc)) as (y' & Y' & V). rewrite (applies_unique N A _ _ _ Hp Y').
  assert (Vz : forall f d i, (0 <= f <= 1)%Z -> (0 <= d <= 2)%Z -> (i < N)%nat -> fld N z f d i =
     jump_term op dim (Z.of_nat N) 0 OpSourceOneNormal g f d i + penalty_term op dim (Z.of_nat N) 0 OpSourceZeroNormal OpSourceTwoNormal g f d i).
  { intros f0 d0 i0 H1 H2 H3. destruct (idx f0 d0 i0 H1 H2 H3) as (B & _). unfold fld. rewrite (Hz _ B).
    rewrite <- (source_action op (Z.of_nat N) dim g f0 d0 i0 ltac:(lia) (rows_ok N m dim alpha ob ib MInv D MSigma sm) (proj1 S) H1 H2 ltac:(lia) ltac:(lia)).
    unfold rowval. rewrite Lg. reflexivity. }
  assert (E0 : fld N y' f d i - sg b * fld N z f d i = 0).
  { apply (zone_zero b f (fun i => fld N y' f d i - sg b * fld N z f d i) Hf'); [|exact Hi|exact Hs].
    intros v Hv. rewrite (mform_ext N _ v _ (fun i => fld N y' f d i + (- sg b) * fld N z f d i)) by (intros; ring). rewrite mform_plus, mform_scal.
    rewrite (mform_ext N _ v (fld N y' f d) (fun i => rhs op dim (Z.of_nat N) 0 (hasInt ib) (proj b inc) f d i)) by (intros k Hk; apply V; assumption).
    rewrite (mform_ext N _ v (fld N z f d) (fun i => jump_term op dim (Z.of_nat N) 0 OpSourceOneNormal g f d i + penalty_term op dim (Z.of_nat N) 0 OpSourceZeroNormal OpSourceTwoNormal g f d i)) by (intros k Hk; apply Vz; assumption).
    set (tw := (fun _ _ => v) : Z -> Z -> nat -> R).
    pose proof (rhs_rows N m dim alpha gb gi ob ib Mass MInv D MSigma sm S T (proj b inc) tw f d Hf' Hd') as R1.
    pose proof (src_rows N m dim alpha gi ob ib Mass MInv D MSigma sm S Msm g tw f d Hf' Hd') as R2.
    pose proof (cross N m dim alpha gb gi ob ib Mass MInv D MSigma sm s S T Msm Sp Zd Zs b tw (proj b inc) inc g f d) as C.
    change v with (tw f d) at 1 2. rewrite R1, R2, C; [ring| | |exact Hc|exact Hg|exact Hf'|exact Hd'].
    - intros f0 d0 i0 _ _ H3 H4. apply Hv; assumption.
    - intros f0 d0 i0 H1 H2 H3. apply proj_fld; assumption. }
  lra.
Qed.

Theorem equivalence : exists A, theOperator N m dim alpha ob ib MInv D MSigma sm = Ok A /\
  forall u inc x g yu yi yx z, length u = (6 * N)%nat -> length inc = (6 * N)%nat -> length g = (6 * N)%nat ->
  unknown N s u inc x -> continuous m gi N inc -> halved m gi N s inc g ->
  applies A N u yu -> applies A N inc yi -> applies A N x yx -> lilApplies Tm N g z ->
  forall f d i, (0 <= f <= 1)%Z -> (0 <= d <= 2)%Z -> (i < N)%nat ->
    fld N yx f d i - fld N z f d i = if s i then fld N yu f d i else fld N yu f d i - fld N yi f d i.
Proof.
  destruct (operator_rows N m dim alpha ob ib Mass MInv D MSigma sm S) as (A & EA & HA). exists A. split; [exact EA|].
  intros u inc x g yu yi yx z Lu Li Lg (Lx & Hx) Hc Hg Yu Yi Yx Hz f d i Hf Hd Hi.
  destruct (HA (proj true inc) (proj_len true inc)) as (yp & Yp & _). destruct (HA (proj false inc) (proj_len false inc)) as (yq & Yq & _).
  assert (X1 : forall r, nth r x 0 = nth r u 0 - nth r (proj true inc) 0).
  { intros r. destruct (lt_dec r (6 * N)) as [Hr|Hr]; [|rewrite !nth_overflow by (rewrite ?proj_len; lia); ring].
    rewrite proj_nth by exact Hr. destruct (row_split N r Hr) as (H1 & H2 & H3 & H4 & H5).
    specialize (Hx (Z.of_nat (r / N / 3)) (Z.of_nat (r / N mod 3)) (r mod N)%nat ltac:(lia) ltac:(lia) H4). unfold fld in Hx.
    replace (Z.to_nat ((3 * Z.of_nat (r / N / 3) + Z.of_nat (r / N mod 3)) * Z.of_nat N + Z.of_nat (r mod N))) with r in Hx by lia.
    rewrite Hx. destruct (s (r mod N)); cbn [Bool.eqb]; ring. }
  assert (X2 : forall r, nth r (proj false inc) 0 = nth r inc 0 - nth r (proj true inc) 0).
  { intros r. destruct (lt_dec r (6 * N)) as [Hr|Hr]; [|rewrite !nth_overflow by (rewrite ?proj_len; lia); ring].
    rewrite !proj_nth by exact Hr. destruct (s (r mod N)); cbn [Bool.eqb]; ring. }
  rewrite (applies_sub A u (proj true inc) x yu yp yx Lu (proj_len _ _) Lx X1 Yu Yp Yx f d i Hf Hd Hi).
  destruct (s i) eqn:Es.
  - rewrite (zone_rows A true inc g yp z EA Lg Hc Hg Yp Hz f d i Hf Hd Hi Es). unfold sg. ring.
  - pose proof (applies_sub A inc (proj true inc) (proj false inc) yi yp yq Li (proj_len _ _) (proj_len _ _) X2 Yi Yp Yq f d i Hf Hd Hi) as X3.
    rewrite (zone_rows A false inc g yq z EA Lg Hc Hg Yq Hz f d i Hf Hd Hi Es) in X3. unfold sg in X3. lra.
Qed.

(** With the incident field in the total field zone and nothing outside, nothing leaks. *)
Theorem no_leak : exists A, theOperator N m dim alpha ob ib MInv D MSigma sm = Ok A /\
  forall inc x g yi yx z, length inc = (6 * N)%nat -> length x = (6 * N)%nat -> length g = (6 * N)%nat ->
  (forall f d i, (0 <= f <= 1)%Z -> (0 <= d <= 2)%Z -> (i < N)%nat -> fld N x f d i = if s i then fld N inc f d i else 0) ->
  continuous m gi N inc -> halved m gi N s inc g -> applies A N inc yi -> applies A N x yx -> lilApplies Tm N g z ->
  forall f d i, (0 <= f <= 1)%Z -> (0 <= d <= 2)%Z -> (i < N)%nat ->
    fld N yx f d i - fld N z f d i = if s i then fld N yi f d i else 0.
Proof.
  destruct equivalence as (A & EA & H). exists A. split; [exact EA|]. intros inc x g yi yx z Li Lx Lg Hx Hc Hg Yi Yx Hz f d i Hf Hd Hi.
  rewrite (H inc inc x g yi yi yx z Li Li Lg); try assumption.
  - destruct (s i); ring.
  - split; [exact Lx|]. intros f0 d0 i0 H1 H2 H3. rewrite Hx by assumption. destruct (s i0); ring.
Qed.

(** ** In time *)
Theorem run : exists A, theOperator N m dim alpha ob ib MInv D MSigma sm = Ok A /\
  forall u inc x g : R -> list R, evolves A N u ->
  (forall t, length (inc t) = (6 * N)%nat /\ continuous m gi N (inc t) /\ length (g t) = (6 * N)%nat /\ halved m gi N s (inc t) (g t)) ->
  (forall t yi, applies A N (inc t) yi -> forall f d i, (0 <= f <= 1)%Z -> (0 <= d <= 2)%Z -> (i < N)%nat -> s i = false ->
     derivable_pt_lim (fun t => fld N (inc t) f d i) t (fld N yi f d i)) ->
  (forall t, unknown N s (u t) (inc t) (x t)) ->
  forall t yx z, applies A N (x t) yx -> lilApplies Tm N (g t) z ->
  forall f d i, (0 <= f <= 1)%Z -> (0 <= d <= 2)%Z -> (i < N)%nat ->
    derivable_pt_lim (fun t => fld N (x t) f d i) t (fld N yx f d i - fld N z f d i).
Proof.
  destruct equivalence as (A & EA & H). exists A. split; [exact EA|]. intros u inc x g Hu Hi Hd Hx t yx z Yx Hz f d i Hf Hdd Hii.
  destruct (operator_rows N m dim alpha ob ib Mass MInv D MSigma sm S) as (A' & EA' & HA). rewrite EA in EA'. injection EA' as <-.
  destruct (Hi t) as (Li & Ci & Lg & Hg). destruct (HA (inc t) Li) as (yi & Yi & _). destruct (Hu t) as (Lu & yu & Yu & Du).
  rewrite (H (u t) (inc t) (x t) (g t) yu yi yx z Lu Li Lg (Hx t) Ci Hg Yu Yi Yx Hz f d i Hf Hdd Hii).
  assert (DU : derivable_pt_lim (fun t => fld N (u t) f d i) t (fld N yu f d i)) by (unfold fld; apply Du; apply (idx f d i Hf Hdd Hii)).
  destruct (s i) eqn:Es.
  - apply (derivable_pt_lim_ext (fun t => fld N (u t) f d i)); [|exact DU]. intros t'. destruct (Hx t') as (_ & Q). rewrite (Q f d i Hf Hdd Hii), Es. reflexivity.
  - apply (derivable_pt_lim_ext (fun t => fld N (u t) f d i - fld N (inc t) f d i)).
    + intros t'. destruct (Hx t') as (_ & Q). rewrite (Q f d i Hf Hdd Hii), Es. reflexivity.
    + apply (derivable_pt_lim_minus (fun t => fld N (u t) f d i) (fun t => fld N (inc t) f d i)); [exact DU|]. apply (Hd t yi Yi f d i Hf Hdd Hii Es).
Qed.
End Run.

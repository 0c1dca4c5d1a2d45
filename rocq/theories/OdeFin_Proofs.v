(** The statements about the time integrators on the assembled operator. *)
From Coq Require Import ZArith List Bool Reals Lia Lra ClassicalEpsilon.
From Verif Require Import Common Csr_Model Face_Model Face_Spec Setup_Model Setup_Spec Assembly_Model Form_Model Form_Spec Nodal_Spec NodalEnergy_Spec Global_Spec GlobalBalance_Proofs Time_Model Ode_Model Ode_Spec Ode_Proofs OdeStep_Proofs OdeLin_Proofs OdeRun_Proofs.
Import ListNotations.
Local Open Scope R_scope.

Section Fin.
Variable N : nat.
Variable m : fmesh.
Variable dim : Z.
Variable alpha : R.
Variable gb gi : list (Z * cond).
Variable ob ib : list (cond * marker).
Variable Mass MInv D : Z -> mat.
Variable MSigma : mat.
Variable sm : marker.
Hypothesis DG : dgSpace N m dim Mass MInv D.
Hypothesis T : tables m gb gi ob ib.
Hypothesis MF : massForm N Mass.
Notation built A := (buildGlobalOperator R Rplus Rmult 1 (-1) (factoryRows N m dim alpha ob ib MInv D MSigma sm) dim (Z.of_nat N) 0
              (match ib with [] => false | _ => true end) = Ok A).
Section Passive.
Hypothesis Ha : 0 <= alpha.
Hypothesis Pa : passive m gb gi.
Hypothesis Wt : nonnegWeights m.
Hypothesis Ps : forall v, 0 <= mform N MSigma v v.

Theorem fin_implicit : exists A, built A /\
  forall f imp, evaluates A N f -> solvesStages A N imp ->
  forall ty s tr s', (1 <= ty <= 6)%Z -> 0 < s_dt s -> length (s_fields s) = (6 * N)%nat ->
  runR (list R) (odeStep f imp ty) s tr s' -> neverRises (energies N Mass s tr).
Proof.
  destruct (never_grows N m dim alpha gb gi ob ib Mass MInv D MSigma sm DG T Ha Pa Wt Ps) as (A & EA & G). exists A. split; [exact EA|].
  intros f imp Ev St ty s tr s' Hty Hd Hl Rn. exact (implicit_run N Mass MF A f Ev imp St G ty Hty s tr s' Hd Hl Rn).
Qed.
Theorem fin_rk4 : exists A, built A /\
  forall f imp K, evaluates A N f -> 0 <= K -> boundedBy A N Mass K ->
  forall s tr s', 0 < s_dt s -> s_dt s * K <= 1 / 4 -> length (s_fields s) = (6 * N)%nat -> runR (list R) (odeStep f imp 0) s tr s' ->
  Forall (fun st => fieldEnergy N Mass (s_fields st) <= 10001 / 10000 * (10001 / 10000) * fieldEnergy N Mass (s_fields s)) tr.
Proof.
  destruct (never_grows N m dim alpha gb gi ob ib Mass MInv D MSigma sm DG T Ha Pa Wt Ps) as (A & EA & G). exists A. split; [exact EA|].
  intros f imp K Ev K0 HK s tr s' Hd Hh Hl Rn. exact (rk4_run N Mass MF A f Ev imp G K K0 HK s tr s' Hd Hh Hl Rn).
Qed.
Theorem fin_pairs : exists A, built A /\
  forall f imp K, evaluates A N f -> 0 <= K -> boundedBy A N Mass K ->
  forall x t t' dt, length x = (6 * N)%nat -> 0 <= dt -> dt * K <= 1 / 4 ->
  fieldEnergy N Mass (odeStep f imp 0 (odeStep f imp 0 x t dt) t' dt) <= fieldEnergy N Mass x.
Proof.
  destruct (never_grows N m dim alpha gb gi ob ib Mass MInv D MSigma sm DG T Ha Pa Wt Ps) as (A & EA & G). exists A. split; [exact EA|].
  intros f imp K Ev K0 HK x t t' dt Hx Hd Hh. exact (two N Mass MF A f Ev imp G K K0 HK x t t' dt Hx Hd Hh).
Qed.
Variable c : R.
Hypothesis Co : coercive N Mass c.
Theorem fin_solvable : exists A, built A /\ (exists f, evaluates A N f) /\ (exists imp, solvesStages A N imp) /\
  (exists K, 0 <= K /\ boundedBy A N Mass K) /\
  forall h x k k', 0 <= h -> length x = (6 * N)%nat -> length k = (6 * N)%nat -> length k' = (6 * N)%nat ->
    applies A N (addv h k x) k -> applies A N (addv h k' x) k' -> k = k'.
Proof.
  destruct (never_grows N m dim alpha gb gi ob ib Mass MInv D MSigma sm DG T Ha Pa Wt Ps) as (A & EA & G). exists A. split; [exact EA|].
  destruct (operator_rows N m dim alpha ob ib Mass MInv D MSigma sm DG) as (A' & EA' & Q). unfold theOperator in EA'. unfold theOperator in EA. rewrite EA in EA'. injection EA' as <-.
  assert (Hf : exists f, evaluates A N f).
  { exists (fun _ x => map (fun r => match csr_mult_row A x (Z.of_nat r) with Ok v => v | _ => 0 end) (seq 0 (6 * N))). intros t x Hx.
    destruct (Q x Hx) as (y & Y & _). replace (map _ _) with y; [exact Y|]. destruct Y as (Ly & Hy).
    apply (nth_ext _ _ 0 0); [rewrite map_length, seq_length; exact Ly|]. intros i Hi. rewrite Ly in Hi.
    set (g := fun r => match csr_mult_row A x (Z.of_nat r) with Ok v => v | _ => 0 end).
    rewrite (nth_indep (map g _) 0 (g 0%nat)) by (rewrite map_length, seq_length; exact Hi). rewrite (map_nth g), seq_nth by exact Hi. unfold g. cbn [Nat.add].
    rewrite (Hy (Z.of_nat i)) by lia. rewrite Nat2Z.id. reflexivity. }
  split; [exact Hf|]. destruct Hf as (f & Ev). destruct Co as (c0 & Cq).
  pose proof (coercive_entry N Mass MF c c0 Cq) as Coer.
  split; [|split].
  - assert (Ex : forall h x, 0 <= h -> length x = (6 * N)%nat -> exists k, stage (6 * N) (f 0) h x k).
    { intros h x Hh Hx. exact (stage_exists (6 * N) (f 0) (Flen' N A f Ev) (Fadd' N A f Ev) (fieldRate N Mass) (Badd' N Mass MF) (Bsym' N Mass MF) c c0 Coer (Diss' N Mass A f Ev G) h x Hh Hx). }
    assert (Ch : forall p : R * list R, exists k, 0 <= fst p -> length (snd p) = (6 * N)%nat -> stage (6 * N) (f 0) (fst p) (snd p) k).
    { intros (h & x). cbn [fst snd]. destruct (Rle_dec 0 h) as [Hh|Hh]; [|exists []; intros; contradiction]. destruct (Nat.eq_dec (length x) (6 * N)) as [Hx|Hx]; [|exists []; intros; contradiction].
      destruct (Ex h x Hh Hx) as (k & K). exists k. intros _ _. exact K. }
    set (pick := fun p => proj1_sig (constructive_indefinite_description _ (Ch p))).
    exists (fun _ h x => pick (h, x)). intros t h x Hx Hh.
    pose proof (proj2_sig (constructive_indefinite_description _ (Ch (h, x))) Hh Hx) as (L & E). fold (pick (h, x)) in L, E. cbn [fst snd] in L, E. split; [exact L|].
    intros y Ly Hy. rewrite (addv_ext (6 * N) h (pick (h, x)) x y L Hx Ly Hy). rewrite E at 2. apply Ev, addv_len; assumption.
  - destruct (bound_exists (6 * N) (f 0) (Flen' N A f Ev) (Fadd' N A f Ev) (fieldRate N Mass) (Badd' N Mass MF) (Bsym' N Mass MF) c c0 Coer) as (K & K0 & HK).
    exists K. split; [exact K0|]. intros x y Hx Hy. rewrite (applies_unique N A x y (f 0 x) Hy (Ev 0 x Hx)). specialize (HK x Hx). unfold fieldEnergy. lra.
  - intros h x k k' Hh Hx Lk Lk' Hk Hk'.
    assert (La : length (addv h k x) = (6 * N)%nat) by (apply addv_len; assumption). assert (La' : length (addv h k' x) = (6 * N)%nat) by (apply addv_len; assumption).
    apply (stage_unique (6 * N) (f 0) (Flen' N A f Ev) (Fadd' N A f Ev) (fieldRate N Mass) (Badd' N Mass MF) (Bsym' N Mass MF) c c0 Coer (Diss' N Mass A f Ev G) h x k k' Hh Hx).
    + split; [exact Lk|]. apply (applies_unique N A (addv h k x)); [exact Hk|apply Ev, La].
    + split; [exact Lk'|]. apply (applies_unique N A (addv h k' x)); [exact Hk'|apply Ev, La'].
Qed.
End Passive.

Section Lossless.
Hypothesis Ha : alpha = 0.
Hypothesis Re : reflecting m gb gi.
Hypothesis Ps : forall v, mform N MSigma v v = 0.
Theorem fin_conserve : exists A, built A /\
  forall f imp, evaluates A N f -> solvesStages A N imp ->
  forall ty s tr s', (2 <= ty <= 3)%Z -> 0 < s_dt s -> length (s_fields s) = (6 * N)%nat ->
  runR (list R) (odeStep f imp ty) s tr s' -> Forall (fun st => fieldEnergy N Mass (s_fields st) = fieldEnergy N Mass (s_fields s)) tr.
Proof.
  destruct (conserved N m dim alpha gb gi ob ib Mass MInv D MSigma sm DG T Ha Re Ps) as (A & EA & G). exists A. split; [exact EA|].
  intros f imp Ev St ty s tr s' Hty Hd Hl Rn. exact (conserve_run N Mass MF A f Ev imp St G ty Hty s tr s' Hd Hl Rn).
Qed.
Theorem fin_skew : exists A, built A /\
  forall f imp K, evaluates A N f -> 0 <= K -> boundedBy A N Mass K ->
  forall s tr s', 0 < s_dt s -> s_dt s * K * (s_dt s * K) <= 8 -> length (s_fields s) = (6 * N)%nat -> runR (list R) (odeStep f imp 0) s tr s' ->
  neverRises (energies N Mass s tr).
Proof.
  destruct (conserved N m dim alpha gb gi ob ib Mass MInv D MSigma sm DG T Ha Re Ps) as (A & EA & G). exists A. split; [exact EA|].
  intros f imp K Ev K0 HK s tr s' Hd Hh Hl Rn. exact (rk4_skew_run N Mass MF A f Ev imp K K0 HK G s tr s' Hd Hh Hl Rn).
Qed.
End Lossless.
End Fin.

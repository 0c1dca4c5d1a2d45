(** Total field in the left element of the line, scattered field in the right one. *)
From Coq Require Import ZArith List Bool Reals Lia Lra.
From Verif Require Import Common Csr_Model Geo_Spec Face_Model Face_Spec Setup_Model Setup_Spec Assembly_Model Form_Model Form_Spec Nodal_Spec Nodal_Proofs NodalEnergy_Spec Global_Spec Global_Proofs GlobalBalance_Proofs GlobalEx_Proofs Tfsf_Spec TfsfRun_Proofs.
Import ListNotations.
Local Open Scope R_scope.

Definition tS (i : nat) : bool := (i <? 2)%nat.
Definition tSm : marker := [0; 1; 0]%Z.
Definition row24 (h : nat -> nat -> nat -> R) : list R := map (fun r => h (r / 12)%nat (r / 4 mod 3)%nat (r mod 4)%nat) (seq 0 24).
(** Ey = Hz = 1: a wave that moves to the right. *)
Definition tInc : list R := row24 (fun f d _ => if ((f =? 0) && (d =? 1) || (f =? 1) && (d =? 2))%nat then 1 else 0).
Definition tG : list R := row24 (fun f d i => if ((f =? 0) && (d =? 1) || (f =? 1) && (d =? 2))%nat then (if tS i then / 2 else - / 2) else 0).
Definition tX : list R := row24 (fun f d i => if ((f =? 0) && (d =? 1) || (f =? 1) && (d =? 2))%nat then (if tS i then 1 else 0) else 0).

Lemma surf : forall fi, isSurface gMesh gGi fi <-> fi = 1%nat.
Proof.
  intros fi. split.
  - intros (a & E & [H|[]]). injection H as <-. destruct fi as [|[|[|fi]]]; cbn in E; try discriminate; reflexivity.
  - intros ->. exists 2%Z. split; [reflexivity|left; reflexivity].
Qed.
Lemma t_marks : marks (markerSize (fm_battrs gMesh)) gGi TotalFieldIn tSm.
Proof.
  split; [reflexivity|]. intros k Hk. change (markerSize (fm_battrs gMesh)) with 3%Z in Hk.
  assert (k = 0 \/ k = 1 \/ k = 2)%Z as [->|[->| ->]] by lia;
    first [left; split; [reflexivity|cbn; auto; fail] | right; split; [reflexivity|cbn; intuition discriminate]].
Qed.
Lemma t_splits : splits gMesh gGi tS.
Proof.
  intros fi F E. destruct fi as [|[|[|fi]]]; cbn in E; try (destruct fi; discriminate); injection E as <-.
  - exists true, true. split; [intros i [<-|[<-|[]]]; reflexivity|]. split; [intros i []|]. intros X. exfalso. apply X. reflexivity.
  - exists true, false. split; [intros i [<-|[<-|[]]]; reflexivity|]. split; [intros i [<-|[<-|[]]]; reflexivity|]. intros _. rewrite surf. split; [reflexivity|discriminate].
  - exists false, false. split; [intros i [<-|[<-|[]]]; reflexivity|]. split; [intros i []|]. intros X. exfalso. apply X. reflexivity.
Qed.
Ltac four i := destruct i as [|[|[|[|i]]]]; [| | | |lia].
Lemma t_zoned : zoned 4 1 tS gMass gMInv gD noSigma.
Proof.
  split; [|split; [|split]].
  - intros d Hd i j Hi Hj. four i; four j; cbn; intros X; try reflexivity; exfalso; apply X; reflexivity.
  - intros i j _ _ _. reflexivity.
  - intros f Hf i j Hi Hj. four i; four j; cbn; intros X; try reflexivity; exfalso; apply X; reflexivity.
  - intros f i j _ Hi Hj. unfold gMass, gMInv, sumN, suml. four i; four j; cbn -[IZR Rplus Rmult Rinv]; lra.
Qed.
Ltac fd f d := assert (f = 0 \/ f = 1)%Z as [->| ->] by lia; assert (d = 0 \/ d = 1 \/ d = 2)%Z as [->|[->| ->]] by lia.
Lemma t_continuous : continuous gMesh gGi 4 tInc.
Proof.
  intros fi F q f d E _ Hs I Hf Hd. apply surf in Hs. subst fi. injection E as <-. destruct I as [<-|[]].
  fd f d; unfold side1, side2, local, suml, fld; cbn -[IZR Rplus Rmult Rinv];
  repeat match goal with |- context [Pos.to_nat ?p] => let v := eval compute in (Pos.to_nat p) in change (Pos.to_nat p) with v end; cbn -[IZR Rplus Rmult Rinv]; lra.
Qed.
Lemma t_halved : halved gMesh gGi 4 tS tInc tG.
Proof.
  intros fi F f d i E _ Hs I Hf Hd. apply surf in Hs. subst fi. injection E as <-. cbn [mf_dofs1 mf_dofs2 gMid List.app In] in I.
  destruct I as [<-|[<-|[<-|[<-|[]]]]]; fd f d; unfold fld; cbn -[IZR Rplus Rmult Rinv];
  repeat match goal with |- context [Pos.to_nat ?p] => let v := eval compute in (Pos.to_nat p) in change (Pos.to_nat p) with v end; cbn -[IZR Rplus Rmult Rinv Ropp]; lra.
Qed.
Lemma t_unknown : unknown 4 tS tInc tInc tX.
Proof.
  split; [reflexivity|]. intros f d i Hf Hd Hi. four i; fd f d; unfold fld; cbn -[IZR Rplus Rmult Rinv];
  repeat match goal with |- context [Pos.to_nat ?p] => let v := eval compute in (Pos.to_nat p) in change (Pos.to_nat p) with v end; cbn -[IZR Rplus Rmult Rinv Ropp]; lra.
Qed.
Lemma t_zone : forall f d i, (0 <= f <= 1)%Z -> (0 <= d <= 2)%Z -> (i < 4)%nat -> fld 4 tX f d i = if tS i then fld 4 tInc f d i else 0.
Proof.
  intros f d i Hf Hd Hi. four i; fd f d; unfold fld; cbn -[IZR Rplus Rmult Rinv];
  repeat match goal with |- context [Pos.to_nat ?p] => let v := eval compute in (Pos.to_nat p) in change (Pos.to_nat p) with v end; cbn -[IZR Rplus Rmult Rinv Ropp]; lra.
Qed.
Definition lilRow (T : lil R) (x : list R) : list R := map (fun r => Nodal_Spec.sumN 24 (fun c => entry T r c * nth c x 0)) (seq 0 24).
Lemma lil_exists : forall T x, lilApplies T 4 x (lilRow T x).
Proof.
  intros T x. split; [reflexivity|]. intros r Hr. unfold lilRow. set (h := fun r => _).
  rewrite (nth_indep _ 0 (h 0%nat)) by (rewrite map_length, seq_length; exact Hr). rewrite (map_nth h), seq_nth by exact Hr. reflexivity.
Qed.

(** A longitudinal field that decays in a conductor, taken as its own incident field. *)
Definition dX (s t : R) : list R := map (fun r => if (r <? 2)%nat then exp (- s * t) else 0) (seq 0 24).
Lemma dx_fld : forall s t f d i, (0 <= f <= 1)%Z -> (0 <= d <= 2)%Z -> (i < 4)%nat ->
  fld 4 (dX s t) f d i = if tS i then fld 4 (gZ s t) f d i else 0.
Proof.
  intros s t f d i Hf Hd Hi. rewrite z_fld by assumption. unfold fld. four i; fd f d; cbn -[IZR Rplus Rmult Rinv exp];
  repeat match goal with |- context [Pos.to_nat ?p] => let v := eval compute in (Pos.to_nat p) in change (Pos.to_nat p) with v end; reflexivity.
Qed.
Definition dG (s t : R) : list R := map (fun r => if (r <? 2)%nat then / 2 * exp (- s * t) else if (r <? 4)%nat then - / 2 * exp (- s * t) else 0) (seq 0 24).
Lemma dg_fld : forall s t f d i, (0 <= f <= 1)%Z -> (0 <= d <= 2)%Z -> (i < 4)%nat ->
  fld 4 (dG s t) f d i = (if tS i then / 2 else - / 2) * fld 4 (gZ s t) f d i.
Proof.
  intros s t f d i Hf Hd Hi. rewrite z_fld by assumption. unfold fld. four i; fd f d; cbn -[IZR Rplus Rmult Rinv exp Ropp];
  repeat match goal with |- context [Pos.to_nat ?p] => let v := eval compute in (Pos.to_nat p) in change (Pos.to_nat p) with v end; cbn -[IZR Rplus Rmult Rinv exp Ropp]; lra.
Qed.
Lemma d_inc : forall s t, length (gZ s t) = 24%nat /\ continuous gMesh gGi 4 (gZ s t) /\ length (dG s t) = 24%nat /\ halved gMesh gGi 4 tS (gZ s t) (dG s t).
Proof.
  intros s t. split; [reflexivity|]. split; [|split; [reflexivity|]].
  - intros fi F q f d E _ Hs I Hf Hd. apply surf in Hs. subst fi. injection E as <-. destruct I as [<-|[]].
    unfold side1, side2, local, suml. cbn -[IZR Rplus Rmult Rinv fld gZ]. rewrite !z_fld by (assumption || lia). destruct ((f =? 0) && (d =? 0))%Z; lra.
  - intros fi F f d i E _ Hs I Hf Hd. apply surf in Hs. subst fi. injection E as <-. cbn [mf_dofs1 mf_dofs2 gMid List.app In] in I.
    apply dg_fld; [exact Hf|exact Hd|]. destruct I as [<-|[<-|[<-|[<-|[]]]]]; lia.
Qed.
Lemma d_unknown : forall s t, unknown 4 tS (gZ s t) (gZ s t) (dX s t).
Proof. intros s t. split; [reflexivity|]. intros f d i Hf Hd Hi. rewrite dx_fld by assumption. destruct (tS i); ring. Qed.
Lemma zoned_s : forall s, zoned 4 1 tS gMass gMInv gD (sMass s).
Proof.
  intros s. destruct t_zoned as (A & _ & B & C). split; [exact A|]. split; [|split; assumption].
  intros i j Hi Hj. unfold sMass, gMass. four i; four j; cbn -[IZR Rplus Rmult Rinv]; intros X; try ring; exfalso; apply X; reflexivity.
Qed.
Lemma d_run : forall s, exists A, theOperator 4 gMesh 1 1 gOb [] gMInv gD (sMass s) tSm = Ok A /\ evolves A 4 (gZ s) /\
  (forall t yi, applies A 4 (gZ s t) yi -> forall f d i, (0 <= f <= 1)%Z -> (0 <= d <= 2)%Z -> (i < 4)%nat -> tS i = false ->
     derivable_pt_lim (fun t => fld 4 (gZ s t) f d i) t (fld 4 yi f d i)).
Proof.
  intros s. destruct (long_evolves 1 gGb gGi gOb s tSm g_tables) as (A & EA & H). exists A. split; [exact EA|]. split; [exact H|].
  intros t yi Yi f d i Hf Hd Hi _. destruct (H t) as (_ & y & Y & D). rewrite (applies_unique 4 A _ _ _ Yi Y). unfold fld. apply D. lia.
Qed.

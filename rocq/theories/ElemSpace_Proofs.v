(** Integration by parts on every element gives a space of the method. *)
From Coq Require Import ZArith List Bool Reals Lia Lra Psatz.
From Verif Require Import Common Csr_Model Geo_Spec Face_Model Face_Spec Face_Proofs Nodal_Spec Nodal_Proofs NodalMult_Proofs NodalEnergy_Spec NodalEnergy_Proofs Setup_Model Setup_Spec Form_Model Form_Spec Global_Spec GlobalEnergy_Proofs HestElem_Proofs Step_Model Step_Spec Cfl_Spec CflLine_Proofs Elem_Spec Elem_Proofs ElemGeo_Proofs.
Import ListNotations.
Local Open Scope R_scope.

Lemma suml_none : forall {A} (l : list A) (f : A -> R), (forall a, In a l -> f a = 0) -> 0 = suml f l.
Proof. intros A l f. induction l as [|a l IH]; intros H; [reflexivity|]. unfold suml in *. cbn [map fold_right]. rewrite <- IH by (intros; apply H; now right). rewrite H by now left. ring. Qed.

Section Space.
Variable n : nat.
Variable r : reference.
Variable V : nat -> R.
Variable w : Z -> nat -> R.
Variable m : fmesh.
Variable el : nat -> nat * option nat.
Variable dim : Z.
Variable C : nat -> Z -> nat -> R.
Notation q := (r_dofs r).
Notation N := (n * q)%nat.
Hypothesis RO : referenceOk r.
Hypothesis HV : forall k, (k < n)%nat -> 0 < V k.
Hypothesis Hw : forall g k, 1 <= w g k.
Hypothesis TO : touches q n m el.
Hypothesis MO : meshOk N dim m.
Hypothesis EP : elementParts r n m el dim C.
Definition part (v : nat -> R) (k : nat) : nat -> R := fun a => v (k * q + a)%nat.
Lemma face_values : forall fi f p v, nth_error (fm_faces m) fi = Some f -> In p (f_pts (mf_face f)) ->
  side1 (mf_face f) (local f v) p = value (q_s1 p) (part v (fst (el fi))) /\
  side2 (mf_face f) (local f v) p = match snd (el fi) with Some k => value (q_s2 p) (part v k) | None => 0 end.
Proof.
  intros fi f p v E Ip. destruct (TO fi f E) as (K1 & D1 & D2). pose proof (nth_error_In _ _ E) as If. destruct MO as (_ & (WM & _ & _) & _ & WF).
  rewrite Forall_forall in WF, WM. destruct (WF f If) as (W & _). unfold wfFace in W. rewrite Forall_forall in W. destruct (W p Ip) as (_ & L1 & L2). destruct (WM f If) as (LD & _).
  assert (Eq : f_el1 (mf_face f) = q) by (rewrite <- LD, D1; apply seq_length). split.
  - unfold side1, tr, value. apply sumN_ext. intros a Ha. rewrite L1, Eq in Ha. f_equal. unfold local, part. rewrite D1, app_nth1 by (unfold dofsOf; rewrite seq_length; lia). unfold dofsOf. rewrite seq_nth by lia. now rewrite Nat.add_0_r.
  - unfold side2. destruct (snd (el fi)) as [k|]; destruct (f_el2 (mf_face f)) as [q'|]; try contradiction; [|reflexivity].
    destruct D2 as (K2 & -> & D2). unfold tr, value. rewrite Eq. apply sumN_ext. intros a Ha. rewrite L2 in Ha. f_equal. unfold local, part. rewrite D1, app_nth2 by (unfold dofsOf; rewrite seq_length; lia). rewrite D2. unfold dofsOf. rewrite seq_length, seq_nth by lia. now replace (a + q - q)%nat with a by lia.
Qed.
Lemma parts_global : forall d v u, (0 <= d < dim)%Z ->
  mform N (affineD r (Z.to_nat dim) C d) v u + mform N (affineD r (Z.to_nat dim) C d) u v =
  facesum m (fun _ f p => unitN p (Z.to_nat d) * (side1 (mf_face f) (local f v) p * side1 (mf_face f) (local f u) p - side2 (mf_face f) (local f v) p * side2 (mf_face f) (local f u) p)).
Proof.
  intros d v u Hd.
  assert (L : mform N (affineD r (Z.to_nat dim) C d) v u + mform N (affineD r (Z.to_nat dim) C d) u v =
    sumN n (fun k => sumN (Z.to_nat dim) (fun e => C k d e * (mform q (r_diff r e) (part v k) (part u k) + mform q (r_diff r e) (part u k) (part v k))))).
  { unfold affineD. rewrite !per_form, <- sumN_plus. apply sumN_ext. intros k _. rewrite !(mform_msum q (Z.to_nat dim) (fun e => C k d e) (r_diff r)), <- sumN_plus. apply sumN_ext. intros e _. unfold part. ring. }
  rewrite L. rewrite (sumN_ext n _ _ (fun k Hk => EP k d (part v k) (part u k) Hk Hd)). rewrite sumN_swap.
  unfold facesum. rewrite suml_sumN. apply suml_ext. intros fi _. destruct (nth_error (fm_faces m) fi) as [f|] eqn:E.
  2:{ apply sumN_zero. reflexivity. }
  destruct (TO fi f E) as (K1 & _ & D2).
  rewrite sumN_plus. 
  rewrite (sumN_one n (fst (el fi)) (fun k => fold_right Rplus 0 (map (fun p => ds p * (unitN p (Z.to_nat d) * (value (q_s1 p) (part v k) * value (q_s1 p) (part u k)))) (f_pts (mf_face f)))) K1).
  assert (S2 : sumN n (fun k => match snd (el fi) with
           | Some j => if (j =? k)%nat then fold_right Rplus 0 (map (fun p => ds p * (unitN p (Z.to_nat d) * - (value (q_s2 p) (part v k) * value (q_s2 p) (part u k)))) (f_pts (mf_face f))) else 0
           | None => 0 end) =
    suml (fun p => ds p * (unitN p (Z.to_nat d) * - (side2 (mf_face f) (local f v) p * side2 (mf_face f) (local f u) p))) (f_pts (mf_face f))).
  { destruct (snd (el fi)) as [j|] eqn:Ej.
    - destruct (f_el2 (mf_face f)); [|contradiction].
      rewrite (sumN_one n j (fun k => fold_right Rplus 0 (map (fun p => ds p * (unitN p (Z.to_nat d) * - (value (q_s2 p) (part v k) * value (q_s2 p) (part u k)))) (f_pts (mf_face f))))) by apply D2.
      apply suml_ext. intros p Ip. destruct (face_values fi f p v E Ip) as (_ & A1). destruct (face_values fi f p u E Ip) as (_ & A2). rewrite Ej in A1, A2. rewrite A1, A2. reflexivity.
    - rewrite sumN_zero by reflexivity. apply suml_none. intros p Ip. destruct (face_values fi f p v E Ip) as (_ & A1). rewrite Ej in A1. rewrite A1. ring. }
  rewrite S2. change (fold_right Rplus 0 (map (fun p => ds p * (unitN p (Z.to_nat d) * (value (q_s1 p) (part v (fst (el fi))) * value (q_s1 p) (part u (fst (el fi)))))) (f_pts (mf_face f))))
    with (suml (fun p => ds p * (unitN p (Z.to_nat d) * (value (q_s1 p) (part v (fst (el fi))) * value (q_s1 p) (part u (fst (el fi)))))) (f_pts (mf_face f))).
  rewrite <- suml_plus. apply suml_ext. intros p Ip. destruct (face_values fi f p v E Ip) as (A1 & _). destruct (face_values fi f p u E Ip) as (A2 & _). rewrite A1, A2. ring.
Qed.
Theorem elements_space : dgSpace N m dim (affineMass r V w) (affineInv r V w) (affineD r (Z.to_nat dim) C).
Proof.
  pose proof MO as (Dm & WM & ND & WF). split; [exact Dm|]. split; [exact WM|]. split; [exact ND|]. split; [exact WF|]. split; [|exact parts_global].
  intros g i j _ Hi Hj. assert (M : exists rho, 0 < rho /\ forall k, (k < n)%nat -> 0 < 1 /\ rho * 1 <= V k).
  { clear - HV. induction n as [|p IH]; [exists 1; split; [lra|]; intros; lia|]. destruct IH as (rho & R0 & M); [intros; apply HV; lia|]. exists (Rmin rho (V p)). split; [apply Rmin_glb_lt; [exact R0|apply HV; lia]|].
    intros k Hk. split; [lra|]. destruct (Nat.eq_dec k p) as [->|]; [pose proof (Rmin_r rho (V p)); lra|]. destruct (M k ltac:(lia)) as (_ & Mk). pose proof (Rmin_l rho (V p)). lra. }
  destruct M as (rho & R0 & M). exact (affine_inverse n r V (fun _ => 1) w rho RO R0 M Hw g i j Hi Hj).
Qed.
End Space.

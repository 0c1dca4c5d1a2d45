(** The parallel transform computes what the serial loops of Rcs_Model compute. *)
From Coq Require Import List Arith Bool Lia Reals.
From Verif Require Import Common Rcs_Model Rcs_Spec Rcs_Proofs Dft_Model Dft_Proofs.
Import ListNotations.
Local Open Scope R_scope.

Definition rcsTerm (snaps : list snap) (nf : list R) (t c fi v : nat) : C :=
  let s := nth t snaps (mkSnap 0 (fun _ _ => 0)) in cscale (sn_v s c v) (weight (nth fi nf 0) (sn_t s / speedOfLight)).

Lemma map_nth_seq : forall (X Y : Type) (g : X -> Y) d l, map (fun t => g (nth t l d)) (seq 0 (List.length l)) = map g l.
Proof.
  induction l as [|x l IH]; [reflexivity|]. cbn [List.length seq map nth]. f_equal. rewrite <- seq_shift, map_map. exact IH.
Qed.

Lemma parallel_rcs : forall snaps nf nDofs nThr owner c,
  (forall fi, (fi < List.length nf)%nat -> (owner fi < nThr)%nat) ->
  steps cadd (initial (rcsTerm snaps nf) nThr (List.length nf) (List.length snaps) nDofs owner c0) c -> finished c ->
  forall comp fi v, (comp < 6)%nat -> (fi < List.length nf)%nat -> (v < nDofs)%nat ->
    cf_mem c (comp, fi, v) = dftLoops snaps nf nDofs comp fi v.
Proof.
  intros snaps nf nDofs nThr owner c Ho S F comp fi v Hc Hf Hv.
  rewrite (static_serial _ _ _ owner nThr _ _ _ _ c Ho S F comp fi v Hc Hf Hv).
  unfold dftLoops. rewrite dft_sum by assumption.
  assert (E : map (fun t => rcsTerm snaps nf t comp fi v) (seq 0 (List.length snaps)) =
              map (fun s => creal (sn_v s comp v) (cis_neg (2 * PI * nth fi nf 0 * sn_t s))) snaps).
  { unfold rcsTerm. rewrite (map_nth_seq _ _ (fun s => cscale (sn_v s comp v) (weight (nth fi nf 0) (sn_t s / speedOfLight)))).
    apply map_ext. intros s. unfold weight, speedOfLight, cis_neg, cscale, creal. replace (sn_t s / 1) with (sn_t s) by field. reflexivity. }
  rewrite E. generalize (map (fun s => creal (sn_v s comp v) (cis_neg (2 * PI * nth fi nf 0 * sn_t s))) snaps). intros l.
  rewrite <- (map_id l) at 2. rewrite <- (fold_cadd C (fun x => x)). reflexivity.
Qed.

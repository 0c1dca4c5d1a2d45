(** Superposition of total field sources in the nodal operator. *)
From Coq Require Import ZArith List Bool Reals Lia Lra FunctionalExtensionality.
From Verif Require Import Common Nodal_Model Nodal_Spec Nodal_Proofs NodalMult_Proofs NodalEnergy_Proofs.
Import ListNotations.
Local Open Scope R_scope.

Definition withSrc (s : nodal) (l : list (option (Z -> Z -> Z -> R))) : nodal :=
  mkNodal (nd_N s) (nd_alpha s) (nd_global s) (nd_bdr s) (nd_lin s) (nd_cur s) (nd_lift s) l.
Definition sumSrc (l : list (option (Z -> Z -> Z -> R))) : Z -> Z -> Z -> R :=
  fun v f d => suml (fun o => match o with Some ev => ev v f d | None => 0 end) l.
Lemma wf_with : forall s l, wfNodal s -> wfNodal (withSrc s l).
Proof. intros [] l H. exact H. Qed.
Lemma incident_sum : forall s l f d p, incident (withSrc s l) f d p = incident (withSrc s [Some (sumSrc l)]) f d p.
Proof.
  intros s l f d p. unfold incident. cbn [withSrc nd_src nd_bdr]. set (T := tfEntries (bTFSF (nd_bdr s))).
  transitivity (suml (fun t => suml (fun src => (is (snd (fst t)) p - is (fst (fst t)) p) * match src with Some ev => ev (snd t) f d | None => 0 end) l) T).
  - rewrite suml_swap. apply suml_ext. intros [ev|] _; [reflexivity|]. symmetry. rewrite (suml_ext _ (fun _ => 0) T) by (intros; ring).
    clear. induction T as [|t T IH]; [reflexivity|]. unfold suml in *. cbn [map fold_right]. rewrite IH. ring.
  - unfold suml at 3. cbn [map fold_right]. rewrite Rplus_0_r. apply suml_ext. intros t _. unfold sumSrc. rewrite suml_scal. reflexivity.
Qed.
Lemma rhs_with : forall s l l' u el k, (forall f d p, incident (withSrc s l) f d p = incident (withSrc s l') f d p) ->
  rhsE (withSrc s l) u el k = rhsE (withSrc s l') u el k /\ rhsH (withSrc s l) u el k = rhsH (withSrc s l') u el k.
Proof.
  intros s l l' u el k H.
  assert (E : incE (withSrc s l) = incE (withSrc s l')) by (apply functional_extensionality; intros p; unfold incE; rewrite !H; reflexivity).
  assert (E' : incH (withSrc s l) = incH (withSrc s l')) by (apply functional_extensionality; intros p; unfold incH; rewrite !H; reflexivity).
  assert (D : dE (withSrc s l) u el = dE (withSrc s l') u el) by (apply functional_extensionality; intros i; unfold dE, jumpE; rewrite E; reflexivity).
  assert (D' : dH (withSrc s l) u el = dH (withSrc s l') u el) by (apply functional_extensionality; intros i; unfold dH, jumpH; rewrite E'; reflexivity).
  unfold rhsE, rhsH. rewrite D, D'. split; reflexivity.
Qed.
Lemma nodal_superposition : forall s l x, wfNodal s -> length x = Z.to_nat (6 * nd_N s) ->
  exists out out', nodalMult (withSrc s l) x = Ok out /\ nodalMult (withSrc s [Some (sumSrc l)]) x = Ok out' /\
    forall c i, (0 <= c < 6)%Z -> (0 <= i < nd_N s)%Z -> comp6 (nd_N s) out c i = comp6 (nd_N s) out' c i.
Proof.
  intros s l x W Hx.
  destruct (nodal_value (withSrc s l) x (wf_with s l W) Hx) as (o & Eo & _ & V & Vr & V0).
  destruct (nodal_value (withSrc s [Some (sumSrc l)]) x (wf_with s _ W) Hx) as (o' & Eo' & _ & V' & Vr' & V0').
  exists o, o'. split; [exact Eo|]. split; [exact Eo'|]. cbn [withSrc nd_N nd_lin nd_cur] in *.
  change (curRows (withSrc s l)) with (curRows s) in *. change (curRows (withSrc s [Some (sumSrc l)])) with (curRows s) in *.
  intros c i Hc Hi.
  destruct (existsb (fun el => existsb (fun k => (i =? elDof el k)%Z) (seq 0 (elSize el))) (nd_lin s)) eqn:B.
  - apply existsb_exists in B. destruct B as (el & Iel & B). apply existsb_exists in B. destruct B as (k & Ik & B). apply Z.eqb_eq in B. subst i. apply in_seq in Ik.
    destruct (V el k Iel ltac:(lia)) as (A1 & A2). destruct (V' el k Iel ltac:(lia)) as (A1' & A2').
    destruct (rhs_with s l [Some (sumSrc l)] (comp6 (nd_N s) x) el k (incident_sum s l)) as (R1 & R2).
    rewrite R1, <- A1' in A1. rewrite R2, <- A2' in A2. unfold E3, H3 in A1, A2. injection A1 as X0 X1 X2. injection A2 as X3 X4 X5.
    assert (c = 0 \/ c = 1 \/ c = 2 \/ c = 3 \/ c = 4 \/ c = 5)%Z as [->|[->|[->|[->|[->| ->]]]]] by lia; assumption.
  - assert (NB : forall el k, In el (nd_lin s) -> (k < elSize el)%nat -> i <> elDof el k).
    { intros el k Iel Ik E. assert (X : existsb (fun el => existsb (fun k => (i =? elDof el k)%Z) (seq 0 (elSize el))) (nd_lin s) = true); [|congruence].
      apply existsb_exists. exists el. split; [exact Iel|]. apply existsb_exists. exists k. split; [apply in_seq; lia|]. apply Z.eqb_eq. exact E. }
    destruct (in_dec Z.eq_dec (c * nd_N s + i)%Z (map fst (curRows s))) as [I|N].
    + apply in_map_iff in I. destruct I as (r & Er & Ir). unfold comp6. rewrite <- Er, (Vr r Ir), (Vr' r Ir). reflexivity.
    + rewrite V0, V0' by assumption. reflexivity.
Qed.

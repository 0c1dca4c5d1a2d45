(** Thin layers on several processes: one process. *)
From Coq Require Import ZArith List Bool Reals Lia Lra Permutation FunctionalExtensionality.
From Verif Require Import Common Csr_Model Csr_Spec Face_Model Face_Spec Face_Proofs Setup_Model Setup_Spec Assembly_Model Assembly_Spec Assembly_Proofs Form_Model Form_Spec Form_Proofs Nodal_Spec Nodal_Proofs NodalMult_Proofs NodalEnergy_Proofs Global_Spec Global_Proofs GlobalEnergy_Proofs GlobalBalance_Proofs Evol_Model Evol_Spec EvolLayer_Spec Evol_Proofs EvolHist_Proofs EvolRhs_Proofs EvolLayer_Proofs Tfsf_Spec TfsfLil_Proofs Ode_Model Par_Model Par_Spec Par_Proofs ParRows_Proofs ParMult_Proofs ParSrc_Model ParSrc_Proofs ParLay_Model ParLay_Spec.
Import ListNotations.
Local Open Scope R_scope.

(** ** Dofs *)
Lemma nthZ_nat : forall (v : list R) (c n i : nat), nthZ v (Z.of_nat c * Z.of_nat n + Z.of_nat i) = nth (c * n + i) v 0.
Proof. intros. unfold nthZ. f_equal. lia. Qed.
Lemma dof_part : forall N own v d k c, sameDof own d k -> (0 <= c < 6)%Z -> at_dof (length own) (part N own v) k c = at_dof N v d c.
Proof.
  intros N own v d k c (i & Hi & -> & ->) Hc. unfold at_dof. replace c with (Z.of_nat (Z.to_nat c)) by lia. rewrite !nthZ_nat. apply part_nth; [lia|exact Hi].
Qed.
Lemma same_unique : forall own d d' k, sameDof own d k -> sameDof own d' k -> d = d'.
Proof. intros own d d' k (i & _ & Ei & ->) (j & _ & Ej & ->). assert (i = j) by lia. subst. reflexivity. Qed.
Lemma frame_ext : forall rot u u', (forall c, (0 <= c < 6)%Z -> u c = u' c) -> intoFrame rot u = intoFrame rot u'.
Proof.
  intros rot u u' H. extensionality c. unfold intoFrame. cbv zeta. destruct (c <? 3)%Z; rewrite !H by lia; reflexivity.
Qed.
Lemma power_ext : forall u u', (forall c, (0 <= c < 6)%Z -> u c = u' c) -> power u = power u'.
Proof. intros u u' H. unfold power. rewrite !H by lia. reflexivity. Qed.
Lemma same_range : forall own d k, sameDof own d k -> (0 <= k < Z.of_nat (length own))%Z.
Proof. intros own d k (i & H & -> & _). lia. Qed.
Lemma same_neg : forall own d k, sameDof own d k -> d <> (-1)%Z /\ k <> (-1)%Z.
Proof. intros own d k (i & _ & -> & ->). lia. Qed.

(** ** One layer *)
Section Layer.
Variable N : nat.
Variable own : list nat.
Notation nn := (length own).
Lemma layer_two : forall ws ws', layerOf own ws ws' -> two (snd ws') = two (snd ws).
Proof.
  intros ws ws' (_ & _ & _ & _ & [(E & E')|H]); unfold two; [rewrite E, E'; reflexivity|]. destruct (same_neg _ _ _ H) as (H1 & H2).
  destruct (Z.eqb_spec (s_gr (snd ws)) (-1)); [contradiction|]. destruct (Z.eqb_spec (s_gr (snd ws')) (-1)); [contradiction|]. reflexivity.
Qed.
Lemma layer_quiet : forall v ws ws', layerOf own ws ws' -> (quiet nn (part N own v) (snd ws') <-> quiet N v (snd ws)).
Proof.
  intros v ws ws' (_ & _ & Ef & Hl & Hr). unfold quiet. rewrite Ef.
  rewrite (power_ext _ (at_dof N v (s_gl (snd ws)))) by (intros; apply dof_part; assumption).
  destruct Hr as [(E & E')|H]; [rewrite E, E'; reflexivity|]. destruct (same_neg _ _ _ H) as (H1 & H2).
  destruct (Z.eqb_spec (s_gr (snd ws)) (-1)); [contradiction|]. destruct (Z.eqb_spec (s_gr (snd ws')) (-1)); [contradiction|].
  rewrite (power_ext (at_dof nn _ (s_gr (snd ws'))) (at_dof N v (s_gr (snd ws)))) by (intros; apply dof_part; assumption). reflexivity.
Qed.
(** One-sided layers read no right side. *)
Lemma evolve_left : forall inv w base dt l r r' fs, evolve inv w base dt false l r fs = evolve inv w base dt false l r' fs.
Proof.
  intros. unfold evolve. reflexivity.
Qed.
Lemma layer_evolve : forall inv base dt (f : nat -> list R -> Z -> R -> Z -> R) ws ws' v v', layerOf own ws ws' ->
  (forall d k, sameDof own d k -> f nn v' k = f N v d) ->
  evolve inv (fst ws') base dt (two (snd ws')) (f nn v' (s_gl (snd ws'))) (f nn v' (s_gr (snd ws'))) (s_fs (snd ws')) =
  evolve inv (fst ws) base dt (two (snd ws)) (f N v (s_gl (snd ws))) (f N v (s_gr (snd ws))) (s_fs (snd ws)).
Proof.
  intros inv base dt f ws ws' v v' H Hf. rewrite (layer_two _ _ H). destruct H as (-> & _ & -> & Hl & Hr). rewrite (Hf _ _ Hl).
  destruct Hr as [(E & _)|Hr]; [|rewrite (Hf _ _ Hr); reflexivity].
  unfold two. rewrite E. cbn [Z.eqb negb]. change (negb true) with false. apply evolve_left.
Qed.
Lemma held_part : forall v rot d k, sameDof own d k -> held nn (part N own v) rot k = held N v rot d.
Proof. intros v rot d k H. extensionality a. unfold held. apply frame_ext. intros c Hc. apply dof_part; assumption. Qed.
Lemma between_part : forall v0 v1 rot d k, sameDof own d k -> between nn (part N own v0) (part N own v1) rot k = between N v0 v1 rot d.
Proof.
  intros v0 v1 rot d k H. extensionality a. extensionality c. unfold between.
  rewrite (frame_ext rot (at_dof nn (part N own v0) k) (at_dof N v0 d)), (frame_ext rot (at_dof nn (part N own v1) k) (at_dof N v1 d)) by (intros; apply dof_part; assumption). reflexivity.
Qed.
Lemma quiet_dec : forall m v s, quiet m v s \/ ~ quiet m v s.
Proof. intros m v s. unfold quiet. destruct (Rlt_dec (sqrt (sumsq (s_fs s))) (/ 100000000)); [|tauto]. match goal with |- context [?a < ?b] => destruct (Rlt_dec a b); tauto end. Qed.
Lemma layer_with : forall ws ws' fs, layerOf own ws ws' -> layerOf own (fst ws, with_fs (snd ws) fs) (fst ws', with_fs (snd ws') fs).
Proof. intros ws ws' fs (E1 & E2 & E3 & E4 & E5). repeat split; assumption. Qed.

Lemma seen_layer : forall inv base t x ws ws' s1 s1', layerOf own ws ws' -> seenLayer inv N base t x (fst ws) (snd ws) s1 -> seenLayer inv nn base t (part N own x) (fst ws') (snd ws') s1' ->
  layerOf own (fst ws, s1) (fst ws', s1').
Proof.
  intros inv base t x ws ws' s1 s1' H (A1 & A2) (B1 & B2). pose proof (layer_quiet x ws ws' H) as Q.
  assert (D : (quiet N x (snd ws) \/ t - base <= / 1000000000000) \/ (~ quiet N x (snd ws) /\ / 1000000000000 < t - base)).
  { destruct (quiet_dec N x (snd ws)); [tauto|]. destruct (Rle_dec (t - base) (/ 1000000000000)); [tauto|]. right. split; [assumption|lra]. }
  destruct D as [D|D].
  - rewrite (A1 D), (B1 ltac:(tauto)). destruct ws, ws'. exact H.
  - rewrite (A2 D), (B2 ltac:(tauto)). assert (E2 : s_rot (snd ws') = s_rot (snd ws)) by apply H. rewrite E2.
    rewrite (layer_evolve inv base (t - base) (fun m v d => held m v (s_rot (snd ws)) d) ws ws' x (part N own x) H (fun d k K => held_part x _ d k K)).
    apply layer_with. exact H.
Qed.
Lemma next_layer : forall inv base dt v0 v1 (still still' : Prop) ws ws' s1 s1', layerOf own ws ws' -> (still \/ ~ still) -> (still <-> still') ->
  nextLayer inv N base dt v0 v1 still (fst ws) (snd ws) s1 -> nextLayer inv nn base dt (part N own v0) (part N own v1) still' (fst ws') (snd ws') s1' ->
  layerOf own (fst ws, s1) (fst ws', s1').
Proof.
  intros inv base dt v0 v1 still still' ws ws' s1 s1' H D Q (A1 & A2) (B1 & B2). destruct D as [D|D].
  - rewrite (A1 D), (B1 ltac:(tauto)). destruct ws, ws'. exact H.
  - rewrite (A2 D), (B2 ltac:(tauto)). assert (E2 : s_rot (snd ws') = s_rot (snd ws)) by apply H. rewrite E2.
    assert (X : evolve inv (fst ws') base dt (two (snd ws')) (between nn (part N own v0) (part N own v1) (s_rot (snd ws)) (s_gl (snd ws'))) (between nn (part N own v0) (part N own v1) (s_rot (snd ws)) (s_gr (snd ws'))) (s_fs (snd ws')) =
      evolve inv (fst ws) base dt (two (snd ws)) (between N v0 v1 (s_rot (snd ws)) (s_gl (snd ws))) (between N v0 v1 (s_rot (snd ws)) (s_gr (snd ws))) (s_fs (snd ws))).
    { rewrite (layer_two _ _ H). pose proof H as (-> & _ & -> & Hl & Hr). rewrite (between_part v0 v1 _ _ _ Hl).
      destruct Hr as [(E & _)|Hr]; [|rewrite (between_part v0 v1 _ _ _ Hr); reflexivity].
      unfold two. rewrite E. apply evolve_left. }
    rewrite X. apply layer_with. exact H.
Qed.
End Layer.

(** ** All layers of a process *)
Lemma flat_layers : forall P gs gs1, layerwise P gs gs1 -> Forall2 (fun a b => fst b = fst a /\ P (fst a) (snd a) (snd b)) (layersIn gs) (layersIn gs1).
Proof.
  intros P gs gs1 H. induction H as [|g g1 l l1 (Hw & Hs) Hl IH]; [constructor|]. unfold layersIn in *. cbn [flat_map]. apply Forall2_app; [|exact IH].
  rewrite Hw. clear - Hs. induction Hs as [|s s1 l l1 H Hl IH]; [constructor|]. cbn [map]. constructor; [split; [reflexivity|exact H]|exact IH].
Qed.
Definition keptPlace (a b : wrapper * sstate) : Prop := fst b = fst a /\ same_state (snd a) (snd b).
Lemma kept_dofs : forall l l1, Forall2 keptPlace l l1 -> flat_map dofsOf l1 = flat_map dofsOf l.
Proof.
  intros l l1 H. induction H as [|[w s] [w1 s1] l l1 (Hw & (E1 & E2 & _)) Hl IH]; [reflexivity|]. cbn [flat_map]. rewrite IH. f_equal.
  unfold dofsOf. cbn [snd] in *. rewrite E1, E2. reflexivity.
Qed.
Lemma forall2_in_l : forall (A B : Type) (P : A -> B -> Prop) l l' a, Forall2 P l l' -> In a l -> exists b, In b l' /\ P a b.
Proof. intros A B P l l' a H. induction H as [|x y l l' Hx Hl IH]; intros I; [destruct I|]. destruct I as [<-|I]; [exists y; split; [left; reflexivity|exact Hx]|]. destruct (IH I) as (b & I1 & I2). exists b. split; [right; exact I1|exact I2]. Qed.
Lemma forall2_in_r : forall (A B : Type) (P : A -> B -> Prop) l l' b, Forall2 P l l' -> In b l' -> exists a, In a l /\ P a b.
Proof. intros A B P l l' b H. induction H as [|x y l l' Hx Hl IH]; intros I; [destruct I|]. destruct I as [<-|I]; [exists x; split; [left; reflexivity|exact Hx]|]. destruct (IH I) as (a & I1 & I2). exists a. split; [right; exact I1|exact I2]. Qed.
Lemma shared_step : forall own l l' l1 l1' (P P' : wrapper * sstate -> wrapper * sstate -> Prop), layersShared own l l' -> Forall2 P l l1 -> Forall2 P' l' l1' ->
  (forall a b, P a b -> keptPlace a b) -> (forall a b, P' a b -> keptPlace a b) ->
  (forall ws ws' ws1 ws1', In ws l -> layerOf own ws ws' -> P ws ws1 -> P' ws' ws1' -> layerOf own ws1 ws1') -> layersShared own l1 l1'.
Proof.
  intros own l l' l1 l1' P P' (ND & H1 & H2) F F' K K' HP. split; [|split].
  - rewrite (kept_dofs l' l1'); [exact ND|]. clear - F' K'. induction F'; constructor; auto.
  - intros ws1' I1. destruct (forall2_in_r _ _ _ _ _ _ F' I1) as (ws' & I' & P1). destruct (H1 ws' I') as (ws & I & L). destruct (forall2_in_l _ _ _ _ _ _ F I) as (ws1 & J & P2).
    exists ws1. split; [exact J|]. exact (HP ws ws' ws1 ws1' I L P2 P1).
  - intros ws1 I1 T. destruct (forall2_in_r _ _ _ _ _ _ F I1) as (ws & I & P2). destruct (K _ _ P2) as (_ & E1 & E2 & _).
    destruct (H2 ws I) as (ws' & I' & L). { unfold touches in *. rewrite E1, E2. exact T. }
    destruct (forall2_in_l _ _ _ _ _ _ F' I') as (ws1' & J & P1). exists ws1'. split; [exact J|]. exact (HP ws ws' ws1 ws1' I L P2 P1).
Qed.
Lemma seen_kept : forall inv m base t x (a b : wrapper * sstate), fst b = fst a /\ seenLayer inv m base t x (fst a) (snd a) (snd b) -> keptPlace a b.
Proof.
  intros inv m base t x a b (E & A1 & A2). split; [exact E|].
  assert (D : (quiet m x (snd a) \/ t - base <= / 1000000000000) \/ (~ quiet m x (snd a) /\ / 1000000000000 < t - base)).
  { destruct (quiet_dec m x (snd a)); [tauto|]. destruct (Rle_dec (t - base) (/ 1000000000000)); [tauto|]. right. split; [assumption|lra]. }
  destruct D as [D|D]; [rewrite (A1 D)|rewrite (A2 D)]; repeat split.
Qed.
Lemma quiets_dec : forall m v l, (forall s : sstate, In s l -> quiet m v s) \/ ~ (forall s, In s l -> quiet m v s).
Proof.
  intros m v l. induction l as [|s l IH]; [left; intros s []|]. destruct (quiet_dec m v s) as [Q|Q]; [|right; intros H; apply Q, H; left; reflexivity].
  destruct IH as [IH|IH]; [left; intros s' [<-|I]; [exact Q|exact (IH s' I)]|right; intros H; apply IH; intros s' I; apply H; right; exact I].
Qed.
Lemma still_dec : forall m v gs, allQuiet m v gs \/ ~ allQuiet m v gs.
Proof. intros m v gs. rewrite allQuiet_flat. apply quiets_dec. Qed.
Lemma next_kept : forall inv m base dt v0 v1 gs (a b : wrapper * sstate), fst b = fst a /\ nextLayer inv m base dt v0 v1 (allQuiet m v1 gs) (fst a) (snd a) (snd b) -> keptPlace a b.
Proof.
  intros inv m base dt v0 v1 gs a b (E & A1 & A2). split; [exact E|].
  destruct (still_dec m v1 gs) as [D|D]; [rewrite (A1 D)|rewrite (A2 D)]; repeat split.
Qed.
Lemma in_layers : forall gs w s, In (w, s) (layersIn gs) <-> exists g, In g gs /\ g_w g = w /\ In s (g_states g).
Proof.
  intros gs w s. unfold layersIn. rewrite in_flat_map. split.
  - intros (g & I & J). apply in_map_iff in J. destruct J as (s0 & E & J). injection E as <- <-. exists g. auto.
  - intros (g & I & <- & J). exists g. split; [exact I|]. apply in_map. exact J.
Qed.
Lemma quiet_layers : forall m v gs, allQuiet m v gs <-> forall ws, In ws (layersIn gs) -> quiet m v (snd ws).
Proof.
  intros m v gs. split.
  - intros H [w s] I. apply in_layers in I. destruct I as (g & I & _ & J). exact (H g s I J).
  - intros H g s I J. apply (H (g_w g, s)). apply in_layers. exists g. auto.
Qed.

(** ** Sizes *)
Lemma ghosted_len : forall n gh two l r fs, length (ghosted n gh two l r fs) = length fs.
Proof. intros. unfold ghosted, zseq. rewrite !map_length, seq_length. reflexivity. Qed.
Lemma evolve_len : forall inv w base dt two l r fs, steady inv w -> length (evolve inv w base dt two l r fs) = length fs.
Proof.
  intros inv w base dt two l r fs H. unfold evolve. cbv zeta. generalize (zseq (Z.to_nat (parts (w_rec w) dt))). intros ks. revert fs.
  induction ks as [|k ks IH]; intros fs; cbn [fold_left]; [reflexivity|]. rewrite IH. destruct Rlt_dec; [apply ghosted_len|]. rewrite H. apply ghosted_len.
Qed.
Lemma good_layers : forall inv N gs gs1 (P : wrapper -> sstate -> sstate -> Prop), goodLayers inv N gs -> layerwise P gs gs1 ->
  (forall w s s1, P w s s1 -> steady inv w -> same_state s s1 /\ length (s_fs s1) = length (s_fs s)) -> goodLayers inv N gs1.
Proof.
  intros inv N gs gs1 P (H1 & H2 & H3) L HP. pose proof (flat_layers _ _ _ L) as F.
  assert (X : Forall2 (fun a b => fst b = fst a /\ same_state (snd a) (snd b) /\ length (s_fs (snd b)) = length (s_fs (snd a))) (layersIn gs) (layersIn gs1)).
  { assert (Y : forall ws, In ws (layersIn gs) -> steady inv (fst ws)) by (intros [w s] I; apply in_layers in I; destruct I as (g & I & <- & _); apply (H1 g I)).
    revert Y F. generalize (layersIn gs) (layersIn gs1). intros l l1 Y F. induction F as [|a b l l1 (E & Pab) F IH]; constructor.
    - split; [exact E|]. apply (HP _ _ _ Pab). apply Y. left. reflexivity.
    - apply IH. intros ws I. apply Y. right. exact I. }
  split; [|split].
  - intros g I. destruct (forall2_in_r _ _ _ _ _ _ L I) as (g0 & I0 & (-> & _)). exact (H1 g0 I0).
  - rewrite Forall_forall in *. intros [w1 s1] I. destruct (forall2_in_r _ _ _ _ _ _ X I) as ([w s] & I0 & (E & (E1 & E2 & _) & El)). cbn [fst snd] in *. subst w1.
    specialize (H2 _ I0). unfold Evol_Spec.fits in *. rewrite <- E1, <- E2, El. exact H2.
  - rewrite (kept_dofs (layersIn gs)); [exact H3|]. clear - X. induction X as [|a b l l1 (E & E1 & _) X IH]; constructor; [split; assumption|exact IH].
Qed.
Lemma seen_size : forall inv m base t x w s s1, seenLayer inv m base t x w s s1 -> steady inv w -> same_state s s1 /\ length (s_fs s1) = length (s_fs s).
Proof.
  intros inv m base t x w s s1 (A1 & A2) St.
  assert (D : (quiet m x s \/ t - base <= / 1000000000000) \/ (~ quiet m x s /\ / 1000000000000 < t - base)).
  { destruct (quiet_dec m x s); [tauto|]. destruct (Rle_dec (t - base) (/ 1000000000000)); [tauto|]. right. split; [assumption|lra]. }
  destruct D as [D|D]; [rewrite (A1 D)|rewrite (A2 D)]; (split; [repeat split|]); [reflexivity|]. cbn [with_fs s_fs]. apply evolve_len. exact St.
Qed.
Lemma next_size : forall inv m base dt v0 v1 gs w s s1, nextLayer inv m base dt v0 v1 (allQuiet m v1 gs) w s s1 -> steady inv w -> same_state s s1 /\ length (s_fs s1) = length (s_fs s).
Proof.
  intros inv m base dt v0 v1 gs w s s1 (A1 & A2) St.
  destruct (still_dec m v1 gs) as [D|D]; [rewrite (A1 D)|rewrite (A2 D)]; (split; [repeat split|]); [reflexivity|]. cbn [with_fs s_fs]. apply evolve_len. exact St.
Qed.
(** Layers of a process fit it. *)
Lemma fits_shared : forall N own l l', layersShared own l l' -> Forall (Evol_Spec.fits N) l -> Forall (Evol_Spec.fits (length own)) l'.
Proof.
  intros N own l l' (_ & H & _) F. rewrite Forall_forall in *. intros [w' s'] I. destruct (H _ I) as ([w s] & J & (E1 & E2 & E3 & E4 & E5)). cbn [fst snd] in *. subst w'.
  specialize (F _ J). destruct F as (_ & _ & F3 & F4 & F5). pose proof (same_range _ _ _ E4). repeat split; try assumption; try lia; [|rewrite E3; exact F5].
  destruct E5 as [(_ & E5)|E5]; [left; exact E5|right; apply (same_range _ _ _ E5)].
Qed.

(** ** What the elements see *)
Lemma seen_ext : forall b rot u u' l c, (0 <= c < 6)%Z -> (forall c, (0 <= c < 6)%Z -> u c = u' c) -> Evol_Spec.seen b rot u l c = Evol_Spec.seen b rot u' l c.
Proof. intros b rot u u' l c Hc H. unfold Evol_Spec.seen. destruct b; rewrite ?(H c Hc); reflexivity. Qed.
Lemma dofs_in : forall d ws, In d (dofsOf ws) <-> d = s_gl (snd ws) \/ (s_gr (snd ws) <> (-1)%Z /\ d = s_gr (snd ws)).
Proof.
  intros d ws. unfold dofsOf. destruct (Z.eqb_spec (s_gr (snd ws)) (-1)) as [E|E]; cbn [In]; split.
  - intros [<-|[]]. left. reflexivity.
  - intros [->|(H & _)]; [left; reflexivity|contradiction].
  - intros [<-|[<-|[]]]; [left; reflexivity|right; split; [exact E|reflexivity]].
  - intros [->|(_ & ->)]; [left; reflexivity|right; left; reflexivity].
Qed.
Section Vectors.
Variable N g : nat.
Variable own : list nat.
Hypothesis Bo : forall d, In d own -> (d < N)%nat.
Hypothesis NDo : NoDup own.
Variables l l' : list (wrapper * sstate).
Hypothesis Sh : layersShared own l l'.
Notation nn := (length own).
(** A dof of the process is used by a layer of the process exactly if the mesh has such a layer. *)
Lemma used_there : forall j ws, (j < nn)%nat -> In ws l -> In (Z.of_nat (nth j own 0%nat)) (dofsOf ws) -> exists ws', In ws' l' /\ layerOf own ws ws' /\ In (Z.of_nat j) (dofsOf ws').
Proof.
  intros j ws Hj I D. destruct Sh as (_ & _ & H2).
  assert (U : forall d k, sameDof own d k -> d = Z.of_nat (nth j own 0%nat) -> k = Z.of_nat j).
  { intros d k (i & Hi & -> & ->) E. apply Nat2Z.inj in E. f_equal. apply (proj1 (NoDup_nth own 0%nat) NDo); assumption. }
  apply dofs_in in D. destruct D as [D|(Nn & D)].
  - destruct (H2 ws I) as (ws' & I' & L); [left; exists (nth j own 0%nat); split; [apply nth_In; exact Hj|congruence]|]. exists ws'. split; [exact I'|]. split; [exact L|].
    apply dofs_in. left. symmetry. apply (U (s_gl (snd ws))); [apply L|congruence].
  - destruct (H2 ws I) as (ws' & I' & L); [right; exists (nth j own 0%nat); split; [apply nth_In; exact Hj|congruence]|]. exists ws'. split; [exact I'|]. split; [exact L|].
    pose proof L as (_ & _ & _ & _ & [(E & _)|E]); [contradiction|]. apply dofs_in. right. split; [apply (same_neg _ _ _ E)|]. symmetry. apply (U (s_gr (snd ws))); [exact E|congruence].
Qed.
Lemma place_one : forall j d k, (j < nn)%nat -> sameDof own d k -> Z.of_nat j = k -> d = Z.of_nat (nth j own 0%nat).
Proof. intros j d k Hj (i & Hi & -> & ->) E. apply Nat2Z.inj in E. subst. reflexivity. Qed.
Lemma layer_two_neg : forall ws ws', layerOf own ws ws' -> (s_gr (snd ws) <> -1 <-> s_gr (snd ws') <> -1)%Z.
Proof. intros ws ws' (_ & _ & _ & _ & [(-> & ->)|E]); [tauto|]. destruct (same_neg _ _ _ E). tauto. Qed.
Lemma vector_one : forall x W W' c j, seenBy1 N 0 x l W -> seenBy1 nn g (part N own x) l' W' -> (c < 6)%nat -> (j < nn)%nat ->
  nth (c * (nn + g) + j) W' 0 = nth (c * N + nth j own 0%nat) W 0.
Proof.
  intros x W W' c j (LW & V1 & V2) (LW' & V1' & V2') Hc Hj. rewrite Nat.add_0_r in *. rewrite <- !nthZ_nat.
  destruct (in_dec Z.eq_dec (Z.of_nat j) (flat_map dofsOf l')) as [I|I].
  - apply in_flat_map in I. destruct I as ([w' s'] & I' & D). destruct Sh as (_ & H1 & _). destruct (H1 _ I') as ([w s] & I & L).
    pose proof (layer_two_neg _ _ L) as T2. pose proof L as (E1 & E2 & E3 & E4 & E5). cbn [fst snd] in *. subst w'.
    destruct (V1 w s (Z.of_nat c) I ltac:(lia)) as (A1 & A2). destruct (V1' w s' (Z.of_nat c) I' ltac:(lia)) as (B1 & B2).
    apply dofs_in in D. cbn [snd] in D. destruct D as [D|(Nn & D)].
    + rewrite <- (place_one j _ _ Hj E4 D). rewrite D, A1, B1. apply (dof_part N own x _ _ (Z.of_nat c) E4). lia.
    + destruct E5 as [(_ & E5)|E5]; [contradiction|]. rewrite <- (place_one j _ _ Hj E5 D). rewrite D, (A2 ltac:(tauto)), (B2 Nn), E2, E3. apply seen_ext; [lia|].
      intros c0 Hc0. apply (dof_part N own x _ _ c0 E4 Hc0).
  - rewrite V2'; [|lia|lia|].
    + symmetry. apply V2; [lia|pose proof (Bo _ (nth_In own 0%nat Hj)); lia|].
      intros w s J. split; intros E; apply I, in_flat_map.
      * destruct (used_there j (w, s) Hj J) as (ws' & I' & _ & D); [apply dofs_in; left; exact E|]. exists ws'. split; assumption.
      * destruct (used_there j (w, s) Hj J) as (ws' & I' & _ & D); [apply dofs_in; right; split; [cbn [snd]; lia|exact E]|]. exists ws'. split; assumption.
    + intros w s J. split; intros E; apply I, in_flat_map; exists (w, s); (split; [exact J|]); apply dofs_in; [left; exact E|right; split; [cbn [snd]; lia|exact E]].
Qed.
Lemma vector_two : forall x W W' c j, seenBy2 N 0 x l W -> seenBy2 nn g (part N own x) l' W' -> (c < 6)%nat -> (j < nn)%nat ->
  nth (c * (nn + g) + j) W' 0 = nth (c * N + nth j own 0%nat) W 0.
Proof.
  intros x W W' c j (LW & V1 & V2) (LW' & V1' & V2') Hc Hj. rewrite Nat.add_0_r in *. rewrite <- !nthZ_nat.
  set (both := fun ws : wrapper * sstate => negb (s_gr (snd ws) =? -1)%Z).
  assert (HB : forall ws, both ws = true <-> s_gr (snd ws) <> (-1)%Z) by (intros ws; unfold both; destruct (Z.eqb_spec (s_gr (snd ws)) (-1)); cbn [negb]; split; congruence).
  destruct (in_dec Z.eq_dec (Z.of_nat j) (flat_map dofsOf (filter both l'))) as [I|I].
  - apply in_flat_map in I. destruct I as ([w' s'] & I' & D). apply filter_In in I'. destruct I' as (I' & Tw). apply HB in Tw. destruct Sh as (_ & H1 & _). destruct (H1 _ I') as ([w s] & I & L).
    pose proof (layer_two_neg _ _ L) as T2. pose proof L as (E1 & E2 & E3 & E4 & E5). cbn [fst snd] in *. subst w'.
    destruct (V1 w s (Z.of_nat c) I ltac:(lia) ltac:(tauto)) as (A1 & A2). destruct (V1' w s' (Z.of_nat c) I' ltac:(lia) Tw) as (B1 & B2).
    destruct E5 as [(_ & E5)|E5]; [contradiction|].
    apply dofs_in in D. cbn [snd] in D. destruct D as [D|(Nn & D)].
    + rewrite <- (place_one j _ _ Hj E4 D). rewrite D, A2, B2, E2, E3. apply seen_ext; [lia|]. intros c0 Hc0. apply (dof_part N own x _ _ c0 E5 Hc0).
    + rewrite <- (place_one j _ _ Hj E5 D). rewrite D, A1, B1. apply (dof_part N own x _ _ (Z.of_nat c) E5). lia.
  - rewrite V2'; [|lia|lia|].
    + symmetry. apply V2; [lia|pose proof (Bo _ (nth_In own 0%nat Hj)); lia|].
      intros w s J Tw. split; intros E; apply I, in_flat_map.
      * destruct (used_there j (w, s) Hj J) as (ws' & I' & L & D); [apply dofs_in; left; exact E|]. exists ws'. split; [|exact D]. apply filter_In. split; [exact I'|]. apply HB. apply (layer_two_neg _ _ L). exact Tw.
      * destruct (used_there j (w, s) Hj J) as (ws' & I' & L & D); [apply dofs_in; right; split; [exact Tw|exact E]|]. exists ws'. split; [|exact D]. apply filter_In. split; [exact I'|]. apply HB. apply (layer_two_neg _ _ L). exact Tw.
    + intros w s J Tw. split; intros E; apply I, in_flat_map; exists (w, s); (split; [apply filter_In; split; [exact J|apply HB; exact Tw]|]); apply dofs_in; [left; exact E|right; split; [exact Tw|exact E]].
Qed.
End Vectors.

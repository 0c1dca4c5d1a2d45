(** Examples of attached layers and what goes wrong. *)
From Coq Require Import ZArith List Bool Reals Lra Lia ZifyBool Sorting.Sorted Sorting.Permutation.
From Verif Require Import Common Evol_Model Evol_Spec EvolLayer_Spec Setup_Model Setup_Spec Geo_Model Geo_Spec Geo_Proofs GeoWall_Proofs Input_Model Input_Proofs InputWall_Proofs Wall_Model Wall_Spec WallBuild_Proofs WallEx_Proofs Conn_Model Conn_Proofs Sub_Model Sub_Spec Sub_Proofs SubGeo_Proofs SubEx_Proofs Attach_Model Attach_Spec Attach_Proofs AttachSite_Proofs AttachAll_Proofs AttachTotal_Proofs.
Import ListNotations.
Open Scope Z_scope.

(** Three squares in a row, first order; the faces of the middle one are marked, and the bottom of the first. *)
Definition exDofs : list (list Z) := [[0; 1; 2; 3]; [4; 5; 6; 7]; [8; 9; 10; 11]].
Definition exPairs (be : Z) : res (list (Z * Z)) := if be =? 0 then Ok [(1, 4); (3, 6)] else if be =? 1 then Ok [(5, 8); (7, 10)] else UB.
Definition exNodes (be : Z) : res (list Z) := if be =? 2 then Ok [0; 1] else UB.
Definition exRef (e : Z) : list point := [(0, 0, 0); (1, 0, 0); (0, 1, 0); (1, 1, 0)]%R.
Definition exQuad (be : Z) : list (point * list R) :=
  if be =? 2 then [((/ 4, 0, 0), [0; -1]); ((3 / 4, 0, 0), [0; -1])]%R else [((1, / 4, 0), [1; 0]); ((1, 3 / 4, 0), [1; 0])]%R.
Lemma ex_table : tableOk exDofs 12.
Proof. split; [repeat constructor; cbn; lia|]. cbn. repeat (constructor; [lia|]). constructor. Qed.
Lemma small : forall x, (x <= 10 -> x < 10 ^ 30)%R.
Proof. intros x H. assert (10 ^ 1 < 10 ^ 30)%R by (apply Rlt_pow; [lra|lia]). rewrite pow_1 in H0. lra. Qed.
Lemma ex_points : forall be e, In e [0; 1; 2] -> pointsOk strip exDofs exRef exQuad be e.
Proof.
  intros be e I. split.
  - destruct I as [<-|[<-|[<-|[]]]]; eexists; split; reflexivity.
  - unfold exQuad, exRef. destruct (be =? 2); (split; [discriminate|]); split.
    + intros y n J. destruct J as [J|[J|[]]]; injection J as <- <-; (split; [left; split; reflexivity|]); unfold dotp, vec; cbn [nth]; lra.
    + intros x y n X J. apply small. destruct J as [J|[J|[]]]; injection J as <- <-; destruct X as [<-|[<-|[<-|[<-|[]]]]]; unfold distSq, pdot, psub; lra.
    + intros y n J. destruct J as [J|[J|[]]]; injection J as <- <-; (split; [left; split; reflexivity|]); unfold dotp, vec; cbn [nth]; lra.
    + intros x y n X J. apply small. destruct J as [J|[J|[]]]; injection J as <- <-; destruct X as [<-|[<-|[<-|[<-|[]]]]]; unfold distSq, pdot, psub; lra.
Qed.
Lemma strip_bdr : forall be b, zget (m_bdr strip) be = Ok b -> (be = 0 /\ b = mkBdr 1 [1; 5] 1) \/ (be = 1 /\ b = mkBdr 1 [6; 2] 5) \/ (be = 2 /\ b = mkBdr 2 [0; 1] 0).
Proof.
  intros be b H. pose proof (zget_len _ _ _ H) as L. cbn in L. assert (D : be = 0 \/ be = 1 \/ be = 2) by lia.
  destruct D as [->|[->| ->]]; cbn in H; injection H as <-; auto.
Qed.
Lemma strip_orient : forall be, In be [0; 1] -> exists o, faceOrientation strip be = Ok o /\ (0 < o)%R.
Proof.
  intros be I. destruct (orientation_ok strip be) as (o & E); [apply strip_wf|apply strip_wf|left; reflexivity|destruct I as [<-|[<-|[]]]; eexists; reflexivity|].
  exists o. split; [exact E|]. apply (ccw_orientation strip be eq_refl); [|exact E]. apply strip_ccw. exact I.
Qed.
Ltac hold := unfold holds; eexists; split; [reflexivity|cbn; auto 20].
Lemma ex_sites : sitesOk strip [1; 0] [0; 1] exDofs exPairs exNodes exRef exQuad.
Proof.
  split; [left; reflexivity|]. split; [right; apply strip_wf|]. split; [right; apply strip_wf|]. intros be b Eb. destruct (strip_bdr be b Eb) as [[-> ->]|[[-> ->]|[-> ->]]]; cbn [b_attr]; split; intros H; try discriminate H.
  - destruct (strip_orient 0) as (o & Eo & _); [left; reflexivity|]. exists 1, 0, 1, [(1, 4); (3, 6)], o. split; [eexists; split; [reflexivity|split; reflexivity]|]. split; [lia|]. split; [reflexivity|]. split; [exact Eo|].
    split; [|apply ex_points; left; reflexivity]. apply Forall_cons; [split; hold|]. apply Forall_cons; [split; hold|apply Forall_nil].
  - destruct (strip_orient 1) as (o & Eo & _); [right; left; reflexivity|]. exists 5, 1, 2, [(5, 8); (7, 10)], o. split; [eexists; split; [reflexivity|split; reflexivity]|]. split; [lia|]. split; [reflexivity|]. split; [exact Eo|].
    split; [|apply ex_points; right; left; reflexivity]. apply Forall_cons; [split; hold|]. apply Forall_cons; [split; hold|apply Forall_nil].
  - exists 0, 0, (-1), [0; 1]. split; [eexists; split; [reflexivity|split; reflexivity]|]. split; [reflexivity|]. split; [|apply ex_points; left; reflexivity].
    apply Forall_cons; [hold|]. apply Forall_cons; [hold|apply Forall_nil].
Qed.
Lemma ex_contrib : forall be ps, contributed strip [1; 0] [0; 1] exPairs exNodes be ps ->
  (be = 0 -> ps = [(1, 4); (3, 6)]) /\ (be = 1 -> ps = [(5, 8); (7, 10)]) /\ (be = 2 -> ps = [(0, -1); (1, -1)]).
Proof.
  intros be ps (b & p & q & Eb & I & O & ->). destruct (strip_bdr be b Eb) as [[-> ->]|[[-> ->]|[-> ->]]]; cbn [b_attr] in I, O; (split; [|split]); intros X; try discriminate X.
  - destruct (proj1 I eq_refl) as (qs & o & Eq & Eo & Tu). injection Eq as <-. rewrite (proj2 O) by (intros H; discriminate H). rewrite app_nil_r. apply Tu.
    destruct (strip_orient 0) as (o' & Eo' & P); [left; reflexivity|]. rewrite Eo in Eo'. injection Eo' as <-. lra.
  - destruct (proj1 I eq_refl) as (qs & o & Eq & Eo & Tu). injection Eq as <-. rewrite (proj2 O) by (intros H; discriminate H). rewrite app_nil_r. apply Tu.
    destruct (strip_orient 1) as (o' & Eo' & P); [right; left; reflexivity|]. rewrite Eo in Eo'. injection Eo' as <-. lra.
  - destruct (proj1 O eq_refl) as (ns & En & ->). injection En as <-. rewrite (proj2 I) by (intros H; discriminate H). reflexivity.
Qed.
Definition exA : sprops := mkSP [1] [exClear] None None.
Definition exB : sprops := mkSP [2] [exClear; exClear] None None.
Lemma ex_layers : Forall (fun p => sp_layers p <> [] /\ Forall layerOk (sp_layers p)) [exA; exB].
Proof.
  apply Forall_cons; [split; [discriminate|exact (Forall_cons _ ex_clear (Forall_nil _))]|]. apply Forall_cons; [|apply Forall_nil].
  split; [discriminate|exact (Forall_cons _ ex_clear (Forall_cons _ ex_clear (Forall_nil _)))].
Qed.
Lemma ex_buildable : forall p, sp_layers p <> [] -> Forall layerOk (sp_layers p) -> sp_left p = None -> sp_right p = None -> buildable p.
Proof.
  intros p N F A B k. destruct (build_ok k p N F) as (w & E); [rewrite A; exact I|rewrite B; exact I|]. exists w. eexists. exact E.
Qed.
Definition exAttach (sb : list sprops) := attach strip 1 [1; 0] [0; 1] exDofs 12 exPairs exNodes exRef exQuad sb false.
Lemma ex_total : exists ats l1 l2, exAttach [exA; exB] = Ok (ats, l1, l2).
Proof.
  apply attach_total; [exact ex_table|exact ex_sites|]. assert (L := ex_layers). inversion L as [|? ? [N1 F1] L']; subst. inversion L' as [|? ? [N2 F2] _]; subst.
  apply Forall_cons; [apply ex_buildable; auto|]. apply Forall_cons; [apply ex_buildable; auto|apply Forall_nil].
Qed.
(** A tag of the example, listed once. *)
Lemma ex_states : forall sb ats l1 l2, exAttach sb = Ok (ats, l1, l2) -> named sb 1 = 1%nat -> exists g, In g ats /\ at_tag g = 1 /\
  map (fun s => (s_gl (as_state s), s_gr (as_state s))) (at_states g) = [(1, 4); (3, 6); (5, 8); (7, 10)] /\
  map as_e1 (at_states g) = [0; 0; 1; 1] /\ map as_e2 (at_states g) = [1; 1; 2; 2].
Proof.
  intros sb ats l1 l2 E N. assert (Tg := tags_spec strip 1 [1; 0] [0; 1] exDofs 12 exPairs exNodes exRef exQuad ex_table ex_sites sb false ats l1 l2 E). destruct Tg as [_ Tg].
  assert (W1 : withTag strip 1 = [0; 1]) by reflexivity.
  assert (C : exists ps, contributed strip [1; 0] [0; 1] exPairs exNodes 0 ps /\ ps <> []).
  { destruct (raw_all strip 1 [1; 0] [0; 1] exDofs 12 exPairs exNodes exRef exQuad ex_table ex_sites) as (_ & F & _ & _ & HF & _). destruct (HF 0) as [C _]; [cbn; lia|]. exists (map fst (F 0)). split; [exact C|].
    rewrite (proj1 (ex_contrib _ _ C) eq_refl). discriminate. }
  assert (I : In 1 (map at_tag ats)). { apply Tg. split; [rewrite N; lia|]. destruct C as (ps & C & Np). exists 0, ps. rewrite W1. split; [left; reflexivity|]. split; assumption. }
  apply in_map_iff in I as (g & Et & Ig). exists g. split; [exact Ig|]. split; [exact Et|].
  destruct (states_once strip 1 [1; 0] [0; 1] exDofs 12 exPairs exNodes exRef exQuad ex_table ex_sites sb false ats l1 l2 E g Ig) as (p & _ & _ & _ & (P & HP & M) & _); [rewrite Et; exact N|].
  rewrite Et, W1 in M, HP. cbn [flat_map] in M. rewrite (proj1 (ex_contrib _ _ (HP 0 (or_introl eq_refl))) eq_refl) in M. rewrite (proj1 (proj2 (ex_contrib _ _ (HP 1 (or_intror (or_introl eq_refl))))) eq_refl) in M. cbn [app] in M.
  split; [exact M|].
  assert (H : Forall (fun s => holds exDofs (as_e1 s) (s_gl (as_state s)) /\ (s_gr (as_state s) <> -1 -> holds exDofs (as_e2 s) (s_gr (as_state s)))) (at_states g)).
  { apply Forall_forall. intros s Is. destruct (states_sit strip 1 [1; 0] [0; 1] exDofs 12 exPairs exNodes exRef exQuad ex_table ex_sites sb false ats l1 l2 E g s Ig Is) as (be & _ & St & _).
    destruct St as [f e1 e2 x n B Q A1 A2 H1 H2 _ _ _|f e1 e2 x n B Q A1 A2 H1 H2 _ _ _|f e1 e2 x n B A1 A2 Gr H1 _ _ _]; subst; (split; [exact H1|]); [intros _; exact H2|intros _; exact H2|intros X; contradiction]. }
  assert (El : forall e d e', holds exDofs e d -> holds exDofs e' d -> e = e') by (intros e d e' A B; exact (holds_fun _ _ _ _ _ ex_table A B)).
  destruct (at_states g) as [|s1 [|s2 [|s3 [|s4 [|]]]]]; cbn [map] in M; try discriminate M. injection M as G1 R1 G2 R2 G3 R3 G4 R4.
  inversion H as [|? ? [A1 B1] H']; subst. inversion H' as [|? ? [A2 B2] H'']; subst. inversion H'' as [|? ? [A3 B3] H3']; subst. inversion H3' as [|? ? [A4 B4] _]; subst.
  rewrite G1 in A1. rewrite G2 in A2. rewrite G3 in A3. rewrite G4 in A4. rewrite R1 in B1. rewrite R2 in B2. rewrite R3 in B3. rewrite R4 in B4.
  cbn [map]. split.
  - rewrite (El _ _ 0 A1) by hold. rewrite (El _ _ 0 A2) by hold. rewrite (El _ _ 1 A3) by hold. rewrite (El _ _ 1 A4) by hold. reflexivity.
  - rewrite (El _ _ 1 (B1 ltac:(discriminate))) by hold. rewrite (El _ _ 1 (B2 ltac:(discriminate))) by hold. rewrite (El _ _ 2 (B3 ltac:(discriminate))) by hold. rewrite (El _ _ 2 (B4 ltac:(discriminate))) by hold. reflexivity.
Qed.

(** The first layer of a wall around an element lies outside it on one side and inside it on the other. *)
Lemma side_refuted : exists m order mkI mkB dofs ndofs fp fn nodes quad sb inside ats l1 l2 g s s',
  wfMesh m /\ tableOk dofs ndofs /\ sitesOk m mkI mkB dofs fp fn nodes quad /\ (forall be, In be (marked m mkI) -> ccwFace m be) /\ separates m mkI inside /\
  attach m order mkI mkB dofs ndofs fp fn nodes quad sb false = Ok (ats, l1, l2) /\ In g ats /\ In s (at_states g) /\ In s' (at_states g) /\
  named sb (at_tag g) = 1%nat /\ ~ In (as_e1 s) inside /\ In (as_e2 s) inside /\ In (as_e1 s') inside /\ ~ In (as_e2 s') inside.
Proof.
  destruct ex_total as (ats & l1 & l2 & E). destruct (ex_states _ _ _ _ E eq_refl) as (g & Ig & Et & _ & M1 & M2).
  destruct (at_states g) as [|s1 [|s2 [|s3 [|s4 [|]]]]] eqn:Es; cbn [map] in M1, M2; try discriminate M1. injection M1 as A1 A2 A3 A4. injection M2 as B1 B2 B3 B4.
  exists strip, 1, [1; 0], [0; 1], exDofs, 12%nat, exPairs, exNodes, exRef, exQuad, [exA; exB], [1], ats, l1, l2, g, s1, s3.
  split; [apply strip_wf|]. split; [exact ex_table|]. split; [exact ex_sites|]. split; [exact strip_ccw|]. split; [exact strip_separates|]. split; [exact E|]. split; [exact Ig|].
  rewrite Es. split; [left; reflexivity|]. split; [right; right; left; reflexivity|]. split; [rewrite Et; reflexivity|]. rewrite A1, A3, B1, B3.
  split; [intros [X|[]]; discriminate X|]. split; [left; reflexivity|]. split; [left; reflexivity|]. intros [X|[]]; discriminate X.
Qed.
(** On such plane meshes no pair is ever turned. *)
Lemma plane_unturned : forall m mkI mkB fp fn be ps b, m_dim m = 2 -> ccwFace m be -> contributed m mkI mkB fp fn be ps -> zget (m_bdr m) be = Ok b -> ~ setIn mkB (b_attr b) ->
  setIn mkI (b_attr b) -> fp be = Ok ps.
Proof.
  intros m mkI mkB fp fn be ps b D Cc (b' & p & q & Eb & I & O & ->) Eb' NB SI. rewrite Eb in Eb'. injection Eb' as <-. rewrite (proj2 O NB), app_nil_r.
  destruct (proj1 I SI) as (qs & o & Eq & Eo & Tu). rewrite Eq. f_equal. symmetry. apply Tu. assert (0 < o)%R by (exact (ccw_orientation m be D Cc o Eo)). lra.
Qed.

(** A tag named by two walls: the states of both, sized each for its own, with the wall of the second. *)
Definition exA2 : sprops := mkSP [1] [exClear; exClear] None None.
Lemma twice_refuted : exists m order mkI mkB dofs ndofs fp fn nodes quad sb ats l1 l2 g s s',
  tableOk dofs ndofs /\ sitesOk m mkI mkB dofs fp fn nodes quad /\ Forall (fun p => sp_layers p <> [] /\ Forall layerOk (sp_layers p)) sb /\
  attach m order mkI mkB dofs ndofs fp fn nodes quad sb false = Ok (ats, l1, l2) /\ In g ats /\ In s (at_states g) /\ In s' (at_states g) /\ s <> s' /\
  s_gl (as_state s) = s_gl (as_state s') /\ s_gr (as_state s) = s_gr (as_state s') /\ (List.length (s_fs (as_state s)) < stateSize (at_wall g))%nat.
Proof.
  assert (Lk : Forall (fun p => sp_layers p <> [] /\ Forall layerOk (sp_layers p)) [exA; exA2]).
  { apply Forall_cons; [split; [discriminate|exact (Forall_cons _ ex_clear (Forall_nil _))]|]. apply Forall_cons; [|apply Forall_nil]. split; [discriminate|exact (Forall_cons _ ex_clear (Forall_cons _ ex_clear (Forall_nil _)))]. }
  assert (X : exists ats l1 l2, exAttach [exA; exA2] = Ok (ats, l1, l2)).
  { apply attach_total; [exact ex_table|exact ex_sites|]. inversion Lk as [|? ? [N1 F1] L']; subst. inversion L' as [|? ? [N2 F2] _]; subst.
    apply Forall_cons; [apply ex_buildable; auto|]. apply Forall_cons; [apply ex_buildable; auto|apply Forall_nil]. }
  destruct X as (ats & l1 & l2 & E).
  destruct (tags_spec strip 1 [1; 0] [0; 1] exDofs 12 exPairs exNodes exRef exQuad ex_table ex_sites [exA; exA2] false ats l1 l2 E) as [_ Tg].
  assert (I : In 1 (map at_tag ats)).
  { apply Tg. split; [cbn; lia|]. destruct (raw_all strip 1 [1; 0] [0; 1] exDofs 12 exPairs exNodes exRef exQuad ex_table ex_sites) as (_ & F & _ & _ & HF & _). destruct (HF 0) as [C _]; [cbn; lia|].
    exists 0, (map fst (F 0)). split; [left; reflexivity|]. split; [exact C|]. rewrite (proj1 (ex_contrib _ _ C) eq_refl). discriminate. }
  apply in_map_iff in I as (g & Et & Ig).
  destruct (group_inv strip 1 [1; 0] [0; 1] exDofs 12 exPairs exNodes exRef exQuad ex_table ex_sites [exA; exA2] false ats l1 l2 E g Ig) as (rs & F & d2e & Ers & HF & Ed & ws & sss & Hw & Hs & Es & ws' & Ew).
  rewrite Et in Hw, Ers. change (listing [exA; exA2] 1) with [exA; exA2] in Hw. change (withTag strip 1) with [0; 1] in Ers.
  assert (GA := good_all strip [1; 0] [0; 1] exDofs 12 exPairs exNodes exRef exQuad F 1 HF). change (withTag strip 1) with [0; 1] in GA at 2. rewrite <- Ers in GA.
  destruct rs as [|r rs].
  { destruct (HF 0) as [C _]; [cbn; lia|]. assert (Q := proj1 (ex_contrib _ _ C) eq_refl). cbn [flat_map] in Ers. destruct (F 0); [discriminate Q|discriminate Ers]. }
  inversion GA as [|? ? (be & _ & Gr) GA']; subst rs. 
  rewrite Ew in Hw, Hs. assert (Lw := F2_length _ _ _ Hw). rewrite app_length in Lw. cbn [List.length] in Lw. destruct ws' as [|wa [|]]; cbn [List.length] in Lw; try lia. cbn [app] in Hw, Hs.
  inversion Hw as [|? ? ? ? Wa Hw']; subst. inversion Hw' as [|? ? ? ? Wb Hw'']; subst.
  inversion Hs as [|? ssa ? ? Ha Hs']; subst. inversion Hs' as [|? ssb ? ? Hb Hs'']; subst. inversion Hs''; subst. apply mapM_F2 in Ha. apply mapM_F2 in Hb.
  inversion Ha as [|? sa ? ta Ea Ha']; subst. inversion Hb as [|? s_b ? tb Eb Hb']; subst.
  destruct (Gr d2e (stateSize wa) Ed) as (s1 & E1 & _ & _ & P1 & Z1). rewrite Ea in E1. injection E1 as <-.
  destruct (Gr d2e (stateSize (at_wall g)) Ed) as (s2 & E2 & _ & _ & P2 & Z2). rewrite Eb in E2. injection E2 as <-.
  assert (Fa : Forall layerOk (sp_layers exA)) by exact (Forall_cons _ ex_clear (Forall_nil _)).
  assert (Fb : Forall layerOk (sp_layers exA2)) by exact (Forall_cons _ ex_clear (Forall_cons _ ex_clear (Forall_nil _))).
  assert (Sa := proj1 (field_size _ _ Wa Fa)). assert (Sb := proj1 (field_size _ _ Wb Fb)).
  match type of Sa with _ = ?x => let v := eval vm_compute in x in change x with v in Sa end.
  match type of Sb with _ = ?x => let v := eval vm_compute in x in change x with v in Sb end.
  exists strip, 1, [1; 0], [0; 1], exDofs, 12%nat, exPairs, exNodes, exRef, exQuad, [exA; exA2], ats, l1, l2, g, sa, s_b.
  split; [exact ex_table|]. split; [exact ex_sites|]. split; [exact Lk|]. split; [exact E|]. split; [exact Ig|]. rewrite Es. cbn [concat app].
  split; [left; reflexivity|]. split; [right; apply in_or_app; right; left; reflexivity|].
  assert (Lt : (List.length (s_fs (as_state sa)) < List.length (s_fs (as_state s_b)))%nat).
  { rewrite Z1, Z2. unfold zeros. rewrite !repeat_length. unfold stateSize. rewrite Sa, Sb. lia. }
  split; [intros Q; rewrite Q in Lt; lia|]. rewrite <- P2 in P1. injection P1 as P1 P1'. split; [exact P1|]. split; [exact P1'|]. rewrite Z2 in Lt. unfold zeros at 1 in Lt. rewrite repeat_length in Lt. exact Lt.
Qed.

(** In one dimension with a single element, the layer at its right end is attached to its left end. *)
Definition seg1 (bs : list bdrEl) : mesh := mkMesh 1 [(0, 0, 0); (1, 0, 0)]%R [[0; 1]] [[0; 1]] [[0]; [1]] [(0, -1); (0, -1)] bs.
Lemma line_refuted : exists m order mkB dofs ndofs fn sb ats l1 l2 g s be, wfMesh m /\ m_dim m = 1 /\ tableOk dofs ndofs /\
  fn be = Ok [1] /\ withTag m (at_tag g) = [be] /\ attach m order [] mkB dofs ndofs (fun _ => UB) fn (fun _ => []) (fun _ => []) sb false = Ok (ats, l1, l2) /\
  In g ats /\ at_states g = [s] /\ s_gl (as_state s) = 0.
Proof.
  assert (B : buildable exA) by (apply ex_buildable; [discriminate|exact (Forall_cons _ ex_clear (Forall_nil _))|reflexivity|reflexivity]).
  destruct (B false) as (w & msg & Ew).
  set (s := mkAS (mkS 0 (-1) idRot (zeros (stateSize w))) 0 (-1)).
  exists (seg1 [mkBdr 1 [1] 1]), 1, [1], [[0; 1]], 2%nat, (fun _ => Ok [1]), [exA], [mkAt 1 w [s]], [0; 1], [], (mkAt 1 w [s]), s, 0.
  split; [apply wfB_ok; vm_compute; reflexivity|]. split; [reflexivity|]. split; [split; [repeat constructor; cbn; lia|cbn; repeat (constructor; [lia|]); constructor]|].
  split; [reflexivity|]. split; [reflexivity|]. split; [|split; [left; reflexivity|split; reflexivity]].
  unfold attach. change (rawPairs _ _ _ _ _ _ _ _ _) with (@Ok (list (Z * list raw)) [(1, [((0, -1), idRot)])]). cbn [bind]. change (dofToElem [[0; 1]] 2) with (@Ok (list Z) [0; 0]). cbn [bind].
  unfold attachAll. cbn [foldM fst snd]. unfold attachTag. change (listing [exA] 1) with [exA]. cbn [foldM fst snd]. rewrite Ew. reflexivity.
Qed.

(** * One dimension *)
Lemma zget_zseq : forall n e, 0 <= e < Z.of_nat n -> zget (zseq n) e = Ok e.
Proof.
  intros n e H. apply zget_ok. split; [lia|]. unfold zseq. rewrite nth_error_map. rewrite (nth_error_nth' _ 0%nat) by (rewrite seq_length; lia). cbn [option_map]. rewrite seq_nth by lia. f_equal. lia.
Qed.
Lemma line_row : forall p n e, 0 <= p -> 0 <= e < Z.of_nat n -> zget (lineDofs p n) e = Ok (map (fun i => e * (p + 1) + i) (zseq (Z.to_nat (p + 1)))).
Proof.
  intros p n e Hp H. assert (Q := zget_zseq n e H). apply zget_ok in Q as [_ Q]. apply zget_ok. split; [lia|]. unfold lineDofs. rewrite nth_error_map, Q. reflexivity.
Qed.
Lemma line_last : forall p n e, 0 <= p -> 0 <= e < Z.of_nat n -> lastDof (lineDofs p n) e (e * (p + 1) + p).
Proof.
  intros p n e Hp H. unfold lastDof. rewrite (line_row p n e Hp H). replace (Z.to_nat (p + 1)) with (S (Z.to_nat p)) by lia. rewrite zseq_S, map_app. cbn [map].
  eexists. do 4 f_equal. lia.
Qed.
Lemma line_first : forall p n e, 0 <= p -> 0 <= e < Z.of_nat n -> firstDof (lineDofs p n) e (e * (p + 1)).
Proof.
  intros p n e Hp H. unfold firstDof. rewrite (line_row p n e Hp H). replace (Z.to_nat (p + 1)) with (S (Z.to_nat p)) by lia. unfold zseq. cbn [seq map]. eexists. do 2 f_equal. lia.
Qed.
Lemma line_inner : forall m p n fp nodes quad be e1, m_dim m = 1 -> 0 <= p -> 0 <= e1 -> e1 + 1 < Z.of_nat n ->
  exists a b, innerPairs m p (lineDofs p n) fp nodes quad be e1 = Ok [((a, b), idRot)] /\ lastDof (lineDofs p n) e1 a /\ firstDof (lineDofs p n) (e1 + 1) b.
Proof.
  intros m p n fp nodes quad be e1 D Hp H1 H2. eexists. eexists. unfold innerPairs. rewrite D. split; [reflexivity|]. split; [apply line_last; lia|].
  replace (e1 * (p + 1) + p + 1) with ((e1 + 1) * (p + 1)) by ring. apply line_first; lia.
Qed.
Lemma line_outer : forall m p n fn nodes quad be e1, m_dim m = 1 -> 0 <= p -> 0 <= e1 < Z.of_nat n ->
  exists a, outerPairs m p (lineDofs p n) fn nodes quad be e1 = Ok [((a, -1), idRot)] /\ (e1 = 0 -> firstDof (lineDofs p n) e1 a) /\ (e1 <> 0 -> lastDof (lineDofs p n) e1 a).
Proof.
  intros m p n fn nodes quad be e1 D Hp H. unfold outerPairs. rewrite D. cbn [Z.eqb Pos.eqb]. destruct (Z.eqb_spec e1 0) as [->|N].
  - exists 0. split; [reflexivity|]. split; [intros _; apply (line_first p n 0); lia|intros X; destruct (X eq_refl)].
  - eexists. split; [reflexivity|]. split; [intros X; contradiction|]. intros _. apply line_last; lia.
Qed.
(** A line numbered from its right end: the pair of its middle point are the two ends. *)
Definition back : mesh := mkMesh 1 [(0, 0, 0); (1, 0, 0); (2, 0, 0)]%R [[1; 2]; [0; 1]] [[0; 1]; [2; 0]] [[1]; [2]; [0]] [(0, 1); (0, -1); (1, -1)] [mkBdr 1 [1] 0].
Lemma order_refuted : exists m p dofs fp nodes quad be f e1 e2 a b v0 v1 v2, wfMesh m /\ m_dim m = 1 /\ dofs = lineDofs p 2 /\ beside m be f e1 e2 /\ zget (m_fverts m) f = Ok [v1] /\
  zget (m_everts m) e1 = Ok [v1; v2] /\ zget (m_everts m) e2 = Ok [v0; v1] /\ v1 <> v2 /\ v0 <> v1 /\
  innerPairs m p dofs fp nodes quad be e1 = Ok [((a, b), idRot)] /\ lastDof dofs e1 a /\ firstDof dofs e2 b.
Proof.
  exists back, 1, (lineDofs 1 2), (fun _ => UB), (fun _ => []), (fun _ => []), 0, 0, 0, 1, 1, 2, 0, 1, 2. split; [apply wfB_ok; vm_compute; reflexivity|]. split; [reflexivity|]. split; [reflexivity|].
  split; [eexists; split; [reflexivity|split; reflexivity]|]. do 3 (split; [reflexivity|]). split; [lia|]. split; [lia|]. split; [reflexivity|]. split; [exists [0]; reflexivity|exists [3]; reflexivity].
Qed.

(** Proofs about the pairs of the marked faces. *)
From Coq Require Import ZArith List Bool Reals Lra Lia ZifyBool Sorting.Sorted Sorting.Permutation.
From Verif Require Import Common Evol_Model Setup_Model Setup_Spec Geo_Model Geo_Spec Geo_Proofs Input_Model Input_Proofs InputWall_Proofs Wall_Model Conn_Model Conn_Proofs Sub_Model Sub_Spec Sub_Proofs SubGeo_Proofs Attach_Model Attach_Spec Attach_Proofs.
Import ListNotations.
Open Scope Z_scope.

(** * The element of a dof *)
Lemma nth_upd_c : forall (l : list Z) i j a, (i < List.length l)%nat -> nth_error (upd l i a) j = if Nat.eqb i j then Some a else nth_error l j.
Proof. intros l i j a H. destruct (Nat.eqb_spec i j) as [<-|N]; [apply nth_error_upd_same; exact H|apply nth_error_upd_other; exact N]. Qed.
Lemma fill_elem : forall (e : Z) ds (t : list Z), Forall (fun d => 0 <= d < Z.of_nat (List.length t)) ds ->
  exists t', foldM (fun t d => zset t d e) ds t = Ok t' /\ List.length t' = List.length t /\
    (forall d, In d ds -> zget t' d = Ok e) /\ (forall d, ~ In d ds -> zget t' d = zget t d).
Proof.
  intros e ds. induction ds as [|d r IH]; intros t F; cbn [foldM].
  - exists t. split; [reflexivity|]. split; [reflexivity|]. split; [intros d []|intros d _; reflexivity].
  - inversion F as [|? ? Hd Fr]; subst. rewrite (zset_spec t d e Hd). cbn [bind].
    destruct (IH (upd t (Z.to_nat d) e)) as (t' & E & L & Hin & Hout).
    { rewrite upd_length. exact Fr. }
    exists t'. split; [exact E|]. split; [rewrite L; apply upd_length|]. split.
    + intros d' [<-|I]; [|exact (Hin _ I)]. destruct (in_dec Z.eq_dec d r) as [I|N]; [exact (Hin _ I)|]. rewrite (Hout _ N).
      apply zget_ok. split; [lia|]. apply nth_error_upd_same. lia.
    + intros d' N. rewrite Hout by (intros I; apply N; right; exact I). assert (d <> d') by (intros ->; apply N; left; reflexivity).
      unfold zget. destruct (Z.ltb_spec d' 0); [reflexivity|]. rewrite nth_error_upd_other by lia. reflexivity.
Qed.
Lemma zget_combine_seq : forall (n : nat) (dofs : list (list Z)) e l, zget dofs e = Ok l -> In (e, l) (combine (zseq (List.length dofs)) dofs).
Proof.
  intros n dofs e l H. assert (R := zget_len _ _ _ H). apply zget_ok in H as [_ H].
  assert (G : forall k (xs : list (list Z)), nth_error (combine (map (fun i => Z.of_nat (k + i)) (seq 0 (List.length xs))) xs) (Z.to_nat e) =
    match nth_error xs (Z.to_nat e) with Some x => Some (Z.of_nat (k + Z.to_nat e), x) | None => None end).
  { generalize (Z.to_nat e). intros i k xs. revert i k. induction xs as [|x t IH]; intros i k; [destruct i; reflexivity|]. cbn [List.length seq map combine].
    destruct i as [|i]; [reflexivity|]. cbn [nth_error]. rewrite <- seq_shift, map_map.
    replace (map (fun x0 => Z.of_nat (k + S x0)) (seq 0 (List.length t))) with (map (fun i0 => Z.of_nat (S k + i0)) (seq 0 (List.length t))) by (apply map_ext; intros a; f_equal; lia).
    rewrite IH. destruct (nth_error t i); [|reflexivity]. do 2 f_equal. f_equal. lia. }
  specialize (G 0%nat dofs). rewrite H in G. apply nth_error_In in G. cbn [Nat.add] in G. rewrite Z2Nat.id in G by lia.
  unfold zseq. exact G.
Qed.
Lemma fill_all : forall (els : list (Z * list Z)) (t : list Z), NoDup (concat (map snd els)) -> Forall (fun d => 0 <= d < Z.of_nat (List.length t)) (concat (map snd els)) ->
  exists t', foldM (fun t (ed : Z * list Z) => foldM (fun t d => zset t d (fst ed)) (snd ed) t) els t = Ok t' /\ List.length t' = List.length t /\
    (forall e ds d, In (e, ds) els -> In d ds -> zget t' d = Ok e) /\ (forall d, ~ In d (concat (map snd els)) -> zget t' d = zget t d).
Proof.
  intros els. induction els as [|[e ds] r IH]; intros t N F.
  - exists t. split; [reflexivity|]. split; [reflexivity|]. split; [intros e ds d []|intros d _; reflexivity].
  - cbn [map snd concat] in N, F. apply Forall_app in F as [Fd Fr].
    assert (Nr : NoDup (concat (map snd r))) by (clear -N; induction ds as [|x q IHq]; [exact N|inversion N; auto]).
    assert (Dj : forall d, In d ds -> ~ In d (concat (map snd r))).
    { clear -N. induction ds as [|x q IHq]; intros d I; [destruct I|]. cbn [app] in N. inversion N as [|? ? Nx Nq]; subst. destruct I as [<-|I]; [intros I; apply Nx; apply in_or_app; right; exact I|exact (IHq Nq d I)]. }
    destruct (fill_elem e ds t Fd) as (t1 & E1 & L1 & I1 & O1). cbn [foldM fst snd]. rewrite E1. cbn [bind].
    destruct (IH t1 Nr) as (t' & E & L & I2 & O2). { rewrite L1. exact Fr. }
    exists t'. split; [exact E|]. split; [congruence|]. split.
    + intros e' ds' d [X|X] Id; [|exact (I2 _ _ _ X Id)]. injection X as -> ->. rewrite O2 by (apply Dj; exact Id). exact (I1 _ Id).
    + intros d Nd. cbn [map snd concat] in Nd. rewrite O2 by (intros I; apply Nd; apply in_or_app; right; exact I). apply O1. intros I. apply Nd. apply in_or_app. left. exact I.
Qed.
Lemma map_snd_combine : forall (a : list Z) (b : list (list Z)), List.length a = List.length b -> map snd (combine a b) = b.
Proof. intros a. induction a as [|x t IH]; intros [|y r] H; try discriminate H; [reflexivity|]. cbn [combine map snd]. rewrite IH by (injection H; auto). reflexivity. Qed.
Lemma dofToElem_spec : forall dofs ndofs, tableOk dofs ndofs -> exists d2e, dofToElem dofs ndofs = Ok d2e /\ List.length d2e = ndofs /\
  (forall e d, holds dofs e d -> zget d2e d = Ok e) /\ forall d, 0 <= d < Z.of_nat ndofs -> ~ In d (concat dofs) -> zget d2e d = Ok (-1).
Proof.
  intros dofs ndofs [N F]. unfold dofToElem.
  assert (L : List.length (zseq (List.length dofs)) = List.length dofs) by apply zseq_length.
  destruct (fill_all (combine (zseq (List.length dofs)) dofs) (repeat (-1) ndofs)) as (t & E & Lt & I & O).
  - rewrite map_snd_combine by exact L. exact N.
  - rewrite map_snd_combine by exact L. rewrite repeat_length. exact F.
  - exists t. split; [exact E|]. rewrite repeat_length in Lt. split; [exact Lt|]. split.
    + intros e d (l & Hl & Hd). exact (I _ _ _ (zget_combine_seq 0 _ _ _ Hl) Hd).
    + intros d R Nd. rewrite O by (rewrite map_snd_combine by exact L; exact Nd). apply zget_ok. split; [lia|].
      apply nth_error_repeat. lia.
Qed.
Lemma holds_fun : forall dofs ndofs e e' d, tableOk dofs ndofs -> holds dofs e d -> holds dofs e' d -> e = e'.
Proof.
  intros dofs ndofs e e' d T H H'. destruct (dofToElem_spec _ _ T) as (t & _ & _ & G & _). assert (A := G _ _ H). assert (B := G _ _ H'). congruence.
Qed.

(** * Markers *)
Lemma bit_spec : forall (m : mesh) mk b, (mk = [] \/ covers m mk) -> In b (m_bdr m) -> exists v, bit mk (b_attr b) = Ok v /\ (v = true <-> setIn mk (b_attr b)).
Proof.
  intros m mk b H I. unfold bit, setIn. destruct mk as [|x t].
  - exists false. split; [reflexivity|]. split; [discriminate|]. unfold zget. destruct (b_attr b - 1 <? 0); [discriminate|]. destruct (Z.to_nat (b_attr b - 1)); discriminate.
  - destruct H as [H|H]; [discriminate H|]. specialize (H b I). destruct (zget_some (x :: t) (b_attr b - 1)) as [v E]; [lia|]. rewrite E. cbn [bind].
    exists (v =? 1). split; [reflexivity|]. split; [intros V; f_equal; lia|]. intros V. injection V as ->. reflexivity.
Qed.

(** * The pairs of one face *)
Section Site.
Variables (m : mesh) (order : Z) (mkI mkB : list Z) (dofs : list (list Z)) (ndofs : nat) (facePairs : Z -> res (list (Z * Z))) (faceNodes : Z -> res (list Z))
  (nodes : Z -> list point) (quad : Z -> list (point * list R)).
Hypothesis T : tableOk dofs ndofs.
Hypothesis Sok : sitesOk m mkI mkB dofs facePairs faceNodes nodes quad.

Lemma dofNormal_ok : forall be e1 d, pointsOk m dofs nodes quad be e1 -> holds dofs e1 d ->
  exists x n, dofNormal dofs nodes quad be e1 d = Ok n /\ dofAt dofs nodes e1 d x /\ nearestNormal (quad be) x n /\ normalOk (m_dim m) n.
Proof.
  intros be e1 d ((l & El & Ln) & Q & N & D) (l' & El' & I). rewrite El in El'. injection El' as <-.
  unfold dofNormal. rewrite El. cbn [bind]. destruct (index_spec d l 0 I) as (k & Ek & Nk). rewrite Ek. cbn [bind Nat.add].
  destruct (nth_error (nodes e1) k) as [x|] eqn:Ex.
  - destruct (normalAt_spec (quad be) x Q) as (n & En & Nn). { intros y n' In'. exact (D x y n' (nth_error_In _ _ Ex) In'). }
    exists x, n. split; [exact En|]. split; [exists l, k; auto|]. split; [exact Nn|]. destruct Nn as (y & Iy & _). exact (N _ _ Iy).
  - apply nth_error_None in Ex. assert (k < List.length l)%nat by (apply nth_error_Some; congruence). lia.
Qed.

(** A pair is good at a face when its state sits there. *)
Definition rawGood (be : Z) (r : raw) : Prop :=
  forall d2e size, dofToElem dofs ndofs = Ok d2e -> exists s, newState d2e size r = Ok s /\ sits m dofs nodes quad be s /\ framed s /\
    (s_gl (as_state s), s_gr (as_state s)) = fst r /\ s_fs (as_state s) = zeros size.

Lemma dim_not1 : (m_dim m =? 1) = false.
Proof. destruct Sok as ([H|H] & _); rewrite H; reflexivity. Qed.
Lemma to_elem : forall d2e e d, dofToElem dofs ndofs = Ok d2e -> holds dofs e d -> zget d2e d = Ok e.
Proof. intros d2e e d E H. destruct (dofToElem_spec _ _ T) as (t & Et & _ & G & _). rewrite E in Et. injection Et as <-. exact (G _ _ H). Qed.
Lemma holds_not_m1 : forall e d, holds dofs e d -> (d =? -1) = false.
Proof.
  intros e d (l & El & I). destruct T as [_ F]. rewrite Forall_forall in F. assert (0 <= d < Z.of_nat ndofs); [|lia].
  apply F. apply in_concat. exists l. split; [exact (zget_in _ _ _ El)|exact I].
Qed.

Lemma inner_ok : forall be b, zget (m_bdr m) be = Ok b -> setIn mkI (b_attr b) ->
  exists f e1 e2 rs, beside m be f e1 e2 /\ innerPairs m order dofs facePairs nodes quad be e1 = Ok rs /\
    innerOf m mkI facePairs be (b_attr b) (map fst rs) /\ Forall (rawGood be) rs.
Proof.
  intros be b Eb Hs. destruct Sok as (_ & _ & _ & G). destruct (proj1 (G be b Eb) Hs) as (f & e1 & e2 & ps & o & Bs & H2 & Eps & Eo & Fp & P).
  assert (X : exists rs, mapM (fun ab => n <- dofNormal dofs nodes quad be e1 (fst ab) ;;
                    if Rlt_dec o 0
                    then r <- faceRotation (map Ropp n) (m_dim m) ;; Ok ((snd ab, fst ab), r)
                    else r <- faceRotation n (m_dim m) ;; Ok ((fst ab, snd ab), r)) ps = Ok rs /\
      map fst rs = map (fun q : Z * Z => if Rlt_dec o 0 then (snd q, fst q) else q) ps /\ Forall (rawGood be) rs).
  { clear Eps. induction ps as [|[a c] t IH]; [exists []; split; [reflexivity|]; split; [reflexivity|constructor]|].
    inversion Fp as [|? ? [Ha Hc] Ft]; subst. cbn [fst snd] in Ha, Hc. destruct (IH Ft) as (rs & Er & Mr & Gr).
    destruct (dofNormal_ok be e1 a P Ha) as (x & n & En & At & Nn & No). cbn [mapM fst snd]. rewrite En. cbn [bind].
    destruct (Rlt_dec o 0) as [Lo|Lo].
    - destruct (rot_against _ _ No) as (r & E & L & Fr & Ax). rewrite E. cbn [bind]. rewrite Er. cbn [bind]. eexists. split; [reflexivity|]. split; [cbn [map fst snd]; rewrite Mr; reflexivity|].
      constructor; [|exact Gr]. intros d2e size Ed. unfold newState. rewrite (to_elem _ _ _ Ed Hc), (holds_not_m1 _ _ Ha), (to_elem _ _ _ Ed Ha). cbn [bind].
      eexists. split; [reflexivity|]. split; [|split; [split; assumption|split; reflexivity]].
      apply (sits_against m dofs nodes quad be _ f e1 e2 x n); cbn [as_e1 as_e2 as_state s_gl s_gr s_rot]; auto.
    - destruct (rot_axis _ _ No) as (r & E & L & Fr & Ax). rewrite E. cbn [bind]. rewrite Er. cbn [bind]. eexists. split; [reflexivity|]. split; [cbn [map fst snd]; rewrite Mr; reflexivity|].
      constructor; [|exact Gr]. intros d2e size Ed. unfold newState. rewrite (to_elem _ _ _ Ed Ha), (holds_not_m1 _ _ Hc), (to_elem _ _ _ Ed Hc). cbn [bind].
      eexists. split; [reflexivity|]. split; [|split; [split; assumption|split; reflexivity]].
      apply (sits_along m dofs nodes quad be _ f e1 e2 x n); cbn [as_e1 as_e2 as_state s_gl s_gr s_rot]; auto. }
  destruct X as (rs & Er & Mr & Gr). exists f, e1, e2, rs. split; [exact Bs|]. split; [|split; [|exact Gr]].
  - unfold innerPairs. rewrite dim_not1, Eps. cbn [bind]. rewrite Eo. cbn [bind]. exact Er.
  - split; [|intros Nn; contradiction]. intros _. exists ps, o. split; [exact Eps|]. split; [exact Eo|]. rewrite Mr. split; intros Ho; destruct (Rlt_dec o 0); try lra; [reflexivity|apply map_id].
Qed.
Lemma outer_ok : forall be b, zget (m_bdr m) be = Ok b -> setIn mkB (b_attr b) ->
  exists f e1 e2 rs, beside m be f e1 e2 /\ outerPairs m order dofs faceNodes nodes quad be e1 = Ok rs /\
    outerOf mkB faceNodes be (b_attr b) (map fst rs) /\ Forall (rawGood be) rs.
Proof.
  intros be b Eb Hs. destruct Sok as (_ & _ & _ & G). destruct (proj2 (G be b Eb) Hs) as (f & e1 & e2 & ns & Bs & Ens & Fn & P).
  assert (X : exists rs, mapM (fun a => n <- dofNormal dofs nodes quad be e1 a ;; r <- faceRotation n (m_dim m) ;; Ok ((a, -1), r)) ns = Ok rs /\
      map fst rs = map (fun d => (d, -1)) ns /\ Forall (rawGood be) rs).
  { clear Ens. induction ns as [|a t IH]; [exists []; split; [reflexivity|]; split; [reflexivity|constructor]|].
    inversion Fn as [|? ? Ha Ft]; subst. destruct (IH Ft) as (rs & Er & Mr & Gr).
    destruct (dofNormal_ok be e1 a P Ha) as (x & n & En & At & Nn & No). cbn [mapM]. rewrite En. cbn [bind].
    destruct (rot_axis _ _ No) as (r & E & L & Fr & Ax). rewrite E. cbn [bind]. rewrite Er. cbn [bind]. eexists. split; [reflexivity|]. split; [cbn [map fst snd]; rewrite Mr; reflexivity|].
    constructor; [|exact Gr]. intros d2e size Ed. unfold newState. rewrite (to_elem _ _ _ Ed Ha). cbn [bind Z.eqb Pos.eqb].
    eexists. split; [reflexivity|]. split; [|split; [split; assumption|split; reflexivity]].
    apply (sits_outer m dofs nodes quad be _ f e1 e2 x n); cbn [as_e1 as_e2 as_state s_gl s_gr s_rot]; auto. }
  destruct X as (rs & Er & Mr & Gr). exists f, e1, e2, rs. split; [exact Bs|]. split; [|split; [|exact Gr]].
  - unfold outerPairs. rewrite dim_not1, Ens. cbn [bind]. exact Er.
  - split; [|intros Nn; contradiction]. intros _. exists ns. split; [exact Ens|exact Mr].
Qed.

(** * All the faces *)
Lemma face_step : forall be b, zget (m_bdr m) be = Ok b -> exists rs, contributed m mkI mkB facePairs faceNodes be (map fst rs) /\ Forall (rawGood be) rs /\
  forall acc, goodMap acc -> exists acc', pairsOf m order mkI mkB dofs facePairs faceNodes nodes quad acc be = Ok acc' /\ goodMap acc' /\
    forall t, entry t acc' = entry t acc ++ (if b_attr b =? t then rs else []).
Proof.
  intros be b Eb. destruct Sok as (_ & CI & CB & _). assert (Ib := zget_in _ _ _ Eb).
  destruct (bit_spec m mkI b CI Ib) as (i & Ei & Hi). destruct (bit_spec m mkB b CB Ib) as (o & Eo & Ho).
  assert (FT : forall f e1 e2, beside m be f e1 e2 -> faceTrans m be = Ok (e1, e2)).
  { intros f e1 e2 (b' & Eb' & Ef & Ee). unfold faceTrans. rewrite Eb'. cbn [bind]. rewrite Ef. exact Ee. }
  assert (A : exists ri, (i = true -> exists e1 e2, faceTrans m be = Ok (e1, e2) /\ innerPairs m order dofs facePairs nodes quad be e1 = Ok ri) /\ (i = false -> ri = []) /\
     innerOf m mkI facePairs be (b_attr b) (map fst ri) /\ Forall (rawGood be) ri).
  { destruct i.
    - destruct (inner_ok be b Eb (proj1 Hi eq_refl)) as (f & e1 & e2 & rs & B & E & In_ & Fo). exists rs. split; [|split; [discriminate|split; assumption]]. intros _. exists e1, e2. split; [exact (FT _ _ _ B)|exact E].
    - exists []. split; [discriminate|]. split; [reflexivity|]. split; [|constructor]. split; [|reflexivity]. intros X. apply Hi in X. discriminate X. }
  assert (B : exists ro, (o = true -> exists e1 e2, faceTrans m be = Ok (e1, e2) /\ outerPairs m order dofs faceNodes nodes quad be e1 = Ok ro) /\ (o = false -> ro = []) /\
     outerOf mkB faceNodes be (b_attr b) (map fst ro) /\ Forall (rawGood be) ro).
  { destruct o.
    - destruct (outer_ok be b Eb (proj1 Ho eq_refl)) as (f & e1 & e2 & rs & B & E & In_ & Fo). exists rs. split; [|split; [discriminate|split; assumption]]. intros _. exists e1, e2. split; [exact (FT _ _ _ B)|exact E].
    - exists []. split; [discriminate|]. split; [reflexivity|]. split; [|constructor]. split; [|reflexivity]. intros X. apply Ho in X. discriminate X. }
  destruct A as (ri & A1 & A2 & A3 & A4). destruct B as (ro & B1 & B2 & B3 & B4).
  exists (ri ++ ro). split; [exists b, (map fst ri), (map fst ro); rewrite map_app; auto|]. split; [apply Forall_app; split; assumption|].
  intros acc Ga. exists (pushAll (b_attr b) ro (pushAll (b_attr b) ri acc)).
  split; [|split; [apply pushAll_good, pushAll_good, Ga|]].
  - unfold pairsOf. rewrite Eb. cbn [bind]. rewrite Ei. cbn [bind]. rewrite Eo. cbn [bind].
    destruct i, o; cbn [negb andb].
    + destruct (A1 eq_refl) as (e1 & e2 & F1 & P1). destruct (B1 eq_refl) as (e1' & e2' & F2 & P2). rewrite F1 in F2. injection F2 as <- <-. rewrite F1. cbn [bind]. rewrite P1. cbn [bind]. rewrite P2. reflexivity.
    + destruct (A1 eq_refl) as (e1 & e2 & F1 & P1). rewrite F1. cbn [bind]. rewrite P1. cbn [bind]. rewrite (B2 eq_refl). reflexivity.
    + destruct (B1 eq_refl) as (e1 & e2 & F1 & P1). rewrite F1. cbn [bind]. rewrite P1. cbn [bind]. rewrite (A2 eq_refl). reflexivity.
    + rewrite (A2 eq_refl), (B2 eq_refl). reflexivity.
  - intros t. rewrite !pushAll_entry by (apply Ga || (apply pushAll_good; exact Ga)). rewrite (Z.eqb_sym (b_attr b) t). destruct (t =? b_attr b); [apply eq_sym, app_assoc|rewrite !app_nil_r; reflexivity].
Qed.
End Site.

(** Proofs about the assembled operator: marker tables, face forms and their values. *)
From Coq Require Import ZArith List Bool Reals Lia Lra.
From Verif Require Import Common Geo_Spec Face_Model Face_Spec Face_Proofs Setup_Model Setup_Spec Setup_Proofs SetupBdr_Proofs Assembly_Model Form_Model Form_Spec Form_Proofs Nodal_Spec Nodal_Proofs NodalMult_Proofs NodalEnergy_Spec NodalEnergy_Proofs Global_Spec.
Import ListNotations.
Local Open Scope R_scope.

(** ** Sums *)
Lemma suml_one : forall (n i : nat) (h : nat -> R), (i < n)%nat -> suml (fun j => if (i =? j)%nat then h j else 0) (seq 0 n) = h i.
Proof.
  intros n i h Hi. rewrite <- suml_sumN. rewrite <- (sumN_delta n i h Hi). apply sumN_ext. intros j _. rewrite Nat.eqb_sym. reflexivity.
Qed.
Lemma tag_cons : forall a i t fi, tagOf ((a, i) :: t) fi = if (i =? fi)%nat then Some a else tagOf t fi.
Proof. intros. unfold tagOf. cbn [find snd]. destruct (i =? fi)%nat; reflexivity. Qed.
Lemma tag_none : forall l fi, ~ In fi (map snd l) -> tagOf l fi = None.
Proof.
  intros l fi. induction l as [|[a i] t IH]; intros H; [reflexivity|]. rewrite tag_cons. cbn [map snd In] in H.
  destruct (Nat.eqb_spec i fi); [exfalso; apply H; left; assumption|]. apply IH. intros X. apply H. right. exact X.
Qed.
Lemma tag_in : forall l fi a, tagOf l fi = Some a -> In (a, fi) l.
Proof.
  intros l fi a. induction l as [|[b i] t IH]; [discriminate|]. rewrite tag_cons. destruct (Nat.eqb_spec i fi) as [->|].
  - intros E. injection E as ->. left. reflexivity.
  - intros E. right. apply IH. exact E.
Qed.
Lemma tag_of_in : forall l fi a, NoDup (map snd l) -> In (a, fi) l -> tagOf l fi = Some a.
Proof.
  intros l fi a. induction l as [|[b i] t IH]; intros N I; [destruct I|]. cbn [map snd] in N. inversion N as [|? ? N1 N2]; subst.
  rewrite tag_cons. destruct I as [I|I].
  - injection I as -> ->. rewrite Nat.eqb_refl. reflexivity.
  - destruct (Nat.eqb_spec i fi) as [->|]; [|apply IH; assumption]. exfalso. apply N1. apply (in_map snd) in I. exact I.
Qed.
Lemma bdr_sum : forall n (h : Z -> nat -> R) l, NoDup (map snd l) -> (forall b, In b l -> (snd b < n)%nat) ->
  suml (fun b => h (fst b) (snd b)) l = suml (fun fi => match tagOf l fi with Some a => h a fi | None => 0 end) (seq 0 n).
Proof.
  intros n h l. induction l as [|[a i] t IH]; intros N H.
  - symmetry. apply suml_zero. reflexivity.
  - cbn [map snd] in N. inversion N as [|? ? N1 N2]; subst.
    transitivity (h a i + suml (fun b => h (fst b) (snd b)) t); [reflexivity|]. rewrite IH by (try exact N2; intros b I; apply H; right; exact I).
    rewrite <- (suml_one n i (fun j => h a j)) by (apply (H (a, i)); left; reflexivity). rewrite <- suml_plus. apply suml_ext. intros fi _. rewrite tag_cons.
    destruct (Nat.eqb_spec i fi) as [->|]; [rewrite (tag_none t fi N1)|]; ring.
Qed.

(** ** Marker tables *)
Definition mappedb (c : cond) : bool := match c with PEC | PMC | SMA | SGBC => true | _ => false end.
Lemma mapped_b : forall c, mapped c <-> mappedb c = true.
Proof. intros c. unfold mapped. destruct c; cbn [mappedb]; split; intros; try discriminate; auto; destruct H as [H|[H|[H|H]]]; discriminate. Qed.
Lemma find_asc : forall (gt : list (Z * cond)) a c, ascending gt -> In (a, c) gt -> find (fun p => Z.eqb (fst p) a) gt = Some (a, c).
Proof.
  intros gt a c A. induction A as [|k c' t L A IH]; intros I; [destruct I|]. cbn [find fst]. destruct I as [I|I].
  - injection I as -> ->. rewrite Z.eqb_refl. reflexivity.
  - pose proof (L _ _ I). replace (k =? a)%Z with false by (symmetry; apply Z.eqb_neq; lia). apply IH. exact I.
Qed.
Lemma kind_in : forall gt a c, ascending gt -> (kindOf gt a = Some c <-> mapped c /\ In (a, c) gt).
Proof.
  intros gt a c A. split.
  - unfold kindOf. destruct (find (fun p => Z.eqb (fst p) a) gt) as [[b c']|] eqn:E; [|discriminate].
    apply find_some in E. destruct E as (I & E). cbn [fst] in E. apply Z.eqb_eq in E. subst b.
    destruct c'; intros X; try discriminate; injection X as <-; (split; [unfold mapped; auto 10|exact I]).
  - intros (M & I). unfold kindOf. rewrite (find_asc gt a c A I). destruct M as [->|[->|[->| ->]]]; reflexivity.
Qed.
Lemma selects_marks : forall n gt c mk a, marks n gt c mk -> (1 <= a <= n)%Z -> (selects (Some mk) a = true <-> In (a, c) gt).
Proof.
  intros n gt c mk a (L & H) Ha. cbn [selects]. destruct (H (a - 1)%Z ltac:(lia)) as [(E & I)|(E & I)]; replace (a - 1 + 1)%Z with a in I by lia;
    rewrite Form_Proofs.zget_nth in E by lia; injection E as ->; cbn [Z.eqb Pos.eqb negb]; split; intros; auto; try discriminate; contradiction.
Qed.
Definition cdec (a b : cond) : {a = b} + {a <> b}.
Proof. decide equality. Defined.
Lemma pick_sum : forall (mt : list (cond * marker)) (g : cond -> R) c0, NoDup (map fst mt) -> In c0 (map fst mt) ->
  suml (fun kv => if cdec c0 (fst kv) then g (fst kv) else 0) mt = g c0.
Proof.
  intros mt g c0. induction mt as [|[c mk] t IH]; intros N I; [destruct I|]. cbn [map fst] in N, I. inversion N as [|? ? N1 N2]; subst.
  change ((if cdec c0 c then g c else 0) + suml (fun kv => if cdec c0 (fst kv) then g (fst kv) else 0) t = g c0).
  destruct (cdec c0 c) as [->|X].
  - rewrite suml_zero; [ring|]. intros [c' mk'] I'. cbn [fst]. destruct (cdec c c') as [->|]; [|reflexivity]. exfalso. apply N1. apply (in_map fst) in I'. exact I'.
  - destruct I as [I|I]; [congruence|]. rewrite IH by assumption. ring.
Qed.
Lemma sel_sum : forall n gt mt (g : cond -> R) a, ascending gt -> represents n gt mt -> (1 <= a <= n)%Z ->
  suml (fun kv => if selects (Some (snd kv)) a then g (fst kv) else 0) mt = match kindOf gt a with Some c => g c | None => 0 end.
Proof.
  intros n gt mt g a A (N & M & C) Ha. destruct (kindOf gt a) as [c0|] eqn:K.
  - pose proof (proj1 (kind_in gt a c0 A) K) as (Mc & Ic). destruct (C a c0 Mc Ic) as (mk0 & I0).
    rewrite <- (pick_sum mt g c0 N) by (apply (in_map fst) in I0; exact I0). apply suml_ext. intros [c mk] I. cbn [fst snd].
    destruct (M c mk I) as (Mc' & Mk). pose proof (selects_marks n gt c mk a Mk Ha) as S.
    destruct (selects (Some mk) a) eqn:Es, (cdec c0 c) as [->|X]; try reflexivity.
    + exfalso. apply X. pose proof (proj2 (kind_in gt a c A) (conj Mc' (proj1 S eq_refl))) as E. congruence.
    + apply S in Ic. discriminate.
  - apply suml_zero. intros [c mk] I. cbn [fst snd]. destruct (M c mk I) as (Mc & Mk). destruct (selects (Some mk) a) eqn:Es; [|reflexivity].
    apply (selects_marks n gt c mk a Mk Ha) in Es. pose proof (proj2 (kind_in gt a c A) (conj Mc Es)). congruence.
Qed.
Lemma rep_sizes : forall m gt mt, represents (markerSize (fm_battrs m)) gt mt -> forall c mk, In (c, mk) mt -> markerOk m (Some mk).
Proof. intros m gt mt (_ & M & _) c mk I. destruct (M c mk I) as (_ & L & _). apply marker_size. exact L. Qed.

(** The tables built by the model represent the tags of the input. *)
Lemma keep_in : forall l p, In p (keepNonEmpty l) -> In p l.
Proof. intros l p H. unfold keepNonEmpty in H. apply filter_In in H. tauto. Qed.
Lemma keep_nodup : forall l, NoDup (map fst l) -> NoDup (map fst (keepNonEmpty l)).
Proof.
  intros l. induction l as [|[c mk] t IH]; intros N; [constructor|]. cbn [map fst] in N. inversion N as [|? ? N1 N2]; subst.
  unfold keepNonEmpty. cbn [filter snd]. destruct (negb (length mk =? 0)%nat); [|apply IH; exact N2]. cbn [map fst]. constructor; [|apply IH; exact N2].
  intros I. apply N1. apply in_map_iff in I. destruct I as (p & <- & I). apply in_map. apply (keep_in _ _ I).
Qed.
Lemma model_tables : forall gt2m gt2b gt2ib battrs n, arrayMax battrs = Ok n -> tagsFit n gt2b -> tagsFit n gt2ib ->
  exists md, newModel gt2m gt2b gt2ib battrs = Ok md /\
    represents n gt2b (bdrToMarkerMap (md_mk md)) /\ represents n gt2ib (intBdrToMarkerMap (md_mk md)).
Proof.
  intros gt2m gb gi ba n Hn F1 F2. destruct (model_markers gt2m gb gi ba n Hn F1 F2) as (md & E & _ & _ & P). exists md. split; [exact E|].
  assert (ND : forall a b c d : marker, NoDup (map fst (keepNonEmpty [(PEC, a); (PMC, b); (SMA, c); (SGBC, d)]))).
  { intros. apply keep_nodup. cbn [map fst]. repeat (constructor; [cbn [In]; intuition discriminate|]). constructor. }
  assert (MP : forall a b c d c' mk, In (c', mk) (keepNonEmpty [(PEC, a); (PMC, b); (SMA, c); (SGBC, d)]) -> mapped c').
  { intros a b c d c' mk I. apply keep_in in I. unfold mapped. destruct I as [I|[I|[I|[I|[]]]]]; injection I as <- _; auto 10. }
  split; (split; [apply ND|split]).
  - intros c mk I. pose proof (MP _ _ _ _ _ _ I) as Mc. split; [exact Mc|]. apply (P c Mc). exact I.
  - intros a c Mc I. apply (P c Mc). exists a. exact I.
  - intros c mk I. pose proof (MP _ _ _ _ _ _ I) as Mc. split; [exact Mc|]. apply (P c Mc). exact I.
  - intros a c Mc I. apply (P c Mc). exists a. exact I.
Qed.

(** ** The marker of ignored faces *)
Lemma nth_upd : forall (l : list Z) i j v, (i < length l)%nat -> nth j (upd l i v) 0%Z = if (j =? i)%nat then v else nth j l 0%Z.
Proof.
  intros l i j v Hi. destruct (Nat.eqb_spec j i) as [->|N].
  - apply nth_error_nth. apply nth_error_upd_same. exact Hi.
  - destruct (nth_error l j) as [y|] eqn:Y.
    + rewrite (nth_error_nth l j 0%Z Y). apply nth_error_nth. rewrite nth_error_upd_other by congruence. exact Y.
    + apply nth_error_None in Y. rewrite !nth_overflow by (try rewrite upd_length; exact Y). reflexivity.
Qed.
Lemma zset_nat : forall (l : list Z) i v, (i < length l)%nat -> zset l (Z.of_nat i) v = Ok (upd l i v).
Proof.
  intros l i v H. unfold zset. replace (Z.of_nat i <? 0)%Z with false by (symmetry; apply Z.ltb_ge; lia). rewrite Nat2Z.id.
  replace (i <? length l)%nat with true by (symmetry; apply Nat.ltb_lt; lia). reflexivity.
Qed.
Lemma zseq_split : forall n done x rest, zseq n = done ++ x :: rest -> x = Z.of_nat (length done) /\ (length done < n)%nat.
Proof.
  intros n done x rest Ez.
  assert (H1 : nth_error (zseq n) (length done) = Some x) by (rewrite Ez, nth_error_app2, Nat.sub_diag by lia; reflexivity).
  assert (H2 : (length done < length (zseq n))%nat) by (apply nth_error_Some; congruence). rewrite zseq_length in H2.
  split; [|exact H2]. unfold zseq in H1. rewrite nth_error_map in H1. rewrite (nth_error_nth' _ 0%nat) in H1 by (rewrite seq_length; exact H2).
  rewrite seq_nth in H1 by exact H2. cbn [option_map] in H1. injection H1 as <-. reflexivity.
Qed.
Lemma ignore_one : forall (src mk : list Z), length src = length mk ->
  exists r, foldM (fun mk i => x <- zget src i ;; if (x =? 1)%Z then zset mk i 1%Z else Ok mk) (zseq (length src)) mk = Ok r /\
    length r = length mk /\ forall i, nth i r 0%Z <> 0%Z <-> nth i mk 0%Z <> 0%Z \/ nth i src 0%Z = 1%Z.
Proof.
  intros src mk L.
  destruct (foldM_inv (fun mk i => x <- zget src i ;; if (x =? 1)%Z then zset mk i 1%Z else Ok mk)
    (fun done r => length r = length mk /\ forall i, nth i r 0%Z <> 0%Z <-> nth i mk 0%Z <> 0%Z \/ ((i < length done)%nat /\ nth i src 0%Z = 1%Z))
    (zseq (length src)) mk) as (r & E & Lr & V).
  - split; [reflexivity|]. intros i. cbn [length]. split; [tauto|intros [H|(H & _)]; [exact H|lia]].
  - intros done x rest r Ez (Lr & V). destruct (zseq_split _ _ _ _ Ez) as (-> & Hd).
    rewrite (Form_Proofs.zget_nth src) by lia. cbn [bind]. rewrite Nat2Z.id. destruct (Z.eqb_spec (nth (length done) src 0%Z) 1) as [E1|E1].
    + rewrite zset_nat by lia. eexists. split; [reflexivity|]. split; [rewrite upd_length; exact Lr|]. intros i. rewrite nth_upd by lia. rewrite app_length. cbn [length].
      destruct (Nat.eqb_spec i (length done)) as [->|Ni].
      * split; [intros _; right; split; [lia|exact E1]|discriminate].
      * rewrite V. split; intros [H|(H & H')]; auto; right; split; try assumption; lia.
    + eexists. split; [reflexivity|]. split; [exact Lr|]. intros i. rewrite V, app_length. cbn [length]. split; intros [H|(H & H')]; auto; right; split; try assumption; try lia.
      destruct (Nat.eq_dec i (length done)) as [->|]; [contradiction|lia].
  - exists r. split; [exact E|]. split; [exact Lr|]. intros i. rewrite V, zseq_length. split; intros [H|H]; auto; [tauto|].
    right. split; [|exact H]. destruct (Nat.lt_ge_cases i (length src)) as [X|X]; [exact X|]. rewrite nth_overflow in H by exact X. discriminate.
Qed.
Lemma ignore_marker : forall n gt mt, ascending gt -> represents n gt mt ->
  exists ign, buildInteriorIgnoreMarker mt = Ok ign /\
    forall a, (1 <= a <= n)%Z -> match zget ign (a - 1) with Ok x => negb (x =? 0)%Z | _ => false end = match kindOf gt a with Some _ => true | None => false end.
Proof.
  intros n gt mt A (ND & M & C). unfold buildInteriorIgnoreMarker. destruct mt as [|[c0 m0] t] eqn:Em.
  - exists []. split; [reflexivity|]. intros a Ha. destruct (kindOf gt a) as [c|] eqn:K.
    + apply (kind_in gt a c A) in K. destruct K as (Mc & I). destruct (C a c Mc I) as (mk & []).
    + rewrite zget_oob by (cbn [length]; lia). reflexivity.
  - rewrite <- Em in *. assert (L0 : Z.of_nat (length m0) = n) by (apply (M c0 m0); rewrite Em; left; reflexivity). clear Em c0 t.
    destruct (foldM_inv (fun mk kv => if cond_eqb (fst kv) TotalFieldIn then Ok mk else
        foldM (fun mk i => x <- zget (snd kv) i ;; if (x =? 1)%Z then zset mk i 1%Z else Ok mk) (zseq (length (snd kv))) mk)
      (fun (done : list (cond * marker)) r => Z.of_nat (length r) = n /\
         forall i, nth i r 0%Z <> 0%Z <-> exists c mk, In (c, mk) done /\ nth i mk 0%Z = 1%Z) mt (repeat 0%Z (length m0))) as (r & E & Lr & V).
    + split; [rewrite repeat_length; exact L0|]. intros i. split.
      * intros H. exfalso. apply H. apply nth_repeat.
      * intros (c & mk & [] & _).
    + intros done [c mk] rest r Es (Lr & V). cbn [fst snd].
      destruct (M c mk) as (Mc & Lk & _); [rewrite Es; apply in_or_app; right; left; reflexivity|].
      replace (cond_eqb c TotalFieldIn) with false by (destruct Mc as [->|[->|[->| ->]]]; reflexivity).
      destruct (ignore_one mk r ltac:(lia)) as (r' & E' & L' & V'). exists r'. split; [exact E'|]. split; [lia|]. intros i. rewrite V', V. split.
      * intros [(c' & mk' & I & X)|X]; [exists c', mk'|exists c, mk]; (split; [apply in_or_app; cbn [In]; auto|exact X]).
      * intros (c' & mk' & I & X). apply in_app_or in I. destruct I as [I|[I|[]]]; [left; exists c', mk'; auto|right]. injection I as <- <-. exact X.
    + exists r. split; [exact E|]. intros a Ha. rewrite Form_Proofs.zget_nth by lia.
      destruct (kindOf gt a) as [c|] eqn:K.
      * pose proof (proj1 (kind_in gt a c A) K) as (Mc & I). destruct (C a c Mc I) as (mk & I'). destruct (M c mk I') as (_ & Mk).
        apply negb_true_iff, Z.eqb_neq. apply V. exists c, mk. split; [exact I'|]. destruct Mk as (Lk & Mk).
        destruct (Mk (a - 1)%Z ltac:(lia)) as [(E1 & _)|(_ & X)]; [|replace (a - 1 + 1)%Z with a in X by lia; contradiction].
        rewrite Form_Proofs.zget_nth in E1 by lia. injection E1 as E1. exact E1.
      * apply negb_false_iff, Z.eqb_eq. destruct (Z.eq_dec (nth (Z.to_nat (a - 1)) r 0%Z) 0) as [X|X]; [exact X|]. exfalso.
        apply V in X. destruct X as (c & mk & I' & E1). destruct (M c mk I') as (Mc & Lk & Mk).
        destruct (Mk (a - 1)%Z ltac:(lia)) as [(_ & X)|(E2 & _)].
        -- replace (a - 1 + 1)%Z with a in X by lia. pose proof (proj2 (kind_in gt a c A) (conj Mc X)). congruence.
        -- rewrite Form_Proofs.zget_nth in E2 by lia. injection E2 as E2. congruence.
Qed.
Lemma ignored_iff : forall N m gt ign fi, wfMesh N m -> NoDup (map snd (fm_bdr m)) ->
  (forall a, (1 <= a <= markerSize (fm_battrs m))%Z -> match zget ign (a - 1) with Ok x => negb (x =? 0)%Z | _ => false end = match kindOf gt a with Some _ => true | None => false end) ->
  ignored m ign fi = match tagOf (fm_bdr m) fi with Some a => match kindOf gt a with Some _ => true | None => false end | None => false end.
Proof.
  intros N m gt ign fi W0 ND H. destruct (wf_range _ _ W0) as (_ & _ & W). clear W0. rewrite Forall_forall in W. unfold ignored. revert ND W. generalize (fm_bdr m). intros l.
  induction l as [|[a i] t IH]; intros ND W; [reflexivity|]. cbn [map snd] in ND. inversion ND as [|? ? N1 N2]; subst.
  cbn [existsb fst snd]. rewrite tag_cons. rewrite IH by (try exact N2; intros b I; apply W; right; exact I).
  destruct (Nat.eqb_spec i fi) as [->|]; cbn [andb orb]; [|reflexivity]. rewrite (tag_none t fi N1), orb_false_r. apply H. apply (W (a, fi)). left. reflexivity.
Qed.

(** ** Values of the assembled forms *)
Lemma mform_zero : forall n v u, mform n mzero v u = 0.
Proof. intros. unfold mform. apply sumN_zero. intros. apply sumN_zero. intros. unfold mzero. ring. Qed.
Section Values.
Variable N : nat.
Variable m : fmesh.
Variable gb gi : list (Z * cond).
Variable ob ib : list (cond * marker).
Hypothesis W : wfMesh N m.
Hypothesis ND : NoDup (map snd (fm_bdr m)).
Hypothesis T : tables m gb gi ob ib.

(** Sum over the faces. *)
Definition over (h : nat -> mface -> R) : R :=
  suml (fun fi => match nth_error (fm_faces m) fi with Some f => h fi f | None => 0 end) (seq 0 (length (fm_faces m))).
Lemma over_ext : forall h h', (forall fi f, nth_error (fm_faces m) fi = Some f -> h fi f = h' fi f) -> over h = over h'.
Proof. intros h h' H. apply suml_ext. intros fi _. destruct (nth_error (fm_faces m) fi) as [f|] eqn:E; [apply H; exact E|reflexivity]. Qed.
Lemma over_plus : forall h h', over (fun fi f => h fi f + h' fi f) = over h + over h'.
Proof. intros. unfold over. rewrite <- suml_plus. apply suml_ext. intros fi _. destruct (nth_error (fm_faces m) fi); ring. Qed.

Definition allOk (k : R -> integ) : Prop := forall c f, In f (fm_faces m) -> exists K, k c (mf_face f) = Ok K.
Lemma tag_range : forall fi a, tagOf (fm_bdr m) fi = Some a -> (1 <= a <= markerSize (fm_battrs m))%Z.
Proof. intros fi a E. apply tag_in in E. destruct (wf_range _ _ W) as (_ & _ & W2). rewrite Forall_forall in W2. apply (W2 _ E). Qed.

Lemma mapM_ok : forall {A B} (f : A -> res B) (g : A -> B) l, (forall a, In a l -> f a = Ok (g a)) -> mapM f l = Ok (map g l).
Proof.
  intros A B f g l. induction l as [|a t IH]; intros H; [reflexivity|]. cbn [mapM map]. rewrite (H a) by (left; reflexivity). cbn [bind].
  rewrite IH by (intros b I; apply H; right; exact I). reflexivity.
Qed.
Lemma suml_map : forall {A B} (g : A -> B) (h : B -> R) l, suml h (map g l) = suml (fun a => h (g a)) l.
Proof. intros. unfold suml. rewrite map_map. reflexivity. Qed.

Lemma face_form : forall (k : R -> integ) a coeff (co : cond -> R), allOk k ->
  (forall c, mapped c -> (if cond_eqb c SMA then Ok 1 else coeff c) = Ok (co c)) ->
  exists M, faceForm N m ob ib k a coeff = Ok M /\ forall v u, mform N M v u =
    over (fun fi f => if isInteriorFace f then match faceKind m gb gi fi f with None => bil (k a) f v u | Some _ => 0 end
                      else match faceKind m gb gi fi f with Some c => bil (k (co c)) f v u | None => 0 end).
Proof.
  intros k a coeff co Hk Hc. destruct T as (A1 & A2 & R1 & R2). unfold faceForm.
  destruct (ignore_marker _ _ _ A2 R2) as (ign & Ei & Vi). rewrite Ei. cbn [bind].
  rewrite (mapM_ok _ (fun kv => (k (co (fst kv)), snd kv))).
  2:{ intros [c mk] I. cbn [fst snd]. destruct R1 as (_ & R1 & _). destruct (R1 c mk I) as (Mc & _). rewrite (Hc c Mc). reflexivity. }
  cbn [bind]. destruct (interior_adds N m (k a) ign W ltac:(intros f I _; apply Hk; exact I) mzero) as (M1 & E1 & V1). rewrite E1. cbn [bind].
  destruct (bdr_adds N m (map (fun kv => (k (co (fst kv)), snd kv)) ob) W) with (M := M1) as (M2 & E2 & V2).
  { apply Forall_forall. intros p I. apply in_map_iff in I. destruct I as ([c mk] & <- & I). apply (rep_sizes m gb ob R1 c mk I). }
  { intros p f I If _. apply in_map_iff in I. destruct I as ([c mk] & <- & I). apply Hk. exact If. }
  exists M2. split; [exact E2|]. intros v u. rewrite V2, V1, mform_zero, Rplus_0_l.
  rewrite (bdr_sum (length (fm_faces m)) (fun b fi => match nth_error (fm_faces m) fi with
      | Some f => if isInteriorFace f then 0 else suml (fun k0 => if selects (Some (snd k0)) b then bil (fst k0) f v u else 0) (map (fun kv => (k (co (fst kv)), snd kv)) ob)
      | None => 0 end) (fm_bdr m) ND).
  2:{ destruct (wf_range _ _ W) as (_ & _ & W2). rewrite Forall_forall in W2. intros b I. apply (W2 b I). }
  unfold over. rewrite <- suml_plus. apply suml_ext. intros fi _. destruct (nth_error (fm_faces m) fi) as [f|] eqn:Ef.
  2:{ destruct (tagOf (fm_bdr m) fi); ring. }
  rewrite (ignored_iff N m gi ign fi W ND Vi). unfold faceKind, isInteriorFace. destruct (f_el2 (mf_face f)) eqn:F2.
  - cbn [andb]. destruct (tagOf (fm_bdr m) fi) as [t|]; [destruct (kindOf gi t)|]; cbn [negb]; ring.
  - cbn [andb]. destruct (tagOf (fm_bdr m) fi) as [t|] eqn:Et; [|ring]. rewrite suml_map. cbn [fst snd].
    rewrite (sel_sum _ gb ob (fun c => bil (k (co c)) f v u) t A1 R1 (tag_range fi t Et)). destruct (kindOf gb t); ring.
Qed.

Lemma ibfi_list : forall (k k' : R -> integ) coeff (co : cond -> R) (l : list (cond * marker)) acc,
  (forall c mk, In (c, mk) l -> mapped c) -> (forall c, c = PEC \/ c = PMC -> coeff c = Ok (co c)) -> co SMA = 1 ->
  foldM (fun l kv =>
    if cond_eqb (fst kv) TotalFieldIn || cond_eqb (fst kv) SGBC then Ok l
    else match fst kv with
         | SMA => Ok (l ++ [(k 1%R, Some (snd kv))])
         | PEC | PMC => c <- coeff (fst kv) ;; Ok (l ++ [(k c, Some (snd kv))])
         | _ => c <- coeff (fst kv) ;; Ok (l ++ [(k' c, Some (snd kv))])
         end) l acc =
  Ok (acc ++ flat_map (fun kv => if cond_eqb (fst kv) SGBC then [] else [(k (co (fst kv)), Some (snd kv))]) l).
Proof.
  intros k k' coeff co l. induction l as [|[c mk] t IH]; intros acc Mp Hc Hs; cbn [foldM flat_map]; [rewrite app_nil_r; reflexivity|].
  cbn [fst snd]. assert (Mc : mapped c) by (apply (Mp c mk); left; reflexivity).
  assert (Mp' : forall c mk, In (c, mk) t -> mapped c) by (intros c' mk' I; apply (Mp c' mk'); right; exact I).
  destruct Mc as [->|[->|[->| ->]]]; cbn [cond_eqb orb].
  - rewrite Hc by auto. cbn [bind]. rewrite IH by assumption. rewrite <- app_assoc. reflexivity.
  - rewrite Hc by auto. cbn [bind]. rewrite IH by assumption. rewrite <- app_assoc. reflexivity.
  - cbn [bind]. rewrite IH by assumption. rewrite <- app_assoc, Hs. reflexivity.
  - cbn [bind]. rewrite IH by assumption. reflexivity.
Qed.
Definition intOk (k : R -> integ) : Prop := forall c f, In f (fm_faces m) -> isInteriorFace f = true -> exists K, k c (mf_face f) = Ok K.
Lemma ibfi_form : forall (k k' : R -> integ) coeff (co : cond -> R), intOk k ->
  (forall c, c = PEC \/ c = PMC -> coeff c = Ok (co c)) -> co SMA = 1 ->
  exists M, ibfiForm N m ib k k' coeff = Ok M /\ forall v u, mform N M v u =
    over (fun fi f => if isInteriorFace f then match faceKind m gb gi fi f with Some SGBC => 0 | Some c => bil (k (co c)) f v u | None => 0 end else 0).
Proof.
  intros k k' coeff co Hk Hc Hs. destruct T as (A1 & A2 & R1 & R2). unfold ibfiForm.
  rewrite (ibfi_list k k' coeff co ib []) by (try assumption; intros c mk I; apply R2 in I; apply I).
  cbn [bind Datatypes.app]. set (ks := flat_map _ ib).
  assert (IK : forall p, In p ks -> exists c mk, In (c, mk) ib /\ p = (k (co c), Some mk)).
  { intros p I. unfold ks in I. apply in_flat_map in I. destruct I as ([c mk] & I & J). cbn [fst snd] in J. destruct (cond_eqb c SGBC); [destruct J|].
    destruct J as [<-|[]]. exists c, mk. auto. }
  destruct (ibfi_adds N m ks W) with (M := mzero) as (M & E & V).
  { apply Forall_forall. intros p I. destruct (IK p I) as (c & mk & I' & ->). apply (rep_sizes m gi ib R2 c mk I'). }
  { intros p f I If Ii. destruct (IK p I) as (c & mk & I' & ->). apply Hk; assumption. }
  exists M. split; [exact E|]. intros v u. rewrite V, mform_zero, Rplus_0_l.
  rewrite (interior_sum m (fun a f => suml (fun k0 => if selects (snd k0) a then bil (fst k0) f v u else 0) ks)).
  rewrite (bdr_sum (length (fm_faces m)) (fun b fi => match nth_error (fm_faces m) fi with
      | Some f => if isInteriorFace f then suml (fun k0 => if selects (snd k0) b then bil (fst k0) f v u else 0) ks else 0
      | None => 0 end) (fm_bdr m) ND).
  2:{ destruct (wf_range _ _ W) as (_ & _ & W2). rewrite Forall_forall in W2. intros b I. apply (W2 b I). }
  unfold over. apply suml_ext. intros fi _. destruct (nth_error (fm_faces m) fi) as [f|] eqn:Ef; [|destruct (tagOf (fm_bdr m) fi); reflexivity].
  unfold faceKind, isInteriorFace. destruct (f_el2 (mf_face f)) eqn:F2; [|destruct (tagOf (fm_bdr m) fi); reflexivity].
  destruct (tagOf (fm_bdr m) fi) as [t|] eqn:Et; [|reflexivity].
  transitivity (suml (fun kv => if selects (Some (snd kv)) t then if cond_eqb (fst kv) SGBC then 0 else bil (k (co (fst kv))) f v u else 0) ib).
  - unfold ks. rewrite suml_flat_map. apply suml_ext. intros [c mk] _. cbn [fst snd]. destruct (cond_eqb c SGBC); unfold suml; cbn [map fold_right fst snd].
    + destruct (selects (Some mk) t); reflexivity.
    + ring.
  - rewrite (sel_sum _ gi ib (fun c => if cond_eqb c SGBC then 0 else bil (k (co c)) f v u) t A2 R2 (tag_range fi t Et)).
    destruct (kindOf gi t) as [[]|]; reflexivity.
Qed.
Lemma source_form : forall (k : integ) (mk : marker), markerOk m (Some mk) ->
  (forall f, In f (fm_faces m) -> isInteriorFace f = true -> exists K, k (mf_face f) = Ok K) ->
  exists M, sourceForm N m k mk = Ok M /\ forall v u, mform N M v u =
    over (fun fi f => if isInteriorFace f then match tagOf (fm_bdr m) fi with Some a => if selects (Some mk) a then bil k f v u else 0 | None => 0 end else 0).
Proof.
  intros k mk Hm Hk. unfold sourceForm.
  destruct (ibfi_adds N m [(k, Some mk)] W) with (M := mzero) as (M & E & V).
  { apply Forall_forall. intros p [<-|[]]. exact Hm. }
  { intros p f [<-|[]] If Ii. apply Hk; assumption. }
  exists M. split; [exact E|]. intros v u. rewrite V, mform_zero, Rplus_0_l.
  rewrite (interior_sum m (fun a f => suml (fun k0 => if selects (snd k0) a then bil (fst k0) f v u else 0) [(k, Some mk)])).
  rewrite (bdr_sum (length (fm_faces m)) (fun b fi => match nth_error (fm_faces m) fi with
      | Some f => if isInteriorFace f then suml (fun k0 => if selects (snd k0) b then bil (fst k0) f v u else 0) [(k, Some mk)] else 0
      | None => 0 end) (fm_bdr m) ND).
  2:{ destruct (wf_range _ _ W) as (_ & _ & W2). rewrite Forall_forall in W2. intros b I. apply (W2 b I). }
  unfold over. apply suml_ext. intros fi _. destruct (nth_error (fm_faces m) fi) as [f|] eqn:Ef; [|destruct (tagOf (fm_bdr m) fi); reflexivity].
  destruct (isInteriorFace f); [|destruct (tagOf (fm_bdr m) fi); reflexivity].
  destruct (tagOf (fm_bdr m) fi) as [t|] eqn:Et; [|reflexivity]. unfold suml. cbn [map fold_right fst snd]. ring.
Qed.
End Values.

(** The constructed operator: lists of elements, check of the incident field, shapes. *)
From Coq Require Import ZArith List Bool Reals Lia Lra Sorted.
From Verif Require Import Common Geo_Spec Face_Model Face_Spec Face_Proofs Nodal_Model Nodal_Spec NodalEnergy_Spec Step_Model Setup_Model Conn_Model Conn_Spec.
From Verif Require Import Sub_Proofs InputWall_Proofs Hest_Model Hest_Spec Hest_Proofs HestElem_Proofs HestWeak_Proofs.
Import ListNotations.
Local Open Scope R_scope.

Definition curvedB (posLin posCur : list vertex) (g : gelem) : bool :=
  existsb (fun d => moved (nth (Z.to_nat d) posLin (0, 0, 0)) (nth (Z.to_nat d) posCur (0, 0, 0))) (ge_dofs g).

Lemma zget_v : forall {A} (l : list A) i d, (0 <= i < Z.of_nat (length l))%Z -> zget l i = Ok (nth (Z.to_nat i) l d).
Proof.
  intros A l i d H. destruct (zget_in_range l i H) as [a [E _]]. rewrite E. apply zget_ok in E as [_ E]. f_equal. symmetry. apply nth_error_nth. exact E.
Qed.

Lemma isCurved_value : forall posLin posCur g, dofsIn posLin g -> dofsIn posCur g -> isCurved posLin posCur (ge_dofs g) = Ok (curvedB posLin posCur g).
Proof.
  intros posLin posCur g H1 H2. unfold isCurved, curvedB, dofsIn in *.
  enough (K : forall l c, Forall (fun d => (0 <= d < Z.of_nat (length posLin))%Z) l -> Forall (fun d => (0 <= d < Z.of_nat (length posCur))%Z) l ->
    foldM (fun c d => p <- zget posLin d ;; q <- zget posCur d ;; Ok (c || moved p q)) l c =
    Ok (c || existsb (fun d => moved (nth (Z.to_nat d) posLin (0, 0, 0)) (nth (Z.to_nat d) posCur (0, 0, 0))) l)) by (apply (K _ false); assumption).
  clear. induction l as [|d l IH]; intros c H1 H2; cbn [foldM existsb]; [rewrite orb_false_r; reflexivity|].
  inversion H1; inversion H2; subst. rewrite (zget_v posLin d (0, 0, 0)), (zget_v posCur d (0, 0, 0)) by assumption. cbn [bind].
  rewrite IH by assumption. rewrite orb_assoc. reflexivity.
Qed.

Lemma moved_displaced : forall p q, moved p q = true <-> displaced p q.
Proof.
  intros p q. unfold moved, displaced, farApart, curveTol. replace (1 / 100000) with (/ 100000) by field. split.
  - intros H. rewrite !orb_true_iff in H. destruct H as [[H|H]|H]; [exists 0%Z|exists 1%Z|exists 2%Z]; (split; [lia|]);
      match type of H with (if ?c then _ else _) = _ => destruct c as [H'|]; [exact H'|discriminate] end.
  - intros [d [Hd H]]. rewrite !orb_true_iff. assert (d = 0 \/ d = 1 \/ d = 2)%Z as [->|[->| ->]] by lia; [left; left|left; right|right];
      match goal with |- (if ?c then _ else _) = _ => destruct c as [|H']; [reflexivity|contradiction] end.
Qed.
Lemma curved_iff : forall posLin posCur g, curvedB posLin posCur g = true <-> curvedBy posLin posCur g.
Proof.
  intros. unfold curvedB, curvedBy. rewrite existsb_exists. split; intros [d [H1 H2]]; exists d; (split; [exact H1|]); apply moved_displaced; exact H2.
Qed.

Lemma sorted_filter : forall {A} (P : A -> A -> Prop) f l, StronglySorted P l -> StronglySorted P (filter f l).
Proof.
  intros A P f l H. induction H as [|a l HS IH HF]; cbn [filter]; [constructor|]. destruct (f a); [|exact IH]. constructor; [exact IH|].
  rewrite Forall_forall in *. intros x Hx. apply filter_In in Hx. apply HF, (proj1 Hx).
Qed.
Lemma sorted_zseq : forall n, StronglySorted Z.lt (zseq n).
Proof.
  intros n. unfold zseq. generalize 0%nat as s. induction n as [|n IH]; intros s; cbn [seq map]; constructor; [apply IH|].
  apply Forall_forall. intros x Hx. apply in_map_iff in Hx as [k [<- Hk]]. apply in_seq in Hk. lia.
Qed.
Lemma sorted_nodup : forall l, StronglySorted Z.lt l -> NoDup l.
Proof.
  intros l H. induction H as [|a l HS IH HF]; constructor; [|exact IH]. intros I. rewrite Forall_forall in HF. specialize (HF a I). lia.
Qed.

Definition noEl : gelem := mkGE Triangle [] 0 0 [] (fun _ => mzero).
Definition cur' posLin posCur elems e := curvedB posLin posCur (nth (Z.to_nat e) elems noEl).
Lemma split_value : forall posLin posCur elems, Forall (dofsIn posLin) elems -> Forall (dofsIn posCur) elems ->
  splitElements posLin posCur elems = Ok (filter (fun e => negb (cur' posLin posCur elems e)) (zseq (length elems)),
    map (fun e => (e, ge_dofs (nth (Z.to_nat e) elems noEl))) (filter (cur' posLin posCur elems) (zseq (length elems)))).
Proof.
  intros posLin posCur elems H1 H2. unfold splitElements.
  destruct (foldM_inv (fun st e =>
    g <- zget elems e ;;
    c <- isCurved posLin posCur (ge_dofs g) ;;
    Ok (if c then (fst st, snd st ++ [(e, ge_dofs g)]) else (fst st ++ [e], snd st)))
    (fun done st => st = (filter (fun e => negb (cur' posLin posCur elems e)) done,
       map (fun e => (e, ge_dofs (nth (Z.to_nat e) elems noEl))) (filter (cur' posLin posCur elems) done)))
    (zseq (length elems)) ([], []) eq_refl) as [st [E1 E2]]; [|rewrite E1, E2; reflexivity].
  intros done x rest st E Hst.
  assert (Hx : (0 <= x < Z.of_nat (length elems))%Z) by (apply in_zseq; rewrite E; apply in_or_app; right; left; reflexivity).
  rewrite (zget_v elems x noEl Hx). cbn [bind].
  assert (I : In (nth (Z.to_nat x) elems noEl) elems) by (apply nth_In; lia).
  rewrite Forall_forall in H1, H2. rewrite isCurved_value by auto. cbn [bind]. eexists. split; [reflexivity|].
  rewrite !filter_app, map_app, Hst. cbn [fst snd filter].
  change (curvedB posLin posCur (nth (Z.to_nat x) elems noEl)) with (cur' posLin posCur elems x).
  destruct (cur' posLin posCur elems x); cbn [negb map]; rewrite ?app_nil_r; reflexivity.
Qed.

Lemma split_right : forall posLin posCur elems, Forall (dofsIn posLin) elems -> Forall (dofsIn posCur) elems ->
  exists lin cur, splitElements posLin posCur elems = Ok (lin, cur) /\ StronglySorted Z.lt lin /\ StronglySorted Z.lt (map fst cur) /\
    (forall e, In e lin <-> exists g, zget elems e = Ok g /\ ~ curvedBy posLin posCur g) /\
    (forall e ds, In (e, ds) cur <-> exists g, zget elems e = Ok g /\ curvedBy posLin posCur g /\ ds = ge_dofs g).
Proof.
  intros posLin posCur elems H1 H2. eexists. eexists. split; [apply split_value; assumption|].
  split; [apply sorted_filter, sorted_zseq|].
  split; [rewrite map_map; cbn [fst]; rewrite map_id; apply sorted_filter, sorted_zseq|].
  split.
  - intros e. rewrite filter_In, in_zseq. unfold cur'. split.
    + intros [He Hc]. exists (nth (Z.to_nat e) elems noEl). split; [apply zget_v; exact He|]. intros Q. apply curved_iff in Q. rewrite Q in Hc. discriminate.
    + intros [g [Hz Hc]]. pose proof (zget_len _ _ _ Hz) as He. split; [exact He|]. rewrite (zget_v elems e noEl He) in Hz. injection Hz as <-.
      destruct (curvedB posLin posCur (nth (Z.to_nat e) elems noEl)) eqn:Q; [|reflexivity]. apply curved_iff in Q. contradiction.
  - intros e ds. rewrite in_map_iff. split.
    + intros [e' [E I]]. injection E as <- <-. apply filter_In in I as [I Q]. apply in_zseq in I. exists (nth (Z.to_nat e') elems noEl).
      split; [apply zget_v; exact I|]. split; [apply curved_iff; exact Q|reflexivity].
    + intros [g [Hz [Hc ->]]]. pose proof (zget_len _ _ _ Hz) as He. rewrite (zget_v elems e noEl He) in Hz. injection Hz as <-.
      exists e. split; [reflexivity|]. apply filter_In. split; [apply in_zseq; exact He|apply curved_iff; exact Hc].
Qed.

(** ** Incident field on curved elements *)
Lemma isIn_iff : forall e cur, isIn e cur = true <-> In e (map fst cur).
Proof.
  intros e cur. unfold isIn. rewrite existsb_exists, in_map_iff. split.
  - intros [x [I Q]]. apply Z.eqb_eq in Q. exists x. split; assumption.
  - intros [x [Q I]]. exists x. split; [exact I|]. apply Z.eqb_eq. exact Q.
Qed.

Lemma tfsf_inner : forall mk (curved : list (Z * list Z)) bdr, Forall (fun b => (1 <= be_attr b <= Z.of_nat (length mk))%Z) bdr ->
  foldM (fun (_ : unit) b =>
      v <- zget mk (be_attr b - 1) ;;
      if (v =? 1)%Z then
        (if isIn (be_e1 b) curved then Throw
         else if (negb (be_e2 b =? -1)%Z && isIn (be_e2 b) curved)%bool then Throw else Ok tt)
      else Ok tt) bdr tt = Ok tt /\ (forall b, In b bdr -> ~ tfsfOnCurved mk curved b) \/
  foldM (fun (_ : unit) b =>
      v <- zget mk (be_attr b - 1) ;;
      if (v =? 1)%Z then
        (if isIn (be_e1 b) curved then Throw
         else if (negb (be_e2 b =? -1)%Z && isIn (be_e2 b) curved)%bool then Throw else Ok tt)
      else Ok tt) bdr tt = Throw /\ (exists b, In b bdr /\ tfsfOnCurved mk curved b).
Proof.
  intros mk curved bdr H. induction H as [|b bdr Hb HB IH]; cbn [foldM]; [left; split; [reflexivity|intros b []]|].
  rewrite (zget_v mk (be_attr b - 1) 0%Z) by lia. cbn [bind].
  assert (D : tfsfOnCurved mk curved b \/ ~ tfsfOnCurved mk curved b ->
     (if (nth (Z.to_nat (be_attr b - 1)) mk 0 =? 1)%Z then
        (if isIn (be_e1 b) curved then Throw
         else if (negb (be_e2 b =? -1)%Z && isIn (be_e2 b) curved)%bool then Throw else Ok tt)
      else Ok tt) = Ok tt /\ ~ tfsfOnCurved mk curved b \/
     (if (nth (Z.to_nat (be_attr b - 1)) mk 0 =? 1)%Z then
        (if isIn (be_e1 b) curved then Throw
         else if (negb (be_e2 b =? -1)%Z && isIn (be_e2 b) curved)%bool then Throw else Ok tt)
      else Ok tt) = Throw /\ tfsfOnCurved mk curved b).
  { intros _. unfold tfsfOnCurved. destruct (Z.eqb_spec (nth (Z.to_nat (be_attr b - 1)) mk 0) 1)%Z as [Q|Q]; [|left; split; [reflexivity|tauto]].
    destruct (isIn (be_e1 b) curved) eqn:I1; [right; split; [reflexivity|]; split; [exact Q|left; apply isIn_iff; exact I1]|].
    destruct (Z.eqb_spec (be_e2 b) (-1)) as [Q2|Q2]; cbn [negb andb].
    - left. split; [reflexivity|]. intros [_ [K|[K _]]]; [apply isIn_iff in K; congruence|contradiction].
    - destruct (isIn (be_e2 b) curved) eqn:I2; [right; split; [reflexivity|]; split; [exact Q|right; split; [exact Q2|apply isIn_iff; exact I2]]|].
      left. split; [reflexivity|]. intros [_ [K|[_ K]]]; apply isIn_iff in K; congruence. }
  destruct D as [[D1 D2]|[D1 D2]].
  { unfold tfsfOnCurved. destruct (Z.eq_dec (nth (Z.to_nat (be_attr b - 1)) mk 0%Z) 1) as [Q|Q]; [|right; tauto].
    destruct (in_dec Z.eq_dec (be_e1 b) (map fst curved)); [left; tauto|]. destruct (Z.eq_dec (be_e2 b) (-1)); [right; tauto|].
    destruct (in_dec Z.eq_dec (be_e2 b) (map fst curved)); [left; tauto|right; tauto]. }
  - rewrite D1. cbn [bind]. destruct IH as [[E1 E2]|[E1 [b' [I1 E2]]]]; [left|right].
    + split; [exact E1|]. intros b' [<-|I]; [exact D2|apply E2; exact I].
    + split; [exact E1|]. exists b'. split; [right; exact I1|exact E2].
  - rewrite D1. cbn [bind]. right. split; [reflexivity|]. exists b. split; [left; reflexivity|exact D2].
Qed.

Lemma tfsf_check : forall markers bdr curved, Forall (fun mk => Forall (fun b => (1 <= be_attr b <= Z.of_nat (length (snd mk)))%Z) bdr) markers ->
  checkTFSF markers bdr curved = Ok tt /\ (forall mk b, In mk markers -> In b bdr -> ~ tfsfOnCurved (snd mk) curved b) \/
  checkTFSF markers bdr curved = Throw /\ (exists mk b, In mk markers /\ In b bdr /\ tfsfOnCurved (snd mk) curved b).
Proof.
  intros markers bdr curved H. unfold checkTFSF. induction H as [|mk markers Hm HM IH]; cbn [foldM]; [left; split; [reflexivity|intros mk b []]|].
  destruct (tfsf_inner (snd mk) curved bdr Hm) as [[E1 E2]|[E1 [b [I1 E2]]]]; rewrite E1; cbn [bind].
  - destruct IH as [[F1 F2]|[F1 [mk' [b' [J1 [J2 F2]]]]]]; [left|right]; (split; [exact F1|]).
    + intros mk' b' [<-|I] Hb; [apply E2; exact Hb|apply F2; assumption].
    + exists mk', b'. split; [right; exact J1|split; assumption].
  - right. split; [reflexivity|]. exists mk, b. split; [left; reflexivity|split; assumption].
Qed.

(** ** The whole construction *)
Definition goodEl (fc : fecol) (dim : Z) (t : etype) (nf : nat) (Mi : emat) (e : Z) (g : gelem) (el : helem) : Prop :=
  el_id el = e /\ el_dofs el = ge_dofs g /\
  elSize el = fc_n fc t /\ elFlux el = (length (fc_faces fc t) * nf)%nat /\
  length (el_dir el) = 3%nat /\ Forall (fun A => matShape A (fc_n fc t) (fc_n fc t)) (el_dir el) /\
  (forall d i j, (d < 3)%nat -> (i < fc_n fc t)%nat -> (j < fc_n fc t)%nat ->
     entry (dirMat el d) i j = sumN (fc_n fc t) (fun k => e_at Mi i k * e_at (derivMatrix fc dim g d) k j) * kappa t * refDet t / ge_det g) /\
  length (el_nor el) = 3%nat /\ Forall (fun l => length l = (length (fc_faces fc t) * nf)%nat) (el_nor el) /\
  (forall f b, (f < length (fc_faces fc t))%nat -> (b < nf)%nat -> elNormal el (f * nf + b) = unit3 (geoN g f)) /\
  (forall f b, (f < length (fc_faces fc t))%nat -> (b < nf)%nat -> nth (f * nf + b) (el_fscale el) 0 = weightOf (geoN g f) * 2 / ge_det g).

Lemma build_value : forall inv fc dim t nf nodes elems posLin posCur tfsf bdr global alpha conn maps src N,
  supported t dim -> faceNodeNum fc dim t = Ok nf -> refShape fc t nf nodes -> elems <> [] -> Forall (fun g => ge_type g = t) elems ->
  Forall (dofsIn posLin) elems -> Forall (dofsIn posCur) elems ->
  (forall g, In g elems -> ~ curvedBy posLin posCur g -> straight fc dim t g) ->
  exists lin cur, splitElements posLin posCur elems = Ok (lin, cur) /\
  exists Mi L, (forall i j, (i < fc_n fc t)%nat -> (j < fc_n fc t)%nat -> e_at Mi i j = inv (fc_n fc t) (scaledMass fc t (refDet t)) i j) /\
    e_r L = fc_n fc t /\ e_c L = (length (fc_faces fc t) * nf)%nat /\
    (forall i f b, (i < fc_n fc t)%nat -> (f < length (fc_faces fc t))%nat -> (b < nf)%nat ->
      e_at L i (f * nf + b)%nat = sumN (fc_n fc t) (fun k => e_at Mi i k * (faceScale t * overlap (faceN fc t f) k (nth b (nth f nodes []) 0%nat)))) /\
  exists els, Forall2 (fun e el => exists g, zget elems e = Ok g /\ straight fc dim t g /\ goodEl fc dim t nf Mi e g el) lin els /\
  buildNodal inv fc dim N elems posLin posCur tfsf bdr global alpha conn maps src =
    (_ <- checkTFSF tfsf bdr cur ;; Ok (mkNodal N alpha conn maps els (map (fun k => curvedElement N global (snd k)) cur) (rowsOf L) src)).
Proof.
  intros inv fc dim t nf nodes elems posLin posCur tfsf bdr global alpha conn maps src N Hsup Hnf Hs Hne Ht H1 H2 Hst.
  destruct (split_right posLin posCur elems H1 H2) as [lin [cur [E1 [_ [_ [Hl _]]]]]]. exists lin, cur. split; [exact E1|].
  destruct (refs_value inv fc dim t nf nodes elems Hsup Hnf Hs Hne Ht) as [Mi [L [E2 [Rm [Cm [Vm [Rl [Cl Vl]]]]]]]].
  exists Mi, L. split; [exact Vm|]. split; [exact Rl|]. split; [exact Cl|]. split; [exact Vl|].
  assert (K : forall l, (forall e, In e l -> In e lin) -> exists els, Forall2 (fun e el => exists g, zget elems e = Ok g /\ straight fc dim t g /\ goodEl fc dim t nf Mi e g el) l els /\
    mapM (storeElement fc dim Mi elems) l = Ok els).
  { induction l as [|e l IH]; intros Hi; [exists []; split; [constructor|reflexivity]|].
    destruct IH as [els [F E]]; [intros; apply Hi; right; assumption|].
    destruct (proj1 (Hl e) (Hi e (or_introl eq_refl))) as [g [Hz Hc]].
    assert (Hg : straight fc dim t g) by (apply Hst; [exact (zget_in _ _ _ Hz)|exact Hc]).
    destruct (element_value fc dim t nf Hsup Hnf Mi g Rm Cm Hg elems e Hz) as [el [E3 P]].
    exists (el :: els). split; [constructor; [|exact F]; exists g; split; [exact Hz|split; [exact Hg|exact P]]|].
    cbn [mapM]. rewrite E3. cbn [bind]. rewrite E. reflexivity. }
  destruct (K lin (fun e H => H)) as [els [F E]]. exists els. split; [exact F|].
  unfold buildNodal. rewrite E1. cbn [bind snd]. destruct (checkTFSF tfsf bdr cur); cbn [bind]; [|reflexivity|reflexivity].
  rewrite E2. cbn [bind fst snd]. rewrite E. cbn [bind]. reflexivity.
Qed.

(** Every straight element of the operator discretises the equations, with its own mass
    matrix divided by [kappa]. *)
Lemma built_discretises : forall inv fc dim t nf nodes elems posLin posCur tfsf bdr global alpha conn maps src N s,
  supported t dim -> faceNodeNum fc dim t = Ok nf -> refShape fc t nf nodes ->
  isInverse (fc_n fc t) (scaledMass fc t (refDet t)) (inv (fc_n fc t) (scaledMass fc t (refDet t))) ->
  elems <> [] -> Forall (fun g => ge_type g = t) elems ->
  Forall (dofsIn posLin) elems -> Forall (dofsIn posCur) elems ->
  (forall g, In g elems -> ~ curvedBy posLin posCur g -> straight fc dim t g) ->
  buildNodal inv fc dim N elems posLin posCur tfsf bdr global alpha conn maps src = Ok s ->
  forall el, In el (nd_lin s) -> listsFaces s fc t nf nodes el ->
  exists g, zget elems (el_id el) = Ok g /\ el_dofs el = ge_dofs g /\
    discretises s (fun i j => ownMass fc t g i j / kappa t) el (sidesOf fc t nf nodes g el).
Proof.
  intros inv fc dim t nf nodes elems posLin posCur tfsf bdr global alpha conn maps src N s Hsup Hnf Hs Hinv Hne Ht H1 H2 Hst HB el Hel Hlf.
  destruct (build_value inv fc dim t nf nodes elems posLin posCur tfsf bdr global alpha conn maps src N Hsup Hnf Hs Hne Ht H1 H2 Hst)
    as [lin [cur [E1 [Mi [L [Vm [Rl [Cl [Vl [els [F E]]]]]]]]]]].
  rewrite HB in E. destruct (checkTFSF tfsf bdr cur); cbn [bind] in E; [|discriminate E|discriminate E]. injection E as Es.
  assert (Hl : In el els) by (rewrite Es in Hel; exact Hel).
  assert (exists e, exists g, zget elems e = Ok g /\ straight fc dim t g /\ goodEl fc dim t nf Mi e g el) as [e [g [Hz [Hg P]]]].
  { clear - F Hl. induction F as [|e el' l l' H F IH]; [destruct Hl|]. destruct Hl as [<-|Hl]; [exists e; exact H|apply IH; exact Hl]. }
  destruct P as [Pi [Pd [Ps [Pf [_ [_ [Pdir [_ [_ [Pn Pw]]]]]]]]]].
  exists g. rewrite Pi. split; [exact Hz|]. split; [exact Pd|].
  apply (element_discretises inv fc dim t nf nodes Hsup Hs Hinv Mi L g); try assumption. rewrite Es. reflexivity.
Qed.

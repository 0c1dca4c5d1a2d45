(** The operator built on a conforming mesh: the connectivity lists its face nodes, and the
    data are well formed. *)
From Coq Require Import ZArith List Bool Reals Lia Lra Sorted.
From Verif Require Import Common Geo_Spec Face_Model Face_Spec Face_Proofs Nodal_Model Nodal_Spec NodalEnergy_Spec Step_Model Setup_Model Conn_Model Conn_Spec.
From Verif Require Import ConnPos_Proofs ConnWf_Proofs Sub_Proofs InputWall_Proofs Hest_Model Hest_Spec Hest_Proofs HestElem_Proofs HestWeak_Proofs HestBuild_Proofs.
Import ListNotations.
Local Open Scope R_scope.

Lemma sorted_same_Z : forall l m : list Z, StronglySorted Z.lt l -> StronglySorted Z.lt m -> (forall x, In x l <-> In x m) -> l = m.
Proof.
  induction l as [|a l IH]; intros m Sl Sm H.
  - destruct m as [|b m]; [reflexivity|]. exfalso. apply (proj2 (H b)). left. reflexivity.
  - destruct m as [|b m]; [exfalso; apply (proj1 (H a)); left; reflexivity|].
    inversion Sl as [|? ? Sl' Fl]; inversion Sm as [|? ? Sm' Fm]; subst. rewrite Forall_forall in Fl, Fm.
    assert (a = b).
    { destruct (proj1 (H a) (or_introl eq_refl)) as [E|I]; [congruence|]. destruct (proj2 (H b) (or_introl eq_refl)) as [E|J]; [congruence|].
      specialize (Fl b J). specialize (Fm a I). lia. }
    subst b. f_equal. apply IH; [assumption|assumption|]. intros x. split; intros I.
    + destruct (proj1 (H x) (or_intror I)) as [<-|J]; [specialize (Fl a I); lia|exact J].
    + destruct (proj2 (H x) (or_intror I)) as [<-|J]; [specialize (Fm a I); lia|exact J].
Qed.
Lemma sorted_map_fst : forall (l : list (Z * Z)), StronglySorted (fun p q => (fst p < fst q)%Z) l -> StronglySorted Z.lt (map fst l).
Proof.
  intros l H. induction H as [|a l HS IH HF]; cbn [map]; constructor; [exact IH|]. rewrite Forall_forall in *. intros x Hx.
  apply in_map_iff in Hx as [y [<- Hy]]. apply HF, Hy.
Qed.
Lemma sorted_gdof : forall n e l, StronglySorted lt l -> StronglySorted Z.lt (map (gdof n e) l).
Proof.
  intros n e l H. induction H as [|a l HS IH HF]; cbn [map]; constructor; [exact IH|]. rewrite Forall_forall in *. intros x Hx.
  apply in_map_iff in Hx as [y [<- Hy]]. specialize (HF y Hy). unfold gdof. lia.
Qed.

Section Mesh.
Variables (m : cmesh) (mnodes : Z -> list (nat * nat)) (fc : fecol) (t : etype) (nf : nat) (ref : list (list nat)) (elems : list gelem) (conn : list (Z * Z)).
Let n := fc_n fc t.
Let NF := length (fc_faces fc t).
Hypothesis G : conforming m n mnodes.
Hypothesis HG : isGlobal m n mnodes conn.
Hypothesis SM : sameMesh m mnodes fc t nf ref elems.
Hypothesis Hshape : refShape fc t nf ref.
Definition fAt (e : Z) (lf : nat) : Z := nth lf (nth (Z.to_nat e) (cm_elface m) []) 0%Z.
Definition posAt (e : Z) (lf b : nat) : Z := ((e * Z.of_nat NF + Z.of_nat lf) * Z.of_nat nf + Z.of_nat b)%Z.

Lemma key_at : forall e lf, inR e (Z.of_nat (cm_ne m)) -> (lf < NF)%nat -> isKey m e (fAt e lf).
Proof. intros e lf He Hl. split; [exact He|]. apply nth_In. rewrite (proj1 (sm_uni _ _ _ _ _ _ _ SM) e He). exact Hl. Qed.

Lemma block_at : forall e lf, inR e (Z.of_nat (cm_ne m)) -> (lf < NF)%nat -> exists B, isBlock m n mnodes e (fAt e lf) B /\ length B = nf /\
  map fst B = map (gdof n e) (nth lf ref []) /\ forall b, (b < nf)%nat -> valAt conn (posAt e lf b) = nth b B (0, 0)%Z.
Proof.
  intros e lf He Hl. destruct (positions_block m n mnodes conn NF nf G HG (sm_uni _ _ _ _ _ _ _ SM)) as [_ P].
  destruct (P e lf He Hl) as [B [HB [LB V]]]. exists B. split; [exact HB|]. split; [exact LB|]. split; [|exact V].
  destruct (nodes_of fc t nf ref Hshape lf Hl) as [[_ [_ [_ [S0 _]]]] _].
  apply sorted_same_Z; [apply sorted_map_fst, (proj1 HB)|apply sorted_gdof; exact S0|]. intros x. rewrite !in_map_iff. pose proof (key_at e lf He Hl) as K. split.
  - intros [p [<- I]]. apply HB in I as [ij [Iij ->]]. destruct (own_dof m n mnodes G e _ ij K Iij) as [D _]. exists (ownLocal m e (fAt e lf) ij).
    split; [symmetry; exact D|]. apply (sm_ref _ _ _ _ _ _ _ SM e lf He Hl). apply in_map_iff. exists ij. split; [reflexivity|exact Iij].
  - intros [k [<- I]]. apply (sm_ref _ _ _ _ _ _ _ SM e lf He Hl) in I. apply in_map_iff in I as [ij [<- Iij]].
    destruct (own_dof m n mnodes G e _ ij K Iij) as [D _]. exists (seenFrom m n e (fAt e lf) ij). split; [exact D|]. apply HB. exists ij. split; [exact Iij|reflexivity].
Qed.

Lemma conn_lists : forall s el, nd_global s = conn -> elSize el = n -> elFlux el = (NF * nf)%nat -> inR (el_id el) (Z.of_nat (cm_ne m)) ->
  listsFaces s fc t nf ref el.
Proof.
  intros s el Eg Es Ef Hi f b Hf Hb. destruct (block_at (el_id el) f Hi Hf) as [B [HB [LB [M V]]]].
  assert (P : elPos el (f * nf + b) = posAt (el_id el) f b) by (unfold elPos, posAt; rewrite Ef; lia).
  unfold pairAt. rewrite Eg, P. change (nth (Z.to_nat ?p) conn (0, 0)%Z) with (valAt conn p). rewrite V by exact Hb.
  destruct (nodes_of fc t nf ref Hshape f Hf) as [_ Hl].
  unfold elDof. rewrite Es. pose proof (map_nth fst B (0, 0)%Z b) as Q. cbn [fst] in Q. rewrite <- Q, M.
  rewrite nth_indep with (d' := gdof n (el_id el) 0%nat) by (rewrite map_length; lia). apply (map_nth (gdof n (el_id el))).
Qed.
End Mesh.

(** ** Well-formed data *)
Section Wf.
Variables (inv : nat -> mat -> mat) (fc : fecol) (dim : Z) (t : etype) (nf : nat) (ref : list (list nat)) (elems : list gelem)
  (posLin posCur : list vertex) (tfsf : list (cond * list Z)) (bdr : list bdrElem) (global : Z -> list (Z * R)) (alpha : R)
  (conn : list (Z * Z)) (maps : bdrMaps) (src : list (option (Z -> Z -> Z -> R)))
  (m : cmesh) (mnodes : Z -> list (nat * nat)).
Let n := fc_n fc t.
Let NF := length (fc_faces fc t).
Hypothesis Hsup : supported t dim.
Hypothesis Hnf : faceNodeNum fc dim t = Ok nf.
Hypothesis Hshape : refShape fc t nf ref.
Hypothesis Hne : elems <> [].
Hypothesis Ht : Forall (fun g => ge_type g = t) elems.
Hypothesis H1 : Forall (dofsIn posLin) elems.
Hypothesis H2 : Forall (dofsIn posCur) elems.
Hypothesis Hst : forall g, In g elems -> ~ curvedBy posLin posCur g -> straight fc dim t g.
Hypothesis G : conforming m n mnodes.
Hypothesis HG : isGlobal m n mnodes conn.
Hypothesis SM : sameMesh m mnodes fc t nf ref elems.
Hypothesis HR : rowsIn (cm_N m) global.
Hypothesis Hc1 : Forall (fun ab => inR (fst ab) (cm_N m) /\ inR (snd ab) (cm_N m)) conn.
Hypothesis Hc2 : wfB conn (bPEC maps) /\ wfB conn (bPMC maps) /\ wfB conn (bSMA maps) /\ wfIB conn (iPEC maps) /\ wfIB conn (iPMC maps) /\ wfIB conn (iSMA maps) /\ wfIB conn (bTFSF maps).
Hypothesis Ha : alpha <> 0 \/ vmapB (bSMA maps) = [].
Variable s : nodal.
Hypothesis HB : buildNodal inv fc dim (cm_N m) elems posLin posCur tfsf bdr global alpha conn maps src = Ok s.

Lemma built_facts : exists lin cur Mi L, splitElements posLin posCur elems = Ok (lin, cur) /\
  (forall i j, (i < n)%nat -> (j < n)%nat -> e_at Mi i j = inv n (scaledMass fc t (refDet t)) i j) /\
  Forall2 (fun e el => exists g, zget elems e = Ok g /\ straight fc dim t g /\ goodEl fc dim t nf Mi e g el) lin (nd_lin s) /\
  e_r L = n /\ e_c L = (NF * nf)%nat /\
  s = mkNodal (cm_N m) alpha conn maps (nd_lin s) (map (fun k => curvedElement (cm_N m) global (snd k)) cur) (rowsOf L) src.
Proof.
  destruct (build_value inv fc dim t nf ref elems posLin posCur tfsf bdr global alpha conn maps src (cm_N m) Hsup Hnf Hshape Hne Ht H1 H2 Hst)
    as [lin [cur [E1 [Mi [L [Vm [Rl [Cl [Vl [els [F E]]]]]]]]]]].
  rewrite HB in E. destruct (checkTFSF tfsf bdr cur); cbn [bind] in E; [|discriminate E|discriminate E]. injection E as Es.
  exists lin, cur, Mi, L. split; [exact E1|]. split; [exact Vm|]. rewrite Es. cbn [nd_lin]. split; [exact F|]. split; [exact Rl|]. split; [exact Cl|]. reflexivity.
Qed.

Lemma dofs_of : forall e g, zget elems e = Ok g -> ge_dofs g = map (gdof n e) (seq 0 n) /\ inR e (Z.of_nat (cm_ne m)).
Proof. intros e g Hz. split; [apply (sm_dofs _ _ _ _ _ _ _ SM); exact Hz|]. pose proof (zget_len _ _ _ Hz) as Q. rewrite (sm_n _ _ _ _ _ _ _ SM) in Q. exact Q. Qed.
Lemma gdof_inj : forall e e' k k', (k < n)%nat -> (k' < n)%nat -> gdof n e k = gdof n e' k' -> e = e' /\ k = k'.
Proof.
  intros e e' k k' Hk Hk' E. unfold gdof in E. assert (e = e') by nia. subst. split; [reflexivity|lia].
Qed.
Lemma gdof_range : forall e k, inR e (Z.of_nat (cm_ne m)) -> (k < n)%nat -> inR (gdof n e k) (cm_N m).
Proof. intros e k He Hk. rewrite (g_N _ _ _ G). unfold inR, gdof in *. nia. Qed.

Lemma rows_of : forall dofs, cu_rows (curvedElement (cm_N m) global dofs) = flat_map (fun d => map (fun ft => (d + ft * cm_N m, global (d + ft * cm_N m)))%Z comps6) dofs.
Proof. reflexivity. Qed.

Lemma NoDup_flat : forall {A B} (f : A -> list B) l, NoDup l -> (forall a, In a l -> NoDup (f a)) ->
  (forall a a' b, In a l -> In a' l -> In b (f a) -> In b (f a') -> a = a') -> NoDup (flat_map f l).
Proof.
  intros A B f l Hn. induction Hn as [|a l Ha0 Hn IH]; intros HF HD; cbn [flat_map]; [constructor|].
  assert (K : NoDup (flat_map f l)) by (apply IH; [intros; apply HF; right; assumption|intros x y b I J; apply HD; right; assumption]).
  assert (Q : NoDup (f a)) by (apply HF; left; reflexivity).
  assert (D : forall b, In b (f a) -> ~ In b (flat_map f l)).
  { intros b I J. apply in_flat_map in J as [a' [J1 J2]]. assert (a = a') by (apply (HD a a' b); [left; reflexivity|right; exact J1|exact I|exact J2]). congruence. }
  clear - K Q D. induction Q as [|b l0 Hb Q IH]; [exact K|]. cbn [app]. constructor.
  - intros I. apply in_app_or in I as [I|I]; [contradiction|]. apply (D b); [left; reflexivity|exact I].
  - apply IH. intros; apply D; right; assumption.
Qed.

Lemma wf_built : wfNodal s.
Proof.
  destruct built_facts as [lin [cur [Mi [L [E1 [_ [F [Rl [Cl Es]]]]]]]]].
  destruct (split_right posLin posCur elems H1 H2) as [lin' [cur' [E1' [Sl [Sc [Hl Hc]]]]]]. rewrite E1 in E1'. injection E1' as <- <-.
  assert (HN : nd_N s = cm_N m) by (rewrite Es; reflexivity). assert (Hg : nd_global s = conn) by (rewrite Es; reflexivity).
  assert (Hb : nd_bdr s = maps) by (rewrite Es; reflexivity). assert (Hal : nd_alpha s = alpha) by (rewrite Es; reflexivity).
  assert (HcuR : nd_cur s = map (fun k => curvedElement (cm_N m) global (snd k)) cur) by (rewrite Es; reflexivity).
  assert (Hli : nd_lift s = rowsOf L) by (rewrite Es; reflexivity).
  assert (HEl : forall el, In el (nd_lin s) -> exists g, zget elems (el_id el) = Ok g /\ In (el_id el) lin /\ goodEl fc dim t nf Mi (el_id el) g el).
  { intros el I. clear - F I. assert (Q : forall l l', Forall2 (fun e el => exists g, zget elems e = Ok g /\ straight fc dim t g /\ goodEl fc dim t nf Mi e g el) l l' -> In el l' ->
      exists g, zget elems (el_id el) = Ok g /\ In (el_id el) l /\ goodEl fc dim t nf Mi (el_id el) g el).
    { intros l l' F'. induction F' as [|e el' l l' [g [Hz [_ P]]] F' IH]; intros I'; [destruct I'|]. destruct I' as [<-|I'].
      - assert (Ee : el_id el' = e) by (apply P). rewrite Ee. exists g. split; [exact Hz|]. split; [left; reflexivity|exact P].
      - destruct (IH I') as [g' [Q1 [Q2 Q3]]]. exists g'. split; [exact Q1|]. split; [right; exact Q2|exact Q3]. }
    apply (Q lin (nd_lin s)); assumption. }
  assert (ids : map el_id (nd_lin s) = lin).
  { clear - F. revert F. generalize (nd_lin s). intros l' F. induction F as [|e el l l' [g [_ [_ P]]] F IH]; [reflexivity|]. cbn [map]. rewrite IH. f_equal. apply P. }
  assert (NC : forall e g k, zget elems e = Ok g -> In e lin -> (k < n)%nat -> inCurved s (gdof n e k) = false).
  { intros e g k Hz Hi Hk. destruct (inCurved s (gdof n e k)) eqn:Q; [|reflexivity]. exfalso. unfold inCurved in Q. rewrite HcuR in Q. apply existsb_exists in Q as [c [I Q]].
    apply in_map_iff in I as [[e' ds] [<- I]]. cbn [snd curvedElement cu_dofs] in Q. apply existsb_exists in Q as [d [Id Q]]. apply Z.eqb_eq in Q. subst d.
    apply Hc in I as [g' [Hz' [Hcu ->]]]. rewrite (proj1 (dofs_of e' g' Hz')) in Id. apply in_map_iff in Id as [k' [Ek Ik]]. apply in_seq in Ik.
    assert (e' = e /\ k' = k) as [-> ->] by (apply gdof_inj; [lia|exact Hk|exact Ek]). apply Hl in Hi as [g'' [Hz'' Hn]]. congruence. }
  assert (RW : forall r, In r (curRows s) <-> exists e g k c, zget elems e = Ok g /\ curvedBy posLin posCur g /\ (k < n)%nat /\ inR c 6 /\
    r = (gdof n e k + c * cm_N m, global (gdof n e k + c * cm_N m))%Z).
  { intros r. unfold curRows. rewrite HcuR, in_flat_map. split.
    - intros [c [I Ir]]. apply in_map_iff in I as [[e ds] [<- I]]. apply Hc in I as [g [Hz [Hcu ->]]]. cbn [snd] in Ir. rewrite rows_of in Ir.
      apply in_flat_map in Ir as [d [Id Ir]]. rewrite (proj1 (dofs_of e g Hz)) in Id. apply in_map_iff in Id as [k [<- Ik]]. apply in_seq in Ik.
      apply in_map_iff in Ir as [ft [<- If]]. exists e, g, k, ft. split; [exact Hz|]. split; [exact Hcu|]. split; [lia|]. split; [|reflexivity].
      unfold inR. cbn [comps6 In] in If. lia.
    - intros [e [g [k [c [Hz [Hcu [Hk [Hc6 ->]]]]]]]]. exists (curvedElement (cm_N m) global (ge_dofs g)). split.
      + apply in_map_iff. exists (e, ge_dofs g). split; [reflexivity|]. apply Hc. exists g. split; [exact Hz|]. split; [exact Hcu|reflexivity].
      + rewrite rows_of. apply in_flat_map. exists (gdof n e k). split; [rewrite (proj1 (dofs_of e g Hz)); apply in_map_iff; exists k; split; [reflexivity|apply in_seq; lia]|].
        apply in_map_iff. exists c. split; [reflexivity|]. unfold inR in Hc6. cbn [comps6 In]. lia. }
  unfold wfNodal. rewrite HN, Hg, Hb, Hal.
  split; [rewrite (g_N _ _ _ G); lia|]. split; [exact Hc1|]. destruct Hc2 as [W1 [W2 [W3 [W4 [W5 [W6 W7]]]]]].
  do 7 (split; [assumption|]). split; [exact Ha|]. split.
  { apply Forall_forall. intros el I. destruct (HEl el I) as [g [Hz [Hi P]]]. destruct (dofs_of _ _ Hz) as [Ed Er].
    destruct P as [Pi [Pd [Ps [Pf [Pl [Psh [_ [Pl3 [Psn _]]]]]]]]]. unfold wfEl. rewrite Ps. fold n. rewrite HN, Hg, Hli, Pf.
    assert (ED : forall k, elDof el k = gdof n (el_id el) k) by (intros k; unfold elDof, gdof; rewrite Ps; reflexivity).
    split; [exact (proj1 Er)|]. split.
    { intros k Hk. rewrite ED. split; [|split; [apply gdof_range; assumption|apply (NC _ g); assumption]].
      rewrite Pd, Ed. rewrite nth_indep with (d' := gdof n (el_id el) 0%nat) by (rewrite map_length, seq_length; exact Hk).
      rewrite (map_nth (gdof n (el_id el))), seq_nth by exact Hk. reflexivity. }
    split; [exact Pl|]. split; [exact Psh|]. split; [exact Pl3|]. split; [exact Psn|].
    split; [pose proof (rows_shape L) as Q; rewrite Rl, Cl in Q; exact Q|].
    intros i Hi'. assert (nf <> 0)%nat by nia.
    assert (Ei : i = ((i / nf) * nf + i mod nf)%nat) by (rewrite Nat.mul_comm; apply Nat.div_mod; assumption).
    assert (Hf : (i / nf < length (fc_faces fc t))%nat) by (apply Nat.div_lt_upper_bound; [assumption|lia]).
    assert (Hbb : (i mod nf < nf)%nat) by (apply Nat.mod_upper_bound; assumption).
    split.
    - destruct (positions_block m n mnodes conn NF nf G HG (sm_uni _ _ _ _ _ _ _ SM)) as [LL _]. rewrite LL. unfold inR, elPos. rewrite Pf. unfold inR in Er. unfold NF in *. nia.
    - exists (nth (i mod nf) (nth (i / nf) ref []) 0%nat). split.
      + destruct (nodes_of fc t nf ref Hshape (i / nf) Hf) as [[_ [_ [_ [_ [B0 _]]]]] Hl0]. rewrite Forall_forall in B0. apply B0, nth_In. lia.
      + rewrite Ei at 1. apply (conn_lists m mnodes fc t nf ref elems conn G HG SM Hshape s el Hg Ps Pf Er); assumption. }
  split; [rewrite ids; apply sorted_nodup; exact Sl|].
  split. { intros el1 el2 I1 I2. destruct (HEl el1 I1) as [g1 [_ [_ P1]]]. destruct (HEl el2 I2) as [g2 [_ [_ P2]]].
    destruct P1 as [_ [_ [P1 _]]]. destruct P2 as [_ [_ [P2 _]]]. congruence. }
  split.
  - unfold curRows. rewrite HcuR. rewrite flat_map_concat_map, concat_map, !map_map, <- flat_map_concat_map.
    apply NoDup_flat.
    + apply (NoDup_map_inv fst). apply sorted_nodup. exact Sc.
    + intros [e ds] I. apply Hc in I as [g [Hz [_ ->]]]. cbn [snd]. rewrite rows_of, (proj1 (dofs_of e g Hz)).
      rewrite flat_map_concat_map, concat_map, !map_map, <- flat_map_concat_map. apply NoDup_flat.
      * apply seq_NoDup.
      * intros k Ik. rewrite map_map. cbn [comps6 map fst]. apply in_seq in Ik. assert (0 < cm_N m)%Z by (pose proof (gdof_range e k (proj2 (dofs_of e g Hz)) ltac:(lia)) as Q; unfold inR in Q; lia).
        repeat constructor; cbn [In]; lia.
      * intros k k' b Ik Ik' I1 I2. apply in_seq in Ik, Ik'. rewrite map_map in I1, I2. apply in_map_iff in I1 as [c [<- Ic]]. apply in_map_iff in I2 as [c' [Eq Ic']]. cbn [fst] in Eq.
        pose proof (gdof_range e k (proj2 (dofs_of e g Hz)) ltac:(lia)) as Q1. pose proof (gdof_range e k' (proj2 (dofs_of e g Hz)) ltac:(lia)) as Q2. unfold inR in Q1, Q2.
        assert (c = c') by nia. subst c'. apply (gdof_inj e e k k'); [lia|lia|lia].
    + intros [e ds] [e' ds'] b I I' J J'. apply Hc in I as [g [Hz [_ ->]]]. apply Hc in I' as [g' [Hz' [_ ->]]]. cbn [snd] in J, J'.
      rewrite rows_of, (proj1 (dofs_of e g Hz)) in J. rewrite rows_of, (proj1 (dofs_of e' g' Hz')) in J'.
      apply in_map_iff in J as [r [<- J]]. apply in_map_iff in J' as [r' [Eq J']].
      apply in_flat_map in J as [d [Id J]]. apply in_flat_map in J' as [d' [Id' J']]. apply in_map_iff in Id as [k [<- Ik]]. apply in_map_iff in Id' as [k' [<- Ik']]. apply in_seq in Ik, Ik'.
      apply in_map_iff in J as [c [<- Ic]]. apply in_map_iff in J' as [c' [<- Ic']]. cbn [fst] in Eq.
      pose proof (gdof_range e k (proj2 (dofs_of e g Hz)) ltac:(lia)) as Q1. pose proof (gdof_range e' k' (proj2 (dofs_of e' g' Hz')) ltac:(lia)) as Q2. unfold inR in Q1, Q2.
      assert (c = c') by nia. subst c'. assert (e = e' /\ k = k') as [<- _] by (apply gdof_inj; lia). congruence.
  - apply Forall_forall. intros r I. apply RW in I as [e [g [k [c [Hz [Hcu [Hk [Hc6 ->]]]]]]]]. cbn [fst snd].
    pose proof (gdof_range e k (proj2 (dofs_of e g Hz)) Hk) as Q. exists (gdof n e k), c. split; [exact Q|]. split; [exact Hc6|]. split; [lia|]. split.
    + unfold inCurved. rewrite HcuR. apply existsb_exists. exists (curvedElement (cm_N m) global (ge_dofs g)). split.
      * apply in_map_iff. exists (e, ge_dofs g). split; [reflexivity|]. apply Hc. exists g. split; [exact Hz|split; [exact Hcu|reflexivity]].
      * cbn [curvedElement cu_dofs]. apply existsb_exists. exists (gdof n e k). split; [|apply Z.eqb_refl].
        rewrite (proj1 (dofs_of e g Hz)). apply in_map_iff. exists k. split; [reflexivity|apply in_seq; lia].
    + apply HR. unfold inR in *. nia.
Qed.
End Wf.

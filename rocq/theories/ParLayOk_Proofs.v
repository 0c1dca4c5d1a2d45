(** Thin layers on several processes: what succeeds on one process succeeds on each of several. *)
From Coq Require Import ZArith List Bool Reals Lia Lra FunctionalExtensionality.
From Verif Require Import Common Evol_Model Evol_Spec EvolLayer_Spec Evol_Proofs EvolHist_Proofs EvolRhs_Proofs EvolLayer_Proofs Par_Model Par_Spec ParMult_Proofs ParLay_Model ParLay_Spec ParLay_Proofs ParLayRun_Proofs.
Import ListNotations.
Local Open Scope R_scope.

Lemma every_ok : forall {A B} (f : A -> res B) (l : list A), (forall x, In x l -> exists y, f x = Ok y) -> exists ys, mapM f l = Ok ys.
Proof.
  intros A B f l. induction l as [|x l IH]; intros H; [exists []; reflexivity|]. cbn [mapM].
  destruct (H x (or_introl eq_refl)) as [y Hy]. destruct IH as [ys Hys]; [intros z Hz; apply H; right; exact Hz|].
  rewrite Hy, Hys. cbn [bind]. exists (y :: ys). reflexivity.
Qed.
Lemma ok_every : forall {A B} (f : A -> res B) (l : list A) ys, mapM f l = Ok ys -> forall x, In x l -> exists y, f x = Ok y.
Proof.
  intros A B f l. induction l as [|a l IH]; intros ys H x I; [destruct I|]. cbn [mapM] in H.
  destruct (f a) as [b| |] eqn:Ef; cbn [bind] in H; try discriminate. destruct (mapM f l) as [l2| |] eqn:Et; cbn [bind] in H; try discriminate.
  destruct I as [<-|I]; [exists b; exact Ef|]. exact (IH l2 eq_refl x I).
Qed.
Section Loops.
Variable A : matrix.
Variable X : Type.
Variable loop : (X -> wdyn -> res (sstate * wdyn)) -> list X -> wdyn -> res (list sstate * wdyn).
Hypothesis loop_nil : forall f d, loop f [] d = Ok ([], d).
Hypothesis loop_cons : forall f s r d, loop f (s :: r) d = bind (f s d) (fun p => let '(s', d') := p in bind (loop f r d') (fun q => let '(r', d'') := q in Ok (s' :: r', d''))).
Lemma loop_in : forall f ss d r, (forall s d s1 d1, In s ss -> cache_ok A (d_cache d) -> f s d = Ok (s1, d1) -> cache_ok A (d_cache d1)) ->
  cache_ok A (d_cache d) -> loop f ss d = Ok r -> forall s, In s ss -> exists d0 q, cache_ok A (d_cache d0) /\ f s d0 = Ok q.
Proof.
  intros f ss. induction ss as [|a ss IH]; intros d r Hf Hc H s I; [destruct I|]. rewrite loop_cons in H.
  destruct (f a d) as [[s1 d1]| |] eqn:Ea; cbn [bind] in H; try discriminate. destruct (loop f ss d1) as [[r2 d2]| |] eqn:El; cbn [bind] in H; try discriminate.
  destruct I as [<-|I]; [exists d, (s1, d1); auto|]. apply (IH d1 (r2, d2)); auto. { intros; eapply Hf; eauto; right; auto. } eapply Hf; eauto; left; auto.
Qed.
Lemma loop_ok : forall f ss d, (forall s d, In s ss -> cache_ok A (d_cache d) -> exists s1 d1, f s d = Ok (s1, d1) /\ cache_ok A (d_cache d1)) ->
  cache_ok A (d_cache d) -> exists ss1 d1, loop f ss d = Ok (ss1, d1).
Proof.
  intros f ss. induction ss as [|a ss IH]; intros d Hf Hc; [rewrite loop_nil; eauto|]. rewrite loop_cons.
  destruct (Hf a d (or_introl eq_refl) Hc) as (s1 & d1 & -> & Hc1). cbn [bind]. destruct (IH d1) as (s2 & d2 & ->); auto. { intros; apply Hf; auto; right; auto. }
  cbn [bind]. eauto.
Qed.
End Loops.

Section Ok.
Variable inv : list (list R) -> list R -> list R.
Lemma advance_kept : forall w base dt gh s d s1 d1, sane w -> 0 < dt -> cache_ok (w_A w) (d_cache d) -> advance inv w base dt gh s d = Ok (s1, d1) -> cache_ok (w_A w) (d_cache d1).
Proof.
  intros w base dt gh s d s1 d1 Hs Hdt Hc H. pose proof (advance_agree inv w base dt gh s d d Hs Hdt (conj Hc Hc)) as A. rewrite H in A. cbn in A. apply A.
Qed.
Lemma advance_two : forall w base dt gh gh' s s' d0 d q, sane w -> 0 < dt -> cache_ok (w_A w) (d_cache d0) -> cache_ok (w_A w) (d_cache d) ->
  s_fs s' = s_fs s -> (forall a k all, gh' a k all = gh a k all) ->
  advance inv w base dt gh s d0 = Ok q -> exists s1 d1, advance inv w base dt gh' s' d = Ok (s1, d1) /\ cache_ok (w_A w) (d_cache d1).
Proof.
  intros w base dt gh gh' s s' d0 d q Hs Hdt H0 Hd Ef Eg H.
  assert (E : gh' = gh) by (extensionality a; extensionality k; extensionality l; apply Eg). subst gh'.
  pose proof (advance_agree inv w base dt gh s d0 d Hs Hdt (conj H0 Hd)) as A. rewrite H in A. cbn in A.
  destruct (advance inv w base dt gh s d) as [[s1 d1]| |] eqn:E; try contradiction.
  unfold advance in E |- *. rewrite Ef. destruct (nsteps (w_rec w) dt) as [k| |]; cbn [bind] in *; try discriminate. cbv zeta in *.
  destruct (foldM _ _ _) as [d2| |]; cbn [bind] in *; try discriminate. injection E as E1 E2. subst d2. exists (with_fs s' (d_all d1)), d1. split; [reflexivity|apply A].
Qed.
Variable N : nat.
Variable own : list nat.
Hypothesis Bo : forall d, In d own -> (d < N)%nat.
Local Notation nn := (length own).
Lemma get_part : forall v d k, length v = (6 * N)%nat -> sameDof own d k -> getEH (part N own v) (nZ nn) k = getEH v (nZ N) d.
Proof.
  intros v d k Lv H. pose proof H as (i & Hi & Ek & Ed). pose proof (Bo _ (nth_In own 0%nat Hi)) as B.
  unfold nZ. pose proof (part_len N own v) as Lp.
  destruct (getEH_ok v (Z.of_nat N) d) as (l & El & Ll & Vl); [lia|lia|]. destruct (getEH_ok (part N own v) (Z.of_nat nn) k) as (l' & El' & Ll' & Vl'); [lia|lia|].
  rewrite El, El'. f_equal. apply (nth_ext l' l 0 0); [congruence|]. intros j Hj. rewrite Ll' in Hj.
  assert (Hc : (0 <= Z.of_nat j < 6)%Z) by lia. pose proof (Vl _ Hc) as V1. pose proof (Vl' _ Hc) as V2. unfold nthZ in V1, V2. rewrite Nat2Z.id in V1, V2.
  rewrite V1, V2. exact (dof_part N own v d k (Z.of_nat j) H Hc).
Qed.
Lemma right_two : forall d k, d = (-1)%Z /\ k = (-1)%Z \/ sameDof own d k -> (k =? -1)%Z = (d =? -1)%Z.
Proof. intros d k [[-> ->]|(i & Hi & -> & ->)]; [reflexivity|]. rewrite !(proj2 (Z.eqb_neq _ _)) by lia. reflexivity. Qed.
Lemma ghosts_two : forall v ws ws', length v = (6 * N)%nat -> layerOf own ws ws' -> ghostsAt nn (part N own v) (snd ws') = ghostsAt N v (snd ws).
Proof.
  intros v ws ws' Lv (_ & Er & _ & Hl & Hr). unfold ghostsAt. rewrite (get_part v _ _ Lv Hl), (right_two _ _ Hr), Er. destruct (getEH v (nZ N) _); cbn [bind]; try reflexivity.
  destruct (s_gr (snd ws) =? -1)%Z eqn:E; [reflexivity|]. destruct Hr as [[H _]|Hr]; [apply Z.eqb_neq in E; contradiction|]. rewrite (get_part v _ _ Lv Hr). reflexivity.
Qed.
Lemma get_there : forall v d k l, sameDof own d k -> getEH v (nZ N) d = Ok l -> getEH (part N own v) (nZ nn) k = Ok l.
Proof.
  intros v d k l H E. pose proof H as (i & Hi & Ek & Ed). pose proof (Bo _ (nth_In own 0%nat Hi)) as B.
  unfold nZ in *. pose proof (part_len N own v) as Lp.
  destruct (getEH_val _ _ _ _ E) as (Ll & Vl). destruct (getEH_ok (part N own v) (Z.of_nat nn) k) as (l' & El' & Ll' & Vl'); [lia|lia|].
  rewrite El'. f_equal. apply (nth_ext l' l 0 0); [congruence|]. intros j Hj. rewrite Ll' in Hj.
  assert (Hc : (0 <= Z.of_nat j < 6)%Z) by lia. pose proof (Vl _ Hc) as V1. pose proof (Vl' _ Hc) as V2. unfold nthZ in V1, V2. rewrite Nat2Z.id in V1, V2.
  rewrite V1, V2. exact (dof_part N own v d k (Z.of_nat j) H Hc).
Qed.
Lemma ghosts_part : forall v ws ws' q, layerOf own ws ws' -> ghostsAt N v (snd ws) = Ok q -> ghostsAt nn (part N own v) (snd ws') = ghostsAt N v (snd ws).
Proof.
  intros v ws ws' q (_ & Er & _ & Hl & Hr) E. unfold ghostsAt in *. rewrite (right_two _ _ Hr), Er. destruct (getEH v (nZ N) (s_gl (snd ws))) as [l| |] eqn:E1; cbn [bind] in *; try discriminate.
  rewrite (get_there _ _ _ _ Hl E1). cbn [bind].
  destruct (s_gr (snd ws) =? -1)%Z eqn:Ez; [reflexivity|]. destruct Hr as [[H _]|Hr]; [apply Z.eqb_neq in Ez; contradiction|].
  destruct (getEH v (nZ N) (s_gr (snd ws))) as [l2| |] eqn:E2; cbn [bind] in *; try discriminate. rewrite (get_there _ _ _ _ Hr E2). reflexivity.
Qed.
Lemma update_two : forall v ws ws' n gh all, length v = (6 * N)%nat -> layerOf own ws ws' -> updateGhosts n gh (part N own v) (nZ nn) (snd ws') all = updateGhosts n gh v (nZ N) (snd ws) all.
Proof.
  intros v ws ws' n gh all Lv (_ & Er & _ & Hl & Hr). unfold updateGhosts. rewrite (get_part v _ _ Lv Hl), (right_two _ _ Hr), Er. destruct (getEH v (nZ N) _); cbn [bind]; try reflexivity.
  destruct (fillLeft _ _ _ _); cbn [bind]; try reflexivity.
  destruct (s_gr (snd ws) =? -1)%Z eqn:E; [reflexivity|]. destruct Hr as [[H _]|Hr]; [apply Z.eqb_neq in E; contradiction|]. rewrite (get_part v _ _ Lv Hr). reflexivity.
Qed.
Lemma loud_two : forall v ws ws', length v = (6 * N)%nat -> layerOf own ws ws' -> loud nn (part N own v) (snd ws') = loud N v (snd ws).
Proof.
  intros v ws ws' Lv (_ & Er & Ef & Hl & Hr). unfold loud, ifaceNormSq. rewrite Ef, (get_part v _ _ Lv Hl), (right_two _ _ Hr). destruct Rle_dec; [reflexivity|]. destruct (getEH v (nZ N) _); cbn [bind]; try reflexivity.
  destruct (s_gr (snd ws) =? -1)%Z eqn:E; [reflexivity|]. destruct Hr as [[H _]|Hr]; [apply Z.eqb_neq in E; contradiction|]. rewrite (get_part v _ _ Lv Hr). reflexivity.
Qed.
Lemma loud_ok : forall v w s, length v = (6 * N)%nat -> Evol_Spec.fits N (w, s) -> exists b, loud N v s = Ok b.
Proof.
  intros v w s Lv (Hl & Hr & _). unfold loud, ifaceNormSq. destruct Rle_dec; [eauto|]. unfold nZ.
  destruct (getEH_ok v (Z.of_nat N) (s_gl s)) as (l & -> & _); [lia|lia|]. cbn [bind]. destruct (s_gr s =? -1)%Z eqn:E; cbn [bind]; [eauto|].
  apply Z.eqb_neq in E. destruct Hr as [Hr|Hr]; [contradiction|]. destruct (getEH_ok v (Z.of_nat N) (s_gr s)) as (r & -> & _); [lia|lia|]. cbn [bind]. eauto.
Qed.
Lemma any_ok : forall k v l, (forall s, In s l -> exists b, loud k v s = Ok b) -> exists b, anyLoud k v l = Ok b.
Proof.
  intros k v l. induction l as [|s l IH]; intros H; cbn [anyLoud]; [eauto|]. destruct (H s (or_introl eq_refl)) as (b & ->). cbn [bind]. destruct b; [eauto|]. apply IH. intros; apply H; right; auto.
Qed.
Variable rk : prank.
Local Notation g := (length (pr_nbr rk)).
Local Notation ready := (ready N own rk inv).
Local Notation mid := (mid N own rk inv).
Lemma commit_ok : forall e e' t dt x c, ready e e' -> length x = (6 * N)%nat -> commit N e t dt x = Ok c -> exists c', commit nn e' t dt (part N own x) = Ok c'.
Proof.
  intros e e' t dt x c (_ & _ & GL & _ & (_ & Sh & _)) Lx E. unfold commit in *.
  destruct (mapM _ (e_groups e)) as [cps| |] eqn:Em; cbn [bind] in E; try discriminate. clear E.
  destruct (every_ok (fun h => mapM (fun s => gh <- ghostsAt nn (part N own x) s ;; Ok (s_fs s, gh)) (g_states h)) (e_groups e')) as (ys & ->); [|cbn [bind]; eauto].
  intros h' I'. apply every_ok. intros s' J'. destruct (Sh (g_w h', s')) as ([w s] & I & Lw); [apply in_layers; exists h'; auto|].
  apply in_layers in I. destruct I as (h & I & <- & J). destruct (ok_every _ _ _ Em h I) as (ys & Eh). cbn beta in Eh. destruct (ok_every _ _ _ Eh s J) as (y & Es). cbn beta in Es.
  change s' with (snd (g_w h', s')) at 1. rewrite (ghosts_two x _ _ Lx Lw). cbn [snd]. destruct (ghostsAt N x s); cbn [bind] in *; try discriminate. eauto.
Qed.
(** What both processes know in the middle of a step. *)
Lemma mid_layers : forall e e', mid e e' -> exists gr gr' d1 d1' base dt v cps cps', 0 < dt /\ ready d1 d1' /\
  restore (e_groups e) (e_cp e) = Ok gr /\ restore (e_groups e') (e_cp e') = Ok gr' /\ Forall2 usable (e_groups d1) gr /\ Forall2 usable (e_groups d1') gr' /\
  e_base e = base /\ e_base e' = base /\ e_dt e = dt /\ e_dt e' = dt /\ e_cp e = Some cps /\ e_cp e' = Some cps' /\
  Forall2 (fun h cp => Forall2 (stored N v) (g_states h) cp) (e_groups d1) cps /\ Forall2 (fun h cp => Forall2 (stored nn (part N own v)) (g_states h) cp) (e_groups d1') cps'.
Proof.
  intros e e' (d1 & c & base & dt & v & d1' & c' & Hdt & Rd & Ec & Rc & Ec' & Rc').
  destruct (commit_val N d1 base dt v c Ec) as (_ & B & T & cps & Ecp & St). destruct (commit_val nn d1' base dt _ c' Ec') as (_ & B' & T' & cps' & Ecp' & St').
  pose proof Rc as (_ & _ & K1 & K2 & K3 & _). pose proof Rc' as (_ & _ & K1' & K2' & K3' & _).
  assert (Er : exists gr, restore (e_groups e) (e_cp e) = Ok gr) by (rewrite <- K1, Ecp; cbn [restore]; eauto). destruct Er as (gr & Er).
  assert (Er' : exists gr, restore (e_groups e') (e_cp e') = Ok gr) by (rewrite <- K1', Ecp'; cbn [restore]; eauto). destruct Er' as (gr' & Er').
  exists gr, gr', d1, d1', base, dt, v, cps, cps'. split; [exact Hdt|]. split; [exact Rd|]. split; [exact Er|]. split; [exact Er'|].
  split; [exact (restored N 0 [] d1 base dt v c e gr Ec Rc Er)|]. split; [exact (restored nn g [] d1' base dt _ c' e' gr' Ec' Rc' Er')|].
  repeat split; try congruence; assumption.
Qed.
Section Loud.
Variables (gr gr' l l' : list group) (x : list R).
Hypothesis U : Forall2 usable l gr.
Hypothesis U' : Forall2 usable l' gr'.
Hypothesis Sh : layersShared own (layersIn l) (layersIn l').
Hypothesis Fi : Forall (Evol_Spec.fits N) (layersIn l).
Hypothesis Lx : length x = (6 * N)%nat.
(** Every layer of the process is one of the single process. *)
Lemma find_layer : forall h1' s', In h1' gr' -> In s' (g_states h1') -> exists h1 s, In h1 gr /\ In s (g_states h1) /\ g_w h1' = g_w h1 /\
  layerOf own (g_w h1, s) (g_w h1', s') /\ sane (g_w h1) /\ cache_ok (w_A (g_w h1)) (d_cache (g_d h1)) /\ cache_ok (w_A (g_w h1')) (d_cache (g_d h1')).
Proof.
  intros h1' s' I' J'. destruct (forall2_in_r _ _ _ _ _ _ U' I') as (h0' & I0' & (W' & S' & _ & C')). rewrite S' in J'.
  destruct Sh as (_ & H1 & _). destruct (H1 (g_w h0', s')) as ([w s] & I & Lw); [apply in_layers; exists h0'; auto|].
  apply in_layers in I. destruct I as (h0 & I & <- & J). destruct (forall2_in_l _ _ _ _ _ _ U I) as (h1 & I1 & (W & S & Sa & C)).
  exists h1, s. split; [exact I1|]. split; [rewrite S; exact J|]. split; [rewrite W', W; apply Lw|]. split; [rewrite W, W'; exact Lw|]. split; [exact Sa|]. split; [exact C|exact C'].
Qed.
Lemma fits_there : forall h1 s, In h1 gr -> In s (g_states h1) -> exists w, Evol_Spec.fits N (w, s).
Proof.
  intros h1 s I J. destruct (forall2_in_r _ _ _ _ _ _ U I) as (h0 & I0 & (W & S & _)). exists (g_w h0). rewrite Forall_forall in Fi. apply Fi. apply in_layers. exists h0. rewrite <- S. auto.
Qed.
Lemma any_there : exists b, anyLoud nn (part N own x) (flat_map g_states gr') = Ok b.
Proof.
  apply any_ok. intros s' I. apply in_flat_map in I. destruct I as (h1' & I' & J'). destruct (find_layer h1' s' I' J') as (h1 & s & I & J & _ & Lw & _).
  destruct (fits_there h1 s I J) as (w & F). destruct (loud_ok x w s Lx F) as (b & E). exists b. pose proof (loud_two x _ _ Lx Lw) as K. cbn [snd] in K. rewrite K. exact E.
Qed.
Lemma loud_there : forall b, anyLoud nn (part N own x) (flat_map g_states gr') = Ok true -> anyLoud N x (flat_map g_states gr) = Ok b -> b = true.
Proof.
  intros b H' H. destruct b; [reflexivity|]. exfalso. apply anyLoud_val in H'. apply anyLoud_val in H. cbn beta iota in H, H'. apply H'. intros s' I. apply in_flat_map in I. destruct I as (h1' & I' & J').
  destruct (find_layer h1' s' I' J') as (h1 & s & I & J & _ & Lw & _). apply (layer_quiet N own x _ _ Lw). apply H. apply in_flat_map. exists h1. auto.
Qed.
End Loud.
Lemma sub_ok : forall M M' e e' t x r, mid e e' -> length x = (6 * N)%nat -> multSub inv N (Some M) e t x = Ok r -> exists r', multSub inv nn (Some M') e' t (part N own x) = Ok r'.
Proof.
  intros M M' e e' t x r Hm Lx E. destruct (mid_layers e e' Hm) as (gr & gr' & d1 & d1' & base & dt & v & cps & cps' & Hdt & (_ & _ & (GL & Fi & _) & _ & Sh) & Er & Er' & U & U' & B & B' & T & T' & _).
  unfold multSub in *. destruct (e_groups e') as [|g0' r0'] eqn:Eg'; [eauto|]. rewrite Er'. cbn [bind].
  destruct (any_there gr gr' _ _ x U U' Sh Fi Lx) as (b' & Eb'). rewrite Eb'. cbn [bind]. destruct b'; [|eauto]. destruct (Rlt_dec (/ 1000000000000) (t - e_base e')) as [Hl|]; [|eauto].
  destruct (every_ok (fun g => '(ss, d) <- overStates (subMult inv nn (part N own x) (t - e_base e') (e_base e') (g_w g)) (g_states g) (g_d g) ;; Ok (mkG (g_w g) d ss)) gr') as (ys & ->); [|cbn [bind]; eauto].
  intros h1' I'. cbn beta.
  destruct (forall2_in_r _ _ _ _ _ _ U' I') as (h0' & I0' & (_ & _ & _ & Hc')).
  destruct (loop_ok (w_A (g_w h1')) sstate overStates (fun _ _ => eq_refl) (fun _ _ _ _ => eq_refl) (subMult inv nn (part N own x) (t - e_base e') (e_base e') (g_w h1')) (g_states h1') (g_d h1')) as (ss & d & ->); [|exact Hc'|cbn [bind]; eauto].
  intros s' d J' Hd. destruct (find_layer gr gr' _ _ U U' Sh h1' s' I' J') as (h1 & s & I & J & Ew & Lw & Sa & Hc & _).
  unfold subMult. pose proof (loud_two x _ _ Lx Lw) as K. cbn [snd] in K. rewrite K. destruct (fits_there gr _ U Fi h1 s I J) as (w & F). destruct (loud_ok x w s Lx F) as (b & Eb). rewrite Eb. cbn [bind].
  destruct b; [|eauto].
  assert (Eg : exists g0 r0, e_groups e = g0 :: r0).
  { destruct (e_groups e) as [|g0 r0] eqn:Eg; [|eauto]. exfalso. destruct (e_cp e) as [cp|]; cbn [restore combine map] in Er; injection Er as <-; destruct I. }
  destruct Eg as (g0 & r0 & Eg). rewrite Eg in *. rewrite Er in E. cbn [bind] in E.
  destruct (anyLoud N x (flat_map g_states gr)) as [b| |] eqn:Ea; cbn [bind] in E; try discriminate. pose proof (loud_there gr gr' _ _ x U U' Sh b Eb' Ea) as ->.
  rewrite B' in *. rewrite B in E. destruct (Rlt_dec (/ 1000000000000) (t - base)); [|contradiction].
  match type of E with bind ?mm _ = _ => destruct mm as [gs1| |] eqn:Em end; cbn [bind] in E; try discriminate.
  destruct (ok_every _ _ _ Em h1 I) as (y & Ey). cbn beta in Ey.
  destruct (overStates _ (g_states h1) (g_d h1)) as [[ss1 dd1]| |] eqn:Eo; cbn [bind] in Ey; try discriminate.
  assert (Hts : 0 < t - base) by (eapply Rlt_trans; [|exact Hl]; apply Rinv_0_lt_compat; lra).
  destruct (loop_in (w_A (g_w h1)) sstate overStates (fun _ _ _ _ => eq_refl) _ _ _ _ (fun s d s1 d1 _ Hd0 (Hs : subMult inv N x (t - base) base (g_w h1) s d = Ok (s1, d1)) => ltac:(unfold subMult in Hs; destruct (loud N x s) as [[]| |]; cbn [bind] in Hs; try discriminate; [exact (advance_kept _ _ _ _ _ _ _ _ Sa Hts Hd0 Hs)|injection Hs as _ <-; exact Hd0])) Hc Eo s J) as (d0 & q & Hd0 & Eq).
  unfold subMult in Eq. rewrite Eb in Eq. cbn [bind] in Eq. rewrite Ew in *.
  refine (advance_two (g_w h1) base (t - base) _ _ s s' d0 d q Sa Hts Hd0 Hd (proj1 (proj2 (proj2 Lw))) _ Eq). intros a k all. exact (update_two x _ _ _ _ all Lx Lw).
Qed.

Lemma pair_in : forall {A B} (P : A -> B -> Prop) l l' a, Forall2 P l l' -> In a l -> exists b, In (a, b) (combine l l') /\ P a b.
Proof. intros A B P l l' a H. induction H as [|x y l l' Hx H IH]; intros I; [destruct I|]. destruct I as [<-|I]; [exists y; split; [left; reflexivity|exact Hx]|]. destruct (IH I) as (b & Ib & Hb). exists b. split; [right; exact Ib|exact Hb]. Qed.
Lemma in_pair : forall {A B} (P : A -> B -> Prop) l l' a b, Forall2 P l l' -> In (a, b) (combine l l') -> P a b.
Proof. intros A B P l l' a b H. induction H as [|x y l l' Hx H IH]; intros I; [destruct I|]. destruct I as [E|I]; [injection E as <- <-; exact Hx|exact (IH I)]. Qed.
Lemma over_usable : forall {B} (P : sstate -> B -> Prop) l gr cps, Forall2 usable l gr -> Forall2 (fun h cp => Forall2 P (g_states h) cp) l cps -> Forall2 (fun h cp => Forall2 P (g_states h) cp) gr cps.
Proof.
  intros B P l gr cps H. revert cps. induction H as [|h k l gr (_ & Es & _) H IH]; intros cps K; inversion K; subst; constructor; [rewrite Es; assumption|apply IH; assumption].
Qed.
Lemma finalize_ok : forall e e' x r, mid e e' -> length x = (6 * N)%nat -> finalize inv N e x = Ok r -> exists r', finalize inv nn e' (part N own x) = Ok r'.
Proof.
  intros e e' x r Hm Lx E. destruct (mid_layers e e' Hm) as (gr & gr' & d1 & d1' & base & dt & v & cps & cps' & Hdt & (_ & _ & (GL & Fi & _) & _ & Sh) & Er & Er' & U & U' & B & B' & T & T' & C & C' & St & St').
  unfold finalize in *. rewrite Er'. rewrite Er in E. cbn [bind] in *. cbv zeta in *.
  destruct (any_there gr gr' _ _ x U U' Sh Fi Lx) as (b' & Eb'). rewrite Eb'. cbn [bind]. destruct b'; [|eauto]. rewrite C', T', B'. rewrite C, T, B in E.
  destruct (anyLoud N x (flat_map g_states gr)) as [b| |] eqn:Ea; cbn [bind] in E; try discriminate. pose proof (loud_there gr gr' _ _ x U U' Sh b Eb' Ea) as ->.
  match type of E with bind ?mm _ = _ => destruct mm as [gs1| |] eqn:Em end; cbn [bind] in E; try discriminate. clear E.
  match goal with |- exists r', bind (mapM ?f ?l) _ = _ => destruct (every_ok f l) as (ys & ->); [|cbn [bind]; eauto] end.
  pose proof (over_usable _ _ _ _ U St) as V. pose proof (over_usable _ _ _ _ U' St') as V'.
  intros [h1' cp'] Ip'. pose proof (in_combine_l _ _ _ _ Ip') as I'. pose proof (in_pair _ _ _ _ _ V' Ip') as F'. cbn beta in F'.
  destruct (forall2_in_r _ _ _ _ _ _ U' I') as (h0' & I0' & (_ & _ & _ & Hc')).
  match goal with |- context [overPairs ?f ?l ?d] => destruct (loop_ok (w_A (g_w h1')) _ overPairs (fun _ _ => eq_refl) (fun _ _ _ _ => eq_refl) f l d) as (ss & d2 & ->); [|exact Hc'|cbn [bind]; eauto] end.
  intros [s' ci'] d J2 Hd. pose proof (in_combine_l _ _ _ _ J2) as J'. pose proof (in_pair _ _ _ _ _ F' J2) as (Fs' & Gs'). cbn [fst snd] in Fs', Gs'.
  destruct (find_layer gr gr' _ _ U U' Sh h1' s' I' J') as (h1 & s & I & J & Ew & Lw & Sa & Hc & _).
  destruct (pair_in _ _ _ _ V I) as (cp & Ip & Fp). cbn beta in Fp. destruct (pair_in _ _ _ _ Fp J) as (ci & Ji & (Fs & Gs)).
  destruct (ok_every _ _ _ Em (h1, cp) Ip) as (y & Ey). cbn beta iota in Ey.
  destruct (overPairs _ (combine (g_states h1) cp) (g_d h1)) as [[ss1 dd1]| |] eqn:Eo; cbn [bind] in Ey; try discriminate.
  destruct (loop_in (w_A (g_w h1)) _ overPairs (fun _ _ _ _ => eq_refl) _ _ _ _ (fun s d s1 d1 _ Hd0 (Hs : finState inv N dt base x (g_w h1) s d = Ok (s1, d1)) => ltac:(unfold finState in Hs; cbv zeta in Hs; destruct (ghostsAt N x (fst s)) as [[]| |]; cbn [bind] in Hs; try discriminate; destruct (snd (snd s)); exact (advance_kept _ _ _ _ _ _ _ _ Sa Hdt Hd0 Hs))) Hc Eo (s, ci) Ji) as (d0 & q & Hd0 & Eq).
  unfold finState in *. cbv zeta in *. cbn [fst snd] in *.
  pose proof (ghosts_two x _ _ Lx Lw) as K. cbn [snd] in K. rewrite K. destruct (ghostsAt N x s) as [[ln rn]| |]; cbn [bind] in *; try discriminate.
  assert (Hg : snd ci' = snd ci).
  { assert (Kv : ghostsAt nn (part N own v) s' = ghostsAt N v s); [|congruence]. exact (ghosts_part v (g_w h1, s) (g_w h1', s') (snd ci) Lw Gs). }
  rewrite Hg. destruct (snd ci) as [lo ro]. rewrite Ew in *.
  refine (advance_two (g_w h1) base dt _ _ s s' d0 d q Sa Hdt Hd0 Hd (proj1 (proj2 (proj2 Lw))) _ Eq). intros a k all. unfold updateInterp.
  pose proof (right_two _ _ (proj2 (proj2 (proj2 (proj2 Lw))))) as Kr. cbn [snd] in Kr. rewrite Kr. reflexivity.
Qed.
End Ok.

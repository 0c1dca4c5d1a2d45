(** Proofs for C35 to C38. *)
From Coq Require Import String ZArith List Bool Reals Lia Lra.
From Verif Require Import Common Setup_Model Setup_Spec.
Import ListNotations.
Local Open Scope Z_scope.

(** ** Maps *)
Section Maps.
Context {A : Type}.
Lemma mfind_emplace : forall k k' (a : A) m, ascending m ->
  mfind k' (memplace k a m) = match mfind k' m with Some b => Some b | None => if k' =? k then Some a else None end.
Proof.
  intros k k' a m Hm. induction m as [|[q b] t IH]; cbn [memplace mfind]; [reflexivity|].
  inversion Hm as [|? ? ? Hlt Ht]; subst.
  destruct (k =? q) eqn:E1.
  - apply Z.eqb_eq in E1. subst q. cbn [mfind]. destruct (k' =? k) eqn:E2; [reflexivity|].
    destruct (mfind k' t); reflexivity.
  - destruct (k <? q) eqn:E2; cbn [mfind].
    + destruct (k' =? k) eqn:E3; [|destruct (k' =? q); [reflexivity|]; destruct (mfind k' t); reflexivity].
      apply Z.eqb_eq in E3. subst k'. rewrite E1. destruct (mfind k t) eqn:F; [|reflexivity]. exfalso.
      assert (G : forall (l : list (Z * A)) c, mfind k l = Some c -> In (k, c) l).
      { induction l as [|[x y] l IHl]; cbn [mfind]; intros c Hc; [discriminate|].
        destruct (k =? x) eqn:X; [injection Hc as <-; left; apply Z.eqb_eq in X; subst; reflexivity|right; auto]. }
      specialize (Hlt k _ (G _ _ F)). apply Z.ltb_lt in E2. lia.
    + destruct (k' =? q); [reflexivity|]. apply IH. exact Ht.
Qed.
Lemma in_emplace : forall k (a : A) m p, In p (memplace k a m) -> p = (k, a) \/ In p m.
Proof.
  intros k a m p. induction m as [|[q b] t IH]; cbn [memplace].
  - intros [<-|[]]; auto.
  - destruct (k =? q); [auto|]. destruct (k <? q); [intros [<-|H]; auto|].
    intros [<-|H]; [right; left; reflexivity|]. destruct (IH H) as [->|H']; [auto|right; right; exact H'].
Qed.
Lemma asc_emplace : forall k (a : A) m, ascending m -> ascending (memplace k a m).
Proof.
  intros k a m Hm. induction m as [|[q b] t IH]; cbn [memplace]; [constructor; [intros ? ? []|constructor]|].
  inversion Hm as [|? ? ? Hlt Ht]; subst. destruct (k =? q) eqn:E; [exact Hm|]. apply Z.eqb_neq in E.
  destruct (k <? q) eqn:L.
  - apply Z.ltb_lt in L. constructor; [|exact Hm]. intros k' a' [I|I]; [injection I as <- _; lia|]. specialize (Hlt _ _ I). lia.
  - apply Z.ltb_ge in L. constructor; [|apply IH; exact Ht]. intros k' a' I. destruct (in_emplace _ _ _ _ I) as [X|X].
    + injection X as -> _. lia.
    + apply (Hlt _ _ X).
Qed.
Lemma mfind_in : forall k (m : list (Z * A)) a, mfind k m = Some a -> In (k, a) m.
Proof.
  intros k m. induction m as [|[x y] l IH]; cbn [mfind]; intros c Hc; [discriminate|].
  destruct (k =? x) eqn:X; [injection Hc as <-; left; apply Z.eqb_eq in X; subst; reflexivity|right; auto].
Qed.
Lemma in_mfind : forall m (k : Z) (a : A), ascending m -> In (k, a) m -> mfind k m = Some a.
Proof.
  intros m k a Hm. induction Hm as [|q b t Hlt Ht IH]; intros I; [destruct I|]. cbn [mfind]. destruct I as [I|I].
  - injection I as -> ->. rewrite Z.eqb_refl. reflexivity.
  - specialize (Hlt _ _ I). replace (k =? q) with false by (symmetry; apply Z.eqb_neq; lia). auto.
Qed.
Lemma mfind_assign : forall k k' (a : A) m, mfind k' (massign k a m) = if k' =? k then Some a else mfind k' m.
Proof.
  intros k k' a m. induction m as [|[q b] t IH]; cbn [massign mfind]; [reflexivity|].
  destruct (k =? q) eqn:E.
  - apply Z.eqb_eq in E. subst q. cbn [mfind]. destruct (k' =? k); reflexivity.
  - destruct (k <? q); cbn [mfind]; [reflexivity|]. rewrite IH. destruct (k' =? q) eqn:X; [|reflexivity].
    apply Z.eqb_eq in X. subst. rewrite Z.eqb_sym, E. reflexivity.
Qed.
Lemma in_assign : forall k (a : A) m p, In p (massign k a m) -> p = (k, a) \/ In p m.
Proof.
  intros k a m p. induction m as [|[q b] t IH]; cbn [massign].
  - intros [<-|[]]; auto.
  - destruct (k =? q); [intros [<-|H]; [auto|right; right; exact H]|]. destruct (k <? q); [intros [<-|H]; auto|].
    intros [<-|H]; [right; left; reflexivity|]. destruct (IH H) as [->|H']; [auto|right; right; exact H'].
Qed.
Lemma asc_assign : forall k (a : A) m, ascending m -> ascending (massign k a m).
Proof.
  intros k a m Hm. induction m as [|[q b] t IH]; cbn [massign]; [constructor; [intros ? ? []|constructor]|].
  inversion Hm as [|? ? ? Hlt Ht]; subst. destruct (k =? q) eqn:E; [apply Z.eqb_eq in E; subst; constructor; assumption|]. apply Z.eqb_neq in E.
  destruct (k <? q) eqn:L.
  - apply Z.ltb_lt in L. constructor; [|exact Hm]. intros k' a' [I|I]; [injection I as <- _; lia|]. specialize (Hlt _ _ I). lia.
  - apply Z.ltb_ge in L. constructor; [|apply IH; exact Ht]. intros k' a' I. destruct (in_assign _ _ _ _ I) as [X|X].
    + injection X as -> _. lia.
    + apply (Hlt _ _ X).
Qed.
End Maps.

(** ** Materials *)
Lemma new_ok : forall e m s, physical (mkMat e m s) -> newMaterial e m s = Ok (mkMat e m s).
Proof.
  intros e m s (H1 & H2 & H3). cbn [m_eps m_mu m_sigma] in *. unfold newMaterial.
  destruct (Rlt_dec e 1); [lra|]. destruct (Rlt_dec m 1); [lra|]. destruct (Rlt_dec s 0); [lra|]. reflexivity.
Qed.
Lemma new_cases : forall e m s, newMaterial e m s = Ok (mkMat e m s) /\ physical (mkMat e m s) \/
  newMaterial e m s = Throw /\ ~ physical (mkMat e m s).
Proof.
  intros e m s. unfold newMaterial, physical. cbn [m_eps m_mu m_sigma].
  destruct (Rlt_dec e 1); [right; split; [reflexivity|lra]|].
  destruct (Rlt_dec m 1); [right; split; [reflexivity|lra]|].
  destruct (Rlt_dec s 0); [right; split; [reflexivity|lra]|]. left. split; [reflexivity|lra].
Qed.
Lemma read_cases : forall Z0 i, readMaterial Z0 i = Ok (materialOf Z0 i) /\ physical (materialOf Z0 i) \/
  readMaterial Z0 i = Throw /\ ~ physical (materialOf Z0 i).
Proof. intros. unfold readMaterial, materialOf. apply new_cases. Qed.

(** The loops of the driver over a list of (tags, parameters). *)
Definition loadAll (Z0 : R) (l : list (list Z * matIn)) (m : list (Z * material)) : res (list (Z * material)) :=
  foldM (fun m e => foldM (fun m t => mat <- readMaterial Z0 (snd e) ;; Ok (memplace t mat m)) (fst e) m) l m.
Lemma loadMaterials_all : forall Z0 ms, loadMaterials Z0 ms = loadAll Z0 (matsIn ms) [].
Proof. intros. unfold loadMaterials, loadAll, matsIn. rewrite foldM_map. reflexivity. Qed.
Lemma loadBdr_all : forall Z0 bs, loadBdrMaterials Z0 bs = loadAll Z0 (bdrMatsIn bs) [].
Proof.
  intros. unfold loadBdrMaterials, loadAll, bdrMatsIn. rewrite foldM_flat_map. apply foldM_ext_in. intros m e _.
  destruct (be_tags e) as [ts|]; [|reflexivity]. destruct (be_mat e) as [i|].
  - cbn [foldM fst snd]. destruct (foldM _ ts m); reflexivity.
  - cbn [foldM]. induction ts as [|t ts IH]; cbn [foldM bind]; auto.
Qed.
Lemma one_entry : forall Z0 i ts m, ascending m -> ts <> [] ->
  (physical (materialOf Z0 i) /\ exists m', foldM (fun m t => mat <- readMaterial Z0 i ;; Ok (memplace t mat m)) ts m = Ok m' /\ ascending m' /\
    forall t, mfind t m' = match mfind t m with Some b => Some b | None => if existsb (Z.eqb t) ts then Some (materialOf Z0 i) else None end) \/
  (~ physical (materialOf Z0 i) /\ foldM (fun m t => mat <- readMaterial Z0 i ;; Ok (memplace t mat m)) ts m = Throw).
Proof.
  intros Z0 i ts m Hm Hne. destruct (read_cases Z0 i) as [(E & P)|(E & P)].
  - left. split; [exact P|]. clear Hne. revert m Hm. induction ts as [|t ts IH]; intros m Hm; cbn [foldM].
    + exists m. split; [reflexivity|]. split; [exact Hm|]. intros t. cbn [existsb]. destruct (mfind t m); reflexivity.
    + rewrite E. cbn [bind]. destruct (IH (memplace t (materialOf Z0 i) m) (asc_emplace _ _ _ Hm)) as (m' & F & A' & V).
      rewrite E in F. exists m'. split; [exact F|]. split; [exact A'|]. intros q. rewrite V, (mfind_emplace _ _ _ _ Hm). cbn [existsb].
      destruct (mfind q m); [reflexivity|]. destruct (q =? t); reflexivity.
  - right. split; [exact P|]. destruct ts as [|t ts]; [congruence|]. cbn [foldM]. rewrite E. reflexivity.
Qed.
Lemma load_all : forall Z0 l m, ascending m ->
  ((forall ts i, In (ts, i) l -> ts <> [] -> physical (materialOf Z0 i)) /\
   exists m', loadAll Z0 l m = Ok m' /\ ascending m' /\
     forall t, mfind t m' = match mfind t m with Some b => Some b | None => option_map (materialOf Z0) (firstFor t l) end) \/
  ((exists ts i, In (ts, i) l /\ ts <> [] /\ ~ physical (materialOf Z0 i)) /\ loadAll Z0 l m = Throw).
Proof.
  intros Z0 l. unfold loadAll. induction l as [|[ts i] r IH]; intros m Hm; cbn [foldM].
  - left. split; [intros ? ? []|]. exists m. split; [reflexivity|]. split; [exact Hm|]. intros t. cbn [firstFor option_map]. destruct (mfind t m); reflexivity.
  - cbn [fst snd]. destruct ts as [|t0 ts].
    + cbn [foldM bind]. destruct (IH m Hm) as [(P & m' & F & A' & V)|((ts' & i' & I & N & P) & F)].
      * left. split; [intros ts' i' [X|X] N; [injection X as <- <-; congruence|eauto]|]. exists m'. split; [exact F|]. split; [exact A'|exact V].
      * right. split; [exists ts', i'; split; [right; exact I|auto]|exact F].
    + destruct (one_entry Z0 i (t0 :: ts) m Hm ltac:(discriminate)) as [(P & m1 & F1 & A1 & V1)|(P & F1)].
      * rewrite F1. cbn [bind]. destruct (IH m1 A1) as [(P2 & m' & F & A' & V)|((ts' & i' & I & N & P2) & F)].
        -- left. split; [intros ts' i' [X|X] N; [injection X as <- <-; exact P|eauto]|]. exists m'. split; [exact F|]. split; [exact A'|].
           intros t. rewrite V, V1. cbn [firstFor]. destruct (mfind t m); [reflexivity|]. destruct (existsb (Z.eqb t) (t0 :: ts)); reflexivity.
        -- right. split; [exists ts', i'; split; [right; exact I|auto]|exact F].
      * rewrite F1. cbn [bind]. right. split; [|reflexivity]. exists (t0 :: ts), i. split; [left; reflexivity|]. split; [discriminate|exact P].
Qed.
Lemma first_listed : forall {A} t (l : list (list Z * A)), (exists a, firstFor t l = Some a) <-> listed t l.
Proof.
  intros A t l. induction l as [|[ts a] r IH]; cbn [firstFor].
  - split; [intros (a & H); discriminate|intros (ts & a & [] & _)].
  - destruct (existsb (Z.eqb t) ts) eqn:E.
    + split; [intros _|eauto]. apply existsb_exists in E. destruct E as (x & I & X). apply Z.eqb_eq in X. subst x.
      exists ts, a. split; [left; reflexivity|exact I].
    + rewrite IH. split.
      * intros (ts' & a' & I & J). exists ts', a'. split; [right; exact I|exact J].
      * intros (ts' & a' & [I|I] & J); [|exists ts', a'; auto]. injection I as <- <-. exfalso.
        assert (existsb (Z.eqb t) ts = true) by (apply existsb_exists; exists t; split; [exact J|apply Z.eqb_refl]). congruence.
Qed.
Lemma listed_first : forall {A} t (l : list (list Z * A)) a, firstFor t l = Some a -> exists ts, In (ts, a) l /\ In t ts.
Proof.
  intros A t l a. induction l as [|[ts b] r IH]; cbn [firstFor]; [discriminate|].
  destruct (existsb (Z.eqb t) ts) eqn:E.
  - intros X. injection X as <-. apply existsb_exists in E. destruct E as (x & I & X). apply Z.eqb_eq in X. subst x. exists ts. split; [left; reflexivity|exact I].
  - intros X. destruct (IH X) as (ts' & I & J). exists ts'. split; [right; exact I|exact J].
Qed.
Lemma present_all : forall (m : list (Z * material)) attrs l Z0, ascending m ->
  (forall t, mfind t m = option_map (materialOf Z0) (firstFor t l)) ->
  forallb (fun p => existsb (Z.eqb (fst p)) attrs) m = true <-> forall t, listed t l -> In t attrs.
Proof.
  intros m attrs l Z0 Hm V. rewrite forallb_forall. split.
  - intros H t Ht. apply first_listed in Ht. destruct Ht as (i & Ei). specialize (V t). rewrite Ei in V. cbn [option_map] in V.
    apply mfind_in in V. specialize (H _ V). cbn [fst] in H. apply existsb_exists in H. destruct H as (x & I & X). apply Z.eqb_eq in X. subst. exact I.
  - intros H [t a] I. cbn [fst]. apply existsb_exists. exists t. split; [|apply Z.eqb_refl]. apply H, first_listed.
    pose proof (in_mfind _ _ _ Hm I) as F. rewrite V in F. destruct (firstFor t l) as [i|]; [eauto|discriminate].
Qed.
Lemma materials_ok : forall Z0 ms bs sm,
  (forall e, In e ms -> me_tags e <> [] -> physical (materialOf Z0 (me_mat e))) ->
  (forall ts i, In (ts, i) (bdrMatsIn bs) -> ts <> [] -> physical (materialOf Z0 i)) ->
  (forall t, listed t (matsIn ms) -> In t (sm_attrs sm)) -> (forall t, listed t (bdrMatsIn bs) -> In t (sm_battrs sm)) ->
  exists a b, assembleAttributeToMaterial Z0 ms bs sm = Ok (a, b) /\ ascending a /\ ascending b /\
    (forall t, mfind t a = option_map (materialOf Z0) (firstFor t (matsIn ms))) /\
    (forall t, mfind t b = option_map (materialOf Z0) (firstFor t (bdrMatsIn bs))).
Proof.
  intros Z0 ms bs sm P1 P2 T1 T2. unfold assembleAttributeToMaterial. rewrite loadMaterials_all, loadBdr_all.
  assert (P1' : forall ts i, In (ts, i) (matsIn ms) -> ts <> [] -> physical (materialOf Z0 i)).
  { intros ts i I. unfold matsIn in I. apply in_map_iff in I. destruct I as (e & X & I). injection X as <- <-. auto. }
  destruct (load_all Z0 (matsIn ms) [] asc_nil) as [(_ & a & Fa & Aa & Va)|((ts & i & I & N & P) & _)]; [|exfalso; exact (P (P1' _ _ I N))].
  destruct (load_all Z0 (bdrMatsIn bs) [] asc_nil) as [(_ & b & Fb & Ab & Vb)|((ts & i & I & N & P) & _)]; [|exfalso; exact (P (P2 _ _ I N))].
  rewrite Fa. cbn [bind]. rewrite Fb. cbn [bind]. cbn [mfind] in Va, Vb. unfold checkIfAttributesArePresent.
  rewrite (proj2 (present_all a (sm_attrs sm) _ Z0 Aa Va) T1), (proj2 (present_all b (sm_battrs sm) _ Z0 Ab Vb) T2). cbn [bind].
  exists a, b. repeat split; auto.
Qed.
Lemma materials_inv : forall Z0 ms bs sm,
  (exists a b, assembleAttributeToMaterial Z0 ms bs sm = Ok (a, b) /\
    (forall e, In e ms -> me_tags e <> [] -> physical (materialOf Z0 (me_mat e))) /\
    (forall ts i, In (ts, i) (bdrMatsIn bs) -> ts <> [] -> physical (materialOf Z0 i)) /\
    (forall t, listed t (matsIn ms) -> In t (sm_attrs sm)) /\ (forall t, listed t (bdrMatsIn bs) -> In t (sm_battrs sm))) \/
  assembleAttributeToMaterial Z0 ms bs sm = Throw.
Proof.
  intros Z0 ms bs sm. unfold assembleAttributeToMaterial. rewrite loadMaterials_all, loadBdr_all.
  destruct (load_all Z0 (matsIn ms) [] asc_nil) as [(P1 & a & Fa & Aa & Va)|(_ & F)]; [|rewrite F; right; reflexivity].
  rewrite Fa. cbn [bind].
  destruct (load_all Z0 (bdrMatsIn bs) [] asc_nil) as [(P2 & b & Fb & Ab & Vb)|(_ & F)]; [|rewrite F; right; reflexivity].
  rewrite Fb. cbn [bind mfind] in *. unfold checkIfAttributesArePresent.
  pose proof (present_all a (sm_attrs sm) _ Z0 Aa Va) as Q1. pose proof (present_all b (sm_battrs sm) _ Z0 Ab Vb) as Q2.
  destruct (forallb (fun p => existsb (Z.eqb (fst p)) (sm_attrs sm)) a); [|right; reflexivity].
  destruct (forallb (fun p => existsb (Z.eqb (fst p)) (sm_battrs sm)) b); [|right; reflexivity].
  left. exists a, b. split; [reflexivity|]. split; [|split; [exact P2|split; [apply Q1; reflexivity|apply Q2; reflexivity]]].
  intros e I N. apply (P1 (me_tags e)); [|exact N]. unfold matsIn. apply in_map_iff. exists e. auto.
Qed.
Lemma materials_first : forall Z0 ms bs sm a b, assembleAttributeToMaterial Z0 ms bs sm = Ok (a, b) ->
  (forall t, mfind t a = option_map (materialOf Z0) (firstFor t (matsIn ms))) /\
  (forall t, mfind t b = option_map (materialOf Z0) (firstFor t (bdrMatsIn bs))) /\ ascending a /\ ascending b.
Proof.
  intros Z0 ms bs sm a b E. destruct (materials_inv Z0 ms bs sm) as [(a' & b' & E' & H1 & H2 & H3 & H4)|E']; [|congruence].
  destruct (materials_ok Z0 ms bs sm H1 H2 H3 H4) as (a2 & b2 & E2 & A2 & B2 & V1 & V2). rewrite E in E2. injection E2 as -> ->. auto.
Qed.
Lemma materials_physical : forall Z0 ms bs sm a b, assembleAttributeToMaterial Z0 ms bs sm = Ok (a, b) ->
  forall t m, In (t, m) (a ++ b) -> physical m.
Proof.
  intros Z0 ms bs sm a b E t m I. destruct (materials_first _ _ _ _ _ _ E) as (V1 & V2 & A1 & A2).
  destruct (materials_inv Z0 ms bs sm) as [(a' & b' & E' & H1 & H2 & _)|E']; [|congruence]. apply in_app_or in I. destruct I as [I|I].
  - pose proof (in_mfind _ _ _ A1 I) as F. rewrite V1 in F. destruct (firstFor t (matsIn ms)) as [i|] eqn:Ei; [|discriminate]. injection F as <-.
    apply listed_first in Ei. destruct Ei as (ts & J & T). unfold matsIn in J. apply in_map_iff in J. destruct J as (e & X & J). injection X as <- <-.
    apply (H1 e J). intros N. rewrite N in T. destruct T.
  - pose proof (in_mfind _ _ _ A2 I) as F. rewrite V2 in F. destruct (firstFor t (bdrMatsIn bs)) as [i|] eqn:Ei; [|discriminate]. injection F as <-.
    apply listed_first in Ei. destruct Ei as (ts & J & T). apply (H2 ts i J). intros N. subst. destruct T.
Qed.

(** Wave speed, impedance and admittance. *)
Lemma wave_values : forall m, physical m -> m_sigma m = 0%R ->
  exists z y c, getImpedance m = Ok z /\ getAdmittance m = Ok y /\ getSpeedOfWave m = Ok c /\
    (z * y = 1 /\ 0 < z /\ 0 < c <= 1 /\ c * c * (m_eps m * m_mu m) = 1 /\ z * m_eps m * c = 1)%R.
Proof.
  intros m (H1 & H2 & _) Hs. unfold getImpedance, getAdmittance, getSpeedOfWave. rewrite Hs.
  destruct (Req_EM_T 0 0) as [_|N]; [|lra]. do 3 eexists. split; [reflexivity|]. split; [reflexivity|]. split; [reflexivity|].
  set (e := m_eps m) in *. set (u := m_mu m) in *.
  assert (Hr : (0 < u / e)%R) by (apply Rdiv_lt_0_compat; lra).
  assert (Hp : (1 <= u * e)%R) by (replace 1%R with (1 * 1)%R by ring; apply Rmult_le_compat; lra).
  assert (Hq : (1 <= sqrt (u * e))%R) by (rewrite <- sqrt_1; apply sqrt_le_1; lra).
  assert (Hi : (u / e * (e / u) = 1)%R) by (field; lra).
  split; [rewrite <- sqrt_mult by (try apply Rlt_le; auto; apply Rdiv_lt_0_compat; lra); rewrite Hi; apply sqrt_1|].
  split; [apply sqrt_lt_R0; exact Hr|].
  split; [split; [apply Rdiv_lt_0_compat; lra|]|].
  { unfold Rdiv. rewrite Rmult_1_l. rewrite <- Rinv_1. apply Rinv_le_contravar; lra. }
  assert (Hss : (sqrt (u * e) * sqrt (u * e) = u * e)%R) by (apply sqrt_sqrt; lra).
  split.
  - replace (1 / sqrt (u * e) * (1 / sqrt (u * e)) * (e * u))%R with ((u * e) / (sqrt (u * e) * sqrt (u * e)))%R by (field; lra).
    rewrite Hss. field. lra.
  - assert (Hz : (sqrt (u / e) * e = sqrt (u * e))%R).
    { rewrite <- (sqrt_square e) at 2 by lra. rewrite <- sqrt_mult by (try (apply Rlt_le; exact Hr); apply Rlt_le; apply Rmult_lt_0_compat; lra).
      f_equal. field. lra. }
    rewrite Hz. field. lra.
Qed.
Lemma wave_lossy : forall m, m_sigma m <> 0%R -> getImpedance m = Throw /\ getAdmittance m = Throw /\ getSpeedOfWave m = Throw.
Proof.
  intros m H. unfold getImpedance, getAdmittance, getSpeedOfWave. destruct (Req_EM_T (m_sigma m) 0); [contradiction|auto].
Qed.

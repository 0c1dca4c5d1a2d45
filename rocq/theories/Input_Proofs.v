From Coq Require Import String List ZArith Reals Lia Lra Bool ZifyBool.
From Flocq Require Import Core.
From Verif Require Import Common Probe_Model Setup_Model Geo_Model Time_Model Input_Model Input_Spec.
Import ListNotations.
Open Scope Z_scope.

(** ** Keys *)
Lemma jlookup_some : forall k (l : list (string * json)) v, jlookup k l = Some v <-> exists l1 l2, l = l1 ++ (k, v) :: l2 /\ ~ In k (map fst l1).
Proof.
  intros k l v; induction l as [|[k' w] t IH]; cbn [jlookup].
  - split; [discriminate|]. intros (l1 & l2 & E & _); destruct l1; discriminate.
  - destruct (String.eqb_spec k k') as [->|N].
    + split.
      * intros [= ->]. exists [], t. split; [reflexivity|intros []].
      * intros ([|[a b] l1] & l2 & E & NI); cbn in E; injection E as E1 E2.
        -- congruence.
        -- destruct E1; exfalso; apply NI; left; reflexivity.
    + rewrite IH; split.
      * intros (l1 & l2 & -> & NI). exists ((k', w) :: l1), l2. split; [reflexivity|]. intros [E|I]; [cbn in E; congruence|auto].
      * intros ([|[a b] l1] & l2 & E & NI); cbn in E; injection E as E1 E2.
        -- congruence.
        -- exists l1, l2. split; [congruence|]. intros I; apply NI; right; exact I.
Qed.

Lemma given_lookup : forall j k v, given j k v <-> exists l, j = JObj l /\ jlookup k l = Some v.
Proof.
  intros j k v; split.
  - intros (l1 & l2 & -> & NI). eexists; split; [reflexivity|]. apply jlookup_some. eauto.
  - intros (l & -> & E). apply jlookup_some in E as (l1 & l2 & -> & NI). exists l1, l2; auto.
Qed.
Lemma given_fun : forall j k v w, given j k v -> given j k w -> v = w.
Proof.
  intros j k v w H1 H2. apply given_lookup in H1 as (l & -> & E1). apply given_lookup in H2 as (l' & E & E2).
  injection E as <-. congruence.
Qed.
Lemma contains_true : forall j k, contains j k = true -> exists v, given j k v /\ jat j k = Ok v.
Proof.
  intros j k. destruct j; cbn [contains jat]; try discriminate.
  destruct (jlookup k l) as [v|] eqn:E; [|discriminate]. intros _. exists v. split; [|reflexivity].
  apply given_lookup; eauto.
Qed.
Lemma contains_false : forall j k, contains j k = false <-> absent j k.
Proof.
  intros j k; split.
  - intros H v G. apply given_lookup in G as (l & -> & E). cbn [contains] in H. rewrite E in H. discriminate.
  - intros A. destruct (contains j k) eqn:E; [|reflexivity]. apply contains_true in E as (v & G & _). destruct (A v G).
Qed.
Lemma given_contains : forall j k v, given j k v -> contains j k = true /\ jat j k = Ok v.
Proof.
  intros j k v G. apply given_lookup in G as (l & -> & E). cbn [contains jat]. rewrite E. auto.
Qed.

(** ** Conversions *)
Lemma jdouble_ok : forall j v, jdouble j = Ok v <-> number j v.
Proof.
  intros j v; split.
  - destruct j; cbn; intros [= <-]; constructor.
  - intros []; reflexivity.
Qed.
Lemma jbool_ok : forall j v, jbool j = Ok v <-> truth j v.
Proof.
  intros j v; split.
  - destruct j; cbn; intros [= <-]; constructor.
  - intros []; reflexivity.
Qed.
Lemma ztrunc_iff : forall r n, Ztrunc r = n <->
  ((0 <= r < IZR n + 1 /\ IZR n <= r)%R \/ (r < 0 /\ IZR n - 1 < r <= IZR n)%R).
Proof.
  intros r n. split.
  - intros <-. destruct (Rlt_le_dec r 0) as [N|P].
    + right. split; [exact N|]. rewrite Ztrunc_ceil by lra. split; [|apply Zceil_ub].
      pose proof (Zceil_lb r). lra.
    + left. rewrite Ztrunc_floor by exact P. pose proof (Zfloor_lb r). pose proof (Zfloor_ub r). lra.
  - intros [[A B]|[A B]].
    + rewrite Ztrunc_floor by lra. apply Zfloor_imp. rewrite plus_IZR. lra.
    + rewrite Ztrunc_ceil by lra. apply Zceil_imp. rewrite minus_IZR. lra.
Qed.
Lemma jint_ok : forall j v, jint j = Ok v <-> whole32 j v.
Proof.
  intros j v; unfold whole32; split.
  - destruct j; cbn [jint]; try discriminate.
    + intros [= <-]. destruct b; apply (wh_bool _ _ true) || apply (wh_bool _ _ false).
    + intros [= <-]. unfold wrap32. constructor.
      * exists ((z + 2147483648) / 4294967296). change (2^31 - -2^31) with 4294967296.
        pose proof (Z.div_mod (z + 2147483648) 4294967296 ltac:(lia)). lia.
      * change (2^31) with 2147483648. pose proof (Z.mod_pos_bound (z + 2147483648) 4294967296 ltac:(lia)). lia.
    + destruct ((-2147483648 <=? Ztrunc r) && (Ztrunc r <=? 2147483647)) eqn:E; [|discriminate].
      intros [= <-]. constructor; [change (2^31) with 2147483648; lia|]. apply ztrunc_iff. reflexivity.
  - intros H; destruct H as [b|z n (q & E) B|r n B T]; cbn [jint].
    + destruct b; reflexivity.
    + f_equal. unfold wrap32. change (2^31 - -2^31) with 4294967296 in E. change (2^31) with 2147483648 in *.
      subst z. replace (n + q * 4294967296 + 2147483648) with ((n + 2147483648) + q * 4294967296) by ring.
      rewrite Z.mod_add by lia. rewrite Z.mod_small by lia. lia.
    + apply ztrunc_iff in T. rewrite T. change (2^31) with 2147483648 in *.
      destruct ((-2147483648 <=? n) && (n <=? 2147483647)) eqn:E; [reflexivity|lia].
Qed.
Lemma jsizet_ok : forall j v, jsizet j = Ok v <-> whole64 j v.
Proof.
  intros j v; unfold whole64; change (2^64) with 18446744073709551616; split.
  - destruct j; cbn [jsizet]; try discriminate.
    + intros [= <-]. destruct b; apply (wh_bool _ _ true) || apply (wh_bool _ _ false).
    + intros [= <-]. constructor.
      * exists (z / 18446744073709551616). pose proof (Z.div_mod z 18446744073709551616 ltac:(lia)). lia.
      * apply (Z.mod_pos_bound z 18446744073709551616). lia.
    + destruct ((0 <=? Ztrunc r) && (Ztrunc r <=? 18446744073709551615)) eqn:E; [|discriminate].
      intros [= <-]. constructor; [lia|]. apply ztrunc_iff. reflexivity.
  - intros H; destruct H as [b|z n (q & E) B|r n B T]; cbn [jsizet].
    + destruct b; reflexivity.
    + f_equal. change (18446744073709551616 - 0) with 18446744073709551616 in E. subst z.
      rewrite Z.mod_add by lia. apply Z.mod_small. lia.
    + apply ztrunc_iff in T. rewrite T.
      destruct ((0 <=? n) && (n <=? 18446744073709551615)) eqn:E; [reflexivity|lia].
Qed.
Lemma jop_ok : forall j v, jop j = Ok v <-> opName j v.
Proof.
  intros j v; split.
  - unfold jop. destruct j; cbn [jeqs]; try discriminate.
    destruct (String.eqb_spec s "maxwell") as [->|N1]; [intros [= <-]; constructor|].
    destruct (String.eqb_spec s "global") as [->|N2]; [intros [= <-]; constructor|].
    destruct (String.eqb_spec s "hesthaven") as [->|N3]; [intros [= <-]; constructor|discriminate].
  - intros []; reflexivity.
Qed.

(** ** Options *)
Section Read.
Context {A : Type} (conv : json -> res A) (spec : json -> A -> Prop) (set : A -> sopts -> sopts) (get : sopts -> A).
Hypothesis Hc : forall j v, conv j = Ok v <-> spec j v.
Hypothesis Hset : forall v o, get (set v o) = v.
Hypothesis Hid : forall o, set (get o) o = o.
Lemma read_iff : forall so k o o', readOption conv set so k o = Ok o' <-> exists v, optionIs spec so k (get o) v /\ o' = set v o.
Proof.
  intros so k o o'. unfold readOption. destruct (contains so k) eqn:E.
  - apply contains_true in E as (x & G & ->). cbn [bind]. split.
    + destruct (conv x) as [v| |] eqn:Ev; cbn [bind]; [|discriminate|discriminate]. intros [= <-].
      exists v. split; [|reflexivity]. left. exists x. split; [exact G|]. apply Hc. exact Ev.
    + intros (v & [(y & G' & S)|[Ab _]] & ->).
      * rewrite (given_fun _ _ _ _ G G'). apply Hc in S. rewrite S. reflexivity.
      * destruct (Ab x G).
  - apply contains_false in E. split.
    + intros [= <-]. exists (get o). split; [right; auto|]. symmetry; apply Hid.
    + intros (v & [(y & G' & S)|[Ab ->]] & ->); [destruct (E y G')|]. rewrite Hid. reflexivity.
Qed.
Lemma read_total : forall so k o, fits spec so k -> exists o', readOption conv set so k o = Ok o'.
Proof.
  intros so k o F. unfold readOption. destruct (contains so k) eqn:E; [|eauto].
  apply contains_true in E as (x & G & ->). cbn [bind]. destruct (F x G) as (v & S). apply Hc in S. rewrite S. cbn. eauto.
Qed.
End Read.

Ltac fin := first [ exact jdouble_ok | exact jbool_ok | exact jint_ok | exact jsizet_ok | exact jop_ok | intros ? []; reflexivity | intros []; reflexivity ].

Lemma bind_ok : forall {A B} (m : res A) (k : A -> res B) b, bind m k = Ok b <-> exists a, m = Ok a /\ k a = Ok b.
Proof.
  intros A B m k b. destruct m; cbn [bind]; split; try discriminate; try (intros (? & ? & ?); discriminate).
  - intros H; eauto.
  - intros (a' & [= <-] & H); exact H.
Qed.

Theorem options_iff : forall c o, buildSolverOptions c = Ok o <-> optionsOf c o.
Proof.
  assert (R : forall so o,
    (o <- readOption jdouble setUpwindAlpha so "upwind_alpha" defaultOptions ;;
    o <- readOption jdouble setOptTimeStep so "time_step" o ;;
    o <- readOption jdouble setOptFinalTime so "final_time" o ;;
    o <- readOption jdouble setCFL so "cfl" o ;;
    o <- readOption jint setOrder so "order" o ;;
    o <- readOption jbool setSpectralEO so "spectral" o ;;
    o <- readOption jbool setExportEO so "export_operator" o ;;
    o <- readOption jop setEvolutionOperator so "evolution_operator" o ;;
    o <- readOption jint setBasisType so "basis_type" o ;;
    readOption jsizet setODEType so "ode_type" o) = Ok o <-> optionsFrom so o).
  { intros so o. repeat setoid_rewrite bind_ok.
    setoid_rewrite (read_iff jdouble number setUpwindAlpha so_alpha); try fin.
    setoid_rewrite (read_iff jdouble number setOptTimeStep so_dt); try fin.
    setoid_rewrite (read_iff jdouble number setOptFinalTime so_tf); try fin.
    setoid_rewrite (read_iff jdouble number setCFL so_cfl); try fin.
    setoid_rewrite (read_iff jint whole32 setOrder so_order); try fin.
    setoid_rewrite (read_iff jbool truth setSpectralEO so_spectral); try fin.
    setoid_rewrite (read_iff jbool truth setExportEO so_export); try fin.
    setoid_rewrite (read_iff jop opName setEvolutionOperator so_op); try fin.
    setoid_rewrite (read_iff jint whole32 setBasisType so_basis); try fin.
    setoid_rewrite (read_iff jsizet whole64 setODEType so_ode); try fin.
    unfold optionsFrom. split.
    - intros (o1 & (v1 & H1 & ->) & o2 & (v2 & H2 & ->) & o3 & (v3 & H3 & ->) & o4 & (v4 & H4 & ->) & o5 & (v5 & H5 & ->) &
              o6 & (v6 & H6 & ->) & o7 & (v7 & H7 & ->) & o8 & (v8 & H8 & ->) & o9 & (v9 & H9 & ->) & v10 & H10 & ->).
      cbn in *. auto 12.
    - intros (H1 & H2 & H3 & H4 & H5 & H6 & H7 & H8 & H9 & H10).
      eexists; split; [exists (so_alpha o); split; [exact H1|reflexivity]|].
      eexists; split; [exists (so_dt o); split; [exact H2|reflexivity]|].
      eexists; split; [exists (so_tf o); split; [exact H3|reflexivity]|].
      eexists; split; [exists (so_cfl o); split; [exact H4|reflexivity]|].
      eexists; split; [exists (so_order o); split; [exact H5|reflexivity]|].
      eexists; split; [exists (so_spectral o); split; [exact H6|reflexivity]|].
      eexists; split; [exists (so_export o); split; [exact H7|reflexivity]|].
      eexists; split; [exists (so_op o); split; [exact H8|reflexivity]|].
      eexists; split; [exists (so_basis o); split; [exact H9|reflexivity]|].
      exists (so_ode o); split; [exact H10|]. destruct o; reflexivity. }
  intros c o. unfold buildSolverOptions, optionsOf. destruct (contains c "solver_options") eqn:E.
  - apply contains_true in E as (so & G & ->). cbn [bind]. rewrite R. split.
    + intros H; left; eauto.
    + intros [(so' & G' & H)|[Ab _]]; [|destruct (Ab so G)]. rewrite (given_fun _ _ _ _ G G'). exact H.
  - apply contains_false in E. rewrite <- R. split.
    + intros H; right; split; [exact E|]. exact H.
    + intros [(so' & G' & H)|[_ H]]; [destruct (E so' G')|]. exact H.
Qed.

Theorem options_total : forall c so, given c "solver_options" so -> wellTyped so -> exists o, buildSolverOptions c = Ok o.
Proof.
  intros c so G (F1 & F2 & F3 & F4 & F5 & F6 & F7 & F8 & F9 & F10).
  unfold buildSolverOptions. destruct (given_contains _ _ _ G) as [-> ->]. cbn [bind].
  destruct (read_total jdouble number setUpwindAlpha jdouble_ok so "upwind_alpha" defaultOptions F1) as (o1 & ->). cbn [bind].
  destruct (read_total jdouble number setOptTimeStep jdouble_ok so "time_step" o1 F2) as (o2 & ->). cbn [bind].
  destruct (read_total jdouble number setOptFinalTime jdouble_ok so "final_time" o2 F3) as (o3 & ->). cbn [bind].
  destruct (read_total jdouble number setCFL jdouble_ok so "cfl" o3 F4) as (o4 & ->). cbn [bind].
  destruct (read_total jint whole32 setOrder jint_ok so "order" o4 F5) as (o5 & ->). cbn [bind].
  destruct (read_total jbool truth setSpectralEO jbool_ok so "spectral" o5 F6) as (o6 & ->). cbn [bind].
  destruct (read_total jbool truth setExportEO jbool_ok so "export_operator" o6 F7) as (o7 & ->). cbn [bind].
  destruct (read_total jop opName setEvolutionOperator jop_ok so "evolution_operator" o7 F8) as (o8 & ->). cbn [bind].
  destruct (read_total jint whole32 setBasisType jint_ok so "basis_type" o8 F9) as (o9 & ->). cbn [bind].
  apply (read_total jsizet whole64 setODEType jsizet_ok so "ode_type" o9 F10).
Qed.

Theorem accept_iff : forall c o, acceptOptions c = Ok o <->
  optionsOf c o /\ 0 <= so_order o /\ (0 <= so_tf o)%R /\ (0 < so_cfl o)%R /\ 0 <= so_ode o <= 6.
Proof.
  intros c o. unfold acceptOptions. rewrite bind_ok. setoid_rewrite options_iff.
  unfold checkOptionsAreValid, assignODESolver, timeOptions; cbn [o_order o_final_time o_cfl].
  split.
  - intros (o' & H & H').
    destruct (so_order o' <? 0) eqn:E1; [discriminate|].
    destruct (Rlt_dec (so_tf o') 0) as [L1|L1]; [discriminate|].
    destruct (Rle_dec (so_cfl o') 0) as [L2|L2]; [discriminate|]. cbn [bind] in H'.
    destruct ((0 <=? so_ode o') && (so_ode o' <=? 6)) eqn:E2; [|discriminate]. injection H' as <-.
    repeat split; try lra; try lia. exact H.
  - intros (H & H1 & H2 & H3 & H4). exists o. split; [exact H|].
    destruct (so_order o <? 0) eqn:E1; [lia|].
    destruct (Rlt_dec (so_tf o) 0) as [L1|L1]; [lra|].
    destruct (Rle_dec (so_cfl o) 0) as [L2|L2]; [lra|]. cbn [bind].
    destruct ((0 <=? so_ode o) && (so_ode o <=? 6)) eqn:E2; [reflexivity|lia].
Qed.

(** Values of a wrong type in a case file. *)
From Coq Require Import String List ZArith Reals Lia Classical.
From Flocq Require Import Core.
From Verif Require Import Common Setup_Model Geo_Model Time_Model Input_Model Input_Spec Input_Proofs InputEx_Proofs.
Import ListNotations.
Open Scope string_scope.
Open Scope Z_scope.

Lemma read_no_ub : forall {A} (conv : json -> res A) set so k o,
  (forall x, given so k x -> conv x <> UB) -> readOption conv set so k o <> UB.
Proof.
  intros A conv set so k o H. unfold readOption. destruct (contains so k) eqn:E; [|discriminate].
  destruct (contains_true _ _ E) as (v & Hv & Hj). rewrite Hj. cbn [bind].
  specialize (H v Hv). destruct (conv v); cbn [bind]; congruence.
Qed.
Lemma bind_no_ub : forall {A B} (m : res A) (k : A -> res B), m <> UB -> (forall a, k a <> UB) -> bind m k <> UB.
Proof. intros A B m k H1 H2. destruct m; cbn [bind]; auto; congruence. Qed.

Lemma jint_no_ub : forall so k, realsFit whole32 so k -> forall x, given so k x -> jint x <> UB.
Proof.
  intros so k H x Hx. destruct x; cbn [jint]; try discriminate.
  destruct (H r Hx) as [v Hv]. apply jint_ok in Hv. cbn [jint] in Hv. congruence.
Qed.
Lemma jsizet_no_ub : forall so k, realsFit whole64 so k -> forall x, given so k x -> jsizet x <> UB.
Proof.
  intros so k H x Hx. destruct x; cbn [jsizet]; try discriminate.
  destruct (H r Hx) as [v Hv]. apply jsizet_ok in Hv. cbn [jsizet] in Hv. congruence.
Qed.

Lemma options_no_ub : forall c, (forall so, given c "solver_options" so -> realsFit whole32 so "order" /\ realsFit whole32 so "basis_type" /\ realsFit whole64 so "ode_type") ->
  buildSolverOptions c <> UB.
Proof.
  intros c H. unfold buildSolverOptions. destruct (contains c "solver_options") eqn:E; [|discriminate].
  destruct (contains_true _ _ E) as (so & Hs & Hj). rewrite Hj. cbn [bind]. destruct (H so Hs) as (H1 & H2 & H3).
  repeat (apply bind_no_ub; [|intros ?]).
  all: apply read_no_ub; try (apply jint_no_ub; assumption); try (apply jsizet_no_ub; assumption); intros x Hx.
  all: try (destruct x; cbn; discriminate).
  unfold jop. destruct (jeqs x "maxwell"), (jeqs x "global"), (jeqs x "hesthaven"); discriminate.
Qed.

Lemma read_fits : forall so o, optionsFrom so o -> wellTyped so.
Proof.
  intros so o H. unfold optionsFrom in H. unfold wellTyped.
  assert (K : forall A (conv : json -> A -> Prop) k d v, optionIs conv so k d v -> fits conv so k).
  { intros A conv k d v Hv x Hx. unfold optionIs in Hv. destruct Hv as [(y & Hy & Hc)|[Hab _]].
    - rewrite (given_fun _ _ _ _ Hx Hy). eauto.
    - destruct (Hab x Hx). }
  intuition eauto.
Qed.

Lemma options_rejects : forall c so, given c "solver_options" so -> realsFit whole32 so "order" -> realsFit whole32 so "basis_type" -> realsFit whole64 so "ode_type" ->
  ~ wellTyped so -> buildSolverOptions c = Throw.
Proof.
  intros c so Hs H1 H2 H3 Hn. destruct (buildSolverOptions c) as [o| |] eqn:E; auto.
  - apply options_iff in E. exfalso. apply Hn. destruct E as [(so' & Hs' & Ho)|[Hab _]].
    + rewrite (given_fun _ _ _ _ Hs Hs'). eapply read_fits; eauto.
    + destruct (Hab so Hs).
  - exfalso. revert E. apply options_no_ub. intros so' Hs'. rewrite <- (given_fun _ _ _ _ Hs Hs'). auto.
Qed.

Lemma not_object : forall j k, ~ isObject j -> jat j k = Throw.
Proof. intros j k H. destruct j; try reflexivity. exfalso. apply H. eexists; reflexivity. Qed.
Lemma foldM_throw : forall {A B} (f : A -> B -> res A) l x a, f a x = Throw -> foldM f (x :: l) a = Throw.
Proof. intros A B f l x a H. cbn [foldM]. rewrite H. reflexivity. Qed.

Lemma walls_shape : forall f c, ~ isObject c -> parseSGBCs f c = Throw.
Proof. intros f c H. unfold parseSGBCs. rewrite (not_object _ _ H). reflexivity. Qed.
Lemma walls_model : forall f c m, given c "model" m -> ~ isObject m -> parseSGBCs f c = Throw.
Proof.
  intros f c m Hm H. unfold parseSGBCs. destruct (given_contains _ _ _ Hm) as [_ ->]. cbn [bind].
  rewrite (not_object _ _ H). reflexivity.
Qed.
Lemma walls_list : forall f c m b, given c "model" m -> given m "boundaries" b -> (forall l, ~ listOf b l) -> parseSGBCs f c = Throw.
Proof.
  intros f c m b Hm Hb H. unfold parseSGBCs. destruct (given_contains _ _ _ Hm) as [_ ->]. cbn [bind].
  destruct (given_contains _ _ _ Hb) as [_ ->]. cbn [bind].
  assert (Hi : forall i, jidx b i = Throw) by (intros i; destruct b; try reflexivity; exfalso; eapply (H l); left; reflexivity).
  assert (Hz : (0 < jsize b)%Z).
  { destruct b as [| | | | |l|l]; cbn [jsize]; try lia.
    - exfalso; eapply (H []); right; auto.
    - exfalso; eapply (H l); left; reflexivity.
    - destruct l; [exfalso; eapply (H []); right; auto|cbn [List.length]; lia]. }
  destruct (Z.to_nat (jsize b)) as [|n] eqn:En; [lia|].
  assert (exists t, zseq (S n) = 0 :: t) as [t ->].
  { unfold zseq. cbn. eexists; reflexivity. }
  apply foldM_throw. rewrite Hi. reflexivity.
Qed.

Lemma ends_type : forall src b k v lr, given src "sgbc_boundaries" b -> (k = "left" \/ k = "right") -> given b k v -> (forall c, ~ endName v c) -> parseBoundaries src lr = Throw.
Proof.
  intros src b k v lr Hs Hk Hv Hn. unfold parseBoundaries. destruct (given_contains _ _ _ Hs) as [-> ->]. cbn [bind].
  assert (T : forall cur, parseEnd b k cur = Throw).
  { intros cur. unfold parseEnd. destruct (given_contains _ _ _ Hv) as [-> ->]. cbn [bind].
    destruct v; try reflexivity. cbn [jstring bind]. unfold assignBoundaryType.
    repeat match goal with |- context [String.eqb ?a ?b] => destruct (String.eqb_spec a b); [subst; exfalso; eapply Hn; constructor|] end.
    reflexivity. }
  destruct Hk as [-> | ->].
  - rewrite T. reflexivity.
  - assert (N : forall cur, parseEnd b "left" cur <> UB).
    { intros cur. unfold parseEnd. destruct (contains b "left") eqn:E; [|discriminate].
      destruct (contains_true _ _ E) as (w & _ & ->). cbn [bind]. destruct w; try discriminate. cbn [jstring bind].
      unfold assignBoundaryType. repeat match goal with |- context [if ?x then _ else _] => destruct x; try discriminate end. }
    specialize (N (fst lr)). destruct (parseEnd b "left" (fst lr)); cbn [bind]; try congruence. rewrite T. reflexivity.
Qed.

(** Proofs about Geo_Model: the wall mesh and the orientation comparison. *)
From Coq Require Import ZArith List Bool Reals Lra Lia Psatz.
From Verif Require Import Common Geo_Model Geo_Spec.
Import ListNotations.
Local Open Scope R_scope.

Lemma some_inj : forall (X : Type) (a b : X), Some a = Some b -> a = b.
Proof. congruence. Qed.
Arguments some_inj {X a b}.
Section Wall.
Context {M : Type}.
Implicit Types ls : list (layer M).
Definition shape ls : list (R * nat) := map (fun l => (l_width l, l_segs l)) ls.

Lemma totalWidth_sum : forall ls, totalWidth ls = sumWidth (shape ls).
Proof.
  intros ls. unfold totalWidth. transitivity (0 + sumWidth (shape ls)); [|ring]. generalize 0.
  induction ls as [|l ls IH]; intros w; cbn [fold_left sumWidth shape map]; [ring|]. rewrite IH. unfold shape. ring.
Qed.
Lemma totalSegments_sum : forall ls, totalSegments ls = sumSegs (shape ls).
Proof.
  intros ls. unfold totalSegments. transitivity (0 + sumSegs (shape ls))%nat; [|reflexivity]. generalize 0%nat.
  induction ls as [|l ls IH]; intros w; cbn; [lia|]. rewrite IH. fold (shape ls). lia.
Qed.

Lemma segLoop_spec : forall dx n x vs, segLoop dx n (x, vs) = (x + INR n * dx, vs ++ map (fun j => x + INR (S j) * dx) (seq 0 n)).
Proof.
  intros dx. unfold segLoop. induction n as [|n IH]; intros x vs; [cbn [fold_left seq map shape sumWidth sumSegs]; rewrite app_nil_r; f_equal; cbn [INR]; ring|].
  rewrite seq_S, fold_left_app. cbn [Nat.add]. rewrite IH. cbn [fold_left fst snd]. rewrite map_app, app_assoc. rewrite S_INR.
  f_equal; [ring|]. cbn [map]. f_equal. f_equal. rewrite S_INR. ring.
Qed.

Definition positive (l : R * nat) : Prop := 0 < fst l /\ (0 < snd l)%nat.

Lemma depth_skip : forall w n t k, (n < k)%nat -> depth ((w, n) :: t) k = w + depth t (k - n).
Proof. intros. cbn. destruct (Nat.leb_spec k n); [lia|reflexivity]. Qed.
Lemma depth_in : forall w n t k, (k <= n)%nat -> depth ((w, n) :: t) k = w * INR k / INR n.
Proof. intros. cbn. destruct (Nat.leb_spec k n); [reflexivity|lia]. Qed.

Lemma layers_spec : forall ls x vs, Forall positive (shape ls) ->
  fold_left (fun st l => segLoop (l_width l / INR (l_segs l)) (l_segs l) st) ls (x, vs) =
  (x + sumWidth (shape ls), vs ++ map (fun j => x + depth (shape ls) (S j)) (seq 0 (sumSegs (shape ls)))).
Proof.
  induction ls as [|l ls IH]; intros x vs H; [cbn [fold_left seq map shape sumWidth sumSegs]; rewrite app_nil_r; f_equal; cbn [INR]; ring|].
  cbn [fold_left shape map] in *. inversion H as [|? ? [Hw Hn] Hs]; subst. cbn [fst snd] in Hw, Hn. rewrite segLoop_spec, IH by assumption.
  fold (shape ls). cbn [sumWidth sumSegs]. assert (Hn' : INR (l_segs l) <> 0) by (apply not_0_INR; lia).
  f_equal; [field; assumption|]. rewrite <- app_assoc. f_equal. rewrite seq_app, map_app. f_equal.
  - apply map_ext_in. intros j Hj. apply in_seq in Hj. rewrite depth_in by lia. field. assumption.
  -
    assert (G : forall m k, map (fun j => x + depth ((l_width l, l_segs l) :: shape ls) (S j)) (seq (l_segs l + k) m) =
       map (fun j => x + INR (l_segs l) * (l_width l / INR (l_segs l)) + depth (shape ls) (S j)) (seq k m)).
    { induction m as [|m IHm]; intros k; [reflexivity|]. cbn [seq map]. f_equal.
      - rewrite depth_skip by lia. replace (S (l_segs l + k) - l_segs l)%nat with (S k) by lia. field. assumption.
      - rewrite <- IHm. f_equal. f_equal. lia. }
    specialize (G (sumSegs (shape ls)) 0%nat). rewrite Nat.add_0_r in G. symmetry. exact G.
Qed.

Lemma vertices_spec : forall ls g, Forall positive (shape ls) ->
  wallVertices ls g =
    map (fun i => INR i * (sumWidth (shape ls) / INR (sumSegs (shape ls)))) (seq 0 (S g)) ++
    map (fun j => INR g * (sumWidth (shape ls) / INR (sumSegs (shape ls))) + depth (shape ls) (S j)) (seq 0 (sumSegs (shape ls))) ++
    map (fun i => INR g * (sumWidth (shape ls) / INR (sumSegs (shape ls))) + sumWidth (shape ls) + INR i * (sumWidth (shape ls) / INR (sumSegs (shape ls)))) (seq 1 g).
Proof.
  intros ls g H. unfold wallVertices. rewrite layers_spec by assumption. rewrite totalWidth_sum, totalSegments_sum. rewrite <- app_assoc. reflexivity.
Qed.
Lemma vertices_length : forall ls g, Forall positive (shape ls) -> List.length (wallVertices ls g) = (2 * g + sumSegs (shape ls) + 1)%nat.
Proof. intros. rewrite vertices_spec by assumption. rewrite !app_length, !map_length, !seq_length. lia. Qed.

Definition gdx ls : R := sumWidth (shape ls) / INR (sumSegs (shape ls)).

(** Where the vertices are. *)
Lemma vertex_left : forall ls g i, Forall positive (shape ls) -> (i <= g)%nat -> nth_error (wallVertices ls g) i = Some (INR i * gdx ls).
Proof.
  intros ls g i H Hi. rewrite vertices_spec by assumption. rewrite nth_error_app1 by (rewrite map_length, seq_length; lia).
  rewrite nth_error_map, (nth_error_nth' _ 0%nat) by (rewrite seq_length; lia). rewrite seq_nth by lia. reflexivity.
Qed.
Lemma vertex_wall : forall ls g k, Forall positive (shape ls) -> (k <= sumSegs (shape ls))%nat ->
  nth_error (wallVertices ls g) (g + k) = Some (INR g * gdx ls + depth (shape ls) k).
Proof.
  intros ls g k H Hk. destruct k as [|k].
  - rewrite Nat.add_0_r, vertex_left by (assumption || lia). f_equal.
    replace (depth (shape ls) 0) with 0; [ring|]. destruct (shape ls) as [|[w n] t]; [reflexivity|]. rewrite depth_in by lia. cbn [INR]. unfold Rdiv. ring.
  - rewrite vertices_spec by assumption. rewrite nth_error_app2 by (rewrite map_length, seq_length; lia). rewrite map_length, seq_length.
    rewrite nth_error_app1 by (rewrite map_length, seq_length; lia). replace (g + S k - S g)%nat with k by lia.
    rewrite nth_error_map, (nth_error_nth' _ 0%nat) by (rewrite seq_length; lia). rewrite seq_nth by lia. reflexivity.
Qed.
Lemma vertex_right : forall ls g i, Forall positive (shape ls) -> (i <= g)%nat ->
  nth_error (wallVertices ls g) (g + sumSegs (shape ls) + i) = Some (INR g * gdx ls + sumWidth (shape ls) + INR i * gdx ls).
Proof.
  intros ls g i H Hi. destruct i as [|i].
  - rewrite Nat.add_0_r, vertex_wall by (assumption || lia). f_equal. cbn [INR].
    replace (depth (shape ls) (sumSegs (shape ls))) with (sumWidth (shape ls)); [ring|].
    generalize (shape ls) H. clear. induction l as [|[w n] t IH]; intros H; [reflexivity|].
    inversion H as [|? ? [Hw Hn] Ht]; subst. cbn [fst snd] in *. cbn [sumWidth sumSegs].
    assert (INR n <> 0) by (apply not_0_INR; lia).
    destruct (Nat.eq_dec (sumSegs t) 0) as [E|E].
    + destruct t as [|[w' n'] t]; [cbn [sumSegs sumWidth]; rewrite depth_in by lia; rewrite Nat.add_0_r; field; assumption|].
      exfalso. inversion Ht as [|? ? [_ Hn'] _]; subst. cbn [snd] in Hn'. cbn [sumSegs] in E. lia.
    + rewrite depth_skip by lia. replace (n + sumSegs t - n)%nat with (sumSegs t) by lia. rewrite <- IH by assumption. reflexivity.
  - rewrite vertices_spec by assumption. rewrite nth_error_app2 by (rewrite map_length, seq_length; lia). rewrite map_length, seq_length.
    rewrite nth_error_app2 by (rewrite map_length, seq_length; lia). rewrite map_length, seq_length.
    replace (g + sumSegs (shape ls) + S i - S g - sumSegs (shape ls))%nat with i by lia.
    rewrite nth_error_map, (nth_error_nth' _ 0%nat) by (rewrite seq_length; lia). rewrite seq_nth by lia. reflexivity.
Qed.

Lemma sums_pos : forall l, l <> [] -> Forall positive l -> 0 < sumWidth l /\ (0 < sumSegs l)%nat.
Proof.
  induction l as [|[w n] t IH]; intros N H; [congruence|]. inversion H as [|? ? [Hw Hn] Ht]; subst. cbn [fst snd sumWidth sumSegs] in *.
  destruct t as [|p t]; [cbn [sumWidth sumSegs]; split; [lra|lia]|]. destruct (IH ltac:(discriminate) Ht). split; [lra|lia].
Qed.
Lemma depth_step : forall l k, Forall positive l -> (k < sumSegs l)%nat -> depth l k < depth l (S k).
Proof.
  induction l as [|[w n] t IH]; intros k H Hk; [cbn in Hk; lia|]. inversion H as [|? ? [Hw Hn] Ht]; subst. cbn [fst snd sumSegs] in *.
  assert (P : 0 < INR n) by (apply lt_0_INR; assumption).
  destruct (Nat.lt_ge_cases k n) as [L|L].
  - rewrite !depth_in by lia. rewrite S_INR. apply Rmult_lt_compat_r; [apply Rinv_0_lt_compat; assumption|]. nra.
  - destruct (Nat.eq_dec k n) as [->|E].
    + rewrite depth_in, depth_skip by lia. replace (S n - n)%nat with 1%nat by lia. replace (w * INR n / INR n) with w by (field; lra).
      assert (Z0 : depth t 0 = 0). { destruct t as [|[w' n'] t']; [reflexivity|]. rewrite depth_in by lia. cbn [INR]. unfold Rdiv. ring. }
      assert (depth t 0 < depth t 1) by (apply IH; [assumption | lia]). lra.
    + rewrite !depth_skip by lia. replace (S k - n)%nat with (S (k - n)) by lia. assert (depth t (k - n) < depth t (S (k - n))) by (apply IH; [assumption|lia]). lra.
Qed.

Lemma increasing : forall ls g i a b, ls <> [] -> Forall positive (shape ls) ->
  nth_error (wallVertices ls g) i = Some a -> nth_error (wallVertices ls g) (S i) = Some b -> a < b.
Proof.
  intros ls g i a b N H A B.
  destruct (sums_pos (shape ls)) as [SW SS]; [destruct ls; [congruence|discriminate] | assumption|].
  assert (G : 0 < gdx ls) by (apply Rdiv_lt_0_compat; [assumption | apply lt_0_INR; assumption]).
  assert (L : (S i < 2 * g + sumSegs (shape ls) + 1)%nat). { rewrite <- (vertices_length ls g H). apply nth_error_Some. congruence. }
  destruct (Nat.lt_ge_cases i g) as [I|I].
  - rewrite vertex_left in A, B by (assumption || lia). apply some_inj in A. apply some_inj in B. rewrite <- A, <- B. clear A B. rewrite S_INR. nra.
  - destruct (Nat.lt_ge_cases i (g + sumSegs (shape ls))) as [J|J].
    + replace i with (g + (i - g))%nat in A by lia. replace (S i) with (g + S (i - g))%nat in B by lia.
      rewrite vertex_wall in A, B by (assumption || lia). apply some_inj in A. apply some_inj in B. rewrite <- A, <- B. clear A B.
      assert (depth (shape ls) (i - g) < depth (shape ls) (S (i - g))) by (apply depth_step; [assumption|lia]). lra.
    + replace i with (g + sumSegs (shape ls) + (i - g - sumSegs (shape ls)))%nat in A by lia.
      replace (S i) with (g + sumSegs (shape ls) + S (i - g - sumSegs (shape ls)))%nat in B by lia.
      rewrite vertex_right in A, B by (assumption || lia). apply some_inj in A. apply some_inj in B. rewrite <- A, <- B. clear A B. rewrite S_INR. nra.
Qed.
End Wall.

Section Attributes.
Context {M : Type}.
Implicit Types ls : list (layer M).

Lemma upd_app : forall (pre suf : list nat) x v, upd (pre ++ x :: suf) (List.length pre) v = pre ++ v :: suf.
Proof. induction pre as [|p pre IH]; intros; cbn; [reflexivity|]. rewrite IH. reflexivity. Qed.
Lemma set_app : forall (pre suf : list nat) x v, setAttribute (pre ++ x :: suf) (List.length pre) v = Ok (pre ++ v :: suf).
Proof.
  intros. unfold setAttribute. rewrite app_length. cbn [List.length]. destruct (Nat.ltb_spec (List.length pre) (List.length pre + S (List.length suf))); [|lia].
  rewrite upd_app. reflexivity.
Qed.
(** A run of consecutive assignments. *)
Lemma run_idx : forall v n k (pre mid suf : list nat), List.length mid = n ->
  foldM (fun st (_ : nat) => a' <- setAttribute (fst st) (snd st) v ;; Ok (a', S (snd st))) (seq k n) (pre ++ mid ++ suf, List.length pre) =
  Ok (pre ++ repeat v n ++ suf, (List.length pre + n)%nat).
Proof.
  intros v. induction n as [|n IH]; intros k pre mid suf L; (destruct mid as [|x mid]; cbn [List.length] in L; [|]; try discriminate).
  - cbn. rewrite Nat.add_0_r. reflexivity.
  - cbn [seq foldM fst snd List.app]. rewrite set_app. cbn [bind].
    replace (pre ++ v :: mid ++ suf) with ((pre ++ [v]) ++ mid ++ suf) by (rewrite <- app_assoc; reflexivity).
    replace (S (List.length pre)) with (List.length (pre ++ [v])) by (rewrite app_length; cbn; lia).
    rewrite IH by lia. rewrite app_length. cbn [List.length repeat List.app]. rewrite <- app_assoc. cbn [List.app]. f_equal. f_equal. lia.
Qed.
Lemma run_from : forall v n k (pre mid suf : list nat), List.length mid = n -> forall base, List.length pre = (base + k)%nat ->
  foldM (fun a i => setAttribute a (base + i) v) (seq k n) (pre ++ mid ++ suf) = Ok (pre ++ repeat v n ++ suf).
Proof.
  intros v. induction n as [|n IH]; intros k pre mid suf L base P; (destruct mid as [|x mid]; cbn [List.length] in L; [|]; try discriminate).
  - reflexivity.
  - cbn [seq foldM List.app]. rewrite <- P, set_app. cbn [bind].
    replace (pre ++ v :: mid ++ suf) with ((pre ++ [v]) ++ mid ++ suf) by (rewrite <- app_assoc; reflexivity).
    rewrite IH; [|lia | rewrite app_length; cbn [List.length]; lia]. cbn [repeat List.app]. rewrite <- app_assoc. reflexivity.
Qed.

Fixpoint attrsOf (li : nat) ls : list nat := match ls with [] => [] | l :: t => repeat (S li) (l_segs l) ++ attrsOf (S li) t end.
Lemma attrsOf_length : forall ls li, List.length (attrsOf li ls) = sumSegs (shape ls).
Proof. induction ls as [|l ls IH]; intros li; [reflexivity|]. cbn [attrsOf shape map sumSegs]. rewrite app_length, repeat_length, IH. reflexivity. Qed.
Lemma attrsOf_nth : forall ls li k, (k < sumSegs (shape ls))%nat -> nth_error (attrsOf li ls) k = Some (S (li + layerOf (shape ls) k)).
Proof.
  induction ls as [|l ls IH]; intros li k H; cbn [attrsOf shape map sumSegs layerOf] in *; [lia|].
  destruct (Nat.ltb_spec k (l_segs l)).
  - rewrite nth_error_app1 by (rewrite repeat_length; assumption). rewrite nth_error_repeat by assumption. f_equal. lia.
  - rewrite nth_error_app2 by (rewrite repeat_length; assumption). rewrite repeat_length.
    change (map (fun l => (l_width l, l_segs l)) ls) with (shape ls) in *. rewrite IH by lia. f_equal. lia.
Qed.

Lemma layers_attrs : forall rest done pre mid suf, List.length mid = sumSegs (shape rest) ->
  foldM (fun st li =>
        foldM (fun st (_ : nat) => a' <- setAttribute (fst st) (snd st) (S li) ;; Ok (a', S (snd st)))
          (seq 0 (match nth_error (done ++ rest) li with Some l => l_segs l | None => 0%nat end)) st)
      (seq (List.length done) (List.length rest)) (pre ++ mid ++ suf, List.length pre) =
  Ok (pre ++ attrsOf (List.length done) rest ++ suf, (List.length pre + sumSegs (shape rest))%nat).
Proof.
  induction rest as [|l rest IH]; intros done pre mid suf L.
  - destruct mid; [|discriminate]. cbn. rewrite Nat.add_0_r. reflexivity.
  - cbn [List.length seq foldM attrsOf]. rewrite nth_error_app2, Nat.sub_diag by lia. cbn [nth_error].
    cbn [shape map sumSegs] in L. change (map (fun l => (l_width l, l_segs l)) rest) with (shape rest) in L.
    assert (E : mid = firstn (l_segs l) mid ++ skipn (l_segs l) mid) by (symmetry; apply firstn_skipn).
    rewrite E at 1. rewrite <- app_assoc. rewrite run_idx by (rewrite firstn_length; lia). cbn [bind].
    replace (done ++ l :: rest) with ((done ++ [l]) ++ rest) by (rewrite <- app_assoc; reflexivity).
    replace (S (List.length done)) with (List.length (done ++ [l])) by (rewrite app_length; cbn; lia).
    specialize (IH (done ++ [l]) (pre ++ repeat (S (List.length done)) (l_segs l)) (skipn (l_segs l) mid) suf).
    rewrite !app_length, repeat_length in IH. rewrite !app_length. cbn [List.length] in IH. cbn [List.length]. rewrite <- !app_assoc in IH. rewrite <- !app_assoc. cbn [List.app] in *.
    rewrite !Nat.add_1_r in *. rewrite IH by (rewrite skipn_length; lia). cbn [shape map sumSegs]. f_equal. f_equal. unfold shape. lia.
Qed.

Lemma attributes_spec : forall ls g, Forall positive (shape ls) ->
  wallAttributes ls g = Ok (repeat (S (List.length ls)) g ++ attrsOf 0 ls ++ repeat (S (List.length ls)) g).
Proof.
  intros ls g H. unfold wallAttributes. rewrite vertices_length by assumption.
  replace (2 * g + sumSegs (shape ls) + 1 - 1)%nat with (g + (sumSegs (shape ls) + g))%nat by lia. rewrite !repeat_app.
  assert (A := run_from (S (List.length ls)) g 0 [] (repeat 1%nat g) (repeat 1%nat (sumSegs (shape ls)) ++ repeat 1%nat g) (repeat_length _ _) 0%nat eq_refl).
  cbn [List.app Nat.add] in A. rewrite A. cbn [bind]. clear A.
  assert (B := layers_attrs ls [] (repeat (S (List.length ls)) g) (repeat 1%nat (sumSegs (shape ls))) (repeat 1%nat g) (repeat_length _ _)).
  cbn [List.app List.length] in B. rewrite repeat_length in B. rewrite B. cbn [bind]. clear B.
  assert (C := run_from (S (List.length ls)) g 0 (repeat (S (List.length ls)) g ++ attrsOf 0 ls) (repeat 1%nat g) [] (repeat_length _ _) (g + sumSegs (shape ls))%nat).
  rewrite !app_nil_r, <- !app_assoc in C. apply C. rewrite app_length, repeat_length, attrsOf_length. lia.
Qed.

(** The material of an attribute. *)
Lemma mapFind_layers : forall (ms : list M) k0 tail k, mapFind k (combine (seq k0 (List.length ms)) ms ++ tail) =
  if (k0 <=? k)%nat && (k <? k0 + List.length ms)%nat then nth_error ms (k - k0) else mapFind k tail.
Proof.
  induction ms as [|m ms IH]; intros k0 tail k.
  - cbn [List.length seq combine List.app]. destruct (Nat.leb_spec k0 k), (Nat.ltb_spec k (k0 + 0)); cbn [andb]; try reflexivity. lia.
  - cbn [List.length seq combine List.app mapFind]. destruct (Nat.eqb_spec k0 k) as [->|N].
    + destruct (Nat.leb_spec k k), (Nat.ltb_spec k (k + S (List.length ms))); try lia. rewrite Nat.sub_diag. reflexivity.
    + rewrite IH. destruct (Nat.leb_spec (S k0) k), (Nat.leb_spec k0 k); try lia; cbn [andb].
      * replace (S k0 + List.length ms)%nat with (k0 + S (List.length ms))%nat by lia. destruct (Nat.ltb_spec k (k0 + S (List.length ms))); [|reflexivity].
        replace (k - k0)%nat with (S (k - S k0)) by lia. reflexivity.
      * reflexivity.
Qed.
Lemma layerOf_lt : forall l k, (k < sumSegs l)%nat -> (layerOf l k < List.length l)%nat.
Proof. induction l as [|[w n] t IH]; intros k H; cbn [sumSegs layerOf List.length] in *; [lia|]. destruct (Nat.ltb_spec k n); [lia|]. assert (layerOf t (k - n) < List.length t)%nat by (apply IH; lia). lia. Qed.

(** All about the elements: the attribute, and through it the material. *)
Lemma wall_elements : forall vac ls g, Forall positive (shape ls) -> exists attrs, wallAttributes ls g = Ok attrs /\
  S (List.length attrs) = List.length (wallVertices ls g) /\
  (forall i, (i < g)%nat -> exists a, nth_error attrs i = Some a /\ a = S (List.length ls) /\ mapFind a (wallMaterials vac ls) = Some vac) /\
  (forall k, (k < sumSegs (shape ls))%nat -> exists a l, nth_error attrs (g + k) = Some a /\ a = S (layerOf (shape ls) k) /\
     nth_error ls (layerOf (shape ls) k) = Some l /\ mapFind a (wallMaterials vac ls) = Some (l_mat l)) /\
  (forall i, (i < g)%nat -> exists a, nth_error attrs (g + sumSegs (shape ls) + i) = Some a /\ a = S (List.length ls) /\ mapFind a (wallMaterials vac ls) = Some vac).
Proof.
  intros vac ls g H. eexists. split; [apply attributes_spec; assumption|].
  assert (V : mapFind (S (List.length ls)) (wallMaterials vac ls) = Some vac).
  { unfold wallMaterials. rewrite <- (map_length l_mat ls) at 2. rewrite mapFind_layers. rewrite map_length.
    destruct (Nat.ltb_spec (S (List.length ls)) (1 + List.length ls)); [lia|]. rewrite andb_false_r. cbn [mapFind]. rewrite Nat.eqb_refl. reflexivity. }
  split; [|split; [|split]].
  - rewrite vertices_length by assumption. rewrite !app_length, !repeat_length, attrsOf_length. lia.
  - intros i Hi. exists (S (List.length ls)). split; [|split; [reflexivity|exact V]].
    rewrite nth_error_app1 by (rewrite repeat_length; assumption). apply nth_error_repeat. assumption.
  - intros k Hk. assert (LL := layerOf_lt (shape ls) k Hk). unfold shape at 2 in LL. rewrite map_length in LL.
    destruct (nth_error ls (layerOf (shape ls) k)) as [l|] eqn:E; [|apply nth_error_None in E; lia].
    exists (S (layerOf (shape ls) k)), l. split; [|split; [reflexivity|split; [reflexivity|]]].
    + rewrite nth_error_app2 by (rewrite repeat_length; lia). rewrite repeat_length. rewrite nth_error_app1 by (rewrite attrsOf_length; lia).
      replace (g + k - g)%nat with k by lia. rewrite attrsOf_nth by assumption. reflexivity.
    + unfold wallMaterials. rewrite <- (map_length l_mat ls) at 1. rewrite mapFind_layers. rewrite map_length.
      destruct (Nat.leb_spec 1 (S (layerOf (shape ls) k))); [|lia]. destruct (Nat.ltb_spec (S (layerOf (shape ls) k)) (1 + List.length ls)); [|lia].
      cbn [andb]. replace (S (layerOf (shape ls) k) - 1)%nat with (layerOf (shape ls) k) by lia. rewrite nth_error_map, E. reflexivity.
  - intros i Hi. exists (S (List.length ls)). split; [|split; [reflexivity|exact V]].
    rewrite nth_error_app2 by (rewrite repeat_length; lia). rewrite repeat_length. rewrite nth_error_app2 by (rewrite attrsOf_length; lia). rewrite attrsOf_length.
    apply nth_error_repeat. lia.
Qed.

(** The interface dofs: the first of the first wall element and the last of the last,
    when every element has maxOrder + 1 dofs numbered element by element. *)
Lemma interfaces : forall ls, Forall positive (shape ls) ->
  let p1 := (Z.of_nat (maxOrder ls) + 1)%Z in
  let size := (Z.of_nat (List.length (wallVertices ls (ghosts ls)) - 1) * p1)%Z in
  leftInterface ls = (Z.of_nat (ghosts ls) * p1)%Z /\
  rightInterface ls size = (Z.of_nat (ghosts ls + sumSegs (shape ls) - 1) * p1 + Z.of_nat (maxOrder ls))%Z.
Proof.
  intros ls H p1 size. split; [reflexivity|]. unfold rightInterface, size. rewrite vertices_length by assumption. fold p1.
  assert (E : (1 <= ghosts ls)%nat) by (unfold ghosts; lia).
  rewrite !Nat2Z.inj_sub by lia. rewrite !Nat2Z.inj_add, Nat2Z.inj_mul. unfold p1. lia.
Qed.
End Attributes.

(** ** Orientation *)
Lemma zlist_eqb_eq : forall a b, zlist_eqb a b = true <-> a = b.
Proof.
  induction a as [|x a IH]; intros [|y b]; cbn; split; intros H; try reflexivity; try discriminate.
  - apply andb_true_iff in H. destruct H as [H1 H2]. apply Z.eqb_eq in H1. apply IH in H2. congruence.
  - injection H as -> ->. rewrite Z.eqb_refl. apply IH. reflexivity.
Qed.
Lemma find_idx_split : forall x l n, find_idx x l = Some n -> exists u v, l = u ++ x :: v /\ List.length u = n.
Proof.
  induction l as [|y l IH]; intros n H; cbn in H; [discriminate|]. destruct (Z.eqb_spec y x) as [->|N].
  - injection H as <-. exists [], l. split; reflexivity.
  - destruct (find_idx x l) as [m|]; [|discriminate]. injection H as <-. destruct (IH m eq_refl) as (u & v & -> & <-). exists (y :: u), v. split; reflexivity.
Qed.
Lemma find_idx_none : forall x l, find_idx x l = None -> ~ In x l.
Proof.
  induction l as [|y l IH]; intros H I; cbn in H; [contradiction|]. destruct (Z.eqb_spec y x) as [->|N]; [discriminate|].
  destruct (find_idx x l); [discriminate|]. destruct I as [E|I]; [congruence|]. exact (IH eq_refl I).
Qed.
Lemma nodup_split : forall (x : Z) u v u' v', NoDup (u ++ x :: v) -> u ++ x :: v = u' ++ x :: v' -> u = u' /\ v = v'.
Proof.
  induction u as [|a u IH]; intros v [|b u'] v' N E; cbn in *.
  - injection E as ->. split; reflexivity.
  - injection E as -> ->. exfalso. inversion N as [|? ? NI _]; subst. apply NI. apply in_or_app. right. left. reflexivity.
  - injection E as -> E. exfalso. inversion N as [|? ? NI _]; subst. apply NI. apply in_or_app. right. left. reflexivity.
  - injection E as -> E. inversion N as [|? ? _ N']; subst. destruct (IH _ _ _ N' E) as [-> ->]. split; reflexivity.
Qed.
Lemma triangle_spec : forall v1 v2, v1 <> [] -> NoDup v2 ->
  (sameOrientation Triangle v1 Triangle v2 = Ok true <-> cyclic v1 v2) /\ exists b, sameOrientation Triangle v1 Triangle v2 = Ok b.
Proof.
  intros v1 v2 N D. unfold sameOrientation. cbn [elType_eqb negb]. destruct v1 as [|x t]; [congruence|].
  destruct (find_idx x v2) as [n|] eqn:F.
  - split; [|eexists; reflexivity]. destruct (find_idx_split _ _ _ F) as (u & v & -> & <-). unfold rotate.
    rewrite skipn_app, skipn_all, Nat.sub_diag. cbn [skipn List.app]. rewrite firstn_app, Nat.sub_diag, firstn_all. cbn [firstn]. rewrite app_nil_r.
    split.
    + intros H. assert (H' : zlist_eqb (x :: t) (x :: v ++ u) = true) by congruence. apply zlist_eqb_eq in H'. rename H into H0, H' into H. exists u, (x :: v). split; [reflexivity|]. exact H.
    + intros (u' & v' & E1 & E2). f_equal. apply zlist_eqb_eq. destruct v' as [|y v'].
      * cbn in E2. rewrite app_nil_r in E1. subst u'. destruct u as [|a u]; cbn in E2.
        -- injection E2 as ->. cbn. rewrite app_nil_r. reflexivity.
        -- injection E2 as -> ->. exfalso. inversion D as [|? ? NI _]; subst. apply NI. apply in_or_app. right. left. reflexivity.
      * cbn in E2. injection E2 as <- ->. destruct (nodup_split _ _ _ _ _ D E1) as [-> ->]. reflexivity.
  - split; [|eexists; reflexivity]. split; [discriminate|]. intros (u & v & -> & E2). exfalso. apply (find_idx_none _ _ F).
    assert (I : In x (v ++ u)) by (rewrite <- E2; left; reflexivity). apply in_app_or in I. apply in_or_app. tauto.
Qed.
Lemma cyclic_refl : forall (A : Type) (a : list A), cyclic a a.
Proof. intros A a. exists a, []. rewrite app_nil_r. split; reflexivity. Qed.
Lemma cyclic_sym : forall (A : Type) (a b : list A), cyclic a b -> cyclic b a.
Proof. intros A a b (u & v & -> & ->). exists v, u. split; reflexivity. Qed.
Lemma app_split : forall (A : Type) (p q r s : list A), p ++ q = r ++ s ->
  (exists m, r = p ++ m /\ q = m ++ s) \/ (exists m, p = r ++ m /\ s = m ++ q).
Proof.
  induction p as [|a p IH]; intros q r s H; cbn in *.
  - left. exists r. split; [reflexivity|assumption].
  - destruct r as [|b r]; cbn in H.
    + right. exists (a :: p). split; [reflexivity|]. symmetry. exact H.
    + injection H as -> H. destruct (IH _ _ _ H) as [(m & -> & ->)|(m & -> & ->)]; [left|right]; exists m; split; reflexivity.
Qed.
Lemma cyclic_trans : forall (A : Type) (a b c : list A), cyclic a b -> cyclic b c -> cyclic a c.
Proof.
  intros A a b c (u & v & -> & ->) (u' & v' & -> & E). destruct (app_split _ _ _ _ _ E) as [(m & -> & ->)|(m & -> & ->)].
  - exists (u' ++ u), m. rewrite <- !app_assoc. split; reflexivity.
  - exists m, (v ++ v'). rewrite <- !app_assoc. split; reflexivity.
Qed.
Lemma triangle_equiv : forall v1 v2 v3, v1 <> [] -> v2 <> [] -> v3 <> [] -> NoDup v1 -> NoDup v2 -> NoDup v3 ->
  sameOrientation Triangle v1 Triangle v1 = Ok true /\
  (sameOrientation Triangle v1 Triangle v2 = Ok true -> sameOrientation Triangle v2 Triangle v1 = Ok true) /\
  (sameOrientation Triangle v1 Triangle v2 = Ok true -> sameOrientation Triangle v2 Triangle v3 = Ok true -> sameOrientation Triangle v1 Triangle v3 = Ok true).
Proof.
  intros v1 v2 v3 N1 N2 N3 D1 D2 D3. split; [|split].
  - apply (proj1 (triangle_spec v1 v1 N1 D1)). apply cyclic_refl.
  - intros H. apply (proj1 (triangle_spec v2 v1 N2 D1)). apply cyclic_sym. apply (proj1 (triangle_spec v1 v2 N1 D2)). exact H.
  - intros H H'. apply (proj1 (triangle_spec v1 v3 N1 D3)). apply (cyclic_trans _ _ v2).
    + apply (proj1 (triangle_spec v1 v2 N1 D2)). exact H.
    + apply (proj1 (triangle_spec v2 v3 N2 D3)). exact H'.
Qed.
Lemma segment_spec : forall v1 v2, sameOrientation Segment v1 Segment v2 = Ok true <-> v1 = v2.
Proof. intros. unfold sameOrientation. cbn [elType_eqb negb]. rewrite <- zlist_eqb_eq. split; [intros H; injection H as ->; reflexivity | intros ->; reflexivity]. Qed.
Lemma other_rejected : forall t1 v1 t2 v2, t1 <> t2 \/ (t1 <> Segment /\ t1 <> Triangle) -> sameOrientation t1 v1 t2 v2 = Throw.
Proof.
  intros t1 v1 t2 v2 H. unfold sameOrientation. destruct t1, t2; cbn [elType_eqb negb]; try reflexivity; try (exfalso; destruct H as [H|[H1 H2]]; congruence).
  destruct (Nat.eqb n n0); reflexivity.
Qed.
Lemma degenerate_refuted : exists v1 v2, List.length v1 = 3%nat /\ List.length v2 = 3%nat /\ cyclic v1 v2 /\ sameOrientation Triangle v1 Triangle v2 = Ok false.
Proof. exists [1; 1; 2]%Z, [1; 2; 1]%Z. split; [reflexivity|]. split; [reflexivity|]. split; [|reflexivity]. exists [1; 2]%Z, [1]%Z. split; reflexivity. Qed.

Lemma enough_ghosts : forall (M : Type) (ls : list (layer M)), (3 <= ghosts ls)%nat /\ (maxOrder ls < ghosts ls)%nat.
Proof. intros. unfold ghosts. lia. Qed.

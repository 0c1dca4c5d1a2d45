(** Proofs about the probes. *)
From Coq Require Import ZArith List Bool Reals Lra Lia Psatz Znumtheory Sorted.
From Flocq Require Import Core.Raux.
From Verif Require Import Common Time_Model Time_Proofs Probe_Model Probe_Spec.
Import ListNotations.

Lemma mapM_pure : forall A B (f : A -> res B) (g : A -> B) l,
  (forall a, In a l -> f a = Ok (g a)) -> mapM f l = Ok (map g l).
Proof.
  induction l as [|a l IH]; intros H; [reflexivity|]. cbn [mapM map].
  rewrite H by (left; auto). cbn [bind]. rewrite IH by (intros; apply H; right; auto). reflexivity.
Qed.

Lemma mapM_ub : forall A B (f : A -> res B) l1 a l2,
  (forall b, In b l1 -> exists c, f b = Ok c) -> f a = UB -> mapM f (l1 ++ a :: l2) = UB.
Proof.
  induction l1 as [|b l1 IH]; intros a l2 H1 H2; cbn [app mapM].
  - rewrite H2. reflexivity.
  - destruct (H1 b (or_introl eq_refl)) as [c ->]. cbn [bind].
    rewrite IH; auto. intros; apply H1; right; auto.
Qed.

Section Machine.
Variable X : Type.

Definition dueb (F : R) (n : nat) (steps : Z) (t : R) : bool :=
  if Rlt_dec (Rabs (t - F)) (/ 100000000) then true
  else if Zdivide_dec steps (Z.of_nat n) then true else false.

Lemma due_ok : forall F n steps t, steps <> 0%Z -> due F (Z.of_nat n) steps t = Ok (dueb F n steps t).
Proof.
  intros F n steps t Hs. unfold due, dueb. destruct Rlt_dec; [reflexivity|].
  rewrite (proj2 (Z.eqb_neq _ _)) by auto.
  destruct Zdivide_dec as [d|d].
  - apply Z.rem_divide in d; auto. rewrite d. reflexivity.
  - destruct (Z.eqb_spec (Z.rem (Z.of_nat n) steps) 0) as [e|e]; [|reflexivity].
    exfalso. apply d. apply Z.rem_divide; auto.
Qed.

Definition upd1 (F : R) (n : nat) (t : R) (x : X) (s : pstate X) : pstate X :=
  if dueb F n (p_steps (ps_probe s)) t && negb (remote (ps_probe s)) then
    mkPstate (ps_probe s) (ps_out s ++ [mkRecord (Z.of_nat n) (label (p_kind (ps_probe s)) t) x])
      (if has_movie (ps_probe s) then emplace t x (ps_movie s) else ps_movie s)
  else s.

Lemma updateProbe_ok : forall F n t x s, usable (ps_probe s) ->
  updateProbe X F (Z.of_nat n) t x s = Ok (upd1 F n t x s).
Proof.
  intros F n t x s [H1 H2]. unfold updateProbe. rewrite due_ok by auto. cbn [bind].
  unfold upd1, remote, has_movie. destruct (dueb _ _ _ _); [|reflexivity]. cbn [andb].
  destruct (p_kind (ps_probe s)) as [|e|e| | |]; try reflexivity;
    (destruct (Z.eqb_spec e (-2)); [reflexivity|]; rewrite (proj2 (Z.ltb_ge _ _)) by lia; reflexivity).
Qed.

Fixpoint evolve (F : R) (n : nat) (calls : list (R * X)) (s : pstate X) : pstate X :=
  match calls with [] => s | c :: r => evolve F (S n) r (upd1 F n (fst c) (snd c) s) end.

Definition evolveMor (calls : list (R * X)) (m : mstate X) : mstate X :=
  fold_left (fun m c => updateMor X (fst c) (snd c) m) calls m.

Lemma upd1_probe : forall F n t x s, ps_probe (upd1 F n t x s) = ps_probe s.
Proof. intros. unfold upd1. destruct (_ && _); reflexivity. Qed.

Lemma serve_ok : forall calls n F pss ms, (forall s, In s pss -> usable (ps_probe s)) ->
  serve X (mkManager (Z.of_nat n) F pss ms) calls =
  Ok (mkManager (Z.of_nat (n + length calls)) F (map (evolve F n calls) pss) (map (evolveMor calls) ms)).
Proof.
  induction calls as [|[t x] r IH]; intros n F pss ms Hu.
  - cbn. rewrite Nat.add_0_r, !map_id. reflexivity.
  - unfold serve. cbn [foldM]. cbn [updateProbes g_final g_cycle g_probes g_mors].
    rewrite (mapM_pure _ _ _ (upd1 F n t x)) by (intros; apply updateProbe_ok; auto). cbn [bind].
    replace (Z.of_nat n + 1)%Z with (Z.of_nat (S n)) by lia.
    fold (serve X (mkManager (Z.of_nat (S n)) F (map (upd1 F n t x) pss) (map (updateMor X t x) ms)) r).
    rewrite IH.
    + f_equal. f_equal.
      * cbn [length]. lia.
      * rewrite map_map. reflexivity.
      * rewrite map_map. reflexivity.
    + intros s Hs. apply in_map_iff in Hs. destruct Hs as (s0 & <- & Hs0). rewrite upd1_probe. auto.
Qed.

Definition indexed_from {A} (n : nat) (l : list A) : list (nat * A) := combine (seq n (length l)) l.

Lemma evolve_probe : forall calls F n s, ps_probe (evolve F n calls s) = ps_probe s.
Proof. induction calls as [|c r IH]; intros; cbn; auto. rewrite IH. apply upd1_probe. Qed.

Lemma evolve_out : forall calls F n s,
  ps_out (evolve F n calls s) = ps_out s ++
    (if remote (ps_probe s) then []
     else map (stamp (p_kind (ps_probe s))) (filter (wanted F (p_steps (ps_probe s))) (indexed_from n calls))).
Proof.
  induction calls as [|[t x] r IH]; intros F n s.
  - cbn [evolve indexed_from length seq combine filter map]. destruct (remote (ps_probe s)); symmetry; apply app_nil_r.
  - cbn [evolve fst snd]. rewrite IH, upd1_probe. unfold upd1.
    destruct (remote (ps_probe s)) eqn:Er.
    + rewrite andb_false_r. reflexivity.
    + rewrite andb_true_r. unfold indexed_from. cbn [length seq combine filter].
      unfold wanted at 2. cbn [fst snd]. fold (dueb F n (p_steps (ps_probe s)) t).
      destruct (dueb F n (p_steps (ps_probe s)) t); cbn [ps_out map]; [|reflexivity].
      rewrite <- app_assoc. reflexivity.
Qed.

Lemma evolve_movie : forall calls F n s,
  ps_movie (evolve F n calls s) =
    if remote (ps_probe s) then ps_movie s
    else if has_movie (ps_probe s) then
      fold_left (fun m c => emplace (fst (snd c)) (snd (snd c)) m)
        (filter (wanted F (p_steps (ps_probe s))) (indexed_from n calls)) (ps_movie s)
    else ps_movie s.
Proof.
  induction calls as [|[t x] r IH]; intros F n s.
  - cbn [evolve indexed_from length seq combine filter fold_left]. destruct (remote (ps_probe s)), (has_movie (ps_probe s)); reflexivity.
  - cbn [evolve fst snd]. rewrite IH, upd1_probe. unfold upd1.
    destruct (remote (ps_probe s)) eqn:Er.
    + rewrite andb_false_r. reflexivity.
    + rewrite andb_true_r. unfold indexed_from. cbn [length seq combine filter].
      unfold wanted at 2. cbn [fst snd]. fold (dueb F n (p_steps (ps_probe s)) t).
      destruct (dueb F n (p_steps (ps_probe s)) t); cbn [ps_movie fold_left fst snd];
        destruct (has_movie (ps_probe s)); reflexivity.
Qed.

(** Fresh manager with given probes. *)
Definition fresh (F : R) (ps : list probe) (ms : list morprobe) : manager X :=
  mkManager 0 F (map (fun p => mkPstate p [] []) ps) (map (fun m => mkMstate m None []) ms).

Lemma schedule : forall F ps ms calls, (forall p, In p ps -> usable p) ->
  exists g, serve X (fresh F ps ms) calls = Ok g /\ g_cycle g = Z.of_nat (length calls) /\
    length (g_probes g) = length ps /\
    forall i p, nth_error ps i = Some p -> exists s, nth_error (g_probes g) i = Some s /\
      ps_probe s = p /\
      ps_out s = (if remote p then [] else map (stamp (p_kind p)) (filter (wanted F (p_steps p)) (indexed calls))).
Proof.
  intros F ps ms calls Hu. unfold fresh. rewrite (serve_ok calls 0).
  2:{ intros s Hs. apply in_map_iff in Hs. destruct Hs as (p & <- & Hp). cbn. auto. }
  eexists. split; [reflexivity|]. cbn [g_cycle g_probes]. split; [reflexivity|].
  split; [now rewrite !map_length|].
  intros i p Hp. rewrite map_map. exists (evolve F 0 calls (mkPstate p [] [])). split; [|split].
  - rewrite nth_error_map, Hp. reflexivity.
  - apply evolve_probe.
  - rewrite evolve_out. reflexivity.
Qed.

(** A zero interval is an integer division by zero at the first call away from
    the final time, and a point outside the mesh is read out of bounds at the
    first call. *)
Lemma unusable_ub : forall F ps1 p ps2 ms t x calls,
  (forall q, In q ps1 -> usable q) -> ~ usable p ->
  (/ 100000000 <= Rabs (t - F))%R ->
  (match p_kind p with Field e | Point e => (-2 <= e)%Z | _ => True end) ->
  serve X (fresh F (ps1 ++ p :: ps2) ms) ((t, x) :: calls) = UB.
Proof.
  intros F ps1 p ps2 ms t x calls H1 Hp Ht He. unfold fresh. rewrite map_app. cbn [map].
  unfold serve. cbn [foldM]. cbn [updateProbes g_final g_cycle g_probes g_mors].
  rewrite mapM_ub; [reflexivity| |].
  - intros b Hb. apply in_map_iff in Hb. destruct Hb as (q & <- & Hq).
    eexists. apply (updateProbe_ok F 0). cbn. auto.
  - unfold updateProbe. cbn [ps_probe]. destruct (Z.eq_dec (p_steps p) 0) as [E|E].
    + unfold due. destruct Rlt_dec; [lra|]. rewrite E. reflexivity.
    + rewrite (due_ok F 0) by auto. unfold dueb. destruct Rlt_dec; [lra|].
      destruct Zdivide_dec as [|nd]; [|exfalso; apply nd; exists 0%Z; lia]. cbn [bind].
      unfold usable in Hp. destruct (p_kind p) as [|e|e| | |]; try (exfalso; apply Hp; auto; fail);
        (destruct (Z.eqb_spec e (-2)); [exfalso; apply Hp; auto|]; destruct (Z.ltb_spec e 0); [reflexivity|];
         exfalso; apply Hp; split; auto).
Qed.
End Machine.

(** ** Counting *)

Lemma filter_indexed : forall A (f : nat -> bool) (l : list A) n,
  length (filter (fun c => f (fst c)) (indexed_from n l)) = length (filter f (seq n (length l))).
Proof.
  intros A f l. induction l as [|a l IH]; intros n; [reflexivity|].
  unfold indexed_from. cbn [length seq combine filter fst].
  destruct (f n); cbn [length]; unfold indexed_from in IH; rewrite IH; reflexivity.
Qed.

Definition divb (n : Z) (k : nat) : bool := if Zdivide_dec n (Z.of_nat k) then true else false.

Lemma count_multiples : forall n K, (0 < n)%Z ->
  Z.of_nat (length (filter (divb n) (seq 0 (S K)))) = (Z.of_nat K / n + 1)%Z.
Proof.
  intros n K Hn. induction K as [|K IH].
  - cbn [seq filter]. unfold divb. destruct Zdivide_dec as [|nd]; [|exfalso; apply nd; exists 0%Z; lia].
    cbn [length]. change (Z.of_nat 0) with 0%Z. rewrite Z.div_0_l; lia.
  - rewrite seq_S, filter_app, app_length. cbn [filter]. rewrite Nat.add_0_l.
    rewrite Nat2Z.inj_add, IH. unfold divb at 1.
    assert (E : (Z.of_nat (S K) = n * (Z.of_nat (S K) / n) + Z.of_nat (S K) mod n)%Z) by (apply Z.div_mod; lia).
    assert (E0 : (Z.of_nat K = n * (Z.of_nat K / n) + Z.of_nat K mod n)%Z) by (apply Z.div_mod; lia).
    pose proof (Z.mod_pos_bound (Z.of_nat (S K)) n Hn). pose proof (Z.mod_pos_bound (Z.of_nat K) n Hn).
    destruct Zdivide_dec as [d|d].
    + apply Z.mod_divide in d; [|lia]. cbn [length].
      set (a := (Z.of_nat (S K) / n)%Z) in *. set (b := (Z.of_nat K / n)%Z) in *.
      assert (a = b + 1)%Z by nia. lia.
    + assert (Z.of_nat (S K) mod n <> 0)%Z by (intros H1; apply d; apply Z.mod_divide; lia). cbn [length].
      set (a := (Z.of_nat (S K) / n)%Z) in *. set (b := (Z.of_nat K / n)%Z) in *.
      assert (a = b)%Z by nia. lia.
Qed.

Lemma filter_length_or : forall A (f g h : A -> bool) l,
  (forall a, In a l -> f a = true -> g a = true \/ h a = true) ->
  (length (filter f l) <= length (filter g l) + length (filter h l))%nat.
Proof.
  induction l as [|a l IH]; intros H; [cbn; lia|]. cbn [filter].
  assert (IHl : (length (filter f l) <= length (filter g l) + length (filter h l))%nat) by (apply IH; intros; apply H; auto; right; auto).
  specialize (H a (or_introl eq_refl)).
  destruct (f a), (g a), (h a); cbn [length]; try lia; destruct (H eq_refl); discriminate.
Qed.

Lemma filter_length_imp : forall A (f g : A -> bool) l,
  (forall a, In a l -> f a = true -> g a = true) -> (length (filter f l) <= length (filter g l))%nat.
Proof.
  induction l as [|a l IH]; intros H; [cbn; lia|]. cbn [filter].
  assert (IHl : (length (filter f l) <= length (filter g l))%nat) by (apply IH; intros; apply H; auto; right; auto).
  specialize (H a (or_introl eq_refl)).
  destruct (f a), (g a); cbn [length]; try lia; specialize (H eq_refl); discriminate.
Qed.

Lemma indexed_app1 : forall A (l : list A) a, indexed (l ++ [a]) = indexed l ++ [(length l, a)].
Proof.
  intros. unfold indexed. rewrite app_length. cbn [length]. rewrite Nat.add_1_r, seq_S. cbn [plus].
  assert (G : forall B C (l1 : list B) (l2 : list C) b c, length l1 = length l2 ->
    combine (l1 ++ [b]) (l2 ++ [c]) = combine l1 l2 ++ [(b, c)]).
  { intros B C. induction l1 as [|x l1 IH]; intros [|y l2] b c H; try discriminate; [reflexivity|].
    cbn. rewrite IH; auto. }
  apply G. now rewrite seq_length.
Qed.

Section Count.
Variable X : Type.
Implicit Type calls : list (R * X).

Definition records (F : R) (n : Z) calls : nat := length (filter (wanted F n) (indexed calls)).

Lemma records_ge : forall F n calls K, (0 < n)%Z -> length calls = S K ->
  (Z.of_nat K / n + 1 <= Z.of_nat (records F n calls))%Z.
Proof.
  intros F n calls K Hn HK. rewrite <- count_multiples by auto. apply inj_le. rewrite <- HK.
  rewrite <- (filter_indexed _ (divb n) calls 0). apply filter_length_imp.
  intros a _ Ha. unfold wanted. destruct Rlt_dec; auto.
Qed.

(** Only the last call is near the final time. *)
Lemma records_exact : forall F n calls t x, (0 < n)%Z ->
  (forall c, In c calls -> / 100000000 <= Rabs (fst c - F))%R ->
  (Rabs (t - F) < / 100000000)%R ->
  let K := Z.of_nat (length calls) in
  Z.of_nat (records F n (calls ++ [(t, x)])) = (K / n + 1 + (if Zdivide_dec n K then 0 else 1))%Z.
Proof.
  intros F n calls t x Hn Hfar Hnear K. unfold records. rewrite indexed_app1, filter_app, app_length.
  assert (E1 : filter (wanted F n) (indexed calls) = filter (fun c => divb n (fst c)) (indexed calls)).
  { apply filter_ext_in. intros [k [t' x']] Hin. unfold wanted. cbn [fst snd].
    assert (Hc : In (t', x') calls) by (eapply in_combine_r; exact Hin).
    specialize (Hfar _ Hc). cbn in Hfar. destruct Rlt_dec; [lra|]. reflexivity. }
  assert (E2 : filter (wanted F n) [(length calls, (t, x))] = [(length calls, (t, x))]).
  { cbn [filter]. unfold wanted. cbn [fst snd]. destruct Rlt_dec; [reflexivity|lra]. }
  rewrite E1, E2. change (indexed calls) with (indexed_from 0 calls). rewrite (filter_indexed _ (divb n) calls 0).
  pose proof (count_multiples n (length calls) Hn) as Hc.
  rewrite seq_S, filter_app, app_length in Hc. cbn [filter plus length] in Hc |- *.
  unfold divb at 2 in Hc. fold K in Hc. destruct (Zdivide_dec n K); cbn [length] in Hc; lia.
Qed.

(** The last call is near the final time. *)
Lemma records_ge_last : forall F n calls t x, (0 < n)%Z ->
  (Rabs (t - F) < / 100000000)%R ->
  let K := Z.of_nat (length calls) in
  (K / n + 1 + (if Zdivide_dec n K then 0 else 1) <= Z.of_nat (records F n (calls ++ [(t, x)])))%Z.
Proof.
  intros F n calls t x Hn Hnear K. unfold records. rewrite indexed_app1, filter_app, app_length.
  assert (E1 : (length (filter (fun c => divb n (fst c)) (indexed calls)) <= length (filter (wanted F n) (indexed calls)))%nat).
  { apply filter_length_imp. intros a _ Ha. unfold wanted. destruct Rlt_dec; auto. }
  assert (E2 : filter (wanted F n) [(length calls, (t, x))] = [(length calls, (t, x))]).
  { cbn [filter]. unfold wanted. cbn [fst snd]. destruct Rlt_dec; [reflexivity|lra]. }
  rewrite E2. change (indexed calls) with (indexed_from 0 calls) in E1 at 1. rewrite (filter_indexed _ (divb n) calls 0) in E1.
  pose proof (count_multiples n (length calls) Hn) as Hc.
  rewrite seq_S, filter_app, app_length in Hc. cbn [filter plus length] in Hc |- *.
  unfold divb at 2 in Hc. fold K in Hc. destruct (Zdivide_dec n K); cbn [length] in Hc; lia.
Qed.

(** General upper bound: multiples plus late calls. *)
Lemma records_le : forall F n calls K, (0 < n)%Z -> length calls = S K ->
  (Z.of_nat (records F n calls) <= Z.of_nat K / n + 1 +
     Z.of_nat (length (filter (fun c => if Rlt_dec (Rabs (fst c - F)) (/ 100000000) then true else false) calls)))%Z.
Proof.
  intros F n calls K Hn HK. rewrite <- count_multiples by auto. rewrite <- HK.
  rewrite <- (filter_indexed _ (divb n) calls 0). rewrite <- Nat2Z.inj_add. apply inj_le.
  assert (G : forall (f : R * X -> bool) l m, length (filter (fun c => f (snd c)) (indexed_from m l)) = length (filter f l)).
  { intros f. induction l as [|a l IH]; intros m; [reflexivity|].
    unfold indexed_from. cbn [length seq combine filter snd].
    destruct (f a); cbn [length]; unfold indexed_from in IH; rewrite IH; reflexivity. }
  rewrite <- (G _ calls 0%nat). apply filter_length_or.
  intros a _ Ha. unfold wanted in Ha. destruct Rlt_dec; [right; reflexivity|left; exact Ha].
Qed.
End Count.

(** Movies, time labels and MOR snapshots. *)
From Coq Require Import ZArith List Bool Reals Lra Lia Psatz Znumtheory Sorted.
From Flocq Require Import Core.Raux.
From Verif Require Import Common Time_Model Time_Proofs Probe_Model Probe_Spec Probe_Proofs ProbeRun_Proofs.
Import ListNotations.
Local Open Scope R_scope.

(** ** Movies *)
Section Movie.
Variable V : Type.

Definition sorted (m : list (R * V)) : Prop := StronglySorted Rlt (map fst m).

Lemma emplace_in : forall t v (m : list (R * V)) t', In t' (map fst (emplace t v m)) -> t' = t \/ In t' (map fst m).
Proof.
  induction m as [|[t0 v0] m IH]; intros t' H; cbn in *.
  - intuition.
  - destruct Rlt_dec; [cbn in H; intuition|]. destruct Rlt_dec; cbn in H; [|auto].
    destruct H as [H|H]; [auto|]. destruct (IH _ H); auto.
Qed.

Lemma emplace_sorted : forall t v m, sorted m -> sorted (emplace t v m).
Proof.
  unfold sorted. induction m as [|[t0 v0] m IH]; intros H; cbn in *.
  - constructor; constructor.
  - inversion H as [|a l Hs Hf]; subst. destruct Rlt_dec as [Hlt|Hge].
    + cbn. constructor; auto. constructor; auto. eapply Forall_impl; [|exact Hf]. intros; cbn in *; lra.
    + destruct Rlt_dec as [Hlt|]; cbn; [|auto]. constructor; [auto|].
      apply Forall_forall. intros t' Ht'. apply emplace_in in Ht'. destruct Ht' as [->|Ht']; [auto|].
      rewrite Forall_forall in Hf; auto.
Qed.

Lemma first_at_below : forall t (m : list (R * V)), Forall (Rlt t) (map fst m) -> first_at t m = None.
Proof.
  induction m as [|[t0 v0] m IH]; intros H; cbn in *; [reflexivity|].
  inversion H; subst. destruct Req_EM_T; [lra|auto].
Qed.

Lemma emplace_first : forall t v m t', sorted m ->
  first_at t' (emplace t v m) =
    match first_at t' m with Some w => Some w | None => if Req_EM_T t' t then Some v else None end.
Proof.
  unfold sorted. induction m as [|[t0 v0] m IH]; intros t' H; cbn [emplace first_at]; [reflexivity|].
  inversion H as [|a l Hs Hf]; subst. destruct Rlt_dec as [Hlt|Hge].
  - cbn [first_at]. destruct (Req_EM_T t' t) as [->|Hne].
    + destruct (Req_EM_T t t0); [lra|]. rewrite first_at_below; auto.
      eapply Forall_impl; [|exact Hf]. intros; cbn in *; lra.
    + destruct (Req_EM_T t' t0); [reflexivity|]. destruct (first_at t' m); reflexivity.
  - destruct Rlt_dec as [Hlt|Hge2]; cbn [first_at].
    + destruct (Req_EM_T t' t0) as [->|Hne]; [reflexivity|]. apply IH; auto.
    + destruct (Req_EM_T t' t0) as [->|Hne]; [reflexivity|].
      destruct (Req_EM_T t' t); [lra|]. destruct (first_at t' m); reflexivity.
Qed.

Definition play (l : list (R * V)) : list (R * V) := fold_left (fun m c => emplace (fst c) (snd c) m) l [].

Lemma play_from : forall l m t, sorted m ->
  sorted (fold_left (fun m c => emplace (fst c) (snd c) m) l m) /\
  first_at t (fold_left (fun m c => emplace (fst c) (snd c) m) l m) =
    match first_at t m with Some w => Some w | None => first_at t l end.
Proof.
  induction l as [|[t0 v0] l IH]; intros m t Hs; cbn [fold_left fst snd].
  - split; auto. cbn. destruct (first_at t m); reflexivity.
  - destruct (IH (emplace t0 v0 m) t (emplace_sorted t0 v0 m Hs)) as [H1 H2]. split; [exact H1|].
    rewrite H2, emplace_first by auto. cbn [first_at]. destruct (first_at t m); [reflexivity|].
    destruct (Req_EM_T t t0); reflexivity.
Qed.

Lemma first_at_in : forall t v (l : list (R * V)), first_at t l = Some v -> In (t, v) l.
Proof.
  induction l as [|[t0 v0] l IH]; cbn; [discriminate|]. destruct Req_EM_T as [->|]; intros H.
  - injection H as ->. auto.
  - right; auto.
Qed.

Lemma in_first_at : forall t v (m : list (R * V)), sorted m -> In (t, v) m -> first_at t m = Some v.
Proof.
  unfold sorted. induction m as [|[t0 v0] m IH]; intros Hs Hin; cbn in *; [tauto|].
  inversion Hs as [|a l Hs' Hf]; subst. destruct Hin as [E|Hin].
  - injection E as -> ->. destruct Req_EM_T; [reflexivity|lra].
  - destruct Req_EM_T as [->|]; [|auto].
    rewrite Forall_forall in Hf. assert (In t0 (map fst m)) by (apply in_map_iff; exists (t0, v); auto).
    specialize (Hf _ H). lra.
Qed.

Lemma movie_main : forall l,
  StronglySorted Rlt (map fst (play l)) /\
  (forall t v, In (t, v) (play l) <-> first_at t l = Some v).
Proof.
  intros l. assert (Hs : sorted (@nil (R * V))) by constructor.
  split; [apply (play_from l [] 0 Hs)|]. intros t v.
  destruct (play_from l [] t Hs) as [H1 H2]. cbn in H2. fold (play l) in H1, H2.
  split; intros H.
  - rewrite <- H2. apply in_first_at; auto.
  - apply first_at_in. rewrite H2. exact H.
Qed.
End Movie.


Lemma max_from : forall m t0 v0, StronglySorted Rlt (t0 :: map fst m) ->
  exists t v, fold_left (fun res (f : R * R) =>
    match snd res with
    | None => (fst f, Some (snd f))
    | Some v => if Rlt_dec v (snd f) then (fst f, Some (snd f)) else res
    end) m (t0, Some v0) = (t, Some v) /\ In (t, v) ((t0, v0) :: m) /\
    (forall t' v', In (t', v') ((t0, v0) :: m) -> v' <= v /\ (v' = v -> t <= t')).
Proof.
  induction m as [|[t1 v1] m IH]; intros t0 v0 Hs.
  - exists t0, v0. cbn. split; [auto|]. split; [auto|]. intros t' v' [E|[]]. injection E as <- <-. split; [lra|intros; lra].
  - cbn [fold_left fst snd]. inversion Hs as [|a l Hs1 Hf1]; subst. cbn [map fst] in *.
    inversion Hf1 as [|a l Hlt Hf1']; subst. inversion Hs1 as [|a l Hs2 Hf2]; subst.
    destruct (Rlt_dec v0 v1) as [Hb|Hb].
    + destruct (IH t1 v1 Hs1) as (t & v & E & Hin & Hall). exists t, v. split; [exact E|]. split; [right; exact Hin|].
      intros t' v' [E'|Hin']; [|auto]. injection E' as <- <-.
      destruct (Hall t1 v1 (or_introl eq_refl)). split; lra.
    + destruct (IH t0 v0) as (t & v & E & Hin & Hall). { constructor; auto. }
      exists t, v. split; [exact E|]. split; [destruct Hin; [left; auto|right; right; auto]|].
      intros t' v' [E'|[E'|Hin']]; [apply Hall; left; auto| |apply Hall; right; auto].
      injection E' as <- <-. destruct (Hall t0 v0 (or_introl eq_refl)) as [H1 H2]. split; [lra|].
      intros Hv. assert (v0 = v) by lra. specialize (H2 H). lra.
Qed.

Lemma min_from : forall m t0 v0, StronglySorted Rlt (t0 :: map fst m) ->
  exists t v, fold_left (fun res (f : R * R) =>
    match snd res with
    | None => (fst f, Some (snd f))
    | Some v => if Rlt_dec (snd f) v then (fst f, Some (snd f)) else res
    end) m (t0, Some v0) = (t, Some v) /\ In (t, v) ((t0, v0) :: m) /\
    (forall t' v', In (t', v') ((t0, v0) :: m) -> v <= v' /\ (v' = v -> t <= t')).
Proof.
  induction m as [|[t1 v1] m IH]; intros t0 v0 Hs.
  - exists t0, v0. cbn. split; [auto|]. split; [auto|]. intros t' v' [E|[]]. injection E as <- <-. split; [lra|intros; lra].
  - cbn [fold_left fst snd]. inversion Hs as [|a l Hs1 Hf1]; subst. cbn [map fst] in *.
    inversion Hf1 as [|a l Hlt Hf1']; subst. inversion Hs1 as [|a l Hs2 Hf2]; subst.
    destruct (Rlt_dec v1 v0) as [Hb|Hb].
    + destruct (IH t1 v1 Hs1) as (t & v & E & Hin & Hall). exists t, v. split; [exact E|]. split; [right; exact Hin|].
      intros t' v' [E'|Hin']; [|auto]. injection E' as <- <-.
      destruct (Hall t1 v1 (or_introl eq_refl)). split; lra.
    + destruct (IH t0 v0) as (t & v & E & Hin & Hall). { constructor; auto. }
      exists t, v. split; [exact E|]. split; [destruct Hin; [left; auto|right; right; auto]|].
      intros t' v' [E'|[E'|Hin']]; [apply Hall; left; auto| |apply Hall; right; auto].
      injection E' as <- <-. destruct (Hall t0 v0 (or_introl eq_refl)) as [H1 H2]. split; [lra|].
      intros Hv. assert (v0 = v) by lra. specialize (H2 H). lra.
Qed.

Lemma frames : forall m, StronglySorted Rlt (map fst m) -> m <> [] ->
  (exists t v, findFrameWithMax m = (t, Some v) /\ In (t, v) m /\
     (forall t' v', In (t', v') m -> v' <= v /\ (v' = v -> t <= t'))) /\
  (exists t v, findFrameWithMin m = (t, Some v) /\ In (t, v) m /\
     (forall t' v', In (t', v') m -> v <= v' /\ (v' = v -> t <= t'))).
Proof.
  intros [|[t0 v0] m] Hs Hne; [congruence|]. split.
  - apply (max_from m t0 v0 Hs).
  - apply (min_from m t0 v0 Hs).
Qed.

(** ** Time labels *)
Lemma ztrunc_floor : forall x, 0 <= x -> Ztrunc x = Zfloor x.
Proof. intros. now apply Ztrunc_floor. Qed.

Lemma label_close : forall k t, 0 <= t -> Rabs (label k t - t) <= / 2000.
Proof.
  intros k t Ht. destruct k; cbn [label]; try (rewrite Rminus_diag_eq by auto; rewrite Rabs_R0; lra).
  unfold round_away. destruct Rle_dec; [|nra]. rewrite Ztrunc_floor by nra.
  pose proof (Zfloor_lb (t * 1000 + / 2)). pose proof (Zfloor_ub (t * 1000 + / 2)).
  apply Rabs_le. split; lra.
Qed.

Lemma label_monotone : forall k t t', 0 <= t <= t' -> label k t <= label k t'.
Proof.
  intros k t t' Ht. destruct k; cbn [label]; try lra.
  unfold round_away. destruct Rle_dec; [|nra]. destruct Rle_dec; [|nra].
  rewrite !Ztrunc_floor by nra.
  assert (IZR (Zfloor (t * 1000 + / 2)) <= IZR (Zfloor (t' * 1000 + / 2))).
  { apply IZR_le, Zfloor_le. lra. }
  lra.
Qed.

Lemma label_collides : label Exporter (/ 10000) = label Exporter (2 / 10000) /\ (/ 10000 <> 2 / 10000).
Proof.
  split; [|lra]. cbn [label]. unfold round_away. destruct Rle_dec; [|lra]. destruct Rle_dec; [|lra].
  rewrite !Ztrunc_floor by lra.
  rewrite (Zfloor_imp 0), (Zfloor_imp 0); simpl; try lra.
Qed.

(** ** MOR snapshots *)
Section Mor.
Variable X : Type.
Implicit Type calls : list (R * X).

Lemma evolveMor_snoc : forall calls c m, evolveMor X (calls ++ [c]) m = updateMor X (fst c) (snd c) (evolveMor X calls m).
Proof. intros. unfold evolveMor. rewrite fold_left_app. reflexivity. Qed.

Lemma subseq_skip_last : forall A (l1 l2 : list A) a, subseq l1 l2 -> subseq l1 (l2 ++ [a]).
Proof. induction 1; cbn; [apply subseq_skip, subseq_nil|now apply subseq_skip|now apply subseq_take]. Qed.
Lemma subseq_take_last : forall A (l1 l2 : list A) a, subseq l1 l2 -> subseq (l1 ++ [a]) (l2 ++ [a]).
Proof. induction 1; cbn; [apply subseq_take, subseq_nil|now apply subseq_skip|now apply subseq_take]. Qed.

Variable p : morprobe.
Notation s := (m_saves p).
Definition dsave := if (1 <? s)%Z then spacing p else 0.
Notation d := dsave.

Definition fileno (e : Z * R * X) : Z := fst (fst e).
Definition ftime (e : Z * R * X) : R := snd (fst e).
Definition fcall (e : Z * R * X) : R * X := (snd (fst e), snd e).

Definition next_of (c : Z) : R :=
  if (1 <? s)%Z then nominal p c else if (c =? 0)%Z then m_start p else m_final p + 1.

Lemma mor_dt : c_dt (mor_init p) = d.
Proof. unfold mor_init, dsave, spacing. cbn [c_dt]. fold s. destruct (1 <? s)%Z; reflexivity. Qed.

Definition minv calls (m : mstate X) : Prop :=
  ms_probe m = p /\
  (Z.of_nat (length (ms_out m)) <= Z.max 0 s)%Z /\
  (match ms_ctx m with
   | None => ms_out m = []
   | Some c => c_count c = Z.of_nat (length (ms_out m)) /\ c_dt c = d /\ c_next c = next_of (c_count c)
   end) /\
  map fileno (ms_out m) = map Z.of_nat (seq 0 (length (ms_out m))) /\
  subseq (map fcall (ms_out m)) calls /\
  (forall k t x, In (k, t, x) (ms_out m) ->
     (0 <= k < s)%Z /\ m_start p - tiny <= t <= m_final p + tiny /\ nominal_time p k - slack p <= t).

Lemma slack_eq : slack p = if Rlt_dec 0 d then d * / 1000000 else tiny.
Proof. reflexivity. Qed.

Lemma minv_init : minv [] (mkMstate p None []).
Proof. repeat split; cbn; try lia; try constructor; try tauto. Qed.

Lemma ctx_of : forall calls m, minv calls m ->
  let c := match ms_ctx m with Some c => c | None => mor_init p end in
  c_count c = Z.of_nat (length (ms_out m)) /\ c_dt c = d /\ c_next c = next_of (c_count c).
Proof.
  intros calls m (_ & _ & Hc & _) c. unfold c. destruct (ms_ctx m) as [c'|]; [exact Hc|].
  rewrite Hc. split; [reflexivity|]. split; [apply mor_dt|].
  unfold mor_init, next_of, nominal. cbn [c_next c_count]. destruct (1 <? s)%Z; [|reflexivity].
  ring.
Qed.

(** Case analysis of one update. *)
Definition in_window (t : R) : Prop := m_start p - tiny <= t <= m_final p + tiny.
Definition saved_now (n : Z) (t : R) : Prop := (n < s)%Z /\ in_window t /\ next_of n - slack p <= t.

Lemma update_cases : forall calls m t x, minv calls m -> 
  let n := Z.of_nat (length (ms_out m)) in
  (saved_now n t /\ ms_out (updateMor X t x m) = ms_out m ++ [(n, t, x)] /\
     ms_ctx (updateMor X t x m) = Some (mkCtx (n + 1) (next_of (n + 1)) d)) \/
  (~ saved_now n t /\ ms_out (updateMor X t x m) = ms_out m /\
     (ms_ctx (updateMor X t x m) = ms_ctx m \/
      ms_ctx (updateMor X t x m) = Some (mkCtx n (next_of n) d))).
Proof.
  intros calls m t x Hi n. pose proof (ctx_of calls m Hi) as Hc. cbv zeta in Hc.
  destruct Hi as (Hp & Hle & _). unfold updateMor. rewrite Hp. fold s.
  set (c := match ms_ctx m with Some c => c | None => mor_init p end) in *.
  destruct Hc as (H1 & H2 & H3). fold n in H1, Hle.
  destruct (Z.leb_spec s 0) as [Hs|Hs].
  { right. split; [unfold saved_now; lia|]. auto. }
  destruct Rlt_dec as [Ha|Ha].
  { right. split; [unfold saved_now, in_window; intros (_ & ? & _); lra|]. auto. }
  destruct Rlt_dec as [Hb|Hb].
  { right. split; [unfold saved_now, in_window; intros (_ & ? & _); lra|]. auto. }
  assert (Ec : c = mkCtx n (next_of n) d).
  { destruct c as [c1 c2 c3]. cbn in *. subst. reflexivity. }
  rewrite H1. destruct (Z.leb_spec s n) as [Hn|Hn].
  { right. split; [unfold saved_now; lia|]. cbn. rewrite Ec. auto. }
  rewrite H2, H3, H1. fold (slack p). rewrite <- slack_eq.
  destruct Rlt_dec as [Hx|Hx].
  { right. split; [unfold saved_now; intros (_ & _ & ?); lra|]. cbn. rewrite Ec. auto. }
  left. split; [unfold saved_now, in_window; repeat split; lra || lia|]. cbn [ms_out ms_ctx].
  split; [reflexivity|]. f_equal. f_equal. unfold next_of. unfold dsave.
  destruct (1 <? s)%Z eqn:E1; [unfold nominal; reflexivity|].
  apply Z.ltb_ge in E1. destruct (Z.eqb_spec (n + 1) 0); [lia|reflexivity].
Qed.

Lemma update_probe : forall t x m, ms_probe (updateMor X t x m) = ms_probe m.
Proof.
  intros. unfold updateMor. destruct (_ <=? _)%Z; auto. destruct Rlt_dec; auto. destruct Rlt_dec; auto.
  destruct (_ <=? _)%Z; auto. destruct Rlt_dec; auto.
Qed.

Lemma minv_step : forall calls m t x, minv calls m -> minv (calls ++ [(t, x)]) (updateMor X t x m).
Proof.
  intros calls m t x Hi. pose proof (update_cases calls m t x Hi) as Hu. cbv zeta in Hu.
  pose proof Hi as (Hp & Hle & Hc & Hno & Hsub & Hall).
  destruct Hu as [((Hn & Hw & Ht) & Ho & Hx)|(_ & Ho & Hx)].
  - split; [rewrite update_probe; auto|]. rewrite Ho, app_length. cbn [length].
    split; [lia|]. split.
    { rewrite Hx. cbn [c_count c_dt c_next]. split; [lia|]. split; reflexivity. }
    split.
    { rewrite map_app, Hno. rewrite Nat.add_1_r, seq_S, map_app. reflexivity. }
    split.
    { rewrite map_app. cbn [map fcall fst snd]. apply subseq_take_last, Hsub. }
    intros k t' x' Hin. apply in_app_or in Hin. destruct Hin as [Hin|[E|[]]]; [exact (Hall _ _ _ Hin)|].
    injection E as <- <- <-. split; [lia|]. split; [exact Hw|].
    unfold next_of in Ht. unfold nominal_time. fold s. destruct (1 <? s)%Z eqn:E1; [exact Ht|].
    apply Z.ltb_ge in E1. destruct (Z.eqb_spec (Z.of_nat (length (ms_out m))) 0); [exact Ht|lia].
  - split; [rewrite update_probe; auto|]. rewrite Ho. split; [auto|]. split.
    { destruct Hx as [Hx|Hx]; rewrite Hx; [exact Hc|]. cbn. auto. }
    split; [auto|]. split; [apply subseq_skip_last, Hsub|auto].
Qed.

Lemma minv_all : forall calls, minv calls (evolveMor X calls (mkMstate p None [])).
Proof.
  induction calls as [|[t x] calls IH] using rev_ind; [apply minv_init|].
  rewrite evolveMor_snoc. cbn [fst snd]. now apply minv_step.
Qed.

(** Snapshots in a paced run. *)
Section Paced.
Hypothesis Hs2 : (2 <= s)%Z.
Hypothesis Hab : m_start p < m_final p.
Variable h : R.

Lemma spacing_pos : 0 < spacing p.
Proof.
  unfold spacing. apply Rmult_lt_0_compat; [lra|]. apply Rinv_0_lt_compat. apply IZR_lt. fold s. lia.
Qed.
Lemma d_spacing : d = spacing p.
Proof. unfold dsave. rewrite (proj2 (Z.ltb_lt _ _)) by lia. reflexivity. Qed.
Lemma slack_paced : slack p = spacing p * / 1000000.
Proof. rewrite slack_eq, d_spacing. destruct Rlt_dec; [reflexivity|]. pose proof spacing_pos. lra. Qed.
Lemma next_paced : forall n, next_of n = nominal p n.
Proof. intros. unfold next_of. rewrite (proj2 (Z.ltb_lt _ _)) by lia. reflexivity. Qed.
Lemma nominal_S : forall n, nominal p (n + 1) = nominal p n + spacing p.
Proof. intros. unfold nominal. rewrite plus_IZR. ring. Qed.
Lemma nominal_last : nominal p (s - 1) = m_final p.
Proof. unfold nominal, spacing. fold s. field. apply not_0_IZR. lia. Qed.

Lemma paced_prefix : forall calls c, paced h (calls ++ [c]) -> paced h calls.
Proof. intros calls c H l1 c1 c2 l2 E. apply (H l1 c1 c2 (l2 ++ [c])). rewrite E, <- app_assoc. reflexivity. Qed.

Lemma paced_last : forall calls c1 c2, paced h (calls ++ [c1] ++ [c2]) -> fst c1 <= fst c2 <= fst c1 + h.
Proof. intros calls c1 c2 H. apply (H calls c1 c2 []). reflexivity. Qed.

Definition starts_before (calls : list (R * X)) : Prop := match calls with [] => True | c :: _ => fst c <= m_start p end.
Lemma starts_prefix : forall calls c, calls <> [] -> starts_before (calls ++ [c]) -> starts_before calls.
Proof. intros [|c0 calls] c H; [congruence|]. auto. Qed.

(** Lateness: with steps not longer than the spacing. *)
Lemma lateness : 0 <= h <= spacing p -> forall calls, paced h calls -> starts_before calls ->
  let m := evolveMor X calls (mkMstate p None []) in
  (forall k t x, In (k, t, x) (ms_out m) -> t < nominal p k + h \/ (k = 0%Z /\ t <= m_start p)) /\
  (forall l t x, calls = l ++ [(t, x)] ->
     Z.of_nat (length (ms_out m)) = s \/ t < nominal p (Z.of_nat (length (ms_out m))) \/ m_final p + tiny < t).
Proof.
  intros Hh. induction calls as [|[t x] calls IH] using rev_ind; intros Hp Hst m.
  - split; [intros k t x []|]. intros l t x E. destruct l; discriminate.
  - unfold m. clear m. rewrite evolveMor_snoc. cbn [fst snd].
    set (m := evolveMor X calls (mkMstate p None [])) in *.
    pose proof (minv_all calls) as Hi. fold m in Hi.
    pose proof (update_cases calls m t x Hi) as Hu. cbv zeta in Hu.
    pose proof Hi as (_ & Hle & _). rewrite Z.max_r in Hle by lia.
    set (n := Z.of_nat (length (ms_out m))) in *. pose proof spacing_pos as Hsp.
    assert (Hn0 : m_start p <= nominal p n).
    { unfold nominal. assert (0 <= IZR n) by (apply IZR_le; lia). nra. }
    assert (IH' : forall k t0 x0, In (k, t0, x0) (ms_out m) -> t0 < nominal p k + h \/ (k = 0%Z /\ t0 <= m_start p)).
    { destruct calls as [|c0 calls]; [intros k t0 x0 Hin; unfold m in Hin; cbn in Hin; tauto|].
      apply IH; [eapply paced_prefix; eauto|]. apply (starts_prefix _ (t, x)); [discriminate|auto]. }
    assert (Hprev : n = s \/ t < nominal p n + h \/ (n = 0%Z /\ t <= m_start p) \/ m_final p + tiny < t).
    { destruct calls as [|c0 calls].
      - right; right; left. unfold n, m. cbn. cbn in Hst. auto.
      - assert (Hp' : paced h (c0 :: calls)) by (eapply paced_prefix; eauto).
        destruct (IH Hp') as [_ IH2]. { apply (starts_prefix _ (t, x)); [discriminate|auto]. }
        destruct (exists_last (l := c0 :: calls) ltac:(discriminate)) as (l & [t1 x1] & E).
        rewrite E in Hp. rewrite <- app_assoc in Hp. apply paced_last in Hp. cbn in Hp.
        destruct (IH2 l t1 x1 E) as [H|[H|H]]; [left; auto| |].
        + right; left. fold n in H. lra.
        + right; right; right. lra. }
    destruct Hu as [((Hn & Hw & Ht) & Ho & Hx)|(Hns & Ho & Hx)]; rewrite Ho.
    + rewrite next_paced in Ht. unfold in_window in Hw. split.
      * intros k t0 x0 Hin. apply in_app_or in Hin. destruct Hin as [Hin|[E|[]]]; [exact (IH' _ _ _ Hin)|].
        injection E as <- <- <-. destruct Hprev as [H|[H|[H|H]]]; [lia|auto|auto|lra].
      * intros l t0 x0 E. apply app_inj_tail in E. destruct E as [_ E]. injection E as <- <-.
        rewrite app_length. cbn [length]. rewrite Nat.add_1_r, Nat2Z.inj_succ. fold n.
        change (Z.succ n) with (n + 1)%Z. rewrite nominal_S. right; left.
        destruct Hprev as [H|[H|[H|H]]]; [lia|lra| |lra].
        destruct H as [_ H]. lra.
    + split; [exact IH'|]. intros l t0 x0 E. apply app_inj_tail in E. destruct E as [_ E]. injection E as <- <-.
      fold n. unfold saved_now, in_window in Hns. rewrite next_paced in Hns.
      assert (0 < slack p) by (rewrite slack_paced; nra). assert (0 < tiny) by (unfold tiny; lra).
      destruct (Z.eq_dec n s) as [|Hne]; [auto|right].
      destruct (Rlt_dec t (nominal p n)) as [|Hge]; [auto|right].
      destruct (Rlt_dec (m_final p + tiny) t) as [|Hle2]; [auto|exfalso].
      apply Hns. split; [lia|]. split; lra.
Qed.

(** Completeness: with steps a little shorter than the spacing, and a call at the
    end of the window, all snapshots are written. *)
Definition threshold (n : Z) : R := if (n =? 0)%Z then m_start p - Rmin (slack p) tiny else nominal p n - slack p.

Lemma complete_inv : 0 <= h <= spacing p - slack p -> forall calls, paced h calls -> starts_before calls ->
  let m := evolveMor X calls (mkMstate p None []) in
  forall l t x, calls = l ++ [(t, x)] ->
     Z.of_nat (length (ms_out m)) = s \/ t < threshold (Z.of_nat (length (ms_out m))) \/ m_final p + tiny < t.
Proof.
  intros Hh. induction calls as [|[t x] calls IH] using rev_ind; intros Hp Hst m.
  - intros l t x E. destruct l; discriminate.
  - unfold m. clear m. rewrite evolveMor_snoc. cbn [fst snd].
    set (m := evolveMor X calls (mkMstate p None [])) in *.
    pose proof (minv_all calls) as Hi. fold m in Hi.
    pose proof (update_cases calls m t x Hi) as Hu. cbv zeta in Hu.
    pose proof Hi as (_ & Hle & _). rewrite Z.max_r in Hle by lia.
    set (n := Z.of_nat (length (ms_out m))) in *. pose proof spacing_pos as Hsp.
    assert (Hsl : 0 < slack p) by (rewrite slack_paced; nra). assert (Htn : 0 < tiny) by (unfold tiny; lra).
    assert (Hmin : 0 < Rmin (slack p) tiny /\ Rmin (slack p) tiny <= slack p /\ Rmin (slack p) tiny <= tiny).
    { split; [apply Rmin_glb_lt; auto|]. split; [apply Rmin_l|apply Rmin_r]. }
    assert (Hnom : forall j, (0 <= j)%Z -> nominal p j = m_start p + IZR j * spacing p) by reflexivity.
    assert (Hn1 : (n <> 0)%Z -> m_start p + spacing p <= nominal p n).
    { intros Hne. rewrite Hnom by lia. assert (1 <= IZR n) by (apply IZR_le; lia). nra. }
    assert (Hthr : threshold n + h <= threshold (n + 1)).
    { unfold threshold. rewrite (proj2 (Z.eqb_neq (n + 1) 0)) by lia. rewrite nominal_S.
      destruct (Z.eqb_spec n 0) as [E|E]; [rewrite E, Hnom by lia|]; simpl; lra. }
    assert (Hprev : n = s \/ t < threshold n + h \/ (n = 0%Z /\ t <= m_start p) \/ m_final p + tiny < t).
    { destruct calls as [|c0 calls].
      - right; right; left. unfold n, m. cbn. cbn in Hst. auto.
      - assert (Hp' : paced h (c0 :: calls)) by (eapply paced_prefix; eauto).
        assert (Hst' : starts_before (c0 :: calls)) by (apply (starts_prefix _ (t, x)); [discriminate|auto]).
        destruct (exists_last (l := c0 :: calls) ltac:(discriminate)) as (l & [t1 x1] & E).
        pose proof (IH Hp' Hst' l t1 x1 E) as IH2.
        rewrite E in Hp. rewrite <- app_assoc in Hp. apply paced_last in Hp. cbn in Hp.
        destruct IH2 as [H|[H|H]]; [left; auto| |].
        + right; left. fold n in H. lra.
        + right; right; right. lra. }
    intros l t0 x0 E. apply app_inj_tail in E. destruct E as [_ E]. injection E as <- <-.
    destruct Hu as [((Hn & Hw & Ht) & Ho & Hx)|(Hns & Ho & Hx)]; rewrite Ho.
    + rewrite next_paced in Ht. unfold in_window in Hw.
      rewrite app_length. cbn [length]. rewrite Nat.add_1_r, Nat2Z.inj_succ. fold n.
      change (Z.succ n) with (n + 1)%Z. right; left.
      destruct Hprev as [H|[H|[H|H]]]; [lia|lra| |lra].
      destruct H as [H0 H]. unfold threshold. rewrite (proj2 (Z.eqb_neq (n + 1) 0)) by lia. rewrite nominal_S.
      rewrite H0, Hnom by lia. assert (slack p < spacing p) by (rewrite slack_paced; lra). lra.
    + fold n. unfold saved_now, in_window in Hns. rewrite next_paced in Hns.
      destruct (Z.eq_dec n s) as [|Hne]; [auto|right].
      destruct (Rlt_dec t (threshold n)) as [|Hge]; [auto|right].
      destruct (Rlt_dec (m_final p + tiny) t) as [|Hle2]; [auto|exfalso].
      assert (slack p < spacing p) by (rewrite slack_paced; lra).
      apply Hns. split; [lia|]. unfold threshold in Hge.
      destruct (Z.eqb_spec n 0) as [E|E].
      * rewrite E, Hnom by lia. split; lra.
      * specialize (Hn1 E). split; [|lra]. split; lra.
Qed.

Lemma out_monotone : forall calls c, (length (ms_out (evolveMor X calls (mkMstate p None []))) <=
  length (ms_out (evolveMor X (calls ++ c) (mkMstate p None []))))%nat.
Proof.
  intros calls c. induction c as [|[t x] c IH] using rev_ind; [rewrite app_nil_r; auto|].
  rewrite app_assoc, evolveMor_snoc. cbn [fst snd].
  pose proof (update_cases _ _ t x (minv_all (calls ++ c))) as Hu. cbv zeta in Hu.
  destruct Hu as [(_ & Ho & _)|(_ & Ho & _)]; rewrite Ho; [rewrite app_length; cbn|]; lia.
Qed.

Lemma complete : 0 <= h <= spacing p - slack p -> forall l1 t x l2, paced h (l1 ++ (t, x) :: l2) -> starts_before (l1 ++ (t, x) :: l2) ->
  m_final p - slack p <= t <= m_final p + tiny ->
  Z.of_nat (length (ms_out (evolveMor X (l1 ++ (t, x) :: l2) (mkMstate p None [])))) = s.
Proof.
  intros Hh l1 t x l2 Hp Hst Ht.
  change (l1 ++ (t, x) :: l2) with (l1 ++ ([(t, x)] ++ l2)) in *. rewrite app_assoc in *.
  assert (Hp' : paced h (l1 ++ [(t, x)])).
  { intros a c1 c2 b E. apply (Hp a c1 c2 (b ++ l2)). rewrite E, <- app_assoc. reflexivity. }
  assert (Hst' : starts_before (l1 ++ [(t, x)])).
  { destruct l1; cbn in *; auto. }
  pose proof (complete_inv Hh _ Hp' Hst' l1 t x eq_refl) as Hc.
  pose proof (minv_all (l1 ++ [(t, x)])) as (_ & Hle & _). rewrite Z.max_r in Hle by lia.
  pose proof (minv_all ((l1 ++ [(t, x)]) ++ l2)) as (_ & Hle2 & _). rewrite Z.max_r in Hle2 by lia.
  pose proof (out_monotone (l1 ++ [(t, x)]) l2).
  destruct Hc as [Hc|[Hc|Hc]]; [lia| |lra].
  set (n := Z.of_nat (length (ms_out (evolveMor X (l1 ++ [(t, x)]) (mkMstate p None []))))) in *.
  destruct (Z.eq_dec n s) as [|Hne]; [lia|]. exfalso.
  pose proof spacing_pos as Hsp. rewrite <- nominal_last in Ht.
  assert (Hnl : nominal p n <= nominal p (s - 1)).
  { unfold nominal. assert (IZR n <= IZR (s - 1)) by (apply IZR_le; lia). nra. }
  assert (Hsl : 0 < slack p) by (rewrite slack_paced; nra).
  unfold threshold in Hc. destruct (Z.eqb_spec n 0) as [E|E]; [|lra].
  assert (slack p < spacing p) by (rewrite slack_paced; lra).
  assert (m_start p + spacing p <= nominal p (s - 1)).
  { unfold nominal. assert (1 <= IZR (s - 1)) by (apply IZR_le; lia). nra. }
  assert (0 < Rmin (slack p) tiny) by (apply Rmin_glb_lt; unfold tiny; lra). lra.
Qed.
End Paced.
End Mor.

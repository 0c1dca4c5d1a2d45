(** Runs with Mult: six exchanges per evaluation on every process. *)
From Coq Require Import ZArith List Bool Reals Lia Lra Permutation.
From Verif Require Import Common Csr_Model Face_Model Setup_Model Assembly_Model Form_Model Evol_Model EvolRhs_Proofs Ode_Model Nodal_Spec Global_Spec GlobalBalance_Proofs Par_Model Par_Spec ParMult_Proofs Msg_Model Msg_Proofs.
Import ListNotations.

Section Rate.
Variable rks : list prank.
Notation P := (length rks).
Hypothesis NB : forall i rk e, nth_error rks i = Some rk -> In e (pr_nbr rk) -> (fst e < P)%nat.
Variable rank : nat -> prank.
Hypothesis RK : forall i, (i < P)%nat -> nth_error rks i = Some (rank i).

Lemma runs_one : forall S v K, (forall i, (i < P)%nat -> S i = Exch (v i) (K i)) ->
  runsTo rks S 1 (fun i => K i (map (fun e => nth (snd e) (v (fst e)) 0%R) (pr_nbr (rank i)))).
Proof.
  intros S v K H. split.
  - intros c i Hc Hi. replace c with 0%nat by lia. cbn [ideal]. rewrite H by exact Hi. exact I.
  - intros i Hi. cbn [ideal]. unfold together. rewrite (RK i Hi), (H i Hi). f_equal. apply map_ext_in. intros e Ie.
    rewrite H by (exact (NB i _ e (RK i Hi) Ie)). reflexivity.
Qed.
Definition heard (x : nat -> list R) (i c : nat) : list R :=
  map (fun e => nth (snd e) (component (rank (fst e)) (x (fst e)) c) 0%R) (pr_nbr (rank i)).
Definition heardAll (x : nat -> list R) (i : nat) : list (list R) := map (heard x i) (seq 0 6).
Lemma rate_runs : forall junk Q wk x k y, (forall i, (i < P)%nat -> localRate junk (rank i) (Q i) (wk i) (x i) (heardAll x i) = Ok (y i)) ->
  runsTo rks (fun i => rate junk (rank i) (Q i) (wk i) (x i) (k i)) 6 (fun i => k i (y i)).
Proof.
  intros junk Q wk x k y H. unfold rate. change 6%nat with (1 + (1 + (1 + (1 + (1 + (1 + 0))))))%nat.
  eapply (runs_trans rks NB); [apply (runs_one _ (fun i => component (rank i) (x i) 0)); reflexivity|]; cbv beta.
  eapply (runs_trans rks NB); [apply (runs_one _ (fun i => component (rank i) (x i) 3)); reflexivity|]; cbv beta.
  eapply (runs_trans rks NB); [apply (runs_one _ (fun i => component (rank i) (x i) 1)); reflexivity|]; cbv beta.
  eapply (runs_trans rks NB); [apply (runs_one _ (fun i => component (rank i) (x i) 4)); reflexivity|]; cbv beta.
  eapply (runs_trans rks NB); [apply (runs_one _ (fun i => component (rank i) (x i) 2)); reflexivity|]; cbv beta.
  eapply (runs_trans rks NB); [apply (runs_one _ (fun i => component (rank i) (x i) 5)); reflexivity|]; cbv beta.
  apply runs_refl. intros i Hi. specialize (H i Hi). unfold heardAll in H. cbn [seq map] in H. unfold heard in H. rewrite H. reflexivity.
Qed.
End Rate.

(** ** The fields of a run on one process *)
Lemma mapM_at : forall {A B} (f : A -> res B) l l' i a, mapM f l = Ok l' -> nth_error l i = Some a -> exists b, f a = Ok b /\ nth_error l' i = Some b.
Proof.
  intros A B f l. induction l as [|x t IH]; intros l' i a H E; [destruct i; discriminate|]. cbn [mapM] in H.
  destruct (f x) as [b| |] eqn:Ef; cbn [bind] in H; try discriminate. destruct (mapM f t) as [l2| |] eqn:Et; cbn [bind] in H; try discriminate.
  injection H as <-. destruct i as [|i]; [injection E as <-; exists b; split; [exact Ef|reflexivity]|]. exact (IH l2 i a eq_refl E).
Qed.
Lemma mapM_map : forall {A B} (f : A -> res B) g l l', mapM f l = Ok l' -> (forall a b, In a l -> f a = Ok b -> b = g a) -> l' = map g l.
Proof.
  intros A B f g l. induction l as [|x t IH]; intros l' H G; cbn [mapM] in H; [injection H as <-; reflexivity|].
  destruct (f x) as [b| |] eqn:Ef; cbn [bind] in H; try discriminate. destruct (mapM f t) as [l2| |] eqn:Et; cbn [bind] in H; try discriminate.
  injection H as <-. cbn [map]. rewrite (G x b (or_introl eq_refl) Ef). f_equal. apply IH; [reflexivity|]. intros a b' I. apply G. right. exact I.
Qed.
Lemma zget_nth : forall (l : list R) i v, zget l (Z.of_nat i) = Ok v -> v = nth i l 0%R.
Proof.
  intros l i v H. unfold zget in H. destruct (Z.of_nat i <? 0)%Z eqn:E; [discriminate|]. rewrite Nat2Z.id in H. destruct (nth_error l i) as [a|] eqn:En; [|discriminate].
  injection H as <-. symmetry. apply nth_error_nth. exact En.
Qed.
Lemma component_nth : forall rk x c j, (j < pr_n rk)%nat -> nth j (component rk x c) 0%R = nth (c * pr_n rk + j) x 0%R.
Proof.
  intros rk x c j H. unfold component. rewrite <- (firstn_skipn (c * pr_n rk) x) at 2.
  destruct (Nat.le_gt_cases (length x) (c * pr_n rk)) as [L|L].
  - rewrite skipn_all2 by exact L. rewrite firstn_nil, app_nil_r. rewrite !nth_overflow; [reflexivity| |cbn; lia]. rewrite firstn_length. lia.
  - rewrite app_nth2 by (rewrite firstn_length; lia). rewrite firstn_length, Nat.min_l by lia. replace (c * pr_n rk + j - c * pr_n rk)%nat with j by lia.
    destruct (Nat.lt_ge_cases j (length (firstn (pr_n rk) (skipn (c * pr_n rk) x)))) as [Lj|Lj].
    + rewrite <- (firstn_skipn (pr_n rk) (skipn (c * pr_n rk) x)) at 2. symmetry. apply app_nth1. exact Lj.
    + rewrite nth_overflow by exact Lj. rewrite firstn_length in Lj. symmetry. apply nth_overflow. lia.
Qed.

Section Fields.
Variable N : nat.
Variable m : fmesh.
Variable dim : Z.
Variable MInv D : Z -> mat.
Variable MSigma : mat.
Variable owns : list (list nat).
Variable rks : list prank.
Hypothesis Di : distributed N m dim MInv D MSigma owns rks.
Variable Ps : list (csr R).
Variable junk : nat -> list R.
Variable F : list R -> list R.
Hypothesis LP : length Ps = length rks.
Hypothesis FL : forall x, length x = (6 * N)%nat -> length (F x) = (6 * N)%nat.
Hypothesis FM : forall x works, length x = (6 * N)%nat -> length works = length rks -> allMult junk rks Ps works (spread N owns x) = Ok (spread N owns (F x)).
Notation P := (length rks).
Variable rank : nat -> prank.
Variable Q : nat -> csr R.
Hypothesis RK : forall i, (i < P)%nat -> nth_error rks i = Some (rank i).
Hypothesis QK : forall i, (i < P)%nat -> nth_error Ps i = Some (Q i).
Definition piece (x : list R) (i : nat) : list R := part N (nth i owns []) x.

Lemma owns_len : length owns = P.
Proof. destruct Di as (_ & _ & F2). clear - F2. induction F2; [reflexivity|]. cbn. f_equal. exact IHF2. Qed.
Lemma proc_at : forall i, (i < P)%nat -> process m owns (nth i owns []) (rank i).
Proof.
  intros i Hi. assert (Eo : nth_error owns i = Some (nth i owns [])) by (apply nth_error_nth'; rewrite owns_len; exact Hi).
  destruct (rank_at N m dim MInv D MSigma owns rks Di i _ Eo) as (rk & Er & Pr). rewrite (RK i Hi) in Er. injection Er as ->. exact Pr.
Qed.
Lemma nb_lt : forall i rk e, nth_error rks i = Some rk -> In e (pr_nbr rk) -> (fst e < P)%nat.
Proof.
  intros i rk e E I. assert (Hi : (i < P)%nat) by (apply nth_error_Some; rewrite E; discriminate). pose proof (proc_at i Hi) as (_ & H & _).
  rewrite (RK i Hi) in E. injection E as <-. rewrite Forall_forall in H. rewrite <- owns_len. apply (H e I).
Qed.
Lemma rate_ok : forall x wk i, length x = (6 * N)%nat -> (i < P)%nat -> localRate junk (rank i) (Q i) wk (piece x i) (heardAll rank (piece x) i) = Ok (piece (F x) i).
Proof.
  intros x wk i Lx Hi. specialize (FM x (repeat wk P) Lx (repeat_length _ _)). unfold allMult in FM.
  assert (Es : forall z, nth_error (spread N owns z) i = Some (piece z i)) by (intros z; apply spread_at; apply nth_error_nth'; rewrite owns_len; exact Hi).
  assert (Ec : nth_error (combine (combine (combine rks Ps) (repeat wk P)) (spread N owns x)) i = Some (rank i, Q i, wk, piece x i)).
  { assert (C : forall (A B : Type) (l : list A) (l' : list B) a b, nth_error l i = Some a -> nth_error l' i = Some b -> nth_error (combine l l') i = Some (a, b)).
    { clear. induction i as [|n IH]; intros A B l l' a b Ha Hb; destruct l as [|a0 l]; destruct l' as [|b0 l']; try discriminate; cbn in *; [congruence|apply IH; assumption]. }
    apply C; [|exact (Es x)]. apply C; [apply C; [exact (RK i Hi)|exact (QK i Hi)]|].
    rewrite (nth_error_nth' _ wk) by (rewrite repeat_length; exact Hi). f_equal. apply nth_repeat. }
  destruct (mapM_at _ _ _ i _ FM Ec) as (b & Hb & En). rewrite (Es (F x)) in En. injection En as <-. cbn [fst snd] in Hb. unfold rankMult in Hb.
  destruct (mapM (nbrData rks (spread N owns x) (rank i)) comps) as [nd| |] eqn:Ed; cbn [bind] in Hb; try discriminate.
  assert (nd = heardAll rank (piece x) i); [|subst nd; exact Hb].
  rewrite (mapM_map _ (fun c => heard rank (piece x) i (Z.to_nat c)) _ _ Ed); [reflexivity|].
  intros c l Ic El. unfold nbrData in El. unfold heard. apply (mapM_map _ _ _ _ El). intros [q j] v Iq Ev. cbn [fst snd] in *.
  pose proof (proc_at i Hi) as (_ & HN & _). rewrite Forall_forall in HN. destruct (HN _ Iq) as (Hq & Hj). cbn [fst snd] in Hq, Hj.
  assert (Hq' : (q < P)%nat) by (rewrite <- owns_len; exact Hq). rewrite (RK q Hq') in Ev.
  rewrite (spread_at N owns q (nth q owns [])) in Ev by (apply nth_error_nth'; exact Hq).
  pose proof (proc_at q Hq') as (Pn & _). rewrite component_nth by (rewrite Pn; exact Hj).
  assert (Hc : (0 <= c < 6)%Z) by (unfold comps in Ic; cbn [In] in Ic; lia).
  replace (c * Z.of_nat (pr_n (rank q)) + Z.of_nat j)%Z with (Z.of_nat (Z.to_nat c * pr_n (rank q) + j)) in Ev by lia. exact (zget_nth _ _ _ Ev).
Qed.
Lemma rate_sync : forall x wk k, length x = (6 * N)%nat ->
  runsTo rks (fun i => rate junk (rank i) (Q i) (wk i) (piece x i) (k i)) 6 (fun i => k i (piece (F x) i)).
Proof. intros x wk k Lx. apply (rate_runs rks nb_lt rank RK). intros i Hi. apply rate_ok; assumption. Qed.
Lemma piece_add : forall a k x i, length k = length x -> addv a (piece k i) (piece x i) = piece (addv a k x) i.
Proof. intros. unfold piece. symmetry. apply part_addv. assumption. Qed.

Lemma step_sync : forall x wk k t dt, length x = (6 * N)%nat ->
  runsTo rks (fun i => rkStep junk (rank i) (Q i) (wk i) (piece x i) dt (k i)) 24 (fun i => k i (piece (rk4Step (fun _ => F) x t dt) i)) /\
  length (rk4Step (fun _ => F) x t dt) = (6 * N)%nat.
Proof.
  intros x wk k t dt Lx. unfold rkStep, rk4Step. cbv zeta.
  set (k1 := F x). assert (L1 : length k1 = (6 * N)%nat) by (apply FL; exact Lx).
  set (y1 := addv (dt / 2) k1 x). assert (Ly1 : length y1 = (6 * N)%nat) by (unfold y1; rewrite addv_len; congruence).
  set (k2 := F y1). assert (L2 : length k2 = (6 * N)%nat) by (apply FL; exact Ly1).
  set (y2 := addv (dt / 2) k2 x). assert (Ly2 : length y2 = (6 * N)%nat) by (unfold y2; rewrite addv_len; congruence).
  set (k3 := F y2). assert (L3 : length k3 = (6 * N)%nat) by (apply FL; exact Ly2).
  set (y3 := addv dt k3 x). assert (Ly3 : length y3 = (6 * N)%nat) by (unfold y3; rewrite addv_len; congruence).
  set (k4 := F y3). assert (L4 : length k4 = (6 * N)%nat) by (apply FL; exact Ly3).
  set (z1 := addv (dt / 6) k1 x). assert (Lz1 : length z1 = (6 * N)%nat) by (unfold z1; rewrite addv_len; congruence).
  set (z2 := addv (dt / 3) k2 z1). assert (Lz2 : length z2 = (6 * N)%nat) by (unfold z2; rewrite addv_len; congruence).
  set (z3 := addv (dt / 3) k3 z2). assert (Lz3 : length z3 = (6 * N)%nat) by (unfold z3; rewrite addv_len; congruence).
  split; [|rewrite addv_len; congruence].
  change 24%nat with (6 + (6 + (6 + (6 + 0))))%nat.
  eapply (runs_trans rks nb_lt); [apply rate_sync; exact Lx|]. cbv beta. fold k1.
  eapply (runs_pre rks nb_lt); [intros i Hi; rewrite (piece_add (dt / 2) k1 x i), (piece_add (dt / 6) k1 x i) by congruence; fold y1 z1; reflexivity|].
  eapply (runs_trans rks nb_lt); [apply rate_sync; exact Ly1|]. cbv beta. fold k2.
  eapply (runs_pre rks nb_lt); [intros i Hi; rewrite (piece_add (dt / 2) k2 x i), (piece_add (dt / 3) k2 z1 i) by congruence; fold y2 z2; reflexivity|].
  eapply (runs_trans rks nb_lt); [apply rate_sync; exact Ly2|]. cbv beta. fold k3.
  eapply (runs_pre rks nb_lt); [intros i Hi; rewrite (piece_add dt k3 x i), (piece_add (dt / 3) k3 z2 i) by congruence; fold y3 z3; reflexivity|].
  eapply (runs_trans rks nb_lt); [apply rate_sync; exact Ly3|]. cbv beta. fold k4.
  apply runs_refl. intros i Hi. rewrite (piece_add (dt / 6) k4 z3 i) by congruence. reflexivity.
Qed.
Lemma run_sync : forall dts x wk t, length x = (6 * N)%nat ->
  runsTo rks (fun i => rkProgram junk (rank i) (Q i) (wk i) (piece x i) dts) (24 * length dts) (fun i => Done (piece (rkRun F x t dts) i)).
Proof.
  induction dts as [|dt l IH]; intros x wk t Lx; cbn [rkProgram rkRun length].
  - apply runs_refl. reflexivity.
  - replace (24 * S (length l))%nat with (24 + 24 * length l)%nat by lia.
    destruct (step_sync x (fun i => wk i (length l)) (fun i y => rkProgram junk (rank i) (Q i) (wk i) y l) t dt Lx) as (R1 & L1).
    eapply (runs_trans rks nb_lt); [exact R1|]. cbv beta. apply IH. exact L1.
Qed.
Lemma run_any : forall progs x wk t dts, length x = (6 * N)%nat ->
  (forall i, (i < P)%nat -> nth i progs Fail = rkProgram junk (rank i) (Q i) (wk i) (piece x i) dts) ->
  forall n w, moves rks n (start progs) w -> (n <= P * (24 * length dts))%nat /\
  ((forall w', ~ move rks w w') -> forall i, (i < P)%nat -> p_act (w i) = Done (piece (rkRun F x t dts) i)).
Proof.
  intros progs x wk t dts Lx H n w M.
  destruct (runs_pre rks nb_lt (fun i => nth i progs Fail) _ _ _ H (run_sync dts x wk t Lx)) as (A & B).
  destruct (pace_ends rks nb_lt progs (24 * length dts) A ltac:(intros i Hi; rewrite (B i Hi); intros []) n w M) as (X & Y).
  split; [exact X|]. intros St i Hi. rewrite (Y St i Hi). apply B. exact Hi.
Qed.

(** ** Implicit steps *)
Section Implicit.
Variable next : list R -> list (list R) -> option (list R).
Variable solution : list R -> list (list R) -> list R.
Variable dense : csr R -> R -> list R -> list R.
Lemma norm_zero : forall b, localNorm b = 0%R -> Forall (fun z => z = 0%R) b.
Proof.
  intros b H. unfold localNorm in H.
  assert (Nn : forall l, (0 <= fold_right Rplus 0 (map (fun z => z * z) l))%R).
  { induction l as [|z l IH]; cbn [map fold_right]; [lra|]. pose proof (Rle_0_sqr z) as Q'. unfold Rsqr in Q'. lra. }
  apply sqrt_eq_0 in H; [|apply Nn]. induction b as [|z l IH]; [constructor|]. cbn [map fold_right] in H.
  pose proof (Rle_0_sqr z) as Q'. unfold Rsqr in Q'. specialize (Nn l). constructor; [|apply IH; lra]. assert (Z2 : (z * z = 0)%R) by lra. apply Rmult_integral in Z2. destruct Z2; assumption.
Qed.
Lemma norm_of_zero : forall b, Forall (fun z => z = 0%R) b -> localNorm b = 0%R.
Proof.
  intros b H. unfold localNorm. replace (fold_right Rplus 0 (map (fun z => z * z) b))%R with 0%R; [apply sqrt_0|].
  induction H as [|z l E H IH]; [reflexivity|]. cbn [map fold_right]. rewrite <- IH, E. ring.
Qed.
Lemma gmres_zero : forall rk Pq dt b k, Forall (fun z => z = 0%R) b -> gmresSolve junk next solution rk Pq dt b k = k (repeat 0%R (length b)).
Proof.
  intros rk Pq dt b k H. unfold gmresSolve. cbv zeta. rewrite (norm_of_zero b H). destruct (Rle_dec 0 (Rmax (/ 100000000 * 0) 0)) as [|C]; [reflexivity|].
  exfalso. apply C. apply Rmax_r.
Qed.
Lemma gmres_exch : forall rk Pq dt b k, ~ Forall (fun z => z = 0%R) b -> isExch (gmresSolve junk next solution rk Pq dt b k).
Proof.
  intros rk Pq dt b k H. unfold gmresSolve. cbv zeta. destruct (Rle_dec (localNorm b) (Rmax (/ 100000000 * localNorm b) 0)) as [L|L]; [|exact I].
  exfalso. apply H. apply norm_zero. assert (0 <= localNorm b)%R by (apply sqrt_pos). unfold Rmax in L. destruct (Rle_dec _ _); lra.
Qed.
Lemma implicit_hang : forall progs x dt p q rq, length x = (6 * N)%nat ->
  (forall i, (i < P)%nat -> pr_nbr (rank i) <> []) ->
  (forall i, (i < P)%nat -> nth i progs Fail = implicitProgram junk next solution dense (rank i) (Q i) (piece x i) [dt]) ->
  (p < P)%nat -> nth_error rks q = Some rq -> (exists j, In (p, j) (pr_nbr rq)) ->
  Forall (fun z => z = 0%R) (piece (F x) p) -> ~ Forall (fun z => z = 0%R) (piece (F x) q) ->
  forall n w, moves rks n (start progs) w -> isExch (p_act (w q)).
Proof.
  intros progs x dt p q rq Lx NE HP Hp Eq Nq Zp Zq.
  assert (E : forall i, (i < P)%nat -> nth i progs Fail = rate junk (rank i) (Q i) [] (piece x i)
     (fun b => gmresSolve junk next solution (rank i) (Q i) dt b (fun k => Done (addv dt k (piece x i))))).
  { intros i Hi. rewrite (HP i Hi). cbn [implicitProgram]. unfold implicitStage. specialize (NE i Hi). destruct (pr_nbr (rank i)); [destruct (NE eq_refl)|reflexivity]. }
  assert (Hq : (q < P)%nat) by (apply nth_error_Some; rewrite Eq; discriminate).
  destruct (runs_pre rks nb_lt (fun i => nth i progs Fail) _ _ _ E (rate_sync x (fun _ => []) (fun i b => gmresSolve junk next solution (rank i) (Q i) dt b (fun k => Done (addv dt k (piece x i)))) Lx)) as (A & B).
  apply (hang rks nb_lt progs 6 A p q rq Hp Eq Nq).
  - rewrite (B p Hp). cbv beta. rewrite gmres_zero by exact Zp. intros [].
  - rewrite (B q Hq). apply gmres_exch. exact Zq.
Qed.
End Implicit.
End Fields.

(** Every state and every continuous source start exactly one curve. *)
From Coq Require Import ZArith List Bool Reals Lia Lra.
From Coquelicot Require Import Coquelicot.
From Verif Require Import Common Time_Model Ode_Model Ode_Proofs OdeRk_Proofs OdeLin_Proofs OdeStep_Proofs OdeNorm_Proofs OdeExact_Proofs OdeForced_Proofs OdeSol_Proofs.
Import ListNotations.
Local Open Scope R_scope.

Section Zero.
Variable n : nat.
Variable B : list R -> list R -> R.
Hypothesis Badd : forall a k x y, length k = n -> length x = n -> length y = n -> B (addv a k x) y = B x y + a * B k y.
Hypothesis Bsym : forall x y, length x = n -> length y = n -> B x y = B y x.
Hypothesis Bpos : forall x, length x = n -> 0 <= B x x.
Variable c0 : R.
Hypothesis Hc0 : 0 < c0.
Hypothesis Coer : forall x i, length x = n -> c0 * (nth i x 0 * nth i x 0) <= B x x.
Notation nrm := (nrm B).
Variable F : list R -> list R.
Hypothesis Flen : forall x, length x = n -> length (F x) = n.
Hypothesis Fadd : forall a k x, length k = n -> length x = n -> F (addv a k x) = addv a (F k) (F x).
Variable K : R.
Hypothesis K0 : 0 <= K.
Hypothesis FB : forall x, length x = n -> nrm (F x) <= K * nrm x.
Variable d : R -> list R.
Hypothesis Ld : forall t, length (d t) = n.
Hypothesis Dd : forall t i, (i < n)%nat -> derivable_pt_lim (fun s => nth i (d s) 0) t (nth i (F (d t)) 0).
Hypothesis d0 : forall i, nth i (d 0) 0 = 0.
Notation zero := (repeat 0 n).
Lemma nrm_null : forall x, length x = n -> nrm x <= 0 -> forall i, nth i x 0 = 0.
Proof.
  intros x Lx H i. pose proof (nrm_sqr n B Bpos x Lx) as Q. pose proof (nrm_pos B x) as P. assert (E : nrm x = 0) by lra. rewrite E in Q. pose proof (Coer x i Lx) as C.
  pose proof (Rle_0_sqr (nth i x 0)) as S. unfold Rsqr in S. apply Rsqr_0_uniq. unfold Rsqr. nra.
Qed.
Lemma scal_nth : forall a x i, length x = n -> nth i (addv a x zero) 0 = a * nth i x 0.
Proof. intros a x i Lx. rewrite (addv_nth n), nth_zero by (exact Lx || apply repeat_length). ring. Qed.
Lemma scal_len : forall a x, length x = n -> length (addv a x zero) = n.
Proof. intros. apply addv_len; [assumption|apply repeat_length]. Qed.
Lemma F_scal : forall a x i, length x = n -> nth i (F (addv a x zero)) 0 = a * nth i (F x) 0.
Proof.
  intros a x i Lx. pose proof (repeat_length 0 n) as LZ. rewrite Fadd by assumption. rewrite (addv_nth n) by (apply Flen; assumption). rewrite (F_zero n F Flen Fadd zero LZ), nth_zero. ring.
Qed.
Lemma zero_fwd : forall t, 0 <= t -> forall i, nth i (d t) 0 = 0.
Proof.
  intros t Ht. set (w := fun s => addv (exp (- K * s)) (d s) zero). set (G := fun x => addv (- K) x (F x)).
  assert (Lw : forall s, length (w s) = n) by (intros; apply scal_len, Ld).
  assert (GL : forall x, length x = n -> length (G x) = n) by (intros x Lx; apply addv_len; [exact Lx|apply Flen, Lx]).
  assert (GD : forall x, length x = n -> B x (G x) <= 0).
  { intros x Lx. unfold G. pose proof (Flen x Lx) as LF. rewrite (Badd2 n B Badd Bsym) by assumption. pose proof (cs n B Badd Bsym Bpos x (F x) Lx LF) as C. rewrite <- (nrm_sqr n B Bpos x Lx).
    pose proof (FB x Lx) as Q. pose proof (nrm_pos B x) as P. apply (Rmult_le_compat_l (nrm x)) in Q; [|exact P]. lra. }
  set (g := fun _ : R => zero). assert (Lg : forall s, length (g s) = n) by (intros; apply repeat_length).
  assert (Z0 : nrm zero = 0) by (apply (nrm_zero n B Badd)).
  assert (Dw : forall s i, (i < n)%nat -> derivable_pt_lim (fun s => nth i (w s) 0) s (nth i (rate G g w s) 0)).
  { intros s i Hi. unfold rate. rewrite (addv_nth n) by (apply Lg || apply GL, Lw). unfold g, G. rewrite nth_zero, (addv_nth n) by (apply Flen, Lw || apply Lw). unfold w. rewrite F_scal, scal_nth by apply Ld.
    apply (derivable_pt_lim_ext (fun s => exp (- K * s) * nth i (d s) 0)); [intros; rewrite scal_nth by apply Ld; reflexivity|].
    replace (exp (- K * s) * nth i (F (d s)) 0 + - K * (exp (- K * s) * nth i (d s) 0) + 1 * 0) with ((exp (- K * s) * - K) * nth i (d s) 0 + exp (- K * s) * nth i (F (d s)) 0) by ring.
    apply (derivable_pt_lim_mult (fun s => exp (- K * s)) (fun s => nth i (d s) 0)); [|apply Dd, Hi].
    apply (derivable_pt_lim_comp (fun s => - K * s) exp); [|apply derivable_pt_lim_exp]. replace (- K) with (- K * 1) at 1 by ring. apply (derivable_pt_lim_scal (fun s => s)), derivable_pt_lim_id. }
  pose proof (u_growth n B Badd Bsym Bpos G GL GD g Lg 0 (fun s => Req_le _ _ Z0) w Lw Dw 0 t Ht) as Q.
  assert (Zw : nrm (w 0) = 0).
  { rewrite (nrm_ext n B _ zero); [exact Z0|apply Lw|apply repeat_length|]. intros i. unfold w. rewrite scal_nth, d0, nth_zero by apply Ld. ring. }
  intros i. assert (E : nth i (w t) 0 = 0) by (apply nrm_null; [apply Lw|lra]). unfold w in E. rewrite scal_nth in E by apply Ld. apply Rmult_integral in E. destruct E as [E|E]; [|exact E]. pose proof (exp_pos (- K * t)). lra.
Qed.
End Zero.

Section Duh.
Variable n : nat.
Variable B : list R -> list R -> R.
Hypothesis Badd : forall a k x y, length k = n -> length x = n -> length y = n -> B (addv a k x) y = B x y + a * B k y.
Hypothesis Bsym : forall x y, length x = n -> length y = n -> B x y = B y x.
Hypothesis Bpos : forall x, length x = n -> 0 <= B x x.
Variable c0 : R.
Hypothesis Hc0 : 0 < c0.
Hypothesis Coer : forall x i, length x = n -> c0 * (nth i x 0 * nth i x 0) <= B x x.
Notation nrm := (nrm B).
Variable F : list R -> list R.
Hypothesis Flen : forall x, length x = n -> length (F x) = n.
Hypothesis Fadd : forall a k x, length k = n -> length x = n -> F (addv a k x) = addv a (F k) (F x).
Variable K : R.
Hypothesis K0 : 0 <= K.
Hypothesis HK : forall y, length y = n -> B (F y) (F y) <= K * K * B y y.
Notation zero := (repeat 0 n).
Let FB := OdeConv_Proofs.FB n B Bpos F Flen K K0 HK.
(** A curve through zero stays there, forwards and backwards. *)
Lemma zero_only : forall d : R -> list R, (forall t, length (d t) = n) -> (forall t i, (i < n)%nat -> derivable_pt_lim (fun s => nth i (d s) 0) t (nth i (F (d t)) 0)) ->
  (forall i, nth i (d 0) 0 = 0) -> forall t i, nth i (d t) 0 = 0.
Proof.
  intros d Ld Dd Z t i. destruct (Rle_dec 0 t) as [P|P]; [apply (zero_fwd n B Badd Bsym Bpos c0 Hc0 Coer F Flen Fadd K FB d Ld Dd Z t P i)|].
  set (G := fun x => addv (-1) (F x) zero). set (e := fun s => d (- s)).
  assert (GL : forall x, length x = n -> length (G x) = n) by (intros; apply scal_len, Flen; assumption).
  assert (GA : forall a k x, length k = n -> length x = n -> G (addv a k x) = addv a (G k) (G x)).
  { intros a k x Lk Lx. pose proof (Flen k Lk). pose proof (Flen x Lx). pose proof (GL k Lk) as A1. pose proof (GL x Lx) as A2. assert (La : length (addv a k x) = n) by (apply addv_len; assumption).
    apply (list_eq n); [apply GL, La|apply addv_len; assumption|]. intros j. unfold G. rewrite (scal_nth n) by (apply Flen, La). rewrite (addv_nth n) by assumption. rewrite !(scal_nth n), Fadd, (addv_nth n) by assumption. ring. }
  assert (GB : forall x, length x = n -> nrm (G x) <= K * nrm x).
  { intros x Lx. unfold G. rewrite (nrm_scal n B Badd Bsym) by (apply Flen, Lx). replace (Rabs (-1)) with 1 by (rewrite Rabs_left; lra). rewrite Rmult_1_l. apply FB, Lx. }
  replace t with (- - t) by ring. change (nth i (e (- t)) 0 = 0). apply (zero_fwd n B Badd Bsym Bpos c0 Hc0 Coer G GL GA K GB e); [intros; apply Ld| | |lra].
  - intros s j Hj. unfold G, e. rewrite (scal_nth n) by (apply Flen, Ld).
    pose proof (derivable_pt_lim_comp Ropp (fun s => nth j (d s) 0) s (-1) (nth j (F (d (- s))) 0) (derivable_pt_lim_opp id s 1 (derivable_pt_lim_id s)) (Dd (- s) j Hj)) as X.
    replace (-1 * nth j (F (d (- s))) 0) with (nth j (F (d (- s))) 0 * -1) by ring. exact X.
  - intros j. unfold e. rewrite Ropp_0. apply Z.
Qed.
(** The flow: the curve from [x] at time 0. *)
Definition flow (x : list R) (t : R) : list R := lcg n (fun k => sol n F (unit n k) t) (fun k => nth k x 0) n.
Lemma flow_len : forall x t, length (flow x t) = n. Proof. intros. apply lcg_len. intros. apply sol_len. Qed.
Lemma flow_nth : forall x t i, nth i (flow x t) 0 = sm n (fun k => nth k x 0 * nth i (sol n F (unit n k) t) 0).
Proof. intros. apply lcg_nth. intros. apply sol_len. Qed.
Lemma F_comb : forall c t i, nth i (F (lcg n (fun k => sol n F (unit n k) t) c n)) 0 = sm n (fun k => c k * nth i (F (sol n F (unit n k) t)) 0).
Proof. intros c t i. rewrite (F_lcg n F Flen Fadd) by (intros; apply sol_len). apply lcg_nth. intros. apply Flen, sol_len. Qed.
Lemma base_follows : forall k t i, (i < n)%nat -> derivable_pt_lim (fun s => nth i (sol n F (unit n k) s) 0) t (nth i (F (sol n F (unit n k) t)) 0).
Proof. intros k t i Hi. apply (sol_follows n B F Flen Fadd c0 Hc0 Coer K K0 HK (unit n k) (unit_len n k) t i Hi). Qed.
Lemma flow_follows : forall x t i, (i < n)%nat -> derivable_pt_lim (fun s => nth i (flow x s) 0) t (nth i (F (flow x t)) 0).
Proof.
  intros x t i Hi. unfold flow at 2. rewrite F_comb. apply (derivable_pt_lim_ext (fun s => sm n (fun k => nth k x 0 * nth i (sol n F (unit n k) s) 0))); [intros; symmetry; apply flow_nth|].
  apply (dsm n (fun k s => nth k x 0 * nth i (sol n F (unit n k) s) 0)). intros k Hk. apply (derivable_pt_lim_scal (fun s => nth i (sol n F (unit n k) s) 0)), base_follows, Hi.
Qed.
Lemma flow_start : forall x, length x = n -> flow x 0 = x.
Proof.
  intros x Lx. apply (list_eq n); [apply flow_len|exact Lx|]. intros i. rewrite flow_nth. pose proof (f_equal (fun l => nth i l 0) (as_units n x Lx)) as E. cbv beta in E. rewrite lcg_nth in E by apply unit_len. rewrite E.
  apply sm_ext. intros k Hk. rewrite sol_start by apply unit_len. reflexivity.
Qed.
Lemma flow_back : forall x t, length x = n -> flow (flow x (- t)) t = x.
Proof.
  intros x t Lx. set (d := fun b => sub (flow (flow x (- t)) b) (flow x (b - t))).
  assert (Ld : forall b, length (d b) = n) by (intros; apply sub_len; apply flow_len).
  assert (Z : forall b i, nth i (d b) 0 = 0).
  { apply zero_only; [exact Ld| |].
    - intros b i Hi. unfold d. unfold sub at 2. rewrite Fadd, (addv_nth n) by (try apply Flen; apply flow_len).
      apply (derivable_pt_lim_ext (fun b => nth i (flow (flow x (- t)) b) 0 - nth i (flow x (b - t)) 0)); [intros; rewrite (sub_nth n) by apply flow_len; reflexivity|].
      replace (nth i (F (flow (flow x (- t)) b)) 0 + -1 * nth i (F (flow x (b - t))) 0) with (nth i (F (flow (flow x (- t)) b)) 0 - nth i (F (flow x (b - t))) 0) by ring.
      apply derivable_pt_lim_minus; [apply flow_follows, Hi|]. intros e He. destruct (flow_follows x (b - t) i Hi e He) as (dd & Hdd). exists dd. intros k Nk Hk. replace (b + k - t) with (b - t + k) by ring. apply Hdd; assumption.
    - intros i. unfold d. rewrite (sub_nth n), flow_start by apply flow_len. replace (0 - t) with (- t) by ring. ring. }
  apply (list_eq n); [apply flow_len|exact Lx|]. intros i. specialize (Z t i). unfold d in Z. rewrite (sub_nth n) in Z by apply flow_len. replace (t - t) with 0 in Z by ring. rewrite flow_start in Z by exact Lx. lra.
Qed.
(** ** The solution with a source *)
Variable g : R -> list R.
Hypothesis Lg : forall t, length (g t) = n.
Hypothesis Cg : forall i t, continuity_pt (fun s => nth i (g s) 0) t.
Definition pull (s : R) : list R := flow (g s) (- s).
Lemma cont_sm : forall m (h : nat -> R -> R) t, (forall k, (k < m)%nat -> continuity_pt (h k) t) -> continuity_pt (fun s => sm m (fun k => h k s)) t.
Proof.
  induction m as [|m IH]; intros h t H; cbn [sm]; [apply continuity_pt_const; intros a b; reflexivity|].
  apply (continuity_pt_plus (fun s => sm m (fun k => h k s)) (h m)); [apply IH; intros; apply H; lia|apply H; lia].
Qed.
Lemma cont_ext : forall (f h : R -> R) t, (forall s, f s = h s) -> continuity_pt f t -> continuity_pt h t.
Proof. intros f h t E C. apply (continuity_pt_ext f); [intros; apply E|exact C]. Qed.
Lemma pull_cont : forall i t, (i < n)%nat -> continuity_pt (fun s => nth i (pull s) 0) t.
Proof.
  intros i t Hi. apply (cont_ext (fun s => sm n (fun k => nth k (g s) 0 * nth i (sol n F (unit n k) (- s)) 0))); [intros; symmetry; apply flow_nth|].
  apply (cont_sm n (fun k s => nth k (g s) 0 * nth i (sol n F (unit n k) (- s)) 0)). intros k Hk.
  apply (continuity_pt_mult (fun s => nth k (g s) 0)); [apply Cg|].
  apply (continuity_pt_comp Ropp (fun s => nth i (sol n F (unit n k) s) 0)); [apply continuity_pt_opp, derivable_continuous_pt, derivable_pt_id|].
  apply derivable_continuous_pt. exists (nth i (F (sol n F (unit n k) (- t))) 0). apply base_follows, Hi.
Qed.
Definition acc (i : nat) (t : R) : R := RInt (fun s => nth i (pull s) 0) 0 t.
Lemma acc_derive : forall i t, (i < n)%nat -> derivable_pt_lim (acc i) t (nth i (pull t) 0).
Proof.
  intros i t Hi. apply is_derive_Reals.
  assert (C : forall s, continuous (fun s => nth i (pull s) 0) s) by (intros s; apply continuity_pt_filterlim, pull_cont, Hi).
  apply (is_derive_RInt (fun s => nth i (pull s) 0) (acc i) 0 t); [|apply C].
  exists (mkposreal 1 Rlt_0_1). intros b _. apply (RInt_correct (fun s => nth i (pull s) 0) 0 b), (ex_RInt_continuous (fun s => nth i (pull s) 0)). intros; apply C.
Qed.
Definition duh (x : list R) (t : R) : list R := lcg n (fun k => sol n F (unit n k) t) (fun k => nth k x 0 + acc k t) n.
Lemma duh_len : forall x t, length (duh x t) = n. Proof. intros. apply lcg_len. intros. apply sol_len. Qed.
Lemma duh_nth : forall x t i, nth i (duh x t) 0 = sm n (fun k => (nth k x 0 + acc k t) * nth i (sol n F (unit n k) t) 0).
Proof. intros. apply (lcg_nth n). intros. apply sol_len. Qed.
Theorem duh_follows : forall x t i, (i < n)%nat -> derivable_pt_lim (fun s => nth i (duh x s) 0) t (nth i (addv 1 (g t) (F (duh x t))) 0).
Proof.
  intros x t i Hi. rewrite (addv_nth n) by (apply Lg || apply Flen, duh_len). unfold duh at 2. rewrite F_comb.
  assert (E : nth i (g t) 0 = sm n (fun k => nth k (pull t) 0 * nth i (sol n F (unit n k) t) 0)) by (rewrite <- flow_nth; unfold pull; rewrite flow_back by apply Lg; reflexivity).
  rewrite E, <- sm_scal, <- sm_plus. apply (derivable_pt_lim_ext (fun s => sm n (fun k => (nth k x 0 + acc k s) * nth i (sol n F (unit n k) s) 0))); [intros; symmetry; apply duh_nth|].
  apply (dsm n (fun k s => (nth k x 0 + acc k s) * nth i (sol n F (unit n k) s) 0) t
    (fun k => (nth k x 0 + acc k t) * nth i (F (sol n F (unit n k) t)) 0 + 1 * (nth k (pull t) 0 * nth i (sol n F (unit n k) t) 0))). intros k Hk.
  replace ((nth k x 0 + acc k t) * nth i (F (sol n F (unit n k) t)) 0 + 1 * (nth k (pull t) 0 * nth i (sol n F (unit n k) t) 0))
    with ((0 + nth k (pull t) 0) * nth i (sol n F (unit n k) t) 0 + (nth k x 0 + acc k t) * nth i (F (sol n F (unit n k) t)) 0) by ring.
  apply (derivable_pt_lim_mult (fun s => nth k x 0 + acc k s) (fun s => nth i (sol n F (unit n k) s) 0)); [|apply base_follows, Hi].
  apply (derivable_pt_lim_plus (fun _ => nth k x 0) (acc k)); [apply derivable_pt_lim_const|apply acc_derive, Hk].
Qed.
Theorem duh_start : forall x, length x = n -> duh x 0 = x.
Proof.
  intros x Lx. rewrite <- (flow_start x Lx) at 2. apply (list_eq n); [apply duh_len|apply flow_len|]. intros i. rewrite duh_nth, flow_nth. apply sm_ext. intros k Hk. unfold acc. rewrite RInt_point. cbn. ring.
Qed.
End Duh.

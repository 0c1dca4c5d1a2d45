(** Proofs about the evolution operator: scratch vector, history independence. *)
From Coq Require Import ZArith List Bool Reals Lra Lia.
From Verif Require Import Common Probe_Model Evol_Model Evol_Spec.
Import ListNotations.
Local Open Scope Z_scope.

(** ** Generic *)
Lemma bind_ok : forall {A B} (m : res A) (f : A -> res B) b, bind m f = Ok b -> exists a, m = Ok a /\ f a = Ok b.
Proof. intros A B [a| |] f b Hb; try discriminate. eauto. Qed.

Ltac ubind H := let a := fresh "v" in let E := fresh "E" in apply bind_ok in H; destruct H as (a & E & H).

Lemma foldM_ok_ind : forall {A B} (I : B -> Prop) (f : B -> A -> res B) l b b',
  (forall b x b', In x l -> I b -> f b x = Ok b' -> I b') -> I b -> foldM f l b = Ok b' -> I b'.
Proof.
  intros A B I f l. induction l as [|x t IH]; intros b b' Hs Hb Hf; cbn in Hf.
  - injection Hf as <-. exact Hb.
  - apply bind_ok in Hf. destruct Hf as (b1 & E1 & E2). apply (IH b1); auto.
    + intros; eapply Hs; eauto. right; auto.
    + eapply Hs; eauto. left; auto.
Qed.

Lemma zset_len : forall {A} (l l' : list A) i a, zset l i a = Ok l' -> length l' = length l.
Proof. intros A l l' i a Hz. apply zset_ok in Hz. destruct Hz as [_ ->]. apply upd_length. Qed.

Lemma nth_upd : forall {A} (l : list A) n m a d, (n < length l)%nat ->
  nth m (upd l n a) d = if Nat.eqb n m then a else nth m l d.
Proof.
  intros A l. induction l as [|x t IH]; intros [|n] [|m] a d Hn; cbn in *; try lia; auto.
  apply IH. lia.
Qed.

Lemma zset_nth : forall (l l' : list R) i a m d, zset l i a = Ok l' ->
  nth m l' d = if Z.eqb i (Z.of_nat m) then a else nth m l d.
Proof.
  intros l l' i a m d Hz. apply zset_ok in Hz. destruct Hz as [Hr ->].
  rewrite nth_upd by lia. destruct (Nat.eqb_spec (Z.to_nat i) m), (Z.eqb_spec i (Z.of_nat m)); auto; lia.
Qed.

Lemma writes_len : forall ws v v', writes ws v = Ok v' -> length v' = length v.
Proof.
  intros ws v v' Hw. unfold writes in Hw.
  apply (foldM_ok_ind (fun u => length u = length v) _ _ _ _ ) in Hw; auto.
  intros b x b' _ Hb Hx. unfold write in Hx. rewrite (zset_len _ _ _ _ Hx). exact Hb.
Qed.

(** ** Zero outside a set of positions *)
Definition zout (P : Z -> Prop) (v : list R) : Prop := forall i, nth i v 0%R <> 0%R -> P (Z.of_nat i).

Lemma zout_zeros : forall P n, zout P (zeros n).
Proof.
  intros P n i Hi. exfalso. apply Hi. unfold zeros. destruct (Nat.lt_ge_cases i n).
  - apply nth_repeat.
  - apply nth_overflow. rewrite repeat_length. lia.
Qed.

Lemma zout_false : forall v, zout (fun _ => False) v -> v = zeros (length v).
Proof.
  induction v as [|x t IH]; intros Hz; [reflexivity|].
  unfold zeros. cbn [length repeat]. f_equal.
  - destruct (Req_dec x 0) as [->|Hx]; auto. destruct (Hz 0%nat Hx).
  - apply IH. intros i Hi. exact (Hz (S i) Hi).
Qed.

Lemma zout_mono : forall (P Q : Z -> Prop) v, (forall i, P i -> Q i) -> zout P v -> zout Q v.
Proof. intros P Q v HPQ Hz i Hi. apply HPQ. apply Hz. exact Hi. Qed.

Lemma zout_write : forall (P : Z -> Prop) v v' i a, P i -> zout P v -> zset v i a = Ok v' -> zout P v'.
Proof.
  intros P v v' i a Hi Hz Hs m Hm. rewrite (zset_nth _ _ _ _ m 0%R Hs) in Hm.
  destruct (Z.eqb_spec i (Z.of_nat m)) as [<-|]; auto.
Qed.

Lemma zout_writes : forall (P : Z -> Prop) ws v v', (forall i a, In (i, a) ws -> P i) -> zout P v -> writes ws v = Ok v' -> zout P v'.
Proof.
  intros P ws v v' Hi Hz Hw. unfold writes in Hw. eapply (foldM_ok_ind (zout P)); eauto.
  intros b [i a] b' Hin Hb Hx. unfold write in Hx. cbn in Hx. eapply zout_write; eauto.
Qed.

(** Writing zeros removes positions. *)
Lemma zout_clear : forall (P : Z -> Prop) js v v', zout P v -> writes (map (fun j => (j, 0%R)) js) v = Ok v' ->
  zout (fun i => P i /\ ~ In i js) v'.
Proof.
  intros P js. revert P. induction js as [|j js IH]; intros P v v' Hz Hw.
  - injection Hw as <-. eapply zout_mono; [|exact Hz]. cbn. tauto.
  - cbn [map] in Hw. unfold writes in Hw. cbn [foldM] in Hw. apply bind_ok in Hw. destruct Hw as (v1 & E1 & E2).
    unfold write in E1. cbn in E1.
    assert (Hz1 : zout (fun i => P i /\ i <> j) v1).
    { intros m Hm. rewrite (zset_nth _ _ _ _ m 0%R E1) in Hm. destruct (Z.eqb_spec j (Z.of_nat m)); [congruence|].
      split; auto. }
    specialize (IH _ _ _ Hz1 E2). eapply zout_mono; [|exact IH]. cbn. intros i [[? ?] ?]. split; auto. intros [?|?]; auto.
Qed.

Section S.
Variable inv : list (list R) -> list R -> list R.
Variables ndofs nbr : nat.
Variable Aop : matrix.
Variables Top Sop : option matrix.
Variable hasTF : bool.
Variable sub2par : list Z.
Variable src : R -> list (list R).
Variables elem1 elem2 : list Z.
Variable junk : nat -> list R.
Hypothesis junk_len : forall n, length (junk n) = n.
Variable gmres : R -> list R -> list R -> list R.

Notation nZ := (nZ ndofs).
Notation bZ := (bZ ndofs nbr).
Notation wsize := (wsize ndofs nbr).
Notation mult := (mult inv ndofs nbr Aop Top Sop hasTF sub2par src elem1 elem2 junk).
Notation implicitSolve := (implicitSolve inv ndofs nbr Aop Top hasTF sub2par src junk gmres).
Notation commit := (commit ndofs).
Notation finalize := (finalize inv ndofs).
Notation applyTFSF := (applyTFSF ndofs nbr Top hasTF sub2par src).
Notation pack := (pack ndofs nbr junk).
Notation multSub := (multSub inv ndofs Sop).
Notation sgbcFlux := (sgbcFlux ndofs nbr elem1 elem2).

(** ** The scratch vector *)
Definition clean (v : list R) : Prop := v = [] \/ v = zeros wsize.

Lemma pack_len : forall w i nd w', pack w i nd = Ok w' -> length w' = wsize.
Proof.
  intros w i nd w' Hp. unfold Evol_Model.pack in Hp. cbv zeta in Hp. ubind Hp.
  assert (Hv : length v = wsize).
  { eapply (foldM_ok_ind (fun u => length u = wsize)); [| |exact E].
    - intros b x b' _ Hb Hx. unfold setVector in Hx. rewrite (writes_len _ _ _ Hx). exact Hb.
    - destruct (Nat.eqb_spec (length w) wsize); auto. }
  destruct (Nat.eqb nbr 0).
  - injection Hp as <-. exact Hv.
  - eapply (foldM_ok_ind (fun u => length u = wsize)); [| |exact Hp]; auto.
    intros b x b' _ Hb Hx. unfold setVector in Hx. rewrite (writes_len _ _ _ Hx). exact Hb.
Qed.

Lemma scatter_len : forall f w w', scatter ndofs nbr sub2par f w = Ok w' -> length w' = length w.
Proof.
  intros f w w' Hs. unfold scatter in Hs. eapply (foldM_ok_ind (fun u => length u = length w)); [| |exact Hs]; auto.
  intros b x b' _ Hb Hx. eapply (foldM_ok_ind (fun u => length u = length w)); [| |exact Hx]; auto.
  intros b1 c b2 _ Hb1 Hc. ubind Hc. rewrite (zset_len _ _ _ _ Hc). exact Hb1.
Qed.

Lemma tfsf_clean : forall t w o w' o', clean w -> applyTFSF t w o = Ok (w', o') -> clean w' /\ (w = zeros wsize -> w' = zeros wsize).
Proof.
  intros t w o w' o' Hc Ht. unfold Evol_Model.applyTFSF in Ht. destruct Top as [T|]; [|injection Ht as <- <-; auto].
  destruct hasTF; [|injection Ht as <- <-; auto]. cbv zeta in Ht.
  set (w0 := if Nat.eqb (length w) wsize then w else zeros wsize) in *.
  assert (Hw0 : w0 = zeros wsize).
  { unfold w0. destruct (Nat.eqb_spec (length w) wsize) as [E|]; auto. destruct Hc as [->| ->]; auto.
    change (0%nat = wsize) in E. rewrite <- E. reflexivity. }
  destruct Rlt_dec; [injection Ht as <- <-; unfold clean; auto|].
  ubind Ht. ubind Ht. injection Ht as <- <-.
  rewrite (scatter_len _ _ _ E), Hw0. unfold zeros. rewrite repeat_length. unfold clean, zeros. auto.
Qed.

(** Slots of a state. *)
Definition slot (d : Z) (i : Z) : Prop := exists c, In c comps /\ i = c * bZ + d.
Definition slots1 (s : sstate) (i : Z) : Prop := slot (s_gl s) i \/ (s_gr s <> -1 /\ slot (s_gr s) i).
Definition slots2 (s : sstate) (i : Z) : Prop := s_gr s <> -1 /\ (slot (s_gl s) i \/ slot (s_gr s) i).

Lemma writes_comps : forall (P : Z -> Prop) (f : Z -> R) d v v', (forall i, slot d i -> P i) -> zout P v ->
  writes (map (fun c => (c * bZ + d, f c)) comps) v = Ok v' -> zout P v' /\ length v' = length v.
Proof.
  intros P f d v v' Hi Hz Hw. split; [|eapply writes_len; exact Hw]. eapply zout_writes; [|exact Hz|exact Hw].
  intros i a Hin. apply in_map_iff in Hin. destruct Hin as (c & E & Hc). injection E as <- <-. apply Hi. exists c; auto.
Qed.

Lemma pass1_out : forall input w (P : Z -> Prop) v s v', (forall i, slots1 s i -> P i) -> zout P v ->
  pass1 ndofs nbr input w v s = Ok v' -> zout P v' /\ length v' = length v.
Proof.
  intros input w P v s v' Hi Hz Hp. unfold pass1, copySlot in Hp. ubind Hp. ubind E.
  destruct (writes_comps P (fun c => nth (Z.to_nat c) v1 0%R) (s_gl s) v v0) as [H1 H2]; auto.
  { intros i Hs. apply Hi. left; auto. }
  destruct (Z.eqb_spec (s_gr s) (-1)).
  - injection Hp as <-. auto.
  - unfold fillBC in Hp. ubind Hp. destruct (writes_comps P (fun c => nth (Z.to_nat c) v2 0%R) (s_gr s) v0 v') as [H3 H4]; auto.
    + intros i Hs. apply Hi. right; auto.
    + split; [auto|congruence].
Qed.

Lemma pass2_out : forall input w (P : Z -> Prop) v s v', (forall i, slots2 s i -> P i) -> zout P v ->
  pass2 ndofs nbr input w v s = Ok v' -> zout P v' /\ length v' = length v.
Proof.
  intros input w P v s v' Hi Hz Hp. unfold pass2 in Hp. destruct (Z.eqb_spec (s_gr s) (-1)).
  - injection Hp as <-. auto.
  - ubind Hp. unfold fillBC in E. ubind E.
    destruct (writes_comps P (fun c => nth (Z.to_nat c) v1 0%R) (s_gl s) v v0) as [H1 H2]; auto.
    { intros i Hs. apply Hi. split; auto. }
    unfold copySlot in Hp. ubind Hp.
    destruct (writes_comps P (fun c => nth (Z.to_nat c) v2 0%R) (s_gr s) v0 v') as [H3 H4]; auto.
    { intros i Hs. apply Hi. split; auto. }
    split; [auto|congruence].
Qed.

Lemma clearSlot_out : forall (P : Z -> Prop) v d v', zout P v -> clearSlot ndofs nbr v d = Ok v' ->
  zout (fun i => P i /\ ~ slot d i) v' /\ length v' = length v.
Proof.
  intros P v d v' Hz Hc. unfold clearSlot in Hc. split; [|eapply writes_len; exact Hc].
  change (map (fun c => (c * bZ + d, 0%R)) comps) with (map (fun j => (j, 0%R)) (map (fun c => c * bZ + d) comps)) in Hc.
  pose proof (zout_clear P _ _ _ Hz Hc) as H1. eapply zout_mono; [|exact H1]. cbn beta. intros i [Hp Hn]. split; auto.
  intros (c & Hin & ->). apply Hn. apply in_map_iff. exists c; auto.
Qed.

Lemma clear1_out : forall w (P : Z -> Prop) v s v', zout P v -> clear1 ndofs nbr w v s = Ok v' ->
  zout (fun i => P i /\ ~ slots1 s i) v' /\ length v' = length v.
Proof.
  intros w P v s v' Hz Hc. unfold clear1 in Hc. ubind Hc.
  destruct (clearSlot_out P v (s_gl s) v0 Hz E) as [H1 H2]. destruct (Z.eqb_spec (s_gr s) (-1)).
  - injection Hc as <-. split; auto. eapply zout_mono; [|exact H1]. cbn beta. intros i [Hp Hn]. split; auto. intros [?|[? ?]]; auto.
  - destruct (clearSlot_out _ _ _ _ H1 Hc) as [H3 H4]. split; [|congruence]. eapply zout_mono; [|exact H3]. cbn beta.
    intros i [[Hp Hn] Hn2]. split; auto. intros [?|[? ?]]; auto.
Qed.

Lemma clear2_out : forall w (P : Z -> Prop) v s v', zout P v -> clear2 ndofs nbr w v s = Ok v' ->
  zout (fun i => P i /\ ~ slots2 s i) v' /\ length v' = length v.
Proof.
  intros w P v s v' Hz Hc. unfold clear2 in Hc. destruct (Z.eqb_spec (s_gr s) (-1)).
  - injection Hc as <-. split; auto. eapply zout_mono; [|exact Hz]. cbn beta. intros i Hp. split; auto. intros [? ?]; auto.
  - ubind Hc. destruct (clearSlot_out P v (s_gl s) v0 Hz E) as [H1 H2].
    destruct (clearSlot_out _ _ _ _ H1 Hc) as [H3 H4]. split; [|congruence]. eapply zout_mono; [|exact H3]. cbn beta.
    intros i [[Hp Hn] Hn2]. split; auto. intros [? [?|?]]; auto.
Qed.

Definition states (gs : list group) : list sstate := flat_map g_states gs.
(** Pairs (wrapper, state) in loop order. *)
Definition wstates (gs : list group) : list (wrapper * sstate) := flat_map (fun g => map (pair (g_w g)) (g_states g)) gs.

Lemma overGroups_flat : forall (f : wrapper -> list R -> sstate -> res (list R)) gs v,
  overGroups f gs v = foldM (fun v ws => f (fst ws) v (snd ws)) (wstates gs) v.
Proof.
  intros f gs v. unfold overGroups, wstates. rewrite foldM_flat_map. apply foldM_ext_in. intros b g _.
  rewrite foldM_map. reflexivity.
Qed.

Lemma passes_out : forall (f : wrapper -> list R -> sstate -> res (list R)) (sl : sstate -> Z -> Prop)
  (Hf : forall w (P : Z -> Prop) v s v', (forall i, sl s i -> P i) -> zout P v -> f w v s = Ok v' -> zout P v' /\ length v' = length v)
  gs v v', zout (fun _ => False) v -> overGroups f gs v = Ok v' ->
  zout (fun i => exists ws, In ws (wstates gs) /\ sl (snd ws) i) v' /\ length v' = length v.
Proof.
  intros f sl Hf gs v v' Hz Ho. rewrite overGroups_flat in Ho.
  refine (foldM_ok_ind (fun u => zout (fun i => exists ws, In ws (wstates gs) /\ sl (snd ws) i) u /\ length u = length v) _ _ _ _ _ _ Ho).
  - intros b ws b' Hin [Hb Hl] Hx. 
    destruct (Hf (fst ws) (fun i => exists ws, In ws (wstates gs) /\ sl (snd ws) i) b (snd ws) b') as [H1 H2]; auto.
    + intros i Hs. exists ws. split; [exact Hin|exact Hs].
    + split; [exact H1|congruence].
  - split; auto. eapply zout_mono; [|exact Hz]. intros i [].
Qed.

Lemma clears_out : forall (f : wrapper -> list R -> sstate -> res (list R)) (sl : sstate -> Z -> Prop)
  (Hf : forall w (P : Z -> Prop) v s v', zout P v -> f w v s = Ok v' -> zout (fun i => P i /\ ~ sl s i) v' /\ length v' = length v)
  gs v v', zout (fun i => exists ws, In ws (wstates gs) /\ sl (snd ws) i) v -> overGroups f gs v = Ok v' ->
  zout (fun _ => False) v' /\ length v' = length v.
Proof.
  intros f sl Hf gs v v' Hz Ho. rewrite overGroups_flat in Ho. revert v Hz Ho.
  induction (wstates gs) as [|ws l IH]; intros v Hz Ho.
  - injection Ho as <-. split; auto. eapply zout_mono; [|exact Hz]. intros i (ws & [] & _).
  - cbn [foldM] in Ho. apply bind_ok in Ho. destruct Ho as (v1 & E1 & E2). destruct (Hf _ _ _ _ _ Hz E1) as [H1 H2].
    destruct (IH v1) as [H3 H4]; auto.
    + eapply zout_mono; [|exact H1]. cbn beta. intros i [(w2 & [<-|Hin] & Hs) Hn]; [contradiction|]. exists w2; auto.
    + split; auto. congruence.
Qed.

Lemma flux_clean : forall M gs input w o w' o', w = zeros wsize -> sgbcFlux M gs input w o = Ok (w', o') -> w' = zeros wsize.
Proof.
  intros M gs input w o w' o' -> Hf. unfold Evol_Model.sgbcFlux in Hf.
  ubind Hf. rename E into E1. ubind Hf. ubind Hf. rename E0 into E2. ubind Hf. rename E0 into E3. ubind Hf. ubind Hf. rename E4 into E5.
  injection Hf as <- <-.
  assert (Z0 : zout (fun _ => False) (zeros wsize)) by apply zout_zeros.
  assert (L0 : length (zeros wsize) = wsize) by (unfold zeros; apply repeat_length).
  destruct (passes_out (pass1 ndofs nbr input) slots1 (pass1_out input) gs _ _ Z0 E1) as [A1 B1].
  destruct (clears_out (clear1 ndofs nbr) slots1 clear1_out gs _ _ A1 E2) as [A2 B2].
  destruct (passes_out (pass2 ndofs nbr input) slots2 (pass2_out input) gs _ _ A2 E3) as [A3 B3].
  destruct (clears_out (clear2 ndofs nbr) slots2 clear2_out gs _ _ A3 E5) as [A4 B4].
  apply zout_false in A4. rewrite A4. f_equal. congruence.
Qed.

Lemma mult_clean : forall e t nd i o e', mult e t nd i = Ok (o, e') -> e_work e' = zeros wsize.
Proof.
  intros e t nd i o e' Hm. unfold Evol_Model.mult in Hm. ubind Hm. destruct v as [gs quiet].
  ubind Hm. rename v into w1. ubind Hm. rename v into o1. cbv zeta in Hm. ubind Hm. destruct v as [w2 o2].
  rewrite (pack_len _ _ _ _ E0) in E2.
  destruct (tfsf_clean _ _ _ _ _ (or_intror eq_refl) E2) as [_ Hw]. specialize (Hw eq_refl).
  ubind Hm. destruct v as [w3 o3]. injection Hm as <- <-. cbn.
  destruct Sop as [M|]; [|injection E3 as <- <-; auto].
  destruct gs as [|g gs]; [injection E3 as <- <-; auto|].
  destruct quiet; [injection E3 as <- <-; auto|]. eapply flux_clean; eauto.
Qed.

Lemma implicit_clean : forall e t dt nd x k0 k e', clean (e_work e) -> implicitSolve e t dt nd x k0 = Ok (k, e') -> clean (e_work e').
Proof.
  intros e t dt nd x k0 k e' Hc Hs. unfold Evol_Model.implicitSolve in Hs. ubind Hs. ubind Hs. destruct v0 as [w r].
  assert (Hw : clean w).
  { destruct Top as [T|] eqn:ET; [|injection E0 as <- <-; auto]. destruct hasTF eqn:EH; [|injection E0 as <- <-; auto].
    ubind E0. destruct v0 as [w1 s1]. ubind E0. injection E0 as <- <-.
    pose proof (tfsf_clean t (e_work e) (zeros (length x)) w1 s1 Hc) as Hcl. rewrite ET, EH in Hcl.
    destruct (Hcl E1); auto. }
  destruct (_ && _).
  - ubind Hs. destruct v0 as [k1 c1]. injection Hs as <- <-. exact Hw.
  - injection Hs as <- <-. exact Hw.
Qed.

Lemma commit_work : forall e b dt f e', commit e b dt f = Ok e' -> e_work e' = e_work e.
Proof. intros e b dt f e' Hc. unfold Evol_Model.commit in Hc. ubind Hc. injection Hc as <-. reflexivity. Qed.

Lemma finalize_work : forall e f e', finalize e f = Ok e' -> e_work e' = e_work e.
Proof.
  intros e f e' Hf. unfold Evol_Model.finalize in Hf. ubind Hf. cbv zeta in Hf. ubind Hf. destruct v0.
  - destruct (e_cp e); [|injection Hf as <-; reflexivity]. ubind Hf. injection Hf as <-. reflexivity.
  - injection Hf as <-. reflexivity.
Qed.
End S.

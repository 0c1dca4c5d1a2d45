(** The nodal operator computes the right-hand side of Nodal_Spec. *)
From Coq Require Import ZArith List Bool Reals Lia Lra.
From Verif Require Import Common Geo_Spec Nodal_Model Nodal_Spec.
Import ListNotations.
Local Open Scope Z_scope.

(** ** Generalities *)
Lemma mapM_in : forall {A B} (f : A -> res B) (g : A -> B) l,
  (forall a, In a l -> f a = Ok (g a)) -> mapM f l = Ok (map g l).
Proof.
  intros A B f g l; induction l as [|a t IH]; intros H; [reflexivity|].
  cbn [mapM map]. rewrite (H a) by (left; reflexivity). cbn [bind].
  rewrite IH by (intros; apply H; right; assumption). reflexivity.
Qed.

Lemma zget_nth : forall {A} (l : list A) i d, 0 <= i < Z.of_nat (length l) -> zget l i = Ok (nth (Z.to_nat i) l d).
Proof.
  intros A l i d H. apply zget_ok. split; [lia|]. apply nth_error_nth'. lia.
Qed.

Lemma nth_upd_eq : forall {A} (l : list A) n a d, (n < length l)%nat -> nth n (upd l n a) d = a.
Proof. intros. apply nth_error_nth. apply nth_error_upd_same; assumption. Qed.

Lemma nth_upd_neq : forall {A} (l : list A) n m a d, n <> m -> nth m (upd l n a) d = nth m l d.
Proof.
  induction l as [|x t IH]; intros [|n] [|m] a d H; cbn; auto; try congruence.
Qed.

Lemma map_zseq_nth : forall {A} (d : A) l, map (fun i => nth (Z.to_nat i) l d) (zseq (length l)) = l.
Proof.
  intros A d l. unfold zseq. rewrite map_map.
  transitivity (map (fun k => nth k l d) (seq 0 (length l))).
  { apply map_ext. intros; now rewrite Nat2Z.id. }
  induction l as [|a t IH]; [reflexivity|]. cbn [length seq map nth]. f_equal.
  rewrite <- seq_shift, map_map. exact IH.
Qed.

(** ** Six vectors as a function of component and position *)
Definition val (F : hfields) (c p : Z) : R := nth (Z.to_nat p) (nth (Z.to_nat c) F []) 0%R.
Definition shape (L : nat) (F : hfields) : Prop := length F = 6%nat /\ Forall (fun l => length l = L) F.
Definition rep (L : nat) (F : hfields) (g : Z -> Z -> R) : Prop :=
  shape L F /\ forall c p, 0 <= c < 6 -> 0 <= p < Z.of_nat L -> val F c p = g c p.

Lemma shape_row : forall L F c, shape L F -> 0 <= c < 6 -> exists l, zget F c = Ok l /\ length l = L /\ l = nth (Z.to_nat c) F [].
Proof.
  intros L F c [H1 H2] Hc. exists (nth (Z.to_nat c) F []). split; [apply zget_nth; lia|]. split; [|reflexivity].
  rewrite Forall_forall in H2. apply H2. apply nth_In. lia.
Qed.

Lemma fget_rep : forall L F g c p, rep L F g -> 0 <= c < 6 -> 0 <= p < Z.of_nat L -> fget F c p = Ok (g c p).
Proof.
  intros L F g c p [Hs Hv] Hc Hp. unfold fget. destruct (shape_row L F c Hs Hc) as (l & E & Hl & El).
  rewrite E. cbn [bind]. rewrite (zget_nth l p 0%R) by lia. f_equal. rewrite <- Hv by assumption. unfold val. now rewrite El.
Qed.

Definition upd2 (g : Z -> Z -> R) (c p : Z) (a : R) : Z -> Z -> R := fun c' p' => if (c' =? c) && (p' =? p) then a else g c' p'.

Lemma fset_rep : forall L F g c p a, rep L F g -> 0 <= c < 6 -> 0 <= p < Z.of_nat L ->
  exists F', fset F c p a = Ok F' /\ rep L F' (upd2 g c p a).
Proof.
  intros L F g c p a [Hs Hv] Hc Hp. unfold fset. destruct (shape_row L F c Hs Hc) as (l & E & Hl & El).
  rewrite E. cbn [bind]. rewrite zset_in_range by lia. cbn [bind].
  destruct Hs as [Hs1 Hs2]. rewrite zset_in_range by lia. eexists; split; [reflexivity|].
  split; [split|].
  - now rewrite upd_length.
  - apply Forall_forall. intros m Hm. apply In_nth with (d := []) in Hm. destruct Hm as (k & Hk & <-).
    rewrite upd_length in Hk. destruct (Nat.eq_dec (Z.to_nat c) k) as [->|Hn].
    + rewrite nth_upd_eq by assumption. rewrite upd_length. exact Hl.
    + rewrite nth_upd_neq by assumption. rewrite Forall_forall in Hs2. apply Hs2, nth_In, Hk.
  - intros c' p' Hc' Hp'. unfold val, upd2. destruct (Z.eqb_spec c' c) as [->|Hn]; cbn [andb].
    + rewrite nth_upd_eq by lia. destruct (Z.eqb_spec p' p) as [->|Hq].
      * apply nth_upd_eq. lia.
      * rewrite nth_upd_neq by lia. rewrite El. apply Hv; assumption.
    + rewrite nth_upd_neq by lia. apply Hv; assumption.
Qed.

Lemma rep_ext : forall L F g h, rep L F g ->
  (forall c p, 0 <= c < 6 -> 0 <= p < Z.of_nat L -> g c p = h c p) -> rep L F h.
Proof. intros L F g h [Hs Hv] H. split; [exact Hs|]. intros. rewrite Hv by assumption. auto. Qed.

(** Writing the prescribed values [W] on a set of cells. *)
Definition setc (W : Z -> Z -> R) (P : Z -> Z -> bool) (g : Z -> Z -> R) : Z -> Z -> R :=
  fun c p => if P c p then W c p else g c p.

Lemma foldM_setc : forall {A} L W (f : hfields -> A -> res hfields) (Q : A -> Z -> Z -> bool) l,
  (forall a, In a l -> forall F g, rep L F g -> exists F', f F a = Ok F' /\ rep L F' (setc W (Q a) g)) ->
  forall F g, rep L F g ->
  exists F', foldM f l F = Ok F' /\ rep L F' (setc W (fun c p => existsb (fun a => Q a c p) l) g).
Proof.
  intros A L W f Q l; induction l as [|a t IH]; intros Hf F g Hr.
  - exists F; split; [reflexivity|]. eapply rep_ext; [exact Hr|]. reflexivity.
  - destruct (Hf a (or_introl eq_refl) F g Hr) as (F1 & E1 & H1).
    destruct (IH (fun b Hb => Hf b (or_intror Hb)) F1 _ H1) as (F2 & E2 & H2).
    exists F2; split; [cbn [foldM]; rewrite E1; exact E2|].
    eapply rep_ext; [exact H2|]. intros c p _ _. unfold setc. cbn [existsb].
    destruct (existsb (fun a0 => Q a0 c p) t); [now rewrite orb_true_r|].
    rewrite orb_false_r. reflexivity.
Qed.

(** Adding prescribed amounts. *)
Definition addc (A : Z -> Z -> R) (g : Z -> Z -> R) : Z -> Z -> R := fun c p => (g c p + A c p)%R.

Lemma foldM_addc : forall {A} L (f : hfields -> A -> res hfields) (Q : A -> Z -> Z -> R) l,
  (forall a, In a l -> forall F g, rep L F g -> exists F', f F a = Ok F' /\ rep L F' (addc (Q a) g)) ->
  forall F g, rep L F g ->
  exists F', foldM f l F = Ok F' /\ rep L F' (addc (fun c p => suml (fun a => Q a c p) l) g).
Proof.
  intros A L f Q l; induction l as [|a t IH]; intros Hf F g Hr.
  - exists F; split; [reflexivity|]. eapply rep_ext; [exact Hr|]. intros; unfold addc, suml; cbn [map fold_right]. ring.
  - destruct (Hf a (or_introl eq_refl) F g Hr) as (F1 & E1 & H1).
    destruct (IH (fun b Hb => Hf b (or_intror Hb)) F1 _ H1) as (F2 & E2 & H2).
    exists F2; split; [cbn [foldM]; rewrite E1; exact E2|].
    eapply rep_ext; [exact H2|]. intros c p _ _. unfold addc, suml. cbn [map fold_right]. ring.
Qed.

Lemma fadd_rep : forall L F g c p a, rep L F g -> 0 <= c < 6 -> 0 <= p < Z.of_nat L ->
  exists F', fadd F c p a = Ok F' /\ rep L F' (addc (fun c' p' => if (c' =? c) && (p' =? p) then a else 0%R) g).
Proof.
  intros L F g c p a Hr Hc Hp. unfold fadd. rewrite (fget_rep L F g c p) by assumption. cbn [bind].
  destruct (fset_rep L F g c p (g c p + a)%R Hr Hc Hp) as (F' & E & H').
  exists F'; split; [exact E|]. eapply rep_ext; [exact H'|]. intros c' p' _ _. unfold upd2, addc.
  destruct (Z.eqb_spec c' c) as [->|]; cbn [andb]; [|ring].
  destruct (Z.eqb_spec p' p) as [->|]; ring.
Qed.

Lemma view_ok : forall n x c i, length x = Z.to_nat (6 * n) -> 0 <= c < 6 -> 0 <= i < n ->
  view n x c i = Ok (comp6 n x c i).
Proof.
  intros n x c i Hx Hc Hi. unfold view, comp6.
  destruct (Z.leb_spec 0 i); [|lia]. destruct (Z.ltb_spec i n); [|lia]. cbn [andb].
  apply zget_nth. rewrite Hx. nia.
Qed.

(** ** Jumps *)
Section Jumps.
Variable s : nodal.
Variable x : list R.
Let n := nd_N s.
Let g := nd_global s.
Let L := length g.
Let u := comp6 n x.
Hypothesis Hx : length x = Z.to_nat (6 * n).
Hypothesis Hg : Forall (fun ab => inR (fst ab) n /\ inR (snd ab) n) g.

Definition own (p : Z) : Z := fst (nth (Z.to_nat p) g (0, 0)).
Definition oth (p : Z) : Z := snd (nth (Z.to_nat p) g (0, 0)).

Lemma own_range : forall p, 0 <= p < Z.of_nat L -> 0 <= own p < n /\ 0 <= oth p < n.
Proof.
  intros p Hp. rewrite Forall_forall in Hg. unfold inR in Hg. apply (Hg (nth (Z.to_nat p) g (0, 0))). apply nth_In. unfold L in Hp. lia.
Qed.

Lemma initJumps_rep : exists F, initJumps s x = Ok F /\ rep L F (fun c p => u c (oth p) - u c (own p))%R.
Proof.
  unfold initJumps. fold n g.
  assert (Hm : forall c, 0 <= c < 6 ->
    mapM (jumpAt n x c) g = Ok (map (fun ab => u c (snd ab) - u c (fst ab))%R g)).
  { intros c Hc. apply mapM_in. intros ab Hab. rewrite Forall_forall in Hg. unfold inR in Hg. destruct (Hg ab Hab).
    unfold jumpAt. rewrite !view_ok by assumption. reflexivity. }
  exists (map (fun c => map (fun ab => u c (snd ab) - u c (fst ab))%R g) comps6). split.
  - apply mapM_in. intros c Hc. apply Hm. unfold comps6 in Hc. cbn [In] in Hc. lia.
  - split; [split; [reflexivity|]|].
    + apply Forall_forall. intros l Hl. apply in_map_iff in Hl. destruct Hl as (c & <- & _). apply map_length.
    + intros c p Hc Hp. unfold val, own, oth.
      assert (E : nth (Z.to_nat c) (map (fun c => map (fun ab => u c (snd ab) - u c (fst ab))%R g) comps6) [] =
                  map (fun ab => u c (snd ab) - u c (fst ab))%R g).
      { assert (Hk : c = 0 \/ c = 1 \/ c = 2 \/ c = 3 \/ c = 4 \/ c = 5) by lia.
        decompose [or] Hk; subst c; reflexivity. }
      rewrite E. rewrite nth_indep with (d' := (fun ab => u c (snd ab) - u c (fst ab))%R (0, 0)) by (rewrite map_length; unfold L in Hp; lia).
      now rewrite (map_nth (fun ab => u c (snd ab) - u c (fst ab))%R).
Qed.

Definition co (ec hc : R) (c : Z) : R := if c <? 3 then ec else hc.

Lemma Forall2_nth : forall {A B} (P : A -> B -> Prop) a b da db, Forall2 P a b ->
  length a = length b /\ forall k, (k < length a)%nat -> P (nth k a da) (nth k b db).
Proof.
  intros A B P a b da db H. induction H as [|a0 b0 ta tb H0 HT [IH1 IH2]]; [split; [reflexivity|cbn; lia]|].
  split; [cbn [length]; lia|]. intros [|k] Hk; cbn [nth]; [exact H0|]. apply IH2. cbn [length] in Hk. lia.
Qed.

(** Two writes: E and H at position [p]. *)
Lemma set_pair : forall ec hc d p F gg, rep L F gg -> 0 <= d < 3 -> 0 <= p < Z.of_nat L ->
  let W := fun c q => (co ec hc c * u c (own q))%R in
  exists F', (e <- view n x d (own p) ;; F1 <- fset F d p (ec * e)%R ;;
              h <- view n x (3 + d) (own p) ;; fset F1 (3 + d) p (hc * h)%R) = Ok F' /\
    rep L F' (setc W (fun c q => (q =? p) && ((c =? d) || (c =? 3 + d))) gg).
Proof.
  intros ec hc d p F gg Hr Hd Hp W. destruct (own_range p Hp) as [Ho _].
  rewrite !view_ok by (assumption || lia). cbn [bind].
  destruct (fset_rep L F gg d p (ec * comp6 n x d (own p))%R Hr) as (F1 & E1 & H1); [lia|assumption|].
  rewrite E1. cbn [bind].
  destruct (fset_rep L F1 _ (3 + d) p (hc * comp6 n x (3 + d) (own p))%R H1) as (F2 & E2 & H2); [lia|assumption|].
  exists F2; split; [exact E2|]. eapply rep_ext; [exact H2|].
  intros c q Hc Hq. unfold upd2, setc, W, co.
  destruct (Z.eqb_spec q p) as [->|Hn]; cbn [andb]; [|rewrite !andb_false_r; reflexivity].
  rewrite !andb_true_r.
  destruct (Z.eqb_spec c (3 + d)) as [->|Hn].
  - destruct (Z.eqb_spec (3 + d) d); [lia|]. cbn [orb]. destruct (Z.ltb_spec (3 + d) 3); [lia|]. reflexivity.
  - destruct (Z.eqb_spec c d) as [->|Hm]; cbn [orb]; [|reflexivity]. destruct (Z.ltb_spec d 3); [reflexivity|lia].
Qed.

Lemma zseq_exists : forall (P : Z -> bool) m, existsb P (zseq m) = true <-> exists k, (k < m)%nat /\ P (Z.of_nat k) = true.
Proof.
  intros P m. rewrite existsb_exists. split.
  - intros (z & Hz & Hp). apply in_zseq in Hz. exists (Z.to_nat z). split; [lia|]. now rewrite Z2Nat.id by lia.
  - intros (k & Hk & Hp). exists (Z.of_nat k). split; [apply in_zseq; lia|exact Hp].
Qed.

Lemma mem_spec : forall p ls, mem p ls = true <-> exists m k, (m < length ls)%nat /\ (k < length (nth m ls []))%nat /\ nth k (nth m ls []) 0 = p.
Proof.
  intros p ls. unfold mem. rewrite existsb_exists. split.
  - intros (l & Hl & H). apply existsb_exists in H. destruct H as (q & Hq & E). apply Z.eqb_eq in E. subst q.
    apply In_nth with (d := []) in Hl. destruct Hl as (m & Hm & Em). apply In_nth with (d := 0) in Hq. destruct Hq as (k & Hk & Ek).
    exists m, k. rewrite Em. auto.
  - intros (m & k & Hm & Hk & E). exists (nth m ls []). split; [apply nth_In, Hm|]. apply existsb_exists.
    exists p. split; [rewrite <- E; apply nth_In, Hk|apply Z.eqb_refl].
Qed.

Lemma bool_eq_iff : forall a b : bool, (a = true <-> b = true) -> a = b.
Proof. intros [] [] H; auto; destruct H; intuition congruence. Qed.

Lemma xyz_in : forall d, In d xyz <-> 0 <= d < 3.
Proof. intros d. unfold xyz. cbn [In]. lia. Qed.

Lemma applyBdrBC_rep : forall bc ec hc, wfB g bc -> forall F gg, rep L F gg ->
  exists F', applyBdrBC s x bc ec hc F = Ok F' /\
    rep L F' (setc (fun c q => co ec hc c * u c (own q))%R (fun _ q => mem q (mapB bc) && negb (inCurved s (own q))) gg).
Proof.
  intros bc ec hc Hw F gg Hr. unfold applyBdrBC. fold n.
  destruct (Forall2_nth _ _ _ [] [] Hw) as [Hlen Hrow].
  set (W := fun c q => (co ec hc c * u c (own q))%R).
  set (pos := fun m k => nth (Z.to_nat k) (nth (Z.to_nat m) (mapB bc) []) 0).
  edestruct (@foldM_setc Z L W) with (l := zseq (length (vmapB bc)))
    (Q := fun m c q => existsb (fun d => existsb (fun k => negb (inCurved s (own (pos m k))) && ((q =? pos m k) && ((c =? d) || (c =? 3 + d))))
             (zseq (length (nth (Z.to_nat m) (vmapB bc) [])))) xyz) as (F' & E & HF); [|exact Hr|].
  2:{ exists F'. split; [exact E|]. eapply rep_ext; [exact HF|]. intros c q Hc Hq. unfold setc.
      match goal with |- (if ?a then _ else _) = (if ?b then _ else _) => replace b with a; [reflexivity|] end.
      apply bool_eq_iff. rewrite zseq_exists, andb_true_iff, mem_spec. split.
      - intros (m & Hm & H). apply existsb_exists in H. destruct H as (d & Hd & H). apply zseq_exists in H.
        destruct H as (k & Hk & H). unfold pos in H. rewrite !Nat2Z.id in H. rewrite Nat2Z.id in Hk.
        destruct (Forall2_nth _ _ _ 0 0 (Hrow m ltac:(lia))) as [Hl2 _].
        apply andb_true_iff in H. destruct H as [H1 H2]. apply andb_true_iff in H2. destruct H2 as [H2 _]. apply Z.eqb_eq in H2.
        split; [exists m, k; repeat split; lia|]. rewrite H2. exact H1.
      - intros [(m & k & Hm & Hk & E0) H]. exists m. split; [lia|]. apply existsb_exists.
        exists (c mod 3). split; [apply xyz_in; apply Z.mod_pos_bound; lia|]. apply zseq_exists.
        destruct (Forall2_nth _ _ _ 0 0 (Hrow m Hm)) as [Hl2 _].
        exists k. rewrite Nat2Z.id. split; [lia|]. unfold pos. rewrite !Nat2Z.id, E0, H, Z.eqb_refl. cbn [andb].
        apply orb_true_iff. rewrite !Z.eqb_eq.
        destruct (Z.lt_ge_cases c 3); [left; symmetry; apply Z.mod_small; lia|right].
        replace (c mod 3) with (c - 3); [lia|]. replace c with (c - 3 + 1 * 3) at 2 by lia. rewrite Z.mod_add by lia. symmetry. apply Z.mod_small. lia. }
  intros m Hm F0 g0 Hr0. apply in_zseq in Hm.
  assert (Hmn : (Z.to_nat m < length (mapB bc))%nat) by lia.
  destruct (Forall2_nth _ _ _ 0 0 (Hrow _ Hmn)) as [Hl2 Hent].
  apply foldM_setc; [|exact Hr0]. intros d Hd F1 g1 Hr1. apply xyz_in in Hd.
  rewrite (zget_nth (vmapB bc) m []) by lia. cbn [bind].
  apply foldM_setc; [|exact Hr1]. intros k Hk F2 g2 Hr2. apply in_zseq in Hk.
  rewrite (zget_nth _ k 0) by lia. cbn [bind].
  destruct (Hent (Z.to_nat k) ltac:(lia)) as [Hp Hv]. unfold inR in Hp. rewrite <- Hv.
  change (fst (nth (Z.to_nat (nth (Z.to_nat k) (nth (Z.to_nat m) (mapB bc) []) 0)) g (0, 0))) with (own (pos m k)).
  destruct (inCurved s (own (pos m k))); cbn [negb andb].
  - exists F2. split; [reflexivity|]. eapply rep_ext; [exact Hr2|]. reflexivity.
  - rewrite (zget_nth (mapB bc) m []) by lia. cbn [bind]. rewrite (zget_nth _ k 0) by lia. cbn [bind].
    change (nth (Z.to_nat k) (nth (Z.to_nat m) (mapB bc) []) 0) with (pos m k).
    apply (set_pair ec hc d (pos m k) F2 g2 Hr2 Hd Hp).
Qed.

Lemma wfI_nth : forall M1 M2 V1 V2, wfI g M1 M2 V1 V2 ->
  length M1 = length M2 /\ length M1 = length V1 /\ length M1 = length V2 /\
  forall m, (m < length M1)%nat ->
    length (nth m M1 []) = length (nth m M2 []) /\ length (nth m M1 []) = length (nth m V1 []) /\ length (nth m M1 []) = length (nth m V2 []) /\
    forall k, (k < length (nth m M1 []))%nat ->
      inR (nth k (nth m M1 []) 0) (Z.of_nat L) /\ inR (nth k (nth m M2 []) 0) (Z.of_nat L) /\
      nth (Z.to_nat (nth k (nth m M1 []) 0)) g (0, 0) = (nth k (nth m V1 []) 0, nth k (nth m V2 []) 0) /\
      nth (Z.to_nat (nth k (nth m M2 []) 0)) g (0, 0) = (nth k (nth m V2 []) 0, nth k (nth m V1 []) 0).
Proof.
  intros M1 M2 V1 V2 H. induction H as [|m1 m2 v1 v2 M1 M2 V1 V2 E1 E2 E3 He HW (IH1 & IH2 & IH3 & IH)].
  - repeat split; cbn [length] in *; lia.
  - repeat split; try (cbn [length]; lia); destruct m as [|m]; cbn [nth length] in *;
      try assumption; try (apply He; assumption); try (apply IH; lia).
    all: destruct (IH m ltac:(lia)) as (_ & _ & _ & IH'); apply IH'; assumption.
Qed.

Lemma comp_cases : forall c, 0 <= c < 6 -> (c =? c mod 3) || (c =? 3 + c mod 3) = true.
Proof.
  intros c Hc. assert (Hk : c = 0 \/ c = 1 \/ c = 2 \/ c = 3 \/ c = 4 \/ c = 5) by lia.
  decompose [or] Hk; subst c; reflexivity.
Qed.

(** On positions whose own dof is not in a curved element. *)
Lemma applyIntBdrBC_rep : forall bc ec hc, wfIB g bc -> forall F gg, rep L F gg ->
  exists F' gg', applyIntBdrBC s x bc ec hc F = Ok F' /\ rep L F' gg' /\
    forall c q, 0 <= c < 6 -> 0 <= q < Z.of_nat L -> inCurved s (own q) = false ->
      gg' c q = if imem q bc then (co ec hc c * u c (own q))%R else gg c q.
Proof.
  intros bc ec hc Hw F gg Hr. unfold applyIntBdrBC. fold n.
  destruct (wfI_nth _ _ _ _ Hw) as (L1 & L2 & L3 & Hrow).
  set (W := fun c q => (co ec hc c * u c (own q))%R).
  set (p1 := fun m k => nth (Z.to_nat k) (nth (Z.to_nat m) (mapB1 bc) []) 0).
  set (p2 := fun m k => nth (Z.to_nat k) (nth (Z.to_nat m) (mapB2 bc) []) 0).
  edestruct (@foldM_setc Z L W) with (l := zseq (length (mapB1 bc)))
    (Q := fun m c q => existsb (fun d => existsb (fun k =>
        (negb (inCurved s (own (p1 m k))) || negb (inCurved s (own (p2 m k)))) &&
        (((q =? p1 m k) || (q =? p2 m k)) && ((c =? d) || (c =? 3 + d))))
             (zseq (length (nth (Z.to_nat m) (mapB1 bc) [])))) xyz) as (F' & E & HF); [|exact Hr|].
  2:{ exists F'. eexists. split; [exact E|]. split; [exact HF|]. intros c q Hc Hq Hn. unfold setc.
      match goal with |- (if ?a then _ else _) = (if ?b then _ else _) => replace b with a; [reflexivity|] end.
      apply bool_eq_iff. unfold imem. rewrite zseq_exists, orb_true_iff, !mem_spec. split.
      - intros (m & Hm & H). apply existsb_exists in H. destruct H as (d & Hd & H). apply zseq_exists in H.
        destruct H as (k & Hk & H). unfold p1, p2 in H. rewrite !Nat2Z.id in H. rewrite Nat2Z.id in Hk.
        destruct (Hrow m Hm) as (R1 & _). apply andb_true_iff in H. destruct H as [_ H]. apply andb_true_iff in H. destruct H as [H _].
        apply orb_true_iff in H. rewrite !Z.eqb_eq in H.
        destruct H as [H|H]; [left|right]; exists m, k; repeat split; lia.
      - intros H.
        assert (HH : exists m k, (m < length (mapB1 bc))%nat /\ (k < length (nth m (mapB1 bc) []))%nat /\
                  (nth k (nth m (mapB1 bc) []) 0 = q \/ nth k (nth m (mapB2 bc) []) 0 = q)).
        { destruct H as [(m & k & Hm & Hk & E0)|(m & k & Hm & Hk & E0)]; exists m, k.
          - repeat split; auto.
          - assert (Hm' : (m < length (mapB1 bc))%nat) by lia. destruct (Hrow m Hm') as (R1 & _). repeat split; auto; lia. }
        destruct HH as (m & k & Hm & Hk & E0). exists m. split; [exact Hm|]. apply existsb_exists.
        exists (c mod 3). split; [apply xyz_in; apply Z.mod_pos_bound; lia|]. apply zseq_exists.
        exists k. rewrite Nat2Z.id. split; [exact Hk|]. unfold p1, p2. rewrite !Nat2Z.id, (comp_cases c Hc), andb_true_r.
        destruct E0 as [E0|E0]; rewrite E0, Hn, Z.eqb_refl; cbn [negb orb]; [reflexivity|]. rewrite !orb_true_r. reflexivity. }
  intros m Hm F0 g0 Hr0. apply in_zseq in Hm.
  assert (Hmn : (Z.to_nat m < length (mapB1 bc))%nat) by lia.
  destruct (Hrow _ Hmn) as (R1 & R2 & R3 & Hent).
  apply foldM_setc; [|exact Hr0]. intros d Hd F1 g1 Hr1. apply xyz_in in Hd.
  rewrite (zget_nth (mapB1 bc) m []) by lia. cbn [bind].
  apply foldM_setc; [|exact Hr1]. intros k Hk F2 g2 Hr2. apply in_zseq in Hk.
  rewrite (zget_nth (vmapB1 bc) m []) by lia. cbn [bind]. rewrite (zget_nth _ k 0) by lia. cbn [bind].
  rewrite (zget_nth (vmapB2 bc) m []) by lia. cbn [bind]. rewrite (zget_nth _ k 0) by lia. cbn [bind].
  destruct (Hent (Z.to_nat k) ltac:(lia)) as (Hp1 & Hp2 & Hv1 & Hv2). unfold inR in Hp1, Hp2.
  change (nth (Z.to_nat k) (nth (Z.to_nat m) (mapB1 bc) []) 0) with (p1 m k) in *.
  change (nth (Z.to_nat k) (nth (Z.to_nat m) (mapB2 bc) []) 0) with (p2 m k) in *.
  assert (O1 : nth (Z.to_nat k) (nth (Z.to_nat m) (vmapB1 bc) []) 0 = own (p1 m k)) by (unfold own; rewrite Hv1; reflexivity).
  assert (O2 : nth (Z.to_nat k) (nth (Z.to_nat m) (vmapB2 bc) []) 0 = own (p2 m k)) by (unfold own; rewrite Hv2; reflexivity).
  rewrite O1, O2.
  destruct (negb (inCurved s (own (p1 m k))) || negb (inCurved s (own (p2 m k)))); cbn [andb].
  - rewrite (zget_nth (nth (Z.to_nat m) (mapB1 bc) []) k 0) by lia. cbn [bind].
    rewrite (zget_nth (mapB2 bc) m []) by lia. cbn [bind]. rewrite (zget_nth _ k 0) by lia. cbn [bind].
    change (nth (Z.to_nat k) (nth (Z.to_nat m) (mapB1 bc) []) 0) with (p1 m k) in *.
    change (nth (Z.to_nat k) (nth (Z.to_nat m) (mapB2 bc) []) 0) with (p2 m k) in *.
    destruct (set_pair ec hc d (p1 m k) F2 g2 Hr2 Hd Hp1) as (F3 & E3 & H3).
    destruct (set_pair ec hc d (p2 m k) F3 _ H3 Hd Hp2) as (F4 & E4 & H4).
    destruct (own_range _ Hp1) as [Ho1 _]. destruct (own_range _ Hp2) as [Ho2 _].
    rewrite !view_ok in * by (assumption || lia). cbn [bind] in *.
    destruct (fset F2 d (p1 m k) (ec * comp6 n x d (own (p1 m k)))%R) as [Fa| |]; cbn [bind] in E3; try discriminate E3.
    cbn [bind]. rewrite E3. cbn [bind].
    destruct (fset F3 d (p2 m k) (ec * comp6 n x d (own (p2 m k)))%R) as [Fb| |]; cbn [bind] in E4; try discriminate E4.
    cbn [bind]. rewrite E4. exists F4. split; [reflexivity|].
    eapply rep_ext; [exact H4|]. intros c q _ _. unfold setc, W.
    destruct (q =? p2 m k); destruct (q =? p1 m k); cbn [andb orb]; destruct ((c =? d) || (c =? 3 + d)); reflexivity.
  - exists F2. split; [reflexivity|]. eapply rep_ext; [exact Hr2|]. reflexivity.
Qed.

(** Factor of the own value in the jump, by condition. *)
Definition factor (k : kind) (c : Z) : R :=
  match k with
  | KInterior => 0
  | KPEC => co (-2) 0 c
  | KPMC => co 0 (-2) c
  | KSMA => - / nd_alpha s
  | KiPEC => co (-1) 0 c
  | KiPMC => co 0 (-1) c
  | KiSMA => - / 2
  end%R.

Hypothesis HB : wfB g (bPEC (nd_bdr s)) /\ wfB g (bPMC (nd_bdr s)) /\ wfB g (bSMA (nd_bdr s)).
Hypothesis HI : wfIB g (iPEC (nd_bdr s)) /\ wfIB g (iPMC (nd_bdr s)) /\ wfIB g (iSMA (nd_bdr s)).
Hypothesis Ha : nd_alpha s <> 0%R \/ vmapB (bSMA (nd_bdr s)) = [].

Lemma applyBoundary_rep : forall F gg, rep L F gg ->
  exists F' gg', applyBoundary s x F = Ok F' /\ rep L F' gg' /\
    forall c q, 0 <= c < 6 -> 0 <= q < Z.of_nat L -> inCurved s (own q) = false ->
      gg' c q = match kindAt (nd_bdr s) q with KInterior => gg c q | k => (factor k c * u c (own q))%R end.
Proof.
  intros F gg Hr. destruct HB as (B1 & B2 & B3). destruct HI as (I1 & I2 & I3). unfold applyBoundary.
  destruct (applyBdrBC_rep _ (-2)%R 0%R B1 F gg Hr) as (F1 & E1 & H1). rewrite E1. cbn [bind].
  destruct (applyBdrBC_rep _ 0%R (-2)%R B2 F1 _ H1) as (F2 & E2 & H2). rewrite E2. cbn [bind].
  assert (HS : exists F3, (if Req_EM_T (nd_alpha s) 0 then (if length (vmapB (bSMA (nd_bdr s))) =? 0 then Ok F2 else UB)%nat
         else applyBdrBC s x (bSMA (nd_bdr s)) (-1 / nd_alpha s) (-1 / nd_alpha s) F2) = Ok F3 /\
      rep L F3 (setc (fun c q => co (-1 / nd_alpha s) (-1 / nd_alpha s) c * u c (own q))%R
        (fun _ q => mem q (mapB (bSMA (nd_bdr s))) && negb (inCurved s (own q)))
        (setc (fun c q => co 0 (-2) c * u c (own q))%R (fun _ q => mem q (mapB (bPMC (nd_bdr s))) && negb (inCurved s (own q)))
        (setc (fun c q => co (-2) 0 c * u c (own q))%R (fun _ q => mem q (mapB (bPEC (nd_bdr s))) && negb (inCurved s (own q))) gg)))).
  { destruct (Req_EM_T (nd_alpha s) 0) as [E0|E0].
    - destruct Ha as [Hc|Hc]; [contradiction|]. rewrite Hc. cbn [length Nat.eqb]. exists F2. split; [reflexivity|].
      assert (Hm : mapB (bSMA (nd_bdr s)) = []).
      { unfold wfB in B3. rewrite Hc in B3. inversion B3; reflexivity. }
      rewrite Hm. eapply rep_ext; [exact H2|]. reflexivity.
    - apply applyBdrBC_rep; assumption. }
  destruct HS as (F3 & E3 & H3). rewrite E3. cbn [bind].
  destruct (applyIntBdrBC_rep _ (-1)%R 0%R I1 F3 _ H3) as (F4 & g4 & E4 & H4 & V4). rewrite E4. cbn [bind].
  destruct (applyIntBdrBC_rep _ 0%R (-1)%R I2 F4 _ H4) as (F5 & g5 & E5 & H5 & V5). rewrite E5. cbn [bind].
  destruct (applyIntBdrBC_rep _ (-0.5)%R (-0.5)%R I3 F5 _ H5) as (F6 & g6 & E6 & H6 & V6).
  exists F6, g6. split; [exact E6|]. split; [exact H6|]. intros c q Hc Hq Hn.
  rewrite V6, V5, V4 by assumption. unfold kindAt.
  destruct (imem q (iSMA (nd_bdr s))).
  { unfold factor, co. destruct (c <? 3); lra. }
  destruct (imem q (iPMC (nd_bdr s))); [reflexivity|].
  destruct (imem q (iPEC (nd_bdr s))); [reflexivity|].
  unfold setc. rewrite Hn. cbn [negb]. rewrite !andb_true_r.
  destruct (mem q (mapB (bSMA (nd_bdr s)))).
  { unfold factor, co. destruct (c <? 3); unfold Rdiv; ring. }
  destruct (mem q (mapB (bPMC (nd_bdr s)))); [reflexivity|].
  destruct (mem q (mapB (bPEC (nd_bdr s)))); reflexivity.
Qed.

Hypothesis HT : wfIB g (bTFSF (nd_bdr s)).

Definition tfAmount (f d q : Z) (ev : Z -> Z -> Z -> R) : R :=
  suml (fun t => (is (snd (fst t)) q - is (fst (fst t)) q) * ev (snd t) f d)%R (tfEntries (bTFSF (nd_bdr s))).

Lemma suml_ext : forall {A} (f h : A -> R) l, (forall a, In a l -> f a = h a) -> suml f l = suml h l.
Proof.
  intros A f h l H. unfold suml. f_equal. apply map_ext_in. exact H.
Qed.

Lemma suml_app : forall {A} (f : A -> R) l m, suml f (l ++ m) = (suml f l + suml f m)%R.
Proof.
  intros A f l m. unfold suml. rewrite map_app. induction (map f l) as [|a t IH]; cbn [app fold_right]; [lra|]. rewrite IH. ring.
Qed.

Lemma suml_flat_map : forall {A B} (f : B -> R) (h : A -> list B) l, suml f (flat_map h l) = suml (fun a => suml f (h a)) l.
Proof.
  intros A B f h l. induction l as [|a t IH]; [reflexivity|]. cbn [flat_map]. rewrite suml_app, IH. reflexivity.
Qed.

Lemma suml_map : forall {A B} (f : B -> R) (h : A -> B) l, suml f (map h l) = suml (fun a => f (h a)) l.
Proof. intros. unfold suml. now rewrite map_map. Qed.

Lemma combine_zseq : forall {A B} (da : A) (db : B) (la : list A) (lb : list B), length la = length lb ->
  combine la lb = map (fun k => (nth (Z.to_nat k) la da, nth (Z.to_nat k) lb db)) (zseq (length la)).
Proof.
  intros A B da db la lb H. unfold zseq. rewrite map_map.
  transitivity (map (fun k => (nth k la da, nth k lb db)) (seq 0 (length la))).
  2:{ apply map_ext. intros; now rewrite Nat2Z.id. }
  revert lb H. induction la as [|a t IH]; intros [|b lb] H; try discriminate H; [reflexivity|].
  cbn [combine length seq map nth]. f_equal. rewrite <- seq_shift, map_map. apply IH. cbn [length] in H. lia.
Qed.

Lemma evaluateTFSF_rep : forall F gg, rep L F gg ->
  exists F', evaluateTFSF s F = Ok F' /\
    rep L F' (fun c q => (gg c q + incident s (c / 3) (c mod 3) q)%R).
Proof.
  intros F gg Hr. unfold evaluateTFSF. set (b := bTFSF (nd_bdr s)).
  destruct (wfI_nth _ _ _ _ HT) as (L1 & L2 & L3 & Hrow). fold b in L1, L2, L3, Hrow.
  edestruct (@foldM_addc (option (Z -> Z -> Z -> R)) L) with (l := nd_src s)
    (Q := fun src c q => match src with None => 0%R | Some ev => tfAmount (c / 3) (c mod 3) q ev end) as (F' & E & HF); [|exact Hr|].
  2:{ exists F'. split; [exact E|]. eapply rep_ext; [exact HF|]. intros c q _ _. unfold addc, incident. reflexivity. }
  intros [ev|] _ F0 g0 Hr0.
  2:{ exists F0. split; [reflexivity|]. eapply rep_ext; [exact Hr0|]. intros; unfold addc; ring. }
  set (p1 := fun m k => nth (Z.to_nat k) (nth (Z.to_nat m) (mapB1 b) []) 0).
  set (p2 := fun m k => nth (Z.to_nat k) (nth (Z.to_nat m) (mapB2 b) []) 0).
  set (v1 := fun m k => nth (Z.to_nat k) (nth (Z.to_nat m) (vmapB1 b) []) 0).
  edestruct (@foldM_addc Z L) with (l := zseq (length (mapB1 b)))
    (Q := fun m c q => suml (fun k => (is (p2 m k) q - is (p1 m k) q) * ev (v1 m k) (c / 3)%Z (c mod 3)%Z)%R
             (zseq (length (nth (Z.to_nat m) (mapB1 b) [])))) as (F' & E & HF); [|exact Hr0|].
  2:{ exists F'. split; [exact E|]. eapply rep_ext; [exact HF|]. intros c q _ _. unfold addc. f_equal.
      unfold tfAmount, tfEntries. fold b. rewrite suml_flat_map.
      rewrite (combine_zseq [] [] (mapB1 b) (mapB2 b)) by exact L1.
      rewrite (combine_zseq ([], []) [] _ (vmapB1 b)) by (rewrite map_length, zseq_length; exact L2).
      rewrite map_length, zseq_length, suml_map. apply suml_ext. intros m Hm. apply in_zseq in Hm. cbn [fst snd].
      assert (Em : nth (Z.to_nat m) (map (fun k => (nth (Z.to_nat k) (mapB1 b) [], nth (Z.to_nat k) (mapB2 b) [])) (zseq (length (mapB1 b)))) ([], []) =
                   (nth (Z.to_nat m) (mapB1 b) [], nth (Z.to_nat m) (mapB2 b) [])).
      { rewrite <- (combine_zseq [] [] (mapB1 b) (mapB2 b)) by exact L1. apply combine_nth. exact L1. }
      rewrite Em. cbn [fst snd]. destruct (Hrow (Z.to_nat m) ltac:(lia)) as (R1 & R2 & R3 & _).
      rewrite (combine_zseq 0 0 (nth (Z.to_nat m) (mapB1 b) []) (nth (Z.to_nat m) (mapB2 b) [])) by exact R1.
      rewrite (combine_zseq (0, 0) 0 _ (nth (Z.to_nat m) (vmapB1 b) [])) by (rewrite map_length, zseq_length; exact R2).
      rewrite map_length, zseq_length, suml_map. apply suml_ext. intros k Hk. apply in_zseq in Hk. cbn [fst snd].
      rewrite <- (combine_zseq 0 0 (nth (Z.to_nat m) (mapB1 b) []) (nth (Z.to_nat m) (mapB2 b) [])) by exact R1.
      rewrite combine_nth by exact R1. reflexivity. }
  intros m Hm F1 g1 Hr1. apply in_zseq in Hm. destruct (Hrow (Z.to_nat m) ltac:(lia)) as (R1 & R2 & R3 & Hent).
  rewrite (zget_nth (mapB1 b) m []) by lia. cbn [bind].
  apply foldM_addc; [|exact Hr1]. intros k Hk F2 g2 Hr2. apply in_zseq in Hk.
  destruct (Hent (Z.to_nat k) ltac:(lia)) as (Hp1 & Hp2 & _ & _). unfold inR in Hp1, Hp2.
  change (nth (Z.to_nat k) (nth (Z.to_nat m) (mapB1 b) []) 0) with (p1 m k) in *.
  change (nth (Z.to_nat k) (nth (Z.to_nat m) (mapB2 b) []) 0) with (p2 m k) in *.
  edestruct (@foldM_addc Z L) with (l := xyz)
    (Q := fun d c q => ((if c =? d then (is (p2 m k) q - is (p1 m k) q) * ev (v1 m k) 0%Z d else 0) +
                        (if c =? (3 + d)%Z then (is (p2 m k) q - is (p1 m k) q) * ev (v1 m k) 1%Z d else 0))%R) as (F' & E & HF); [|exact Hr2|].
  2:{ exists F'. split; [exact E|]. eapply rep_ext; [exact HF|]. intros c q Hc _. unfold addc. f_equal.
      assert (Hkk : c = 0 \/ c = 1 \/ c = 2 \/ c = 3 \/ c = 4 \/ c = 5) by lia.
      unfold suml, xyz. cbn [map fold_right].
      decompose [or] Hkk; subst c;
        repeat match goal with
        | |- context [(?a / 3)%Z] => let v := eval compute in (a / 3)%Z in change (a / 3)%Z with v
        | |- context [(?a mod 3)%Z] => let v := eval compute in (a mod 3)%Z in change (a mod 3)%Z with v
        | |- context [(3 + ?a)%Z] => let v := eval compute in (3 + a)%Z in change (3 + a)%Z with v
        end; cbn [Z.eqb Pos.eqb]; ring. }
  intros d Hd F3 g3 Hr3. apply xyz_in in Hd.
  rewrite (zget_nth (vmapB1 b) m []) by lia. cbn [bind]. rewrite (zget_nth _ k 0) by lia. cbn [bind].
  rewrite (zget_nth (nth (Z.to_nat m) (mapB1 b) []) k 0) by lia. cbn [bind].
  change (nth (Z.to_nat k) (nth (Z.to_nat m) (mapB1 b) []) 0) with (p1 m k).
  change (nth (Z.to_nat k) (nth (Z.to_nat m) (vmapB1 b) []) 0) with (v1 m k).
  destruct (fadd_rep L F3 g3 d (p1 m k) (- ev (v1 m k) 0%Z d)%R Hr3) as (Fa & Ea & Ra); [lia|assumption|]. rewrite Ea. cbn [bind].
  destruct (fadd_rep L Fa _ (3 + d) (p1 m k) (- ev (v1 m k) 1%Z d)%R Ra) as (Fb & Eb & Rb); [lia|assumption|]. rewrite Eb. cbn [bind].
  rewrite (zget_nth (mapB2 b) m []) by lia. cbn [bind]. rewrite (zget_nth _ k 0) by lia. cbn [bind].
  change (nth (Z.to_nat k) (nth (Z.to_nat m) (mapB2 b) []) 0) with (p2 m k).
  destruct (fadd_rep L Fb _ d (p2 m k) (ev (v1 m k) 0%Z d)%R Rb) as (Fc & Ec & Rc); [lia|assumption|]. rewrite Ec. cbn [bind].
  destruct (fadd_rep L Fc _ (3 + d) (p2 m k) (ev (v1 m k) 1%Z d)%R Rc) as (Fd & Ed & Rd); [lia|assumption|]. rewrite Ed.
  exists Fd. split; [reflexivity|]. eapply rep_ext; [exact Rd|]. intros c q _ _. unfold addc, is.
  rewrite (Z.eqb_sym (p1 m k) q), (Z.eqb_sym (p2 m k) q).
  destruct (c =? d); destruct (c =? 3 + d); destruct (q =? p1 m k); destruct (q =? p2 m k); cbn [andb]; ring.
Qed.

End Jumps.

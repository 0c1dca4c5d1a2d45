(** Proofs about the layers attached to a mesh. *)
From Coq Require Import ZArith List Bool Reals Lra Lia ZifyBool Sorting.Sorted Sorting.Permutation.
From Verif Require Import Common Evol_Model Setup_Model Setup_Spec Geo_Model Geo_Spec Geo_Proofs Input_Model Input_Proofs InputWall_Proofs Wall_Model Conn_Model Conn_Proofs Sub_Model Sub_Spec Sub_Proofs SubGeo_Proofs Attach_Model Attach_Spec.
Import ListNotations.
Open Scope Z_scope.

(** * The nearest point *)
Lemma closest_spec : forall x q i best pre, (List.length pre = i)%nat -> (forall y n, In (y, n) (pre ++ q) -> (distSq y x < 10 ^ 30)%R) ->
  (pre = [] -> best = ((10 ^ 30)%R, 0%nat)) ->
  (pre <> [] -> (exists y n, nth_error pre (snd best) = Some (y, n) /\ fst best = distSq y x) /\ forall y n, In (y, n) pre -> (fst best <= distSq y x)%R) ->
  pre ++ q <> [] ->
  let r := closest q x i best in
  exists y n, nth_error (pre ++ q) (snd r) = Some (y, n) /\ forall y' n', In (y', n') (pre ++ q) -> (distSq y x <= distSq y' x)%R.
Proof.
  intros x q. induction q as [|[z nz] t IH]; intros i best pre L B H0 H1 NE; cbn [closest].
  - rewrite app_nil_r in *. destruct (H1 NE) as [(y & n & E & F) M]. exists y, n. split; [exact E|]. rewrite <- F. exact M.
  - replace (pre ++ (z, nz) :: t) with ((pre ++ [(z, nz)]) ++ t) in * by (rewrite <- app_assoc; reflexivity).
    apply IH.
    + rewrite app_length; cbn [List.length]; lia.
    + exact B.
    + intros X. destruct pre; discriminate X.
    + intros _. assert (Bz : (distSq z x < 10 ^ 30)%R) by (apply (B z nz); rewrite !in_app_iff; left; right; left; reflexivity).
      destruct (list_eq_dec (fun (a b : nat) => Nat.eq_dec a b) (map (fun _ => 0%nat) pre) []) as [P|P].
      * assert (pre = []) as -> by (destruct pre; [reflexivity|discriminate P]). rewrite (H0 eq_refl). cbn [fst snd app]. cbn [List.length] in L. subst i.
        destruct (Rlt_dec (distSq z x) (10 ^ 30)); [|contradiction]. cbn [fst snd nth_error]. split.
        -- exists z, nz. split; reflexivity.
        -- intros y n [E|[]]. injection E as <- <-. lra.
      * assert (P' : pre <> []) by (intros ->; apply P; reflexivity). destruct (H1 P') as [(y & n & E & F) M].
        destruct (Rlt_dec (distSq z x) (fst best)) as [C|C]; cbn [fst snd].
        -- split.
           ++ exists z, nz. split; [|reflexivity]. rewrite nth_error_app2 by lia. rewrite L, Nat.sub_diag. reflexivity.
           ++ intros y' n' I. apply in_app_iff in I as [I|[I|[]]]; [specialize (M _ _ I); lra|]. injection I as <- <-. lra.
        -- split.
           ++ exists y, n. split; [|exact F]. rewrite nth_error_app1; [exact E|]. apply nth_error_Some. rewrite E. discriminate.
           ++ intros y' n' I. apply in_app_iff in I as [I|[I|[]]]; [exact (M _ _ I)|]. injection I as <- <-. lra.
    + exact NE.
Qed.
Lemma normalAt_spec : forall q x, q <> [] -> (forall y n, In (y, n) q -> (distSq y x < 10 ^ 30)%R) ->
  exists n, normalAt q x = Ok n /\ nearestNormal q x n.
Proof.
  intros q x NE B. destruct (closest_spec x q 0 ((10 ^ 30)%R, 0%nat) [] eq_refl B (fun _ => eq_refl) (fun h => match h eq_refl with end) NE) as (y & n & E & M).
  cbn [app] in E, M. exists n. unfold normalAt. rewrite E. split; [reflexivity|]. exists y. split; [exact (nth_error_In _ _ E)|exact M].
Qed.

(** * The dof of an element *)
Lemma index_spec : forall d l i, In d l -> exists k, indexIn d l i = Ok (i + k)%nat /\ nth_error l k = Some d.
Proof.
  intros d l. induction l as [|x t IH]; intros i I; [destruct I|]. cbn [indexIn]. destruct (Z.eqb_spec x d) as [->|N].
  - exists 0%nat. rewrite Nat.add_0_r. split; reflexivity.
  - destruct I as [I|I]; [contradiction|]. destruct (IH (S i) I) as (k & E & F). exists (S k). split; [rewrite E; f_equal; lia|exact F].
Qed.

(** * Frames *)
Lemma sq0 : forall a b c : R, (a * a + b * b + c * c <> 0)%R -> (a, b, c) <> (0, 0, 0)%R.
Proof. intros a b c H E. injection E as -> -> ->. apply H. ring. Qed.
Lemma rot_axis : forall dim n, normalOk dim n -> exists r, faceRotation n dim = Ok r /\ List.length r = 9%nat /\ rightFrame (row r 0) (row r 1) (row r 2) /\ axis r = unitp (vec n).
Proof.
  intros dim n [[[-> L]|[-> L]] N].
  - destruct n as [|x [|y [|]]]; try discriminate L. unfold vec, dotp in N. cbn [nth] in N.
    destruct (rot2 x y) as (r & E & Lr & F & U); [intros X; injection X as -> ->; apply N; ring|]. exists r. split; [exact E|]. split; [exact Lr|]. split; [exact F|].
    unfold axis, vec. cbn [nth]. exact U.
  - destruct n as [|x [|y [|z [|]]]]; try discriminate L. unfold vec, dotp in N. cbn [nth] in N.
    destruct (rot3 3 x y z) as (r & E & Lr & F & U); [lia|exact (sq0 _ _ _ N)|]. exists r. split; [exact E|]. split; [exact Lr|]. split; [exact F|].
    unfold axis, vec. cbn [nth]. exact U.
Qed.
Lemma vec_opp : forall dim n, normalOk dim n -> vec (map Ropp n) = scalep (-1) (vec n).
Proof.
  intros dim n [[[-> L]|[-> L]] _]; destruct n as [|x [|y [|z [|]]]]; try discriminate L; unfold vec, scalep; cbn [nth map]; f_equal; try f_equal; ring.
Qed.
Lemma normal_opp : forall dim n, normalOk dim n -> normalOk dim (map Ropp n).
Proof.
  intros dim n H. split.
  - destruct H as [[[-> L]|[-> L]] _]; [left|right]; (split; [reflexivity|]); rewrite map_length; exact L.
  - rewrite (vec_opp _ _ H). destruct H as [_ N]. intros E. apply N. destruct (vec n) as [[a b] c]. unfold dotp, scalep in *. lra.
Qed.
Lemma unit_opp : forall v, unitp (scalep (-1) v) = scalep (-1) (unitp v).
Proof.
  intros [[a b] c]. unfold unitp, lenp, dotp, scalep.
  replace (-1 * a * (-1 * a) + -1 * b * (-1 * b) + -1 * c * (-1 * c))%R with (a * a + b * b + c * c)%R by ring.
  f_equal; [f_equal|]; ring.
Qed.
Lemma rot_against : forall dim n, normalOk dim n -> exists r, faceRotation (map Ropp n) dim = Ok r /\ List.length r = 9%nat /\ rightFrame (row r 0) (row r 1) (row r 2) /\ axis r = scalep (-1) (unitp (vec n)).
Proof.
  intros dim n H. destruct (rot_axis dim _ (normal_opp dim n H)) as (r & E & L & F & U). exists r. split; [exact E|]. split; [exact L|]. split; [exact F|].
  rewrite U, (vec_opp _ _ H). apply unit_opp.
Qed.

(** * The map from tags to pairs *)
Definition entry {A} (t : Z) (l : list (Z * list A)) : list A := flat_map (fun p => if fst p =? t then snd p else []) l.
Lemma entry_none : forall {A} t (l : list (Z * list A)), (forall k a, In (k, a) l -> t < k) -> entry t l = [].
Proof.
  intros A t l. induction l as [|[k a] r IH]; intros H; [reflexivity|]. unfold entry. cbn [flat_map fst snd].
  specialize (H k a (or_introl eq_refl)) as Hk. destruct (Z.eqb_spec k t); [lia|]. apply IH. intros k' a' I. apply (H k' a'). right. exact I.
Qed.
Lemma entry_in : forall {A} t a (l : list (Z * list A)), ascending l -> In (t, a) l -> entry t l = a.
Proof.
  intros A t a l H. induction H as [|k b r Hk H IH]; intros I; [destruct I|]. unfold entry. cbn [flat_map fst snd]. destruct I as [I|I].
  - injection I as -> ->. rewrite Z.eqb_refl. fold (entry t r). rewrite (entry_none t r Hk). apply app_nil_r.
  - specialize (Hk _ _ I). destruct (Z.eqb_spec k t); [lia|]. exact (IH I).
Qed.
Lemma push_in : forall {A} t (xs : list A) l k a, In (k, a) (mpush t xs l) -> k = t \/ exists b, In (k, b) l.
Proof.
  intros A t xs l. induction l as [|[u ys] r IH]; intros k a; cbn [mpush].
  - intros [E|[]]. injection E as <- _. left. reflexivity.
  - destruct (Z.ltb_spec t u); [|destruct (Z.eqb_spec t u)].
    + intros [E|I]; [injection E as <- _; left; reflexivity|]. right. exists a. exact I.
    + intros [E|I]; [injection E as <- _; left; congruence|]. right. exists a. right. exact I.
    + intros [E|I]; [injection E as <- <-; right; exists ys; left; reflexivity|]. destruct (IH _ _ I) as [->|[b Ib]]; [left; reflexivity|]. right. exists b. right. exact Ib.
Qed.
Lemma push_asc : forall {A} t (xs : list A) l, ascending l -> ascending (mpush t xs l).
Proof.
  intros A t xs l H. induction H as [|u ys r Hu H IH]; cbn [mpush].
  - constructor; [intros k a []|constructor].
  - destruct (Z.ltb_spec t u); [|destruct (Z.eqb_spec t u)].
    + constructor; [|constructor; assumption]. intros k a [E|I]; [injection E as <- _; assumption|]. specialize (Hu _ _ I). lia.
    + constructor; assumption.
    + constructor; [|exact IH]. intros k a I. apply push_in in I as [->|[b I]]; [lia|]. exact (Hu _ _ I).
Qed.
Lemma push_nonempty : forall {A} t (xs : list A) l, xs <> [] -> Forall (fun p => snd p <> []) l -> Forall (fun p => snd p <> []) (mpush t xs l).
Proof.
  intros A t xs l N H. induction H as [|[u ys] r Hu H IH]; cbn [mpush].
  - constructor; [exact N|constructor].
  - destruct (t <? u); [|destruct (t =? u)].
    + constructor; [exact N|]. constructor; assumption.
    + constructor; [|exact H]. cbn [snd] in *. intros E. apply app_eq_nil in E as [_ E]. exact (N E).
    + constructor; assumption.
Qed.
Lemma push_entry : forall {A} t (xs : list A) l t', ascending l -> entry t' (mpush t xs l) = entry t' l ++ (if t' =? t then xs else []).
Proof.
  intros A t xs l t' H. induction H as [|u ys r Hu H IH]; cbn [mpush].
  - unfold entry. cbn [flat_map fst snd app]. rewrite (Z.eqb_sym t t'). destruct (t' =? t); [apply app_nil_r|reflexivity].
  - destruct (Z.ltb_spec t u); [|destruct (Z.eqb_spec t u) as [->|]].
    + unfold entry at 1. cbn [flat_map]. fold (entry t' r). cbn [fst snd]. rewrite (Z.eqb_sym t t'). destruct (Z.eqb_spec t' t) as [->|].
      * rewrite (entry_none t ((u, ys) :: r)). { change (flat_map _ r) with (entry t r). rewrite (entry_none t r) by (intros k a I; specialize (Hu _ _ I); lia). destruct (Z.eqb_spec u t); [lia|]. cbn [app]. apply app_nil_r. }
        intros k a [E|I]; [injection E as <- _; assumption|]. specialize (Hu _ _ I). lia.
      * cbn [app]. rewrite app_nil_r. reflexivity.
    + unfold entry. cbn [flat_map fst snd]. fold (entry t' r). rewrite (Z.eqb_sym t' u). destruct (Z.eqb_spec u t') as [->|].
      * rewrite (entry_none t' r Hu). rewrite !app_nil_r. reflexivity.
      * rewrite app_nil_r. reflexivity.
    + unfold entry in *. cbn [flat_map fst snd]. rewrite IH. apply app_assoc.
Qed.
Lemma pushAll_entry : forall {A} t (xs : list A) l t', ascending l -> entry t' (pushAll t xs l) = entry t' l ++ (if t' =? t then xs else []).
Proof. intros A t xs l t' H. unfold pushAll. destruct xs; [destruct (t' =? t); rewrite app_nil_r; reflexivity|]. apply push_entry. exact H. Qed.
Definition goodMap {A} (l : list (Z * list A)) : Prop := ascending l /\ Forall (fun p => snd p <> []) l.
Lemma pushAll_good : forall {A} t (xs : list A) l, goodMap l -> goodMap (pushAll t xs l).
Proof. intros A t xs l [H1 H2]. unfold pushAll. destruct xs; [split; assumption|]. split; [apply push_asc; assumption|]. apply push_nonempty; [discriminate|assumption]. Qed.
Lemma entry_key : forall {A} t (l : list (Z * list A)), goodMap l -> (entry t l <> [] <-> In (t, entry t l) l).
Proof.
  intros A t l [H N]. split.
  - intros E. induction H as [|k b r Hk H IH]; [destruct (E eq_refl)|]. inversion N as [|? ? Nk Nr]; subst. unfold entry in E |- *. cbn [flat_map fst snd] in E |- *. destruct (Z.eqb_spec k t) as [->|].
    + left. f_equal. fold (entry t r). rewrite (entry_none t r Hk). rewrite app_nil_r. reflexivity.
    + right. apply IH; assumption.
  - intros I. rewrite Forall_forall in N. exact (N _ I).
Qed.

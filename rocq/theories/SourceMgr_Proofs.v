(** Superposition of sources. *)
From Coq Require Import ZArith List Bool Reals Lia Lra Permutation.
From Verif Require Import Common Geo_Model Source_Model Source_Spec.
Import ListNotations.
Local Open Scope R_scope.

(** ** Sums *)
Lemma total_ext : forall {A} (h k : A -> R) l, (forall a, In a l -> h a = k a) -> total h l = total k l.
Proof. intros A h k l H. induction l as [|a l IH]; [reflexivity|]. unfold total in *; cbn. rewrite (H a), IH; auto with datatypes. Qed.
Lemma total_app : forall {A} (h : A -> R) l m, total h (l ++ m) = total h l + total h m.
Proof. intros A h l m. unfold total. induction l as [|a l IH]; cbn; [ring|]. rewrite IH. ring. Qed.
Lemma total_zero : forall {A} (h : A -> R) l, (forall a, In a l -> h a = 0) -> total h l = 0.
Proof. intros A h l H. induction l as [|a l IH]; [reflexivity|]. unfold total in *; cbn. rewrite (H a), IH; auto with datatypes. ring. Qed.
Lemma total_scal : forall {A} k (h : A -> R) l, total (fun a => k * h a) l = k * total h l.
Proof. intros A k h l. unfold total. induction l as [|a l IH]; cbn; [ring|]. rewrite IH. ring. Qed.
Lemma total_perm : forall {A} (h : A -> R) l m, Permutation l m -> total h l = total h m.
Proof. intros A h l m P. unfold total. induction P; cbn; try lra. Qed.
Lemma total_at : forall n i (h : Z -> R), (0 <= i < Z.of_nat n)%Z -> total (fun k => if (i =? k)%Z then h k else 0) (zseq n) = h i.
Proof.
  intros n i h Hi. induction n as [|n IH]; [lia|]. rewrite zseq_S, total_app. cbn [total fold_right].
  destruct (Z.eqb_spec i (Z.of_nat n)) as [->|].
  - rewrite total_zero; [ring|]. intros k Hk. apply in_zseq in Hk. destruct (Z.eqb_spec (Z.of_nat n) k); [lia|reflexivity].
  - rewrite IH by lia. ring.
Qed.
Lemma total_out : forall n i (h : Z -> R), ~ (0 <= i < Z.of_nat n)%Z -> total (fun k => if (i =? k)%Z then h k else 0) (zseq n) = 0.
Proof. intros n i h Hi. apply total_zero. intros k Hk. apply in_zseq in Hk. destruct (Z.eqb_spec i k); [lia|reflexivity]. Qed.

(** ** Loops that add to cells *)
Lemma adds_fold : forall {A} (step : gfs -> A -> res gfs) (delta : A -> gfs) l,
  (forall a g, In a l -> exists g', step g a = Ok g' /\ forall f d i, g' f d i = g f d i + delta a f d i) ->
  forall g, exists g', foldM step l g = Ok g' /\ forall f d i, g' f d i = g f d i + total (fun a => delta a f d i) l.
Proof.
  intros A step delta l. induction l as [|a l IH]; intros H g.
  - exists g. split; [reflexivity|]. intros. unfold total; cbn. ring.
  - destruct (H a g (or_introl eq_refl)) as (g1 & E1 & V1). destruct (IH (fun b g' I => H b g' (or_intror I)) g1) as (g2 & E2 & V2).
    exists g2. split; [cbn [foldM]; rewrite E1; exact E2|]. intros f d i. rewrite V2, V1. unfold total; cbn. ring.
Qed.
Definition inr (n : nat) (i : Z) : bool := ((0 <=? i) && (i <? Z.of_nat n))%Z.
Lemma inr_iff : forall n i, inr n i = true <-> (0 <= i < Z.of_nat n)%Z.
Proof. intros n i. unfold inr. rewrite andb_true_iff, Z.leb_le, Z.ltb_lt. reflexivity. Qed.
Lemma zget_nth : forall {A} (l : list A) i d, (0 <= i < Z.of_nat (length l))%Z -> zget l i = Ok (nth (Z.to_nat i) l d).
Proof.
  intros A l i d Hi. unfold zget. destruct (Z.ltb_spec i 0); [lia|]. rewrite (nth_error_nth' l d) by lia. reflexivity.
Qed.
Lemma project_spec : forall nodes ev V g f d, (forall p, In p nodes -> ev p = Ok (V p)) ->
  exists g', project nodes ev g f d = Ok g' /\
    forall f' d' i', g' f' d' i' = if ((f' =? f) && (d' =? d) && inr (length nodes) i')%Z then V (nth (Z.to_nat i') nodes []) else g f' d' i'.
Proof.
  intros nodes ev V g f d H. unfold project.
  assert (G : forall m, (m <= length nodes)%nat -> exists g', foldM (fun g i => p <- zget nodes i ;; v <- ev p ;; Ok (setG g f d i v)) (zseq m) g = Ok g' /\
    forall f' d' i', g' f' d' i' = if ((f' =? f) && (d' =? d) && inr m i')%Z then V (nth (Z.to_nat i') nodes []) else g f' d' i').
  { induction m as [|m IH]; intros Hm.
    - exists g. split; [reflexivity|]. intros. replace (inr 0 i') with false; [rewrite andb_false_r; reflexivity|]. symmetry. unfold inr. destruct (Z.leb_spec 0 i'), (Z.ltb_spec i' (Z.of_nat 0)); try reflexivity; lia.
    - destruct (IH ltac:(lia)) as (g1 & E1 & V1). rewrite zseq_S, foldM_app, E1. cbn [bind foldM].
      rewrite (zget_nth nodes (Z.of_nat m) []) by lia. cbn [bind]. rewrite Nat2Z.id, H by (apply nth_In; lia). cbn [bind].
      eexists. split; [reflexivity|]. intros f' d' i'. unfold setG. rewrite V1.
      destruct ((f' =? f) && (d' =? d))%Z; cbn [andb]; [|reflexivity]. unfold inr.
      destruct (Z.eqb_spec i' (Z.of_nat m)) as [->|].
      + rewrite Nat2Z.id. replace ((0 <=? Z.of_nat m) && (Z.of_nat m <? Z.of_nat (S m)))%Z with true; [reflexivity|]. symmetry. apply andb_true_iff. split; [apply Z.leb_le|apply Z.ltb_lt]; lia.
      + replace (i' <? Z.of_nat (S m))%Z with (i' <? Z.of_nat m)%Z; [reflexivity|]. destruct (Z.ltb_spec i' (Z.of_nat m)), (Z.ltb_spec i' (Z.of_nat (S m))); try reflexivity; lia. }
  apply (G (length nodes) (le_n _)).
Qed.
Definition isFd (f d : Z) : bool := existsb (fun q => (f =? fst q) && (d =? snd q))%Z fds.
Lemma isFd_range : forall f d, (0 <= f <= 1)%Z -> (0 <= d <= 2)%Z -> isFd f d = true.
Proof. intros f d Hf Hd. assert (f = 0 \/ f = 1)%Z as [->| ->] by lia; assert (d = 0 \/ d = 1 \/ d = 2)%Z as [->|[->| ->]] by lia; reflexivity. Qed.
Lemma total_fds : forall (h : Z * Z -> R) f d, total (fun q => if ((f =? fst q) && (d =? snd q))%Z then h q else 0) fds = if isFd f d then h (f, d) else 0.
Proof.
  intros h f d. unfold isFd, fds. unfold total; cbn [fold_right existsb fst snd].
  destruct (Z.eqb_spec f 0) as [->|]; [|destruct (Z.eqb_spec f 1) as [->|]];
    (destruct (Z.eqb_spec d 0) as [->|]; [|destruct (Z.eqb_spec d 1) as [->|]; [|destruct (Z.eqb_spec d 2) as [->|]]]);
    cbn [andb orb Z.eqb Pos.eqb]; ring.
Qed.

(** ** Initial fields *)
(** What a source contributes at a node. *)
Definition realises (n : nat) (s : source) (o : option ideal) : Prop :=
  match s, o with
  | SInit i, Some a => if_ft i = id_ft a /\ if_pol i = id_pol a /\ if_center i = id_center a /\ length (id_pol a) = 3%nat /\ (n <= length (id_center a))%nat /\
                       forall q, length q = n -> funcEval (if_fn i) q = Ok (id_phi a q)
  | SInit _, None => False
  | _, None => True
  | _, Some _ => False
  end.
Lemma initial_eval : forall n i a p f d, realises n (SInit i) (Some a) -> length p = n -> (0 <= d <= 2)%Z -> initialEval i p f d = Ok (idealAt a p f d).
Proof.
  intros n i a p f d (Ef & Ep & Ec & Lp & Lc & H) Hp Hd. unfold initialEval, idealAt. rewrite Ef. destruct (Z.eqb_spec f (id_ft a)) as [->|]; [|reflexivity].
  cbn [negb]. rewrite Ec.
  assert (M : mapM (fun i => a0 <- zget p i ;; c <- zget (id_center a) i ;; Ok (a0 - c)) (zseq (length p)) = Ok (map (fun q => fst q - snd q) (combine p (id_center a)))).
  { assert (G : forall (u v : list R) k, (length u <= length v)%nat -> forall P C, P = firstn k P ++ u -> C = firstn k C ++ v -> length (firstn k P) = k -> length (firstn k C) = k ->
       mapM (fun i => a0 <- zget P i ;; c <- zget C i ;; Ok (a0 - c)) (map Z.of_nat (seq k (length u))) = Ok (map (fun q => fst q - snd q) (combine u v))).
    { induction u as [|x u IH]; intros v k L P C EP EC LP LC; [reflexivity|]. destruct v as [|y v]; [cbn in L; lia|]. cbn [length seq map mapM].
      assert (ZP : zget P (Z.of_nat k) = Ok x).
      { unfold zget. destruct (Z.ltb_spec (Z.of_nat k) 0); [lia|]. rewrite Nat2Z.id, EP. rewrite nth_error_app2 by (rewrite LP; lia). rewrite LP, Nat.sub_diag. reflexivity. }
      assert (ZC : zget C (Z.of_nat k) = Ok y).
      { unfold zget. destruct (Z.ltb_spec (Z.of_nat k) 0); [lia|]. rewrite Nat2Z.id, EC. rewrite nth_error_app2 by (rewrite LC; lia). rewrite LC, Nat.sub_diag. reflexivity. }
      rewrite ZP, ZC. cbn [bind].
      assert (F : forall (l : list R) (z : R) (r : list R), l = firstn k l ++ z :: r -> length (firstn k l) = k -> l = firstn (S k) l ++ r /\ length (firstn (S k) l) = S k).
      { intros l z r El Ll. assert (E2 : firstn (S k) l = firstn k l ++ [z]).
        { rewrite El at 1. replace (S k) with (length (firstn k l) + 1)%nat by lia. rewrite firstn_app_2. reflexivity. }
        rewrite E2. split; [rewrite <- app_assoc; exact El|rewrite app_length, Ll; cbn; lia]. }
      destruct (F P x u EP LP) as (EP' & LP'). destruct (F C y v EC LC) as (EC' & LC').
      rewrite (IH v (S k) ltac:(cbn in L; lia) P C EP' EC' LP' LC'). reflexivity. }
    apply (G p (id_center a) 0%nat ltac:(lia) p (id_center a)); reflexivity. }
  rewrite M. cbn [bind]. rewrite H by (rewrite map_length, combine_length; lia). cbn [bind].
  rewrite Ep, (zget_nth (id_pol a) d 0) by lia. reflexivity.
Qed.
Lemma init_fields : forall n srcs ids nodes fields, Forall (fun p => length p = n) nodes -> Forall2 (realises n) srcs ids ->
  exists g, setInitialFields srcs nodes fields = Ok g /\
    forall f d i, g f d i = fields f d i + (if isFd f d && inr (length nodes) i then total (fun o => optAt o (nth (Z.to_nat i) nodes []) f d) ids else 0).
Proof.
  intros n srcs ids nodes fields Hn F2. unfold setInitialFields. revert fields. induction F2 as [|s o srcs ids R F IH]; intros fields.
  - exists fields. split; [reflexivity|]. intros. unfold total; cbn [fold_right]. destruct (isFd f d && inr (length nodes) i); ring.
  - set (step := fun (fields : gfs) (s : source) => match s with SInit i => _ | _ => _ end) in *.
    assert (S1 : exists g1, step fields s = Ok g1 /\ forall f d i, g1 f d i = fields f d i + (if isFd f d && inr (length nodes) i then optAt o (nth (Z.to_nat i) nodes []) f d else 0)).
    { destruct s as [si|w|w]; destruct o as [a|]; try contradiction; try (exists fields; split; [reflexivity|]; intros; cbn [optAt]; destruct (isFd f d && inr (length nodes) i); ring).
      unfold step.
      destruct (adds_fold (fun fields fd => gf <- project nodes (fun p => initialEval si p (fst fd) (snd fd)) zeroG (fst fd) (snd fd) ;;
          foldM (fun fields k => Ok (setG fields (fst fd) (snd fd) k (fields (fst fd) (snd fd) k + gf (fst fd) (snd fd) k))) (zseq (length nodes)) fields)
          (fun fd f d i => if ((f =? fst fd) && (d =? snd fd))%Z then (if inr (length nodes) i then idealAt a (nth (Z.to_nat i) nodes []) (fst fd) (snd fd) else 0) else 0) fds) with (g := fields) as (g1 & E1 & V1).
      - intros fd g I.
        destruct (project_spec nodes (fun p => initialEval si p (fst fd) (snd fd)) (fun p => idealAt a p (fst fd) (snd fd)) zeroG (fst fd) (snd fd)) as (gf & Eg & Vg).
        { intros p Ip. apply (initial_eval n); [exact R| |].
          - rewrite Forall_forall in Hn. apply Hn. exact Ip.
          - destruct I as [<-|[<-|[<-|[<-|[<-|[<-|[]]]]]]]; cbn; lia. }
        rewrite Eg. cbn [bind].
        destruct (adds_fold (fun fields k => Ok (setG fields (fst fd) (snd fd) k (fields (fst fd) (snd fd) k + gf (fst fd) (snd fd) k)))
          (fun k f d i => if (i =? k)%Z then (if ((f =? fst fd) && (d =? snd fd))%Z then gf (fst fd) (snd fd) k else 0) else 0) (zseq (length nodes))) with (g := g) as (g2 & E2 & V2).
        { intros k g' Ik. eexists. split; [reflexivity|]. intros f d i. unfold setG. destruct (Z.eqb_spec i k) as [->|]; [|rewrite andb_false_r; ring].
          rewrite andb_true_r. destruct (Z.eqb_spec f (fst fd)) as [->|]; cbn [andb]; [|ring]. destruct (Z.eqb_spec d (snd fd)) as [->|]; [ring|ring]. }
        exists g2. split; [exact E2|]. intros f d i. rewrite V2. f_equal. destruct (inr (length nodes) i) eqn:B.
        + apply inr_iff in B. rewrite total_at by exact B. destruct ((f =? fst fd) && (d =? snd fd))%Z; [|reflexivity]. rewrite Vg, !Z.eqb_refl. cbn [andb].
          apply inr_iff in B. rewrite B. reflexivity.
        + rewrite total_out by (intros X; apply inr_iff in X; congruence). destruct ((f =? fst fd) && (d =? snd fd))%Z; reflexivity.
      - exists g1. split; [exact E1|]. intros f d i. rewrite V1. f_equal.
        rewrite (total_fds (fun fd => if inr (length nodes) i then idealAt a (nth (Z.to_nat i) nodes []) (fst fd) (snd fd) else 0) f d). cbn [fst snd optAt].
        destruct (isFd f d), (inr (length nodes) i); reflexivity. }
    destruct S1 as (g1 & E1 & V1). destruct (IH g1) as (g2 & E2 & V2). exists g2. split; [cbn [foldM]; rewrite E1; exact E2|].
    intros f d i. rewrite V2, V1. unfold total; cbn [fold_right]. destruct (isFd f d && inr (length nodes) i); ring.
Qed.

(** ** Total field sources *)
Definition incident (nodes : list (list R)) (time : R) (s : source) (o : option (list R -> Z -> Z -> R)) : Prop :=
  match o with
  | None => isTotal s = false
  | Some F => isTotal s = true /\ forall p f d, In p nodes -> (0 <= f <= 1)%Z -> (0 <= d <= 2)%Z ->
                sourceEval s p time f d = Ok (F p f d) /\ sourceEval s (pad3 p) time f d = Ok (F p f d)
  end.
Lemma fds_range : forall fd, In fd fds -> (0 <= fst fd <= 1)%Z /\ (0 <= snd fd <= 2)%Z.
Proof. intros fd [<-|[<-|[<-|[<-|[<-|[<-|[]]]]]]]; cbn; lia. Qed.
Lemma eval_direct : forall srcs incs sb nodes time, Forall2 (incident nodes time) srcs incs ->
  exists g, evalDirect srcs sb nodes time = Ok g /\
    forall f d i, g f d i = if isFd f d && inr (length nodes) i then tfsfSign sb i * total (fun o => optInc o (nth (Z.to_nat i) nodes []) f d) incs else 0.
Proof.
  intros srcs incs sb nodes time F2. unfold evalDirect.
  set (step := fun (g : gfs) (s : source) => if isTotal s then _ else Ok g).
  assert (H : forall g, exists g', foldM step srcs g = Ok g' /\ forall f d i, g' f d i = g f d i + if isFd f d && inr (length nodes) i then tfsfSign sb i * total (fun o => optInc o (nth (Z.to_nat i) nodes []) f d) incs else 0).
  2: { destruct (H zeroG) as (g & E & V). exists g. split; [exact E|]. intros f d i. rewrite V. unfold zeroG. destruct (isFd f d && inr (length nodes) i); ring. }
  induction F2 as [|s o srcs incs Hs F IH]; intros g.
  - exists g. split; [reflexivity|]. intros. unfold total; cbn [fold_right]. destruct (isFd f d && inr (length nodes) i); ring.
  - assert (S1 : exists g1, step g s = Ok g1 /\ forall f d i, g1 f d i = g f d i + if isFd f d && inr (length nodes) i then tfsfSign sb i * optInc o (nth (Z.to_nat i) nodes []) f d else 0).
    { unfold step. destruct o as [Fi|]; cbn [incident] in Hs.
      2: { rewrite Hs. exists g. split; [reflexivity|]. intros. cbn [optInc]. destruct (isFd f d && inr (length nodes) i); ring. }
      destruct Hs as (Ht & Hs). rewrite Ht.
      destruct (adds_fold (fun g i => p <- zget nodes i ;;
          foldM (fun g fd => v <- sourceEval s (pad3 p) time (fst fd) (snd fd) ;; Ok (setG g (fst fd) (snd fd) i (g (fst fd) (snd fd) i + v * tfsfSign sb i))) fds g)
        (fun k f d i => if (i =? k)%Z then (if isFd f d then tfsfSign sb k * Fi (nth (Z.to_nat k) nodes []) f d else 0) else 0) (zseq (length nodes))) with (g := g) as (g1 & E1 & V1).
      - intros k g0 Ik. apply in_zseq in Ik. rewrite (zget_nth nodes k []) by exact Ik. cbn [bind].
        set (p := nth (Z.to_nat k) nodes []). assert (Ip : In p nodes) by (apply nth_In; lia).
        destruct (adds_fold (fun g fd => v <- sourceEval s (pad3 p) time (fst fd) (snd fd) ;; Ok (setG g (fst fd) (snd fd) k (g (fst fd) (snd fd) k + v * tfsfSign sb k)))
          (fun fd f d i => if ((f =? fst fd) && (d =? snd fd))%Z then (if (i =? k)%Z then tfsfSign sb k * Fi p (fst fd) (snd fd) else 0) else 0) fds) with (g := g0) as (g2 & E2 & V2).
        { intros fd g' Ifd. destruct (fds_range fd Ifd) as (Rf & Rd). destruct (Hs p (fst fd) (snd fd) Ip Rf Rd) as (_ & ->). cbn [bind]. eexists. split; [reflexivity|].
          intros f d i. unfold setG. destruct (Z.eqb_spec f (fst fd)) as [->|]; cbn [andb]; [|ring]. destruct (Z.eqb_spec d (snd fd)) as [->|]; cbn [andb]; [|ring].
          destruct (Z.eqb_spec i k) as [->|]; ring. }
        exists g2. split; [exact E2|]. intros f d i. rewrite V2, (total_fds (fun fd => if (i =? k)%Z then tfsfSign sb k * Fi p (fst fd) (snd fd) else 0)). cbn [fst snd].
        destruct (isFd f d), (i =? k)%Z; reflexivity.
      - exists g1. split; [exact E1|]. intros f d i. rewrite V1. f_equal. cbn [optInc]. destruct (inr (length nodes) i) eqn:B.
        + apply inr_iff in B. rewrite (total_at (length nodes) i (fun k => if isFd f d then tfsfSign sb k * Fi (nth (Z.to_nat k) nodes []) f d else 0) B). rewrite andb_true_r. reflexivity.
        + rewrite (total_out (length nodes) i (fun k => if isFd f d then tfsfSign sb k * Fi (nth (Z.to_nat k) nodes []) f d else 0)) by (intros X; apply inr_iff in X; congruence).
          rewrite andb_false_r. reflexivity. }
    destruct S1 as (g1 & E1 & V1). destruct (IH g1) as (g2 & E2 & V2). exists g2. split; [cbn [foldM]; rewrite E1; exact E2|].
    intros f d i. rewrite V2, V1. unfold total; cbn [fold_right]. destruct (isFd f d && inr (length nodes) i); ring.
Qed.

(** *** The other path *)
Lemma field_one : forall s nodes time F g, isTotal s = true -> (forall p f d, In p nodes -> (0 <= f <= 1)%Z -> (0 <= d <= 2)%Z -> sourceEval s p time f d = Ok (F p f d)) ->
  exists g', foldM (fun g fd => project nodes (fun p => sourceEval s p time (fst fd) (snd fd)) g (fst fd) (snd fd)) fds g = Ok g' /\
    forall f d i, g' f d i = if isFd f d && inr (length nodes) i then F (nth (Z.to_nat i) nodes []) f d else g f d i.
Proof.
  intros s nodes time F g Ht H.
  assert (G : forall l, incl l fds -> forall g, exists g', foldM (fun g fd => project nodes (fun p => sourceEval s p time (fst fd) (snd fd)) g (fst fd) (snd fd)) l g = Ok g' /\
    forall f d i, g' f d i = if existsb (fun q => (f =? fst q) && (d =? snd q))%Z l && inr (length nodes) i then F (nth (Z.to_nat i) nodes []) f d else g f d i).
  { induction l as [|fd l IH]; intros I g0; [exists g0; split; reflexivity|].
    destruct (fds_range fd (I fd (or_introl eq_refl))) as (Rf & Rd).
    destruct (project_spec nodes (fun p => sourceEval s p time (fst fd) (snd fd)) (fun p => F p (fst fd) (snd fd)) g0 (fst fd) (snd fd)) as (g1 & E1 & V1); [intros p Ip; apply H; assumption|].
    destruct (IH (fun q Iq => I q (or_intror Iq)) g1) as (g2 & E2 & V2). exists g2. split; [cbn [foldM]; rewrite E1; exact E2|].
    intros f d i. rewrite V2, V1. cbn [existsb].
    destruct (existsb (fun q => (f =? fst q) && (d =? snd q))%Z l) eqn:B, (inr (length nodes) i) eqn:B2; rewrite ?andb_true_r, ?andb_false_r, ?orb_true_r, ?orb_false_r; try reflexivity.
    destruct (Z.eqb_spec f (fst fd)) as [->|], (Z.eqb_spec d (snd fd)) as [->|]; reflexivity. }
  apply (G fds (incl_refl _) g).
Qed.
(** Among total field sources only the last one is kept. *)
Definition lastInc (l : list (option (list R -> Z -> Z -> R))) : list R -> Z -> Z -> R :=
  fold_left (fun a o => match o with Some F => F | None => a end) l (fun _ _ _ => 0).
Lemma eval_field : forall srcs incs nodes time, Forall2 (incident nodes time) srcs incs ->
  exists g, evalTimeVarField srcs nodes time = Ok g /\
    forall f d i, g f d i = if isFd f d && inr (length nodes) i then lastInc incs (nth (Z.to_nat i) nodes []) f d else 0.
Proof.
  intros srcs incs nodes time F2. unfold evalTimeVarField, lastInc.
  set (step := fun (g : gfs) (s : source) => if isTotal s then _ else Ok g).
  assert (H : forall g a, (forall f d i, g f d i = if isFd f d && inr (length nodes) i then a (nth (Z.to_nat i) nodes []) f d else 0) ->
    exists g', foldM step srcs g = Ok g' /\ forall f d i, g' f d i = if isFd f d && inr (length nodes) i then fold_left (fun a o => match o with Some F => F | None => a end) incs a (nth (Z.to_nat i) nodes []) f d else 0).
  { induction F2 as [|s o srcs incs Hs F IH]; intros g a Hg; [exists g; split; [reflexivity|exact Hg]|]. cbn [fold_left foldM]. unfold step at 1.
    destruct o as [Fi|]; cbn [incident] in Hs.
    - destruct Hs as (Ht & Hs). rewrite Ht.
      destruct (field_one s nodes time Fi g Ht (fun p f d Ip Rf Rd => proj1 (Hs p f d Ip Rf Rd))) as (g1 & E1 & V1). rewrite E1. cbn [bind]. apply IH.
      intros f d i. rewrite V1, Hg. destruct (isFd f d && inr (length nodes) i); reflexivity.
    - rewrite Hs. cbn [bind]. apply IH. exact Hg. }
  apply H. intros. unfold zeroG. destruct (isFd f d && inr (length nodes) i); reflexivity.
Qed.
Definition hit (sb : submesh) (l : list Z) (i : Z) : bool :=
  existsb (fun e => match findZ (sb_map sb) e with None => false | Some k => existsb (Z.eqb i) (sb_dofs sb k) end) l.
Lemma findZ_in : forall l x, In x l -> exists k, findZ l x = Some k.
Proof.
  induction l as [|a l IH]; intros x I; [contradiction|]. cbn. destruct (Z.eqb_spec a x); [eauto|]. destruct I as [->|I]; [contradiction|].
  destruct (IH x I) as (k & ->). cbn. eauto.
Qed.
Lemma findZ_nth : forall l x k, findZ l x = Some k -> (0 <= k)%Z /\ nth_error l (Z.to_nat k) = Some x.
Proof.
  induction l as [|a l IH]; intros x k H; [discriminate|]. cbn in H. destruct (Z.eqb_spec a x) as [->|].
  - injection H as <-. split; [lia|reflexivity].
  - destruct (findZ l x) as [j|] eqn:E; [|discriminate]. cbn in H. injection H as <-. destruct (IH x j E) as (P & Q). split; [lia|].
    replace (Z.to_nat (Z.succ j)) with (S (Z.to_nat j)) by lia. exact Q.
Qed.
Lemma zero_dofs : forall (l : list Z) (g : gfs), exists g', foldM (fun g i => foldM (fun g fd => Ok (setG g (fst fd) (snd fd) i 0)) fds g) l g = Ok g' /\
  forall f d i, g' f d i = if isFd f d && existsb (Z.eqb i) l then 0 else g f d i.
Proof.
  induction l as [|k l IH]; intros g; [exists g; split; [reflexivity|]; intros; rewrite andb_false_r; reflexivity|].
  cbn [foldM]. destruct (IH (fun f d i => if isFd f d && (i =? k)%Z then 0 else g f d i)) as (g2 & E2 & V2).
  assert (E1 : forall f d i, setG (setG (setG (setG (setG (setG g 0 0 k 0) 0 1 k 0) 0 2 k 0) 1 0 k 0) 1 1 k 0) 1 2 k 0 f d i = if isFd f d && (i =? k)%Z then 0 else g f d i).
  { intros f d i. unfold setG, isFd, fds. cbn [existsb fst snd]. destruct (i =? k)%Z; rewrite ?andb_true_r, ?andb_false_r; [|reflexivity].
    rewrite orb_false_r. repeat match goal with |- context [((f =? ?a) && (d =? ?b))%Z] => destruct ((f =? a) && (d =? b))%Z; cbn [orb] end; reflexivity. }
  cbn [fds foldM fst snd bind].
  destruct (IH (setG (setG (setG (setG (setG (setG g 0 0 k 0) 0 1 k 0) 0 2 k 0) 1 0 k 0) 1 1 k 0) 1 2 k 0)) as (g3 & E3 & V3).
  exists g3. split; [exact E3|]. intros f d i. rewrite V3, E1. cbn [existsb]. destruct (isFd f d), (i =? k)%Z, (existsb (Z.eqb i) l); reflexivity.
Qed.
Lemma mark_spec : forall (sb : submesh) (b : bool) (g : gfs), incl (match (if b then sb_sf sb else sb_tf sb) with Some l => l | None => [] end) (sb_map sb) ->
  exists g', markDofs sb b g = Ok g' /\
    forall f d i, g' f d i = if isFd f d && hit sb (match (if b then sb_sf sb else sb_tf sb) with Some l => l | None => [] end) i then 0 else g f d i.
Proof.
  intros sb b. unfold markDofs, hit. generalize (match (if b then sb_sf sb else sb_tf sb) with Some l => l | None => [] end) as l.
  induction l as [|e l IH]; intros g I; [exists g; split; [reflexivity|]; intros; rewrite andb_false_r; reflexivity|].
  cbn [foldM]. destruct (findZ_in (sb_map sb) e (I e (or_introl eq_refl))) as (k & Ek). rewrite Ek.
  destruct (zero_dofs (sb_dofs sb k) g) as (g1 & E1 & V1). rewrite E1. cbn [bind].
  destruct (IH g1 (fun x X => I x (or_intror X))) as (g2 & E2 & V2). exists g2. split; [exact E2|].
  intros f d i. rewrite V2, V1. cbn [existsb]. rewrite Ek. destruct (isFd f d), (existsb (Z.eqb i) (sb_dofs sb k)); cbn [andb orb]; try reflexivity. destruct (existsb _ l); reflexivity.
Qed.
(** Dof [i] of the sub-mesh belongs to parent element [e]. *)
Definition dofOf (sb : submesh) (i e : Z) : Prop := exists k, (0 <= k)%Z /\ nth_error (sb_map sb) (Z.to_nat k) = Some e /\ In i (sb_dofs sb k).
Definition tfOf (sb : submesh) : list Z := match sb_tf sb with Some l => l | None => [] end.
Definition sfOf (sb : submesh) : list Z := match sb_sf sb with Some l => l | None => [] end.
(** Each dof is in one element, listed once, and the parts are made of elements of the sub-mesh. *)
Definition wellSplit (n : nat) (sb : submesh) : Prop :=
  NoDup (sb_map sb) /\ incl (tfOf sb) (sb_map sb) /\ incl (sfOf sb) (sb_map sb) /\
  forall i e e', (0 <= i < Z.of_nat n)%Z -> dofOf sb i e -> dofOf sb i e' -> e = e'.
Lemma hit_iff : forall n sb l i e, wellSplit n sb -> incl l (sb_map sb) -> (0 <= i < Z.of_nat n)%Z -> dofOf sb i e -> (hit sb l i = true <-> In e l).
Proof.
  intros n sb l i e (ND & _ & _ & U) Il Hi De. unfold hit. rewrite existsb_exists. split.
  - intros (e' & I' & X). destruct (findZ (sb_map sb) e') as [k|] eqn:Ek; [|discriminate]. destruct (findZ_nth _ _ _ Ek) as (K0 & Kn).
    rewrite existsb_exists in X. destruct X as (j & Ij & Q). apply Z.eqb_eq in Q. subst j.
    assert (D' : dofOf sb i e') by (exists k; auto). rewrite (U i e e' Hi De D'). exact I'.
  - intros I. exists e. split; [exact I|]. destruct (findZ_in (sb_map sb) e (Il e I)) as (k & Ek). rewrite Ek. destruct (findZ_nth _ _ _ Ek) as (K0 & Kn).
    destruct De as (k' & K0' & Kn' & Di). assert (k' = k).
    { assert (Z.to_nat k' = Z.to_nat k); [|lia]. apply (proj1 (NoDup_nth_error (sb_map sb)) ND); [apply nth_error_Some; congruence|congruence]. }
    subst k'. apply existsb_exists. exists i. split; [exact Di|apply Z.eqb_refl].
Qed.
Lemma sign_weight : forall n sb i w, wellSplit n sb -> (0 <= i < Z.of_nat n)%Z -> weight (dofOf sb) (tfOf sb) (sb_sf sb) i w -> tfsfSign sb i = w.
Proof.
  intros n sb i w WS Hi W. unfold tfsfSign, weight in *. destruct (sb_sf sb) as [l|] eqn:El; [|congruence].
  destruct W as (e & De & C). assert (Il : incl l (sb_map sb)) by (destruct WS as (_ & _ & I & _); unfold sfOf in I; rewrite El in I; exact I).
  pose proof (hit_iff n sb l i e WS Il Hi De) as HI. unfold hit in HI.
  destruct (existsb _ l); destruct C as [(I1 & I2 & ->)|(I1 & I2 & ->)]; try lra; exfalso.
  - apply I2, HI. reflexivity.
  - apply HI in I1. discriminate.
Qed.
Lemma direct_weight : forall srcs incs sb nodes time, Forall2 (incident nodes time) srcs incs -> wellSplit (length nodes) sb ->
  exists g, evalDirect srcs sb nodes time = Ok g /\
    forall f d i w, (0 <= f <= 1)%Z -> (0 <= d <= 2)%Z -> (0 <= i < Z.of_nat (length nodes))%Z -> weight (dofOf sb) (tfOf sb) (sb_sf sb) i w ->
      g f d i = w * total (fun o => optInc o (nth (Z.to_nat i) nodes []) f d) incs.
Proof.
  intros srcs incs sb nodes time F2 WS. destruct (eval_direct srcs incs sb nodes time F2) as (g & E & V). exists g. split; [exact E|].
  intros f d i w Rf Rd Hi Hw. rewrite V, isFd_range by assumption. rewrite (proj2 (inr_iff (length nodes) i) Hi). cbn [andb]. rewrite (sign_weight (length nodes) sb i w WS Hi Hw). reflexivity.
Qed.
Lemma fallback_weight : forall srcs incs sb nodes time, Forall2 (incident nodes time) srcs incs -> wellSplit (length nodes) sb ->
  exists g, evalFallback srcs sb nodes time = Ok g /\
    forall f d i w, (0 <= f <= 1)%Z -> (0 <= d <= 2)%Z -> (0 <= i < Z.of_nat (length nodes))%Z -> weight (dofOf sb) (tfOf sb) (sb_sf sb) i w ->
      g f d i = w * lastInc incs (nth (Z.to_nat i) nodes []) f d.
Proof.
  intros srcs incs sb nodes time F2 WS. destruct (eval_field srcs incs nodes time F2) as (r & E & V). unfold evalFallback. rewrite E. cbn [bind].
  destruct WS as (ND & It & Is & U) eqn:EW. clear EW. assert (WS' : wellSplit (length nodes) sb) by exact WS.
  destruct (mark_spec sb true r Is) as (r1 & E1 & V1). rewrite E1. cbn [bind].
  destruct (mark_spec sb false r It) as (q & E2 & V2). fold (sfOf sb) in V1. fold (tfOf sb) in V2.
  destruct (sb_sf sb) as [l|] eqn:El.
  - rewrite E2. cbn [bind]. eexists. split; [reflexivity|]. intros f d i w Rf Rd Hi (e & De & C).
    assert (Esf : sfOf sb = l) by (unfold sfOf; rewrite El; reflexivity).
    pose proof (hit_iff (length nodes) sb (sfOf sb) i e WS' Is Hi De) as H1. pose proof (hit_iff (length nodes) sb (tfOf sb) i e WS' It Hi De) as H2.
    rewrite V1, V2, V, isFd_range by assumption. rewrite (proj2 (inr_iff (length nodes) i) Hi). cbn [andb]. rewrite Esf in *.
    destruct C as [(I1 & I2 & ->)|(I1 & I2 & ->)].
    + replace (hit sb l i) with false by (symmetry; destruct (hit sb l i); [exfalso; apply I2, H1; reflexivity|reflexivity]).
      rewrite (proj2 H2 I1). lra.
    + replace (hit sb (tfOf sb) i) with false by (symmetry; destruct (hit sb (tfOf sb) i); [exfalso; apply I2, H2; reflexivity|reflexivity]).
      rewrite (proj2 H1 I1). lra.
  - eexists. split; [reflexivity|]. intros f d i w Rf Rd Hi ->. rewrite V1, V, isFd_range by assumption. rewrite (proj2 (inr_iff (length nodes) i) Hi). cbn [andb].
    unfold sfOf. rewrite El. cbn [hit existsb]. ring.
Qed.
Definition isSome {A} (o : option A) : bool := match o with Some _ => true | None => false end.
Lemma last_one : forall incs p f d, length (filter isSome incs) = 1%nat -> lastInc incs p f d = total (fun o => optInc o p f d) incs.
Proof.
  intros incs p f d. unfold lastInc. generalize (fun (_ : list R) (_ _ : Z) => 0) as a.
  assert (N : forall l a, filter isSome l = [] -> fold_left (fun a o => match o with Some F => F | None => a end) l a p f d = a p f d /\ total (fun o => optInc o p f d) l = 0).
  { induction l as [|[F|] l IH]; intros a H; [split; reflexivity|discriminate|]. destruct (IH a H) as (A & B). split; [exact A|]. unfold total in *. cbn [fold_right optInc]. rewrite B. ring. }
  induction incs as [|[F|] l IH]; intros a H; [discriminate| |].
  - cbn [filter isSome length] in H. injection H as H. apply length_zero_iff_nil in H. destruct (N l F H) as (A & B). cbn [fold_left]. rewrite A. unfold total in *. cbn [fold_right optInc]. rewrite B. ring.
  - cbn [fold_left]. rewrite (IH a H). unfold total. cbn [fold_right optInc]. ring.
Qed.
(** The loop of the matrix operator. *)
Lemma inject_count : forall srcs incs sb nodes time inj out g, Forall2 (incident nodes time) srcs incs -> evalFallback srcs sb nodes time = Ok g ->
  exists o, maxwellSources srcs sb nodes time inj out = Ok o /\ forall r, o r = out r - INR (length (filter isSome incs)) * inj g r.
Proof.
  intros srcs incs sb nodes time inj out g F2 E. unfold maxwellSources. rewrite E.
  revert out. generalize F2. intros F2'. clear E.
  assert (G : forall s1 i1, Forall2 (incident nodes time) s1 i1 -> forall out, exists o, foldM (fun out s => if isTotal s then g0 <- Ok g ;; Ok (fun r => out r - inj g0 r) else Ok out) s1 out = Ok o /\
     forall r, o r = out r - INR (length (filter isSome i1)) * inj g r).
  { intros s1 i1 F1. induction F1 as [|s o s1 i1 Hs F IH]; intros out; [exists out; split; [reflexivity|]; intros; cbn; ring|].
    cbn [foldM]. destruct o as [Fi|]; cbn [incident] in Hs.
    - destruct Hs as (-> & _). cbn [bind]. destruct (IH (fun r => out r - inj g r)) as (o & Eo & Vo). exists o. split; [exact Eo|]. intros r. rewrite Vo. cbn [filter isSome length]. rewrite S_INR. ring.
    - rewrite Hs. cbn [bind]. apply IH. }
  apply G. exact F2'.
Qed.
Lemma matrix_one : forall srcs incs sb nodes time inj out, Forall2 (incident nodes time) srcs incs -> wellSplit (length nodes) sb -> length (filter isSome incs) = 1%nat ->
  exists g o, evalFallback srcs sb nodes time = Ok g /\ maxwellSources srcs sb nodes time inj out = Ok o /\ (forall r, o r = out r - inj g r) /\
    forall f d i w, (0 <= f <= 1)%Z -> (0 <= d <= 2)%Z -> (0 <= i < Z.of_nat (length nodes))%Z -> weight (dofOf sb) (tfOf sb) (sb_sf sb) i w ->
      g f d i = w * total (fun o => optInc o (nth (Z.to_nat i) nodes []) f d) incs.
Proof.
  intros srcs incs sb nodes time inj out F2 WS L1. destruct (fallback_weight srcs incs sb nodes time F2 WS) as (g & Eg & Vg).
  destruct (inject_count srcs incs sb nodes time inj out g F2 Eg) as (o & Eo & Vo). exists g, o. split; [exact Eg|]. split; [exact Eo|]. split.
  - intros r. rewrite Vo, L1. cbn [INR]. ring.
  - intros f d i w Rf Rd Hi Hw. rewrite (Vg f d i w Rf Rd Hi Hw), last_one by exact L1. reflexivity.
Qed.
Lemma init_order : forall n srcs ids srcs' ids' nodes fields, Forall (fun p : list R => length p = n) nodes -> Forall2 (realises n) srcs ids -> Forall2 (realises n) srcs' ids' ->
  Permutation ids ids' -> exists g g', setInitialFields srcs nodes fields = Ok g /\ setInitialFields srcs' nodes fields = Ok g' /\ forall f d i, g f d i = g' f d i.
Proof.
  intros n srcs ids srcs' ids' nodes fields Hn F F' P. destruct (init_fields n srcs ids nodes fields Hn F) as (g & E & V). destruct (init_fields n srcs' ids' nodes fields Hn F') as (g' & E' & V').
  exists g, g'. split; [exact E|]. split; [exact E'|]. intros f d i. rewrite V, V'. rewrite (total_perm _ _ _ P). reflexivity.
Qed.
Lemma init_undriven : forall n srcs ids nodes fields f d, Forall (fun p : list R => length p = n) nodes -> Forall2 (realises n) srcs ids ->
  (forall a, In (Some a) ids -> id_ft a <> f \/ nth (Z.to_nat d) (id_pol a) 0 = 0) ->
  exists g, setInitialFields srcs nodes fields = Ok g /\ forall i, g f d i = fields f d i.
Proof.
  intros n srcs ids nodes fields f d Hn F H. destruct (init_fields n srcs ids nodes fields Hn F) as (g & E & V). exists g. split; [exact E|]. intros i. rewrite V.
  destruct (isFd f d && inr (length nodes) i); [|ring]. rewrite total_zero; [ring|]. intros [a|] Ia; [|reflexivity]. cbn [optAt]. unfold idealAt.
  destruct (Z.eqb_spec f (id_ft a)) as [->|]; [|reflexivity]. destruct (H a Ia) as [X| ->]; [congruence|ring].
Qed.

From Coq Require Import ZArith List Bool Reals String Lra Lia Permutation.
From Verif Require Import Common Rcs_Model Merge_Model Merge_Spec.
Import ListNotations.
Local Open Scope R_scope.

Lemma read_holds : forall r name rows, holds r name rows -> readDataFile (rd_file r name) = Ok rows.
Proof.
  intros r name rows (h & lines & E & F). rewrite E. cbn [readDataFile]. clear E. induction F as [|l d ls ds H F IH]; [reflexivity|].
  cbn [mapM]. destruct H as (rest & ->). cbn [readRow bind]. rewrite IH. cbn [bind]. now destruct d.
Qed.
Lemma addAll_nth : forall a b i x y, nth_error a i = Some x -> nth_error b i = Some y ->
  nth_error (addAll a b) i = Some (mkRD (d_theta x) (d_phi x) (d_freq x) (d_pot x + d_pot y) (d_norm x + d_norm y)).
Proof.
  induction a as [|x0 a IH]; intros [|y0 b] [|i] x y Hx Hy; try discriminate; cbn in *.
  - injection Hx as <-. injection Hy as <-. reflexivity.
  - now apply IH.
Qed.
Lemma addAll_length : forall a b, List.length (addAll a b) = List.length a.
Proof. induction a as [|x a IH]; intros [|y b]; cbn; auto. Qed.

Lemma merge_value : forall name first others rows0 rest,
  holds first name rows0 -> Forall2 (fun r rows => holds r name rows) others rest ->
  Forall (fun rows => List.length rows = List.length rows0) rest ->
  exists out, mergeFile name first others = Ok out /\ List.length out = List.length rows0 /\
    forall i d, nth_error out i = Some d -> mergedRow i (rows0 :: rest) d.
Proof.
  intros name first others rows0 rest H0 HF HL. unfold mergeFile. rewrite (read_holds _ _ _ H0). cbn [bind].
  assert (G : forall others rest base done, Forall2 (fun r rows => holds r name rows) others rest ->
    Forall (fun rows => List.length rows = List.length base) rest ->
    (forall i d, nth_error base i = Some d -> mergedRow i done d) ->
    exists out, foldM (fun acc r => rows <- readDataFile (rd_file r name) ;; addRows acc rows) others base = Ok out /\
      List.length out = List.length base /\ forall i d, nth_error out i = Some d -> mergedRow i (done ++ rest) d).
  { clear. induction others as [|r others IH]; intros rest base done HF HL HB; inversion HF; subst.
    - exists base. cbn [foldM]. rewrite app_nil_r. auto.
    - inversion HL; subst. cbn [foldM]. rewrite (read_holds _ _ _ H1). cbn [bind]. unfold addRows.
      rewrite (proj2 (Nat.eqb_eq _ _) (eq_sym H2)). cbn [bind].
      destruct (IH l' (addAll base y) (done ++ [y]) H3) as (out & E & L & V).
      + rewrite addAll_length. assumption.
      + intros i d Hd.
        assert (Hi : (i < List.length base)%nat). { rewrite <- (addAll_length base y). apply nth_error_Some. rewrite Hd. discriminate. }
        destruct (nth_error base i) as [x|] eqn:Ex; [|apply nth_error_None in Ex; lia].
        destruct (nth_error y i) as [z|] eqn:Ez; [|apply nth_error_None in Ez; lia].
        rewrite (addAll_nth _ _ _ _ _ Ex Ez) in Hd. injection Hd as <-.
        destruct (HB i x Ex) as (each & F & (x0 & tl & -> & A1 & A2 & A3) & P & N).
        exists ((x0 :: tl) ++ [z]). split; [apply Forall2_app; [assumption|constructor; [assumption|constructor]]|].
        assert (S : forall g : rowData -> R, rsum (map g ((x0 :: tl) ++ [z])) = rsum (map g (x0 :: tl)) + g z).
        { intros g. rewrite map_app. generalize (map g (x0 :: tl)). induction l as [|q l IHl]; cbn; [ring|]. cbn in IHl. rewrite IHl. ring. }
        split; [exists x0, (tl ++ [z]); repeat split; assumption|]. cbn [d_pot d_norm]. rewrite !S, P, N. auto.
      + exists out. split; [exact E|]. rewrite addAll_length in L. split; [exact L|]. intros i d Hd. specialize (V i d Hd). now rewrite <- app_assoc in V. }
  apply (G others rest rows0 [rows0] HF HL). intros i d Hd. exists [d]. split; [constructor; [assumption|constructor]|].
  split; [exists d, []; auto|]. cbn. split; ring.
Qed.

Lemma rsum_perm : forall l m, Permutation l m -> rsum l = rsum m.
Proof. induction 1; cbn; lra. Qed.

Lemma Forall2_perm : forall (X Y : Type) (P : X -> Y -> Prop) l l' m, Permutation l l' -> Forall2 P l m ->
  exists m', Permutation m m' /\ Forall2 P l' m'.
Proof.
  intros X Y P l l' m HP. revert m. induction HP; intros m HF.
  - inversion HF; subst. exists []. auto.
  - inversion HF; subst. destruct (IHHP _ H3) as (m' & Pm & Fm). exists (y :: m'). split; constructor; auto.
  - inversion HF; subst. inversion H3; subst. exists (y1 :: y0 :: l'0). split; [apply perm_swap|]. repeat constructor; auto.
  - destruct (IHHP1 _ HF) as (m1 & P1 & F1). destruct (IHHP2 _ F1) as (m2 & P2 & F2). exists m2. split; [eapply perm_trans; eauto|auto].
Qed.

Lemma grid_length : forall a b, sameGrid a b -> List.length b = List.length a.
Proof. intros a b H. unfold sameGrid in H. induction H; cbn; congruence. Qed.
(** Two orders of the same ranks give the same rows, if the ranks agree on the grid. *)
Lemma merge_order : forall name first others first' others' perRank rows0,
  Permutation (first :: others) (first' :: others') ->
  Forall2 (fun r rows => holds r name rows) (first :: others) perRank ->
  Forall (fun rows => sameGrid rows0 rows) perRank ->
  exists out, mergeFile name first others = Ok out /\ mergeFile name first' others' = Ok out.
Proof.
  intros name first others first' others' perRank rows0 HP HF HG.
  destruct (Forall2_perm _ _ _ _ _ _ HP HF) as (perRank' & PP & HF').
  assert (HG' : Forall (fun rows => sameGrid rows0 rows) perRank') by (rewrite Forall_forall in *; intros x Hx; apply HG; now apply (Permutation_in x (Permutation_sym PP))).
  assert (LG : forall rows, sameGrid rows0 rows -> List.length rows = List.length rows0) by (intros rows H; now apply grid_length).
  inversion HF; subst. inversion HF'; subst. inversion HG; subst. inversion HG'; subst.
  destruct (merge_value name first others y l' H1 H3) as (out & E & L & V).
  { rewrite Forall_forall in *. intros x Hx. rewrite (LG _ H4). now apply LG, H6. }
  destruct (merge_value name first' others' y0 l'0 H2 H5) as (out' & E' & L' & V').
  { rewrite Forall_forall in *. intros x Hx. rewrite (LG _ H7). now apply LG, H8. }
  exists out. split; [exact E|]. rewrite E'. f_equal.
  assert (LE : List.length out' = List.length out) by (rewrite L, L', (LG _ H4), (LG _ H7); reflexivity).
  assert (EXT : forall a b : list rowData, List.length a = List.length b -> (forall i x y, nth_error a i = Some x -> nth_error b i = Some y -> x = y) -> a = b).
  { clear. induction a as [|x a IH]; intros [|z b] Hl H; try discriminate; [reflexivity|]. f_equal.
    - exact (H 0%nat x z eq_refl eq_refl).
    - apply IH; [now injection Hl|]. intros i u v Hu Hv. exact (H (S i) u v Hu Hv). }
  apply EXT; [exact LE|]. intros i d d' Hd Hd'.
  destruct (V' i d Hd) as (each' & F' & (x0' & tl' & -> & A1' & A2' & A3') & P' & N').
  destruct (V i d' Hd') as (each & F & (x0 & tl & -> & A1 & A2 & A3) & P & N).
  assert (PE : Permutation (x0 :: tl) (x0' :: tl')).
  { destruct (Forall2_perm _ _ _ _ _ _ PP F) as (m & Pm & Fm).
    assert (U : forall a b c : _, Forall2 (fun (rows : list rowData) (x : rowData) => nth_error rows i = Some x) a b -> Forall2 (fun rows x => nth_error rows i = Some x) a c -> b = c).
    { clear. induction a as [|r a IH]; intros b c Hb Hc; inversion Hb; subst; inversion Hc; subst; [reflexivity|]. f_equal; [congruence|]. now apply IH. }
    rewrite (U _ _ _ F' Fm). exact Pm. }
  inversion F; subst. inversion F'; subst.
  assert (GR : forall rows x, sameGrid rows0 rows -> nth_error rows i = Some x -> exists z, nth_error rows0 i = Some z /\ d_theta z = d_theta x /\ d_phi z = d_phi x /\ d_freq z = d_freq x).
  { clear. intros rows x H. revert i. induction H as [|a b la lb (H1 & H2 & H3) H IH]; intros [|i] E; try discriminate.
    - cbn in *. injection E as <-. eauto.
    - cbn in *. now apply IH. }
  destruct (GR y x0 H4 ltac:(assumption)) as (z & Z0 & Z1 & Z2 & Z3). destruct (GR y0 x0' H7 ltac:(assumption)) as (z' & Z0' & Z1' & Z2' & Z3').
  assert (z = z') by congruence. subst z'.
  assert (SP : forall g : rowData -> R, rsum (map g (x0 :: tl)) = rsum (map g (x0' :: tl'))) by (intros; apply rsum_perm; now apply Permutation_map).
  destruct d as [t p f q n], d' as [t' p' f' q' n']. cbn [d_theta d_phi d_freq d_pot d_norm] in *. rewrite (SP d_pot) in P. rewrite (SP d_norm) in N. f_equal; congruence.
Qed.

(** Errors. *)
Lemma merge_missing : forall name first others r, In r (first :: others) -> rd_file r name = None -> mergeFile name first others <> UB /\ forall out, mergeFile name first others <> Ok out.
Proof.
  intros name first others r Hin Hn. unfold mergeFile.
  assert (NU : forall f, readDataFile f <> UB).
  { intros [[|h l]|]; cbn; try discriminate. induction l as [|x l IH]; [discriminate|]. cbn [mapM].
    destruct (readRow x) eqn:E; cbn [bind]; [|discriminate|].
    - destruct (mapM readRow l); cbn [bind]; congruence.
    - exfalso. unfold readRow in E. repeat (match type of E with match ?y with _ => _ end = _ => destruct y end; try discriminate). }
  destruct Hin as [->|Hin].
  - rewrite Hn. cbn. split; [discriminate|intros; discriminate].
  - destruct (readDataFile (rd_file first name)) as [base| |] eqn:E; cbn [bind]; [|split; [discriminate|intros; discriminate]|now apply NU in E].
    clear E. revert base. induction others as [|r0 others IH]; intros base; [destruct Hin|]. cbn [foldM].
    destruct Hin as [->|Hin].
    + rewrite Hn. cbn. split; [discriminate|intros; discriminate].
    + destruct (readDataFile (rd_file r0 name)) as [rows| |] eqn:E; cbn [bind]; [|split; [discriminate|intros; discriminate]|now apply NU in E].
      unfold addRows. destruct (Nat.eqb _ _); cbn [bind]; [now apply IH|split; [discriminate|intros; discriminate]].
Qed.
Lemma read_malformed : forall header lines l, In l lines -> (forall d, ~ rowLine l d) -> readDataFile (Some (header :: lines)) = Throw.
Proof.
  intros header lines l Hin Hm. cbn [readDataFile].
  assert (RT : readRow l = Throw).
  { unfold readRow. destruct l as [|[a|] [|[b|] [|[c|] [|[d|] [|[e|] l]]]]]; try reflexivity.
    exfalso. apply (Hm (mkRD a b c d e)). exists l. reflexivity. }
  assert (RO : forall x, readRow x = Throw \/ exists d, readRow x = Ok d).
  { intros x. unfold readRow. destruct x as [|[a|] [|[b|] [|[c|] [|[d|] [|[e|] x]]]]]; eauto. }
  induction lines as [|x lines IH]; [destruct Hin|]. cbn [mapM]. destruct Hin as [->|Hin]; [now rewrite RT|].
  destruct (RO x) as [->|(d & ->)]; [reflexivity|]. cbn [bind]. now rewrite IH.
Qed.
Lemma merge_mismatch : forall name first r others rows0 rows, holds first name rows0 -> holds r name rows -> List.length rows <> List.length rows0 ->
  mergeFile name first (r :: others) = Throw.
Proof.
  intros name first r others rows0 rows H0 H1 N. unfold mergeFile. rewrite (read_holds _ _ _ H0). cbn [bind foldM].
  rewrite (read_holds _ _ _ H1). cbn [bind]. unfold addRows. destruct (Nat.eqb_spec (List.length rows0) (List.length rows)); [congruence|reflexivity].
Qed.

(** * The incident wave *)
Lemma no_plane : forall meshDir sources, Forall (fun s => j_plane s = false) sources ->
  buildPlaneWaveData meshDir sources = Ok (mkPw (- 10 ^ 5) (- 10 ^ 5) 0).
Proof.
  intros meshDir sources H. unfold buildPlaneWaveData.
  assert (E : forall st, fold_left (readSource meshDir) sources st = st).
  { induction H as [|s l Hs H IH]; intros st; [reflexivity|]. cbn [fold_left]. unfold readSource at 2. rewrite Hs. apply IH. }
  rewrite E. cbn [pw_spread pw_mean].
  assert (A : Rabs (- 10 ^ 5 - 10 ^ 5) >= 1) by (rewrite Rabs_left; lra).
  destruct (Rlt_dec _ _); [lra|reflexivity].
Qed.

Lemma fold_min : forall l p, In (fold_left Rmin l p) (p :: l) /\ forall q, In q (p :: l) -> fold_left Rmin l p <= q.
Proof.
  induction l as [|x l IH]; intros p; cbn [fold_left].
  - split; [now left|]. intros q [<-|[]]. lra.
  - destruct (IH (Rmin p x)) as [A B]. split.
    + destruct A as [A|A]; [|right; now right]. rewrite <- A. unfold Rmin. destruct (Rle_dec p x); [now left|right; now left].
    + intros q [<-|[<-|Hq]].
      * eapply Rle_trans; [apply B; now left|apply Rmin_l].
      * eapply Rle_trans; [apply B; now left|apply Rmin_r].
      * apply B. now right.
Qed.
Lemma minPhase_spec : forall l, (l = [] /\ minPhase (map (fun p => p / speedOfLight) l) = 0) \/
  (In (minPhase (map (fun p => p / speedOfLight) l)) l /\ forall p, In p l -> minPhase (map (fun p => p / speedOfLight) l) <= p).
Proof.
  intros l. assert (E : map (fun p => p / speedOfLight) l = l) by (rewrite <- (map_id l) at 2; apply map_ext; intros; unfold speedOfLight; field).
  rewrite E. destruct l as [|p l]; [left; split; reflexivity|right]. unfold minPhase. apply fold_min.
Qed.

Lemma plane_read : forall meshDir st s, j_plane s = true -> normR3 (j_prop s) <> 0 ->
  pw_spread (readSource meshDir st s) = j_spread s /\ waveMean meshDir s (pw_mean (readSource meshDir st s)) /\
  (forall f, j_freq s = Some f -> pw_freq (readSource meshDir st s) = f / speedOfLight_SI) /\
  (j_freq s = None -> pw_freq (readSource meshDir st s) = pw_freq st).
Proof.
  intros meshDir st s Hp Hn. unfold readSource. rewrite Hp. cbn [pw_spread pw_mean pw_freq]. split; [reflexivity|]. split.
  - unfold waveMean. destruct (j_mean s) as [[[x y] z]|].
    + destruct (j_prop s) as [[u v] w]. unfold normR3, dotR3, scaleR3 in *. replace (u ^ 2 + v ^ 2 + w ^ 2) with (u * u + v * v + w * w) by ring. field. exact Hn.
    + destruct (meshDir && j_tagged s)%bool.
      * exists (minPhase (map (fun p => p / speedOfLight) (j_phases s))). split; [ring|apply minPhase_spec].
      * exists 0. split; [ring|reflexivity].
  - split; [intros f ->; reflexivity | intros ->; reflexivity].
Qed.

(** The last plane wave is reported, unless its spread or mean is within 1e-6 of 1e5. *)
Lemma plane_accepted : forall meshDir before s after, j_plane s = true -> normR3 (j_prop s) <> 0 -> Forall (fun x => j_plane x = false) after ->
  Rabs (j_spread s - 10 ^ 5) >= 1 / 10 ^ 6 ->
  (forall m, waveMean meshDir s m -> Rabs (m - 10 ^ 5) >= 1 / 10 ^ 6) ->
  exists pw, buildPlaneWaveData meshDir (before ++ s :: after) = Ok pw /\ pw_spread pw = j_spread s /\ waveMean meshDir s (pw_mean pw) /\
    (forall f, j_freq s = Some f -> pw_freq pw = f / speedOfLight_SI).
Proof.
  intros meshDir before s after Hp Hn Ha H1 H2. unfold buildPlaneWaveData. rewrite fold_left_app. cbn [fold_left].
  assert (E : forall st, fold_left (readSource meshDir) after st = st).
  { induction Ha as [|x l Hs H IH]; intros st; [reflexivity|]. cbn [fold_left]. unfold readSource at 2. rewrite Hs. apply IH. }
  rewrite E. set (st := fold_left (readSource meshDir) before (mkPw (- 10 ^ 5) (- 10 ^ 5) 0)).
  destruct (plane_read meshDir st s Hp Hn) as (A & B & C & _). rewrite A.
  destruct (Rlt_dec _ _) as [L|_]; [exfalso; lra|]. specialize (H2 _ B). destruct (Rlt_dec _ _) as [L|_]; [exfalso; lra|].
  eexists. split; [reflexivity|]. auto.
Qed.

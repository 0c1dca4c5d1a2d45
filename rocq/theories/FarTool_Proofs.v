From Coq Require Import ZArith List Bool Reals Lra Lia Psatz Permutation ZifyBool.
From Verif Require Import Common Rcs_Model Rcs_Spec Rcs_Proofs Merge_Model Far_Model Far_Spec Far_Proofs.
Import ListNotations.
Local Open Scope R_scope.

Lemma mapM_pure : forall {A B} (f : A -> res B) (g : A -> B) l, (forall a, In a l -> f a = Ok (g a)) -> mapM f l = Ok (map g l).
Proof.
  intros A B f g l. induction l as [|x l IH]; intros H; [reflexivity|]. cbn [mapM map]. rewrite H by (now left). cbn [bind].
  rewrite IH by (intros; apply H; now right). reflexivity.
Qed.
Lemma mapM_ext : forall {A B} (f g : A -> res B) l, (forall a, In a l -> f a = g a) -> mapM f l = mapM g l.
Proof.
  intros A B f g l. induction l as [|x l IH]; intros H; [reflexivity|]. cbn [mapM]. rewrite H by (now left). rewrite IH by (intros; apply H; now right). reflexivity.
Qed.

(** What a rank contributes. *)
Definition times (r : frank) : list R := map (fun s => sn_t s / speedOfLight) (k_snaps r).
Lemma times_eq : forall r, times r = map sn_t (k_snaps r).
Proof. intros. unfold times, speedOfLight. apply map_ext. intros. field. Qed.

Lemma entry_ok : forall s l m r f a, meanAlong s = Some m -> readable r -> offOrigin r ->
  entry (s :: l) r f a = Ok (Some (farPower r f a),
     omul (rdiv (4 * PI) (INR (length (k_snaps r)) * toolPower s m r f)) (Some (farPower r f a)),
     if (k_dim r =? 2)%Z then rdiv speedOfLight f else omul (rdiv speedOfLight f) (rdiv speedOfLight f)).
Proof.
  intros s l m r f a M H O. unfold entry. rewrite (pot_value r f a H O). cbn [bind]. fold (times r). rewrite times_eq.
  rewrite (incoming_value s l m); [|assumption|]. 2:{ destruct H as (_ & _ & H). destruct (k_snaps r); [congruence|discriminate]. }
  cbn [bind]. rewrite map_length. reflexivity.
Qed.
Lemma INR_snaps : forall r, readable r -> 0 < INR (length (k_snaps r)).
Proof. intros r (_ & _ & H). apply lt_0_INR. destruct (k_snaps r); [congruence|cbn; lia]. Qed.
Lemma entry_finite : forall s l m r f a, meanAlong s = Some m -> readable r -> offOrigin r -> f <> 0 -> toolPower s m r f <> 0 ->
  entry (s :: l) r f a = Ok (Some (farPower r f a), Some (toolSection s m r f a), Some (if (k_dim r =? 2)%Z then 1 / f else (1 / f) ^ 2)).
Proof.
  intros s l m r f a M H O F P. rewrite (entry_ok s l m r f a M H O). pose proof (INR_snaps r H) as N. unfold rdiv, omul, speedOfLight.
  destruct (Req_EM_T (INR (length (k_snaps r)) * toolPower s m r f) 0) as [E|E]; [apply Rmult_integral in E; destruct E; lra|].
  destruct (Req_EM_T f 0); [contradiction|]. unfold toolSection. destruct (k_dim r =? 2)%Z; repeat f_equal. ring.
Qed.

(** The files of a rank. *)
Definition oneFile (v : R -> option R) (n : R -> option R) (freqs : list R) (a : angle) : file :=
  [] :: map (fun f => printed a f (v f) (n f)) freqs.
Definition named (n : Z * Z) (a : angle) : bool := (Z.eqb (fst n) (fst (fileName a)) && Z.eqb (snd n) (snd (fileName a)))%bool.
Lemma named_iff : forall n a, named n a = true <-> n = fileName a.
Proof. intros [x y] a. unfold named. destruct (fileName a) as [u v]. cbn [fst snd]. split; [intros H; f_equal; lia|intros [= -> ->]; lia]. Qed.

Section Rank.
Variables (sources : list srcJson) (freqs : list R) (r : frank).
Variables (P S N : angle -> R -> option R).
Lemma angleFiles_ok : forall a, (forall f, In f freqs -> entry sources r f a = Ok (P a f, S a f, N a f)) ->
  angleFiles sources r freqs a = Ok (oneFile (P a) (N a) freqs a, oneFile (S a) (N a) freqs a).
Proof.
  intros a H. unfold angleFiles. rewrite (mapM_pure _ (fun f => (f, (P a f, S a f, N a f)))).
  2:{ intros f I. rewrite (H f I). reflexivity. }
  cbn [bind]. unfold oneFile. rewrite !map_map. reflexivity.
Qed.
Definition putFiles (m : (Z * Z -> option file) * (Z * Z -> option file)) (a : angle) (ff : file * file) :=
  ((fun n => if named n a then Some (fst ff) else fst m n), (fun n => if named n a then Some (snd ff) else snd m n)).
Lemma files_loop : forall angles m0,
  (forall a, In a angles -> forall f, In f freqs -> entry sources r f a = Ok (P a f, S a f, N a f)) ->
  exists m, foldM (fun m a => ff <- angleFiles sources r freqs a ;; Ok (putFiles m a ff)) angles m0 = Ok m /\
    forall a, (In a angles \/ (fst m0 (fileName a) = Some (oneFile (P a) (N a) freqs a) /\ snd m0 (fileName a) = Some (oneFile (S a) (N a) freqs a))) ->
      (forall b, In b angles -> fileName b = fileName a -> b = a) ->
      fst m (fileName a) = Some (oneFile (P a) (N a) freqs a) /\ snd m (fileName a) = Some (oneFile (S a) (N a) freqs a).
Proof.
  induction angles as [|b l IH]; intros m0 H.
  - exists m0. split; [reflexivity|]. intros a [[]|E] _. exact E.
  - cbn [foldM]. rewrite (angleFiles_ok b) by (intros; apply H; [now left|assumption]). cbn [bind].
    set (m1 := putFiles m0 b _). destruct (IH m1) as (m & E & V); [intros; apply H; [now right|assumption]|]. exists m. split; [exact E|].
    intros a D U. apply V; [|intros; apply U; [now right|assumption]].
    destruct (named (fileName a) b) eqn:Nm.
    + apply named_iff in Nm. assert (b = a) by (apply U; [now left|now symmetry]). subst b. right. unfold m1, putFiles. cbn [fst snd].
      replace (named (fileName a) a) with true by (symmetry; now apply named_iff). split; reflexivity.
    + destruct D as [[->|D]|D]; [|now left|].
      * exfalso. rewrite (proj2 (named_iff (fileName a) a) eq_refl) in Nm. discriminate.
      * right. unfold m1, putFiles. cbn [fst snd]. rewrite Nm. exact D.
Qed.
Lemma rankFiles_ok : forall angles, checkAngles (k_dim r) angles = true ->
  (forall a, In a angles -> forall f, In f freqs -> entry sources r f a = Ok (P a f, S a f, N a f)) ->
  (forall a b, In a angles -> In b angles -> fileName b = fileName a -> b = a) ->
  exists m, rankFiles sources freqs angles r = Ok m /\
    forall a, In a angles -> fst m (fileName a) = Some (oneFile (P a) (N a) freqs a) /\ snd m (fileName a) = Some (oneFile (S a) (N a) freqs a).
Proof.
  intros angles C H U. unfold rankFiles. rewrite C. cbn [negb].
  destruct (files_loop angles (fun _ => None, fun _ => None) H) as (m & E & V). exists m. split; [exact E|]. intros a Ia. apply V; [now left|]. intros b Ib. now apply U.
Qed.
End Rank.

(** Reading a file back, and adding the files of the ranks. *)
Lemma read_ok : forall v n freqs a, readDataFile (Some (oneFile (fun f => Some (v f)) (fun f => Some (n f)) freqs a)) =
  Ok (map (fun f => mkRD (fst a) (snd a) (f * speedOfLight_SI) (v f) (n f)) freqs).
Proof. intros. unfold readDataFile, oneFile. induction freqs as [|f l IH]; [reflexivity|]. cbn [map mapM]. cbn [readRow printed bind]. now rewrite IH. Qed.
Lemma read_bad : forall v n freqs a f, In f freqs -> (v f = None \/ n f = None) -> readDataFile (Some (oneFile v n freqs a)) = Throw.
Proof.
  intros v n freqs a f I H. unfold readDataFile, oneFile. induction freqs as [|g l IH]; [destruct I|]. cbn [map mapM].
  destruct I as [->|I].
  - replace (readRow (printed a f (v f) (n f))) with (@Throw rowData); [reflexivity|]. unfold readRow, printed. destruct H as [-> | ->]; [reflexivity|]. now destruct (v f).
  - rewrite (IH I). destruct (readRow (printed a g (v g) (n g))) eqn:E; cbn [bind]; [reflexivity|reflexivity|].
    unfold readRow, printed in E. destruct (v g), (n g); discriminate.
Qed.
Definition rowsOf (a : angle) (freqs : list R) (v n : R -> R) : list rowData := map (fun f => mkRD (fst a) (snd a) (f * speedOfLight_SI) (v f) (n f)) freqs.
Lemma addRows_ok : forall a freqs v n v' n', addRows (rowsOf a freqs v n) (rowsOf a freqs v' n') = Ok (rowsOf a freqs (fun f => v f + v' f) (fun f => n f + n' f)).
Proof.
  intros. unfold addRows, rowsOf. rewrite !map_length, Nat.eqb_refl. f_equal. induction freqs as [|f l IH]; [reflexivity|]. cbn [map addAll]. now rewrite IH.
Qed.
Lemma rowsOf_ext : forall a freqs v n v' n', (forall f, In f freqs -> v f = v' f /\ n f = n' f) -> rowsOf a freqs v n = rowsOf a freqs v' n'.
Proof. intros. unfold rowsOf. apply map_ext_in. intros f I. destruct (H f I) as [-> ->]. reflexivity. Qed.
Lemma merge_ok : forall {X} a freqs (v n : X -> R -> R) (dir : X -> Z * Z -> option file) xs,
  (forall x, In x xs -> dir x (fileName a) = Some (oneFile (fun f => Some (v x f)) (fun f => Some (n x f)) freqs a)) -> xs <> [] ->
  mergeNamed (fileName a) (map dir xs) = Ok (rowsOf a freqs (fun f => total (map (fun x => v x f) xs)) (fun f => total (map (fun x => n x f) xs))).
Proof.
  intros X a freqs v n dir xs H NE. destruct xs as [|x0 l]; [congruence|]. clear NE. unfold mergeNamed. cbn [map].
  rewrite (H x0) by (now left). rewrite read_ok. cbn [bind]. fold (rowsOf a freqs (v x0) (n x0)).
  assert (G : forall l v0 n0, (forall x, In x l -> dir x (fileName a) = Some (oneFile (fun f => Some (v x f)) (fun f => Some (n x f)) freqs a)) ->
    foldM (fun acc d => rows <- readDataFile (d (fileName a)) ;; addRows acc rows) (map dir l) (rowsOf a freqs v0 n0) =
    Ok (rowsOf a freqs (fun f => v0 f + total (map (fun x => v x f) l)) (fun f => n0 f + total (map (fun x => n x f) l)))).
  { clear. induction l as [|x l IH]; intros v0 n0 H.
    - cbn [foldM map total fold_right]. f_equal. apply rowsOf_ext. intros. unfold total. cbn [fold_right]. split; lra.
    - cbn [foldM map]. rewrite (H x) by (now left). rewrite read_ok. cbn [bind]. fold (rowsOf a freqs (v x) (n x)). rewrite addRows_ok. cbn [bind].
      rewrite IH by (intros; apply H; now right). f_equal. apply rowsOf_ext. intros. unfold total. cbn [fold_right]. split; lra. }
  rewrite G by (intros; apply H; now right). f_equal.
Qed.

(** * The whole tool *)
Lemma check_ok : forall r angles, anglesFit r angles -> checkAngles (k_dim r) angles = true.
Proof.
  intros r angles H. unfold checkAngles. destruct (Z.eqb_spec (k_dim r) 2) as [D|D]; [|reflexivity]. apply forallb_forall. intros a I.
  destruct (Req_EM_T (fst a) (PI / 2)); [reflexivity|]. exfalso. auto.
Qed.
Definition nfs (freqs : list R) : list R := map (fun f => f / speedOfLight_SI) freqs.
Definition normOf (r : frank) (f : R) : R := if (k_dim r =? 2)%Z then 1 / f else (1 / f) ^ 2.

Theorem manager_value : forall s l m ranks freqs angles, meanAlong s = Some m -> ranks <> [] ->
  (forall r, In r ranks -> readable r /\ offOrigin r /\ anglesFit r angles) ->
  (forall f, In f freqs -> f <> 0) ->
  (forall r f, In r ranks -> In f freqs -> toolPower s m r (f / speedOfLight_SI) <> 0) ->
  (forall a b, In a angles -> In b angles -> fileName b = fileName a -> b = a) ->
  rcsManager (s :: l) ranks freqs angles = Ok (map (fun a => (a,
    (map (fun f => mkRD (fst a) (snd a) f (total (map (fun r => farPower r (f / speedOfLight_SI) a) ranks)) (total (map (fun r => normCol (k_dim r) f) ranks))) freqs,
     map (fun f => mkRD (fst a) (snd a) f (total (map (fun r => toolSection s m r (f / speedOfLight_SI) a) ranks)) (total (map (fun r => normCol (k_dim r) f) ranks))) freqs))) angles).
Proof.
  intros s l m ranks freqs angles M NE Hr Hf HP HU. unfold rcsManager. fold (nfs freqs).
  assert (D : exists dirs, mapM (rankFiles (s :: l) (nfs freqs) angles) ranks = Ok dirs /\
     exists far rcs : frank -> Z * Z -> option file, map fst dirs = map far ranks /\ map snd dirs = map rcs ranks /\
       forall r a, In r ranks -> In a angles ->
         far r (fileName a) = Some (oneFile (fun f => Some (farPower r f a)) (fun f => Some (normOf r f)) (nfs freqs) a) /\
         rcs r (fileName a) = Some (oneFile (fun f => Some (toolSection s m r f a)) (fun f => Some (normOf r f)) (nfs freqs) a)).
  { assert (K : forall r, In r ranks -> exists mm, rankFiles (s :: l) (nfs freqs) angles r = Ok mm /\
      forall a, In a angles -> fst mm (fileName a) = Some (oneFile (fun f => Some (farPower r f a)) (fun f => Some (normOf r f)) (nfs freqs) a) /\
                               snd mm (fileName a) = Some (oneFile (fun f => Some (toolSection s m r f a)) (fun f => Some (normOf r f)) (nfs freqs) a)).
    { intros r I. destruct (Hr r I) as (R1 & R2 & R3).
      apply (rankFiles_ok (s :: l) (nfs freqs) r (fun a f => Some (farPower r f a)) (fun a f => Some (toolSection s m r f a)) (fun _ f => Some (normOf r f)));
        [now apply check_ok| |assumption].
      intros a Ia f If. apply in_map_iff in If. destruct If as (g & <- & Ig). apply entry_finite; auto.
      - pose proof (Hf g Ig). unfold speedOfLight_SI. intros E. apply (Rmult_eq_compat_r 299792458) in E. unfold Rdiv in E. rewrite Rmult_assoc, Rinv_l, Rmult_0_l in E by lra. lra. }
    set (g := fun r => match rankFiles (s :: l) (nfs freqs) angles r with Ok x => x | _ => (fun _ => None, fun _ => None) end).
    exists (map g ranks). split.
    - apply mapM_pure. intros r I. destruct (K r I) as (mm & E & _). unfold g. now rewrite E.
    - exists (fun r => fst (g r)), (fun r => snd (g r)). rewrite !map_map. repeat split; destruct (K r H) as (mm & E & V); unfold g; rewrite E; now apply V. }
  destruct D as (dirs & -> & far & rcs & E1 & E2 & V). cbn [bind].
  destruct dirs as [|d0 dl]; [destruct ranks; [congruence|discriminate E1]|]. apply mapM_pure. intros a Ia. rewrite E1, E2.
  rewrite (merge_ok a (nfs freqs) (fun r f => farPower r f a) normOf far ranks) by (try assumption; intros r Ir; now apply V).
  rewrite (merge_ok a (nfs freqs) (fun r f => toolSection s m r f a) normOf rcs ranks) by (try assumption; intros r Ir; now apply V).
  cbn [bind]. f_equal. f_equal. unfold rowsOf, nfs. rewrite !map_map.
  assert (B : forall f, In f freqs -> f / speedOfLight_SI * speedOfLight_SI = f /\ total (map (fun x => normOf x (f / speedOfLight_SI)) ranks) = total (map (fun r => normCol (k_dim r) f) ranks)).
  { intros f If. pose proof (Hf f If). split; [unfold speedOfLight_SI; field|]. f_equal. apply map_ext. intros r. unfold normOf, normCol, speedOfLight_SI.
    destruct (k_dim r =? 2)%Z; field; lra. }
  f_equal; apply map_ext_in; intros f If; destruct (B f If) as [-> ->]; reflexivity.
Qed.

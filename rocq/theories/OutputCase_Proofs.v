(** Concrete runs: they exist, and what they leave behind. *)
From Coq Require Import String ZArith List Bool Lia Arith Reals Lra.
From Verif Require Import Common Probe_Model Input_Proofs Output_Model Output_Spec Output_Proofs OutputRun_Proofs OutputPoint_Proofs OutputField_Proofs OutputSnap_Proofs OutputDomain_Proofs OutputMore_Proofs OutputEx_Proofs.
Import ListNotations.
Local Open Scope string_scope.
Local Open Scope list_scope.
Local Open Scope nat_scope.

(** A scheduler: the ranks in the given order, each as far as it gets. *)
Fixpoint pick (order : list nat) (todo : list (list op)) : option (nat * op * list op) :=
  match order with
  | [] => None
  | r :: rest => match nth_error todo r with
                 | Some (o :: l) => match o with OBarrier => pick rest todo | _ => Some (r, o, l) end
                 | _ => pick rest todo
                 end
  end.
Definition isNil (l : list op) : bool := match l with [] => true | _ => false end.
Definition atBarrier (l : list op) : bool := match l with OBarrier :: _ => true | _ => false end.
Fixpoint go (fuel : nat) (order : list nat) (s : fs) (todo : list (list op)) : option fs :=
  match fuel with
  | O => None
  | S k =>
      match pick order todo with
      | Some (r, o, l) => match exec o s with Ok s' => go k order s' (upd todo r l) | _ => None end
      | None => if forallb isNil todo then Some s
                else if forallb atBarrier todo then go k order s (map (@tl op) todo) else None
      end
  end.
Lemma pick_ok : forall order todo r o l, pick order todo = Some (r, o, l) -> nth_error todo r = Some (o :: l) /\ o <> OBarrier.
Proof.
  induction order as [|a order I]; intros todo r o l H; [discriminate|]. cbn in H. destruct (nth_error todo a) as [[|x l']|] eqn:E; try (now apply I).
  destruct x; try (now apply I); injection H as <- <- <-; (split; [exact E|discriminate]).
Qed.
Lemma go_ends : forall fuel order s todo s', go fuel order s todo = Some s' -> ends s todo s'.
Proof.
  induction fuel as [|k I]; intros order s todo s' H; [discriminate|]. cbn [go] in H. destruct (pick order todo) as [[[r o] l]|] eqn:P.
  - destruct (exec o s) as [s1| |] eqn:X; try discriminate. destruct (I _ _ _ _ H) as (d & St & D). destruct (pick_ok _ _ _ _ _ P) as [N O]. exists d. split; [|exact D].
    eapply steps_next; [|exact St]. eapply step_op; eauto.
  - destruct (forallb isNil todo) eqn:Z.
    + injection H as <-. exists todo. split; [constructor|]. apply Forall_forall. intros l Il. rewrite forallb_forall in Z. specialize (Z l Il). now destruct l.
    + destruct (forallb atBarrier todo) eqn:B; [|discriminate]. destruct (I _ _ _ _ H) as (d & St & D). exists d. split; [|exact D].
      eapply steps_next; [|exact St]. apply step_barrier; [intros ->; discriminate Z|]. rewrite map_map. rewrite <- (map_id todo) at 1. apply map_ext_in. intros l Il.
      rewrite forallb_forall in B. specialize (B l Il). destruct l as [|[] l]; try discriminate. reflexivity.
Qed.
Lemma due1 : forall f c t, due f c 1 t = Ok true.
Proof. intros f c t. unfold due. destruct (Rlt_dec _ _); [reflexivity|]. cbn. now rewrite Z.rem_1_r || rewrite Z.mod_1_r. Qed.

Definition gv (x : R) (k : comp) (el : Z) (pt : list R) : R := x.
Definition dv (x : R) (k : comp) : list R := [x].
Definition sv (x : R) (tags : list Z) (k : comp) : list R := [x].
Definition env2 : env := mkEnv false 2 (fun r => Nat.eqb r 0) ["box"] 1.
Definition onRank1 (r : nat) : Z := match r with 1 => 3%Z | _ => (-2)%Z end.
Definition probesA : probes :=
  mkProbes [mkPoint (Some 0) [1; 2]%R 1 true onRank1] [mkField (Some 0) Ez [1; 2]%R 1 true onRank1] [mkNear "sphere" 1 [7]%Z] [mkSnap 1] [mkSurf "hull" 1 [7]%Z] [].
Definition callsA : list (R * (nat -> R)) := [(0%R, INR); (1%R, fun r => (INR r + 1)%R)].
Definition empty : fs := fun _ => None.

Ltac program := cbv -[due Rdiv Rplus INR IZR exec ends speedOfLight_SI]; rewrite ?due1; cbv -[due Rdiv Rplus INR IZR exec ends speedOfLight_SI].
Lemma runA : exists s', writes R gv dv sv env2 probesA callsA empty s'.
Proof.
  unfold writes. eexists _, _. split.
  - program. rewrite ?due1. reflexivity.
  - apply (go_ends 200 [0; 1]). vm_compute. reflexivity.
Qed.

(** ** Two probes with one identifier *)
Definition env1 : env := mkEnv false 1 (fun _ => true) ["box"] 1.
Definition probesB : probes := mkProbes [mkPoint (Some 5) [1]%R 1 true (fun _ => 3%Z); mkPoint (Some 5) [2]%R 1 true (fun _ => 4%Z)] [] [] [] [] [].
Lemma rows_bound : forall {X} final steps (mk : R -> X -> list line) c calls rows, (forall t x, length (mk t x) <= 1) -> rowsOf final steps mk c calls rows -> length rows <= length calls.
Proof. intros X final steps mk c calls rows H R. induction R; [cbn; lia| |]; cbn [length]; [rewrite app_length; specialize (H t x); lia|lia]. Qed.
Lemma shared : exists s', writes R gv dv sv env1 probesB [(0%R, INR)] empty s' /\ exists a b c d f g, s' (pointFile env1 5) = Some (File [a; b; c; d; f; g]).
Proof.
  unfold writes. eexists. split.
  - eexists. split; [program; rewrite ?due1; reflexivity|]. apply (go_ends 200 [0]). vm_compute. reflexivity.
  - do 6 eexists. vm_compute. reflexivity.
Qed.

(** ** Snapshots of an earlier run *)
Definition oldSnapshot : path := nearSnapshot env2 "sphere" 0 5 ++ ["Ex.gf"].
Definition before : fs := fun q => if path_eq q oldSnapshot then Some (File [LValues [42%R]]) else if prefixb q oldSnapshot then Some Dir else None.
Lemma stale : exists s', writes R gv dv sv env2 probesA callsA before s' /\ s' oldSnapshot = Some (File [LValues [42%R]]).
Proof.
  unfold writes. eexists. split.
  - eexists. split; [program; rewrite ?due1; reflexivity|]. apply (go_ends 200 [1; 0]). vm_compute. reflexivity.
  - vm_compute. reflexivity.
Qed.

(** ** States of two ranks under one name *)
Definition probesM : probes := mkProbes [] [] [] [] [] [mkMorProbe "basis" (mkMor 0 1 1)].
Definition callsM : list (R * (nat -> R)) := [(0%R, INR)].
Lemma mor_first : forall x, updateMor R 0 x (mkMstate (mkMor 0 1 1) None []) = mkMstate (mkMor 0 1 1) (Some (mkCtx 1 (1 + 1)%R 0)) [(0%Z, 0%R, x)].
Proof.
  intro x. unfold updateMor. cbn [ms_probe m_saves m_start m_final ms_ctx ms_out]. unfold mor_init, tiny. cbn [m_saves m_start m_final]. cbn [Z.leb Z.ltb Z.compare Pos.compare Pos.compare_cont].
  destruct (Rlt_dec 0 _); [lra|]. destruct (Rlt_dec _ 0); [lra|]. cbn [c_count c_dt c_next]. cbn [Z.leb Z.compare].
  destruct (Rlt_dec 0 0); [lra|]. destruct (Rlt_dec 0 _); [lra|]. reflexivity.
Qed.
Definition x0file : path := morFile env2 "basis" 0.
Definition todoM : list (list op) :=
  [[OMkdirs (morDir env2 "basis"); OBarrier; OTrunc x0file (morLines R dv 0 (INR 0))]; [OBarrier; OTrunc x0file (morLines R dv 0 (INR 1))]].
Lemma programM : mapM (rankProgram R gv dv sv env2 probesM callsM) (seq 0 (e_ranks env2)) = Ok todoM.
Proof.
  cbn [e_ranks env2 seq mapM]. unfold rankProgram. cbn [pr_mor pr_near pr_surf probesM initPointField pr_point pr_field map concat bind app mp_name mp_window].
  unfold callsM. cbn [allUpdates bind updateProbes]. unfold updateProbes. cbn [pr_field pr_point pr_near pr_snap pr_surf probesM mapM bind fst snd morAll].
  unfold morUpdate. rewrite !mor_first. reflexivity.
Qed.
Lemma lost : forall s', writes R gv dv sv env2 probesM callsM empty s' -> exists r, r < 2 /\ forall q, s' q <> Some (File (morLines R dv 0 (INR r))).
Proof.
  intros s' Wr. destruct (writes_fin _ _ _ _ _ _ _ _ _ Wr) as (t & H & Pt).
  assert (T : forall r, r < 2 -> t r = nth r todoM []).
  { intros r R. destruct (mapM_seq_nth _ 2 0 todoM [] r programM R) as [G _]. cbn [Nat.add] in G. rewrite (Pt r R) in G. now injection G. }
  assert (W : forall q r, s' q = Some (File (morLines R dv 0 (INR r))) -> r < 2 -> q = x0file).
  { intros q r Fq _. destruct (fin_writer _ _ _ _ H q _ Fq) as [X|(r' & o & R' & I & So)]; [discriminate X|]. rewrite (T r' R') in I.
    destruct r' as [|[|r']]; [| |cbn in R'; lia].
    - destruct I as [<-|[<-|[<-|[]]]]; try discriminate So. apply trunc_sets in So. now symmetry.
    - destruct I as [<-|[<-|[]]]; try discriminate So. apply trunc_sets in So. now symmetry. }
  assert (N : morLines R dv 0 (INR 0) <> morLines R dv 0 (INR 1)).
  { unfold morLines, dv. cbn [map comps concat app]. intro E. injection E as E. lra. }
  destruct (s' x0file) as [[|l]|] eqn:E.
  - exists 0. split; [lia|]. intros q Fq. assert (q = x0file) by (eapply W; eauto). subst q. rewrite E in Fq. discriminate.
  - assert (D : l = morLines R dv 0 (INR 0) \/ l <> morLines R dv 0 (INR 0)).
    { destruct (fin_origin _ _ _ _ H x0file l) as [X|(r & R' & I)]; [|exact E|discriminate X|].
      - intros r o R' I m. rewrite (T r R') in I. destruct r as [|[|r]]; [| |cbn in R'; lia].
        + destruct I as [<-|[<-|[<-|[]]]]; discriminate.
        + destruct I as [<-|[<-|[]]]; discriminate.
      - rewrite (T r R') in I. destruct r as [|[|r]]; [| |cbn in R'; lia].
        + left. destruct I as [I|[I|[I|[]]]]; try discriminate; apply (f_equal (fun o => match o with OTrunc _ m => m | _ => [] end)) in I; symmetry; exact I.
        + right. destruct I as [I|[I|[]]]; try discriminate. intros ->. apply (f_equal (fun o => match o with OTrunc _ m => m | _ => [] end)) in I. apply N. symmetry. exact I. }
    destruct D as [->|D].
    + exists 1. split; [lia|]. intros q Fq. assert (q = x0file) by (eapply W; eauto). subst q. rewrite E in Fq. apply N. congruence.
    + exists 0. split; [lia|]. intros q Fq. assert (q = x0file) by (eapply W; eauto). subst q. rewrite E in Fq. apply D. congruence.
  - exists 0. split; [lia|]. intros q Fq. assert (q = x0file) by (eapply W; eauto). subst q. rewrite E in Fq. discriminate.
Qed.
Lemma runM : exists s', writes R gv dv sv env2 probesM callsM empty s'.
Proof. eexists. exists todoM. split; [exact programM|]. apply (go_ends 20 [0; 1]). vm_compute. reflexivity. Qed.

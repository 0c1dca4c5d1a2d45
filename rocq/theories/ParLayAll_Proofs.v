(** Runs on several processes with thin layers. *)
From Coq Require Import ZArith List Bool Reals Lia Lra Permutation.
From Verif Require Import Common Csr_Model Csr_Spec Face_Model Face_Spec Setup_Model Assembly_Model Form_Model Form_Spec Nodal_Spec Global_Spec GlobalBalance_Proofs Evol_Model Evol_Spec EvolLayer_Spec Evol_Proofs EvolHist_Proofs EvolLayer_Proofs Tfsf_Spec Ode_Model Par_Model Par_Spec ParMult_Proofs ParSrc_Model ParSrc_Spec ParSrc_Proofs ParSrcRun_Proofs ParLay_Model ParLay_Spec ParLay_Proofs ParLayRun_Proofs ParLayOk_Proofs.
Import ListNotations.
Local Open Scope R_scope.

Lemma mapM_two : forall {K A E V B} (LK : K -> A) (PK : K -> V) (f : A -> E -> V -> res B) (Q : K -> B -> Prop) Ks Es,
  Forall2 (fun k e => exists b, f (LK k) e (PK k) = Ok b /\ Q k b) Ks Es ->
  exists bs, mapM (fun q => f (fst (fst q)) (snd (fst q)) (snd q)) (combine (combine (map LK Ks) Es) (map PK Ks)) = Ok bs /\ Forall2 Q Ks bs.
Proof.
  intros K A E V B LK PK f Q Ks Es H. induction H as [|k e Ks Es (b & Eb & Hb) H (bs & IH & HF)]; [exists []; split; [reflexivity|constructor]|].
  cbn [map combine mapM fst snd]. rewrite Eb. cbn [bind]. rewrite IH. cbn [bind]. exists (b :: bs). split; [reflexivity|constructor; assumption].
Qed.
Lemma combine_map : forall {K A B} (f : K -> A) (g : K -> B) l, combine (map f l) (map g l) = map (fun k => (f k, g k)) l.
Proof. intros K A B f g l. induction l as [|k l IH]; [reflexivity|]. cbn [map combine]. rewrite IH. reflexivity. Qed.
Lemma forall2_impl : forall {A B} (P Q : A -> B -> Prop) l l', (forall a b, In a l -> P a b -> Q a b) -> Forall2 P l l' -> Forall2 Q l l'.
Proof. intros A B P Q l l' H F. induction F as [|a b l l' Hab F IH]; constructor; [apply H; [left; reflexivity|exact Hab]|apply IH; intros; apply H; [right; assumption|assumption]]. Qed.

Section All.
Variable N : nat.
Variable m : fmesh.
Variable dim : Z.
Variable alpha : R.
Variable gb gi : list (Z * cond).
Variable ob ib : list (cond * marker).
Variable MInv D : Z -> mat.
Variable MSigma : mat.
Variables sm lm : marker.
Variable owns : list (list nat).
Variable rks : list prank.
Variable sub : list nat.
Variable inc : R -> nat -> nat -> R.
Variable ss : list psource.
Variables e1 e2 : list Z.
Variable els : list (list Z * list Z).
Hypothesis G : goodMesh N m dim.
Hypothesis T : tables m gb gi ob ib.
Hypothesis Msm : Z.of_nat (length sm) = markerSize (fm_battrs m).
Hypothesis Mlm : Z.of_nat (length lm) = markerSize (fm_battrs m).
Hypothesis Di : distributed N m dim MInv D MSigma owns rks.
Hypothesis Sh : sourcesShared N owns sub inc ss.
Hypothesis ND1 : NoDup e1.
Hypothesis ND2 : NoDup e2.
Hypothesis R1 : forall d, In d e1 -> (0 <= d < Z.of_nat N)%Z.
Hypothesis R2 : forall d, In d e2 -> (0 <= d < Z.of_nat N)%Z.
Hypothesis Se : Forall2 (fun own el => elementsShared own e1 (fst el) /\ elementsShared own e2 (snd el)) owns els.
Hypothesis Some1 : owns <> [].
Variable inv : list (list R) -> list R -> list R.
Variable junk : nat -> list R.
Hypothesis JL : forall n, length (junk n) = n.
Notation Ts := (buildSourceFaceOperator R Rplus Rmult 1 (-1) (factoryRows N m dim alpha ob ib MInv D MSigma sm) dim (Z.of_nat N) 0).
Notation Tl := (buildSourceFaceOperator R Rplus Rmult 1 (-1) (factoryRows N m dim alpha ob ib MInv D MSigma lm) dim (Z.of_nat N) 0).
Notation Mr := (map (rankSource dim alpha ob ib sm) rks).
Notation Mo := (finalized (6 * N) (6 * N) Tl).
Notation L0 := (mkLR N 0 Mo e1 e2).
Notation Ls := (map (fun q => rankLayers dim alpha ob ib lm (fst q) (snd q)) (combine rks els)).
Definition place := (list nat * (prank * (list Z * list Z)))%type.
Definition places : list place := combine owns (combine rks els).
Definition LK (k : place) : lrank := rankLayers dim alpha ob ib lm (fst (snd k)) (snd (snd k)).
Definition facts (k : place) : Prop := In (fst k) owns /\ process m owns (fst k) (fst (snd k)) /\ (forall f, (f = 0 \/ f = 1)%Z -> within N (fst k) (MInv f) (pr_MInv (fst (snd k)) f)) /\
  elementsShared (fst k) e1 (fst (snd (snd k))) /\ elementsShared (fst k) e2 (snd (snd (snd k))).
Lemma places_owns : map fst places = owns /\ map LK places = Ls /\ Forall facts places.
Proof.
  pose proof (forall2_owns N m dim MInv D MSigma owns rks Di) as F0. unfold places, facts.
  assert (X : forall os k l, Forall2 (fun own rk => In own owns /\ process m owns own rk /\ (forall f, (f = 0 \/ f = 1)%Z -> within N own (MInv f) (pr_MInv rk f)) /\
      (forall d, (0 <= d < dim)%Z -> within N own (D d) (pr_D rk d)) /\ within N own MSigma (pr_Sigma rk)) os k ->
    Forall2 (fun own el => elementsShared own e1 (fst el) /\ elementsShared own e2 (snd el)) os l ->
    map fst (combine os (combine k l)) = os /\ map LK (combine os (combine k l)) = map (fun q => rankLayers dim alpha ob ib lm (fst q) (snd q)) (combine k l) /\
    Forall (fun k => In (fst k) owns /\ process m owns (fst k) (fst (snd k)) /\ (forall f, (f = 0 \/ f = 1)%Z -> within N (fst k) (MInv f) (pr_MInv (fst (snd k)) f)) /\
      elementsShared (fst k) e1 (fst (snd (snd k))) /\ elementsShared (fst k) e2 (snd (snd (snd k)))) (combine os (combine k l))).
  { intros os k l H. revert l. induction H as [|o r os k (Io & P & HI & _) H IH]; intros l K; inversion K as [|? el ? l' (Ea & Eb) K']; subst; [repeat split; constructor|].
    destruct (IH l' K') as (I1 & I2 & I3). cbn [combine map fst snd]. rewrite I1, I2. split; [reflexivity|]. split; [reflexivity|]. constructor; [cbn [fst snd]; auto|exact I3]. }
  exact (X owns rks els F0 Se).
Qed.
Lemma spread_places : forall x, spread N owns x = map (fun k : place => part N (fst k) x) places.
Proof. intros x. destruct places_owns as (E & _). unfold spread. rewrite <- E at 1. rewrite map_map. reflexivity. Qed.
Definition readyAll (e : evol) (Es : list evol) : Prop := Forall2 (fun (k : place) e' => ready N (fst k) (fst (snd k)) inv e e') places Es.
Definition midAll (e : evol) (Es : list evol) : Prop := Forall2 (fun (k : place) e' => mid N (fst k) (fst (snd k)) inv e e') places Es.
Lemma rank_size : forall k, In k places -> lr_n (LK k) = length (fst k).
Proof. intros k I. destruct places_owns as (_ & _ & F). rewrite Forall_forall in F. destruct (F k I) as (_ & P & _). cbn. exact (proj1 P). Qed.
Lemma bounds : forall k, In k places -> NoDup (fst k) /\ forall d, In d (fst k) -> (d < N)%nat.
Proof. intros k I. destruct places_owns as (_ & _ & F). rewrite Forall_forall in F. apply (own_facts N m dim MInv D MSigma owns rks Di). apply (F k I). Qed.
Lemma commit_all : forall e Es t dt x c, readyAll e Es -> 0 < dt -> length x = (6 * N)%nat -> commit N e t dt x = Ok c ->
  exists Es', allCommit Ls Es t dt (spread N owns x) = Ok Es' /\ midAll c Es'.
Proof.
  intros e Es t dt x c H Hdt Lx E. unfold allCommit. rewrite spread_places. rewrite <- (proj1 (proj2 places_owns)).
  apply (mapM_two LK (fun k : place => part N (fst k) x) (fun L e v => commit (lr_n L) e t dt v)).
  eapply forall2_impl; [|exact H]. intros k e' I Hr. cbn beta. rewrite (rank_size k I). destruct (bounds k I) as (_ & Bo).
  destruct (commit_ok inv N (fst k) Bo (fst (snd k)) e e' t dt x c Hr Lx E) as (c' & E'). exists c'. split; [exact E'|]. exact (commit_mid N (fst k) (fst (snd k)) inv e e' t dt x c c' Hdt Hr E E').
Qed.
Lemma finalize_all : forall e Es x c, midAll e Es -> sameDecisions N owns e x -> length x = (6 * N)%nat -> finalize inv N e x = Ok c ->
  exists Es', allFinalize inv Ls Es (spread N owns x) = Ok Es' /\ readyAll c Es'.
Proof.
  intros e Es x c H SD Lx E. unfold allFinalize. rewrite spread_places. rewrite <- (proj1 (proj2 places_owns)).
  apply (mapM_two LK (fun k : place => part N (fst k) x) (fun L e v => finalize inv (lr_n L) e v)).
  eapply forall2_impl; [|exact H]. intros k e' I Hr. cbn beta. rewrite (rank_size k I). destruct (bounds k I) as (_ & Bo).
  destruct places_owns as (_ & _ & F). rewrite Forall_forall in F. destruct (F k I) as (Io & _).
  destruct (finalize_ok inv N (fst k) Bo (fst (snd k)) e e' x c Hr Lx E) as (c' & E'). exists c'. split; [exact E'|].
  exact (finalize_part N (fst k) (fst (snd k)) inv e e' x c c' Hr (fun gr Er => SD gr (fst k) Er Io) E E').
Qed.
Lemma layers_all : forall e Es t x y z f, midAll e Es -> sameDecisions N owns e x -> length x = (6 * N)%nat -> length y = (6 * N)%nat -> addLayers inv L0 e t x y = Ok (z, f) ->
  exists Es', allLayers inv Ls Es t (spread N owns x) (spread N owns y) = Ok (spread N owns z, Es') /\ midAll f Es' /\ length z = (6 * N)%nat.
Proof.
  intros e Es t x y z f H SD Lx Ly E. unfold allLayers. rewrite !spread_places, combine_map. rewrite <- (proj1 (proj2 places_owns)).
  assert (K : Forall2 (fun k e' => exists b, addLayers inv (LK k) e' t (fst (part N (fst k) x, part N (fst k) y)) (snd (part N (fst k) x, part N (fst k) y)) = Ok b /\
      (fst b = part N (fst k) z /\ mid N (fst k) (fst (snd k)) inv f (snd b) /\ length z = (6 * N)%nat)) places Es).
  { eapply forall2_impl; [|exact H]. intros k e' I Hr. cbn [fst snd]. destruct (bounds k I) as (NDo & Bo). destruct places_owns as (_ & _ & F). rewrite Forall_forall in F. destruct (F k I) as (Io & P & HI & S1 & S2).
    destruct k as [own [rk [el1 el2]]]. cbn [fst snd] in *. pose proof (fun F IF => proj1 (proj2 Di) F own IF Io) as El.
    assert (Ok1 : exists b, addLayers inv (LK (own, (rk, (el1, el2)))) e' t (part N own x) (part N own y) = Ok b).
    { unfold addLayers in E |- *. unfold LK, rankLayers. cbn [lr_n lr_g lr_M lr_e1 lr_e2 fst snd] in *. rewrite (proj1 P).
      destruct (multSub inv N (Some Mo) e t x) as [[gs q]| |] eqn:Es0; cbn [bind fst snd] in E; try discriminate.
      destruct (sub_ok inv N own Bo rk Mo (rankSource dim alpha ob ib lm rk) e e' t x _ Hr Lx Es0) as ([gs' q'] & Es'). rewrite Es'. cbn [bind fst snd].
      destruct (sub_shared N own rk inv _ _ e e' t x gs q gs' q' Hr Lx Es0 Es') as (Shd & (_ & Fi & NDl) & _).
      destruct (flux_part N m dim owns own rk lm G Mlm P NDo Bo El alpha ob ib MInv D MSigma HI e1 e2 el1 el2 ND1 ND2 R1 R2 S1 S2 gs gs' Shd Fi NDl x y Lx Ly) as (w0 & z0 & w1 & _ & _ & F3).
      destruct gs'; [eauto|]. destruct q'; [eauto|]. rewrite F3. cbn [bind]. eauto. }
    destruct Ok1 as ([z' f'] & E'). exists (z', f'). split; [exact E'|]. cbn [fst snd].
    destruct (eval_part N m dim owns own rk lm G Mlm P NDo Bo El alpha ob ib MInv D MSigma HI e1 e2 el1 el2 ND1 ND2 R1 R2 S1 S2 inv e e' t x y z f z' f' Hr (fun gr Er => SD gr own Er Io) Lx Ly E E') as (H1 & H2 & H3). auto. }
  destruct (mapM_two LK (fun k : place => (part N (fst k) x, part N (fst k) y)) (fun L e v => addLayers inv L e t (fst v) (snd v)) _ _ _ K) as (bs & Eb & Fb).
  rewrite Eb. cbn [bind]. exists (map snd bs).
  assert (Y : map fst bs = map (fun k : place => part N (fst k) z) places /\ midAll f (map snd bs)).
  { unfold midAll. clear -Fb. induction Fb as [|k b l bs (H1 & H2 & _) Fb (IH1 & IH2)]; [split; [reflexivity|constructor]|]. cbn [map]. rewrite H1, IH1. split; [reflexivity|constructor; assumption]. }
  destruct Y as (Y1 & Y2). rewrite Y1. split; [reflexivity|]. split; [exact Y2|].
  destruct places_owns as (Eo & _). destruct Fb as [|k b l bs (_ & _ & L) _]; [|exact L]. exfalso. apply Some1. rewrite <- Eo. reflexivity.
Qed.

(** ** Runs *)
Variable Ps : list (csr R).
Variable F : R -> list R -> list R.
Variable good : R -> Prop.
Hypothesis FL : forall t x, length x = (6 * N)%nat -> length (F t x) = (6 * N)%nat.
Hypothesis FM : forall t x works, good t -> length x = (6 * N)%nat -> length works = length rks -> allMultS junk rks Ps Mr ss t works (spread N owns x) = Ok (spread N owns (F t x)).
Variable works : nat -> nat -> list (list R).
Hypothesis Lw : forall s k, length (works s k) = length rks.
Notation mulS := (fun (_ _ : nat) e t x => addLayers inv L0 e t x (F t x)).
Notation mulP := (fun l k Es t X => Y <- allMultS junk rks Ps Mr ss t (works l k) X ;; allLayers inv Ls Es t X Y).
Notation calls := (fun e t x => good t /\ sameDecisions N owns e x).
Lemma mul_all : forall l k e Es t x z f, midAll e Es -> good t /\ sameDecisions N owns e x -> length x = (6 * N)%nat -> addLayers inv L0 e t x (F t x) = Ok (z, f) ->
  exists Es', (Y <- allMultS junk rks Ps Mr ss t (works l k) (spread N owns x) ;; allLayers inv Ls Es t (spread N owns x) Y) = Ok (spread N owns z, Es') /\ midAll f Es' /\ length z = (6 * N)%nat.
Proof. intros l k e Es t x z f H (Gt & SD) Lx E. rewrite (FM t x (works l k) Gt Lx (Lw l k)). cbn [bind]. apply (layers_all e Es t x (F t x) z f); auto. Qed.
Lemma rk4_all : forall l e Es x t dt z f, midAll e Es -> length x = (6 * N)%nat -> rk4Calls (list R) evol mulS addv calls l e x t dt ->
  rk4Layers (list R) evol mulS addv l e x t dt = Ok (z, f) ->
  exists Es', rk4Layers (list (list R)) (list evol) mulP addAll l Es (spread N owns x) t dt = Ok (spread N owns z, Es') /\ midAll f Es' /\ length z = (6 * N)%nat.
Proof.
  intros l e Es x t dt z f H Lx (C1 & C) E. unfold rk4Layers in *. cbv beta zeta in *.
  destruct (addLayers inv L0 e t x (F t x)) as [[k1 f1]| |] eqn:E1; cbn [bind fst snd] in E; try discriminate. destruct (C k1 f1 eq_refl) as (C2 & C'). clear C.
  destruct (mul_all l 0%nat e Es t x k1 f1 H C1 Lx E1) as (Es1 & P1 & M1 & K1). rewrite P1. cbn [bind fst snd]. rewrite !(spread_add N owns _ k1 x) by congruence.
  assert (Y1 : length (addv (dt / 2) k1 x) = (6 * N)%nat) by (rewrite addv_len; congruence). assert (Z1 : length (addv (dt / 6) k1 x) = (6 * N)%nat) by (rewrite addv_len; congruence).
  set (y1 := addv (dt / 2) k1 x) in *. set (z1 := addv (dt / 6) k1 x) in *.
  destruct (addLayers inv L0 f1 (t + dt / 2) y1 (F (t + dt / 2) y1)) as [[k2 f2]| |] eqn:E2; cbn [bind fst snd] in E; try discriminate. destruct (C' k2 f2 eq_refl) as (C3 & C). clear C'.
  destruct (mul_all l 1%nat f1 Es1 _ y1 k2 f2 M1 C2 Y1 E2) as (Es2 & P2 & M2 & K2). rewrite P2. cbn [bind fst snd]. rewrite (spread_add N owns _ k2 x) by congruence. rewrite (spread_add N owns _ k2 z1) by congruence.
  assert (Y2 : length (addv (dt / 2) k2 x) = (6 * N)%nat) by (rewrite addv_len; congruence). assert (Z2 : length (addv (dt / 3) k2 z1) = (6 * N)%nat) by (rewrite addv_len; congruence).
  set (y2 := addv (dt / 2) k2 x) in *. set (z2 := addv (dt / 3) k2 z1) in *.
  destruct (addLayers inv L0 f2 (t + dt / 2) y2 (F (t + dt / 2) y2)) as [[k3 f3]| |] eqn:E3; cbn [bind fst snd] in E; try discriminate. pose proof (C k3 f3 eq_refl) as C4. clear C.
  destruct (mul_all l 2%nat f2 Es2 _ y2 k3 f3 M2 C3 Y2 E3) as (Es3 & P3 & M3 & K3). rewrite P3. cbn [bind fst snd]. rewrite (spread_add N owns _ k3 x) by congruence. rewrite (spread_add N owns _ k3 z2) by congruence.
  assert (Y3 : length (addv dt k3 x) = (6 * N)%nat) by (rewrite addv_len; congruence). assert (Z3 : length (addv (dt / 3) k3 z2) = (6 * N)%nat) by (rewrite addv_len; congruence).
  set (y3 := addv dt k3 x) in *. set (z3 := addv (dt / 3) k3 z2) in *.
  destruct (addLayers inv L0 f3 (t + dt) y3 (F (t + dt) y3)) as [[k4 f4]| |] eqn:E4; cbn [bind fst snd] in E; try discriminate.
  destruct (mul_all l 3%nat f3 Es3 _ y3 k4 f4 M3 C4 Y3 E4) as (Es4 & P4 & M4 & K4). rewrite P4. cbn [bind fst snd]. injection E as <- <-. rewrite (spread_add N owns _ k4 z3) by congruence.
  exists Es4. split; [reflexivity|]. split; [exact M4|]. rewrite addv_len; congruence.
Qed.
Lemma step_all : forall l e Es x t dt z f, readyAll e Es -> 0 < dt -> length x = (6 * N)%nat ->
  (forall s0, commit N e t dt x = Ok s0 -> rk4Calls (list R) evol mulS addv calls l s0 x t dt /\ forall z s1, rk4Layers (list R) evol mulS addv l s0 x t dt = Ok (z, s1) -> sameDecisions N owns s1 z) ->
  layerStep (list R) evol mulS addv (commit N) (finalize inv N) l e x t dt = Ok (z, f) ->
  exists Es', layerStep (list (list R)) (list evol) mulP addAll (allCommit Ls) (allFinalize inv Ls) l Es (spread N owns x) t dt = Ok (spread N owns z, Es') /\ readyAll f Es' /\ length z = (6 * N)%nat.
Proof.
  intros l e Es x t dt z f H Hdt Lx C E. unfold layerStep in *.
  destruct (commit N e t dt x) as [c| |] eqn:Ec; cbn [bind] in E; try discriminate. destruct (C c eq_refl) as (C1 & C2).
  destruct (commit_all e Es t dt x c H Hdt Lx Ec) as (Es1 & -> & M1). cbn [bind].
  destruct (rk4Layers (list R) evol mulS addv l c x t dt) as [[z1 f1]| |] eqn:Er; cbn [bind fst snd] in E; try discriminate.
  destruct (rk4_all l c Es1 x t dt z1 f1 M1 Lx C1 Er) as (Es2 & -> & M2 & L2). cbn [bind fst snd].
  destruct (finalize inv N f1 z1) as [f2| |] eqn:Ef; cbn [bind] in E; try discriminate. injection E as <- <-.
  destruct (finalize_all f1 Es2 z1 f2 M2 (C2 z1 f1 eq_refl) L2 Ef) as (Es3 & -> & M3). cbn [bind]. exists Es3. auto.
Qed.
Lemma steps_all : forall dts e Es x t z f, readyAll e Es -> Forall (fun dt => 0 < dt) dts -> length x = (6 * N)%nat ->
  runCalls (list R) evol mulS addv (commit N) (finalize inv N) calls (sameDecisions N owns) e x t dts ->
  layerSteps (list R) evol mulS addv (commit N) (finalize inv N) e x t dts = Ok (z, f) ->
  exists Es', layerSteps (list (list R)) (list evol) mulP addAll (allCommit Ls) (allFinalize inv Ls) Es (spread N owns x) t dts = Ok (spread N owns z, Es') /\ readyAll f Es'.
Proof.
  induction dts as [|dt l IH]; intros e Es x t z f H Hd Lx C E.
  - cbn [layerSteps] in *. injection E as <- <-. exists Es. auto.
  - inversion Hd as [|? ? Hdt Hd']; subst. cbn [layerSteps runCalls] in *. destruct C as (C1 & C2).
    destruct (layerStep (list R) evol mulS addv (commit N) (finalize inv N) (length l) e x t dt) as [[z1 f1]| |] eqn:E1; cbn [bind fst snd] in E; try discriminate.
    destruct (step_all (length l) e Es x t dt z1 f1 H Hdt Lx C1 E1) as (Es1 & -> & M1 & L1). cbn [bind fst snd].
    exact (IH f1 Es1 z1 (t + dt) z f M1 Hd' L1 (C2 z1 f1 eq_refl) E).
Qed.
End All.

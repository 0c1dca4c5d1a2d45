(** Cases that meet the hypotheses, and counterexamples, for the excitations. *)
From Coq Require Import String ZArith List Bool Reals Lia Lra.
From Verif Require Import Common Geo_Model Source_Model Source_Spec SourceMgr_Proofs SourceWave_Proofs SourceBuild_Proofs.
Import ListNotations.
Local Open Scope R_scope.

Ltac zn := repeat match goal with |- context [Z.to_nat ?a] => let v := eval compute in (Z.to_nat a) in progress change (Z.to_nat a) with v end.

(** ** Waves *)
Definition along (k dir : list R) : Prop := length k = 3%nat /\ dot3 k k = 1 /\ exists n, 0 < n /\ k = map (fun c => c / n) dir.
Definition total1 (f : func) : Prop := exists g, forall x, funcEval f [x] = Ok (g x).
Lemma khat_along : forall f pol dir ft w, length dir = 3%nat -> newPlanewave f pol dir ft = Ok w -> along (khat dir) dir.
Proof.
  intros f pol dir ft w L W. unfold newPlanewave in W. destruct (Req_EM_T (norml2 pol) 0); [discriminate|]. destruct (Req_EM_T (norml2 dir) 0) as [|N]; [discriminate|].
  unfold along, khat. split; [rewrite map_length; exact L|]. split; [apply unit_of; assumption|]. exists (norml2 dir). split; [|reflexivity].
  pose proof (sqrt_pos (fold_right (fun a s => a * a + s) 0 dir)). unfold norml2 in *. lra.
Qed.
Lemma move3 : forall p k s, length (move p k s) = 3%nat.
Proof. reflexivity. Qed.
Lemma travel : forall f pol dir ft w, total1 f -> length pol = 3%nat -> length dir = 3%nat -> (ft = 0 \/ ft = 1)%Z -> newPlanewave f pol dir ft = Ok w ->
  exists k, along k dir /\ forall p t s fi d, length p = 3%nat -> (0 <= fi <= 1)%Z -> (0 <= d <= 2)%Z ->
    exists v, planeEval w p t fi d = Ok v /\ planeEval w (move p k s) (t + s) fi d = Ok v.
Proof.
  intros f pol dir ft w (g & Pg) Lp Ld Hft W. exists (khat dir). split; [apply (khat_along f pol dir ft w Ld W)|]. intros p t s fi d L3 Hf Hd.
  exists (PW g pol dir ft fi d t p). split; [apply (pw_eval f g Pg pol dir ft Lp Ld w W); assumption|].
  rewrite (pw_eval f g Pg pol dir ft Lp Ld w W) by (assumption || reflexivity). f_equal. apply (rigid f g pol dir ft Ld w W).
Qed.
Lemma transverse_wave : forall f pol dir ft w, total1 f -> length pol = 3%nat -> length dir = 3%nat -> (ft = 0 \/ ft = 1)%Z -> newPlanewave f pol dir ft = Ok w -> dot3 pol dir = 0 ->
  exists k F, along k dir /\ (forall p t fi d, length p = 3%nat -> (0 <= fi <= 1)%Z -> (0 <= d <= 2)%Z -> planeEval w p t fi d = Ok (F fi d t p)) /\
    forall t p, let E := vec F 0 t p in let H := vec F 1 t p in
      dot3 E k = 0 /\ dot3 H k = 0 /\ dot3 E H = 0 /\ dot3 E E = dot3 H H /\ cross3 E H = map (Rmult (dot3 E E)) k.
Proof.
  intros f pol dir ft w (g & Pg) Lp Ld Hft W O. exists (khat dir), (PW g pol dir ft). split; [apply (khat_along f pol dir ft w Ld W)|].
  split; [intros; apply (pw_eval f g Pg pol dir ft Lp Ld w W); assumption|]. intros t p. apply (transverse f g pol dir ft Lp Ld Hft w W O).
Qed.
Lemma wave_maxwell : forall f pol dir ft w, smooth f -> length pol = 3%nat -> length dir = 3%nat -> (ft = 0 \/ ft = 1)%Z -> newPlanewave f pol dir ft = Ok w -> dot3 pol dir = 0 ->
  exists F, (forall p t fi d, length p = 3%nat -> (0 <= fi <= 1)%Z -> (0 <= d <= 2)%Z -> planeEval w p t fi d = Ok (F fi d t p)) /\
    forall t p, length p = 3%nat -> maxwellAt F t p.
Proof.
  intros f pol dir ft w (g & g' & Pg & Dg) Lp Ld Hft W O. exists (PW g pol dir ft).
  split; [intros; apply (pw_eval f g Pg pol dir ft Lp Ld w W); assumption|]. intros t p L. apply (maxwell f g pol dir ft Lp Ld Hft w W O g' Dg t p L).
Qed.
Lemma plane_pad : forall w p t f d, (1 <= length p <= 3)%nat -> planeEval w p t f d = planeEval w (pad3 p) t f d.
Proof. intros w [|a [|b [|c [|e p]]]] t f d H; cbn in H; try lia; reflexivity. Qed.

Lemma n100 : norml2 [1; 0; 0] = 1.
Proof. rewrite norm3. replace (1 * 1 + 0 * 0 + 0 * 0) with 1 by ring. apply sqrt_1. Qed.
Lemma n010 : norml2 [0; 1; 0] = 1.
Proof. rewrite norm3. replace (0 * 0 + 1 * 1 + 0 * 0) with 1 by ring. apply sqrt_1. Qed.
Lemma mk_wave : forall f ft, newPlanewave f [0; 1; 0] [1; 0; 0] ft = Ok (mkPW f [0 / 1; 1 / 1; 0 / 1] [1 / 1; 0 / 1; 0 / 1] ft).
Proof. intros f ft. unfold newPlanewave. rewrite n100, n010. destruct (Req_EM_T 1 0); [lra|]. reflexivity. Qed.
Definition exF : func := FGauss 2 [1] 1.
Lemma ex_wave : smooth exF /\ total1 exF /\ (exists w, newPlanewave exF [0; 1; 0] [1; 0; 0] 0 = Ok w) /\ dot3 [0; 1; 0] [1; 0; 0] = 0.
Proof.
  assert (S : smooth exF) by (apply gauss_smooth; lra). split; [exact S|]. split; [destruct S as (g & _ & P & _); exists g; exact P|].
  split; [rewrite mk_wave; eauto|]. unfold dot3. cbn [nth]. ring.
Qed.
Lemma longitudinal : exists w v, newPlanewave exF [1; 0; 0] [1; 0; 0] 0 = Ok w /\ planeEval w [1; 0; 0] 0 0 0 = Ok v /\ v <> 0.
Proof.
  unfold newPlanewave. rewrite n100. destruct (Req_EM_T 1 0); [lra|]. eexists. eexists. split; [reflexivity|].
  unfold planeEval, exF, dotv, gaussArg, speedOfLight. cbn -[exp Rdiv Rmult Rplus Rminus pow IZR]. unfold gaussArg. cbn -[exp Rdiv Rmult Rplus Rminus pow IZR]. split; [reflexivity|].
  apply Rmult_integral_contrapositive_currified; [apply Rgt_not_eq, exp_pos|lra].
Qed.

(** ** Dipole *)
Lemma rad_zero : forall p, length p = 3%nat -> p <> [0; 0; 0] -> rad p <> 0.
Proof.
  intros p L N E. destruct (three p L) as (a & b & c & ->). apply N. pose proof (rad_sq [a; b; c]) as Q. rewrite E in Q. cbn [nth] in Q.
  assert (a = 0) by nra. assert (b = 0) by nra. assert (c = 0) by nra. subst. reflexivity.
Qed.
Lemma dipole_field : forall w, dp_spread w <> 0 ->
  exists F : vfield, (forall p t f d, length p = 3%nat -> p <> [0; 0; 0] -> (0 <= f <= 1)%Z -> (0 <= d <= 2)%Z -> dipoleEval w p t f d = Ok (F f d t p)) /\
    forall t p, length p = 3%nat -> p <> [0; 0; 0] -> maxwellAt F t p.
Proof.
  intros w Hs. exists (DP w). split.
  - intros p t f d L N Hf Hd. apply dp_eval; try assumption. apply rad_zero; assumption.
  - intros t p L N. apply dp_maxwell; try assumption. apply rad_zero; assumption.
Qed.
Lemma dipole_2D : forall w x y t f d, (x <> 0 \/ y <> 0) -> dipoleEval w [x; y] t f d = dipoleEval w [x; y; 0] t f d.
Proof.
  intros w x y t f d N. unfold dipoleEval, fromCartesian. cbn [bind sp_theta sp_radius sp_phi].
  assert (E : 0 + x ^ 2 + y ^ 2 + 0 ^ 2 = 0 + x ^ 2 + y ^ 2) by ring. rewrite E.
  assert (P : sqrt (0 + x ^ 2 + y ^ 2) <> 0). { intros Z. apply sqrt_eq_0 in Z; [destruct N; nra|nra]. }
  destruct (Req_EM_T (sqrt (0 + x ^ 2 + y ^ 2)) 0); [contradiction|]. unfold Rdiv at 7. 
  replace (acos (0 / sqrt (0 + x ^ 2 + y ^ 2))) with (PI / 2); [reflexivity|]. unfold Rdiv at 2. rewrite Rmult_0_l, acos_0. reflexivity.
Qed.
Lemma dipole_origin : forall w t f d, dipoleEval w [0; 0; 0] t f d = UB.
Proof.
  intros. unfold dipoleEval, fromCartesian. cbn [bind sp_theta]. destruct (Req_EM_T (sqrt (0 + 0 ^ 2 + 0 ^ 2 + 0 ^ 2)) 0) as [_|N]; [reflexivity|].
  exfalso. apply N. replace (0 + 0 ^ 2 + 0 ^ 2 + 0 ^ 2) with 0 by ring. apply sqrt_0.
Qed.
Lemma dipole_live : exists p t, length p = 3%nat /\ p <> [0; 0; 0] /\ exists v, dipoleEval (mkDip 1 1 0) p t 1 1 = Ok v /\ v <> 0.
Proof.
  exists [1; 0; 0], 1. split; [reflexivity|]. split; [intros E; injection E; lra|].
  assert (R1 : rad [1; 0; 0] = 1). { unfold rad. cbn [nth]. replace (1 * 1 + 0 * 0 + 0 * 0) with 1 by ring. apply sqrt_1. }
  eexists. split; [apply (dp_eval (mkDip 1 1 0)); cbn; try lra; lia|].
  unfold DP. rewrite R1. zn. cbn -[exp Rdiv Rmult Rplus Rminus pow IZR fa fc L q0 q1 q2]. unfold fc.
  assert (W0 : wd (mkDip 1 1 0) = sqrt 2) by (unfold wd; cbn [dp_spread]; ring).
  assert (Q0 : q0 (mkDip 1 1 0) 0 = sqrt 2 * exp 1 / 2).
  { unfold q0. cbn [dp_mean]. rewrite W0. replace (- ((0 - 0) / sqrt 2 * ((0 - 0) / sqrt 2))) with 0 by (unfold Rdiv; ring). rewrite exp_0. ring. }
  assert (Q1 : q1 (mkDip 1 1 0) 0 = 0) by (unfold q1; cbn [dp_mean]; unfold Rdiv; ring).
  assert (S2 : sqrt 2 * sqrt 2 = 2) by (apply sqrt_def; lra). assert (S3 : 0 < sqrt 2) by (apply sqrt_lt_R0; lra).
  assert (Q2 : q2 (mkDip 1 1 0) 0 = - q0 (mkDip 1 1 0) 0).
  { unfold q2. rewrite Q1, W0. replace (2 / sqrt 2 / sqrt 2) with 1; [ring|]. replace (2 / sqrt 2 / sqrt 2) with (2 / (sqrt 2 * sqrt 2)) by (field; lra). rewrite S2. lra. }
  replace (1 - 1) with 0 by ring. rewrite Q2, Q1, Q0. pose proof (exp_pos 1). pose proof PI_RGT_0. unfold L, invFourPi. cbn [dp_len].
  assert (X : 0 < 1 / (4 * PI)) by (apply Rdiv_lt_0_compat; lra). assert (Y : 0 < sqrt 2 * exp 1) by (apply Rmult_lt_0_compat; lra).
  replace (1 * (1 / (4 * PI)) * (1 * (- (sqrt 2 * exp 1 / 2) / 1 ^ 2 + 0 / 1 ^ 3))) with (- (1 / (4 * PI) * (sqrt 2 * exp 1) / 2)) by (field; lra).
  pose proof (Rmult_lt_0_compat _ _ X Y). lra.
Qed.

(** ** Superposition *)
Lemma plane_incident : forall f g pol dir ft w nodes time, (forall x, funcEval f [x] = Ok (g x)) -> length pol = 3%nat -> length dir = 3%nat -> newPlanewave f pol dir ft = Ok w ->
  Forall (fun p => (1 <= length p <= 3)%nat) nodes ->
  incident nodes time (SPlane w) (Some (fun p fi d => PW g pol dir ft fi d time (pad3 p))).
Proof.
  intros f g pol dir ft w nodes time Pg Lp Ld W Hn. split; [reflexivity|]. intros p fi d Ip Hf Hd. rewrite Forall_forall in Hn. specialize (Hn p Ip).
  assert (L3 : length (pad3 p) = 3%nat) by (unfold pad3; rewrite firstn_length, app_length; cbn [length]; lia).
  cbn [sourceEval]. rewrite plane_pad by exact Hn. rewrite (pw_eval f g Pg pol dir ft Lp Ld w W) by assumption. split; reflexivity.
Qed.
Definition gI (sp : R) (m x : R) : R := exp (- (0 + (x - m) ^ 2) / (2 * sp ^ 2)).
Lemma gI_ok : forall sp m x, funcEval (FGauss sp [m] 1) [x] = Ok (gI sp m x).
Proof. reflexivity. Qed.
Definition wv (m : R) : planewave := mkPW (FGauss 1 [m] 1) [0 / 1; 1 / 1; 0 / 1] [1 / 1; 0 / 1; 0 / 1] 0.
Lemma wv_ok : forall m, newPlanewave (FGauss 1 [m] 1) [0; 1; 0] [1; 0; 0] 0 = Ok (wv m).
Proof. intros m. apply mk_wave. Qed.
Definition incW (m : R) : option (list R -> Z -> Z -> R) := Some (fun p fi d => PW (gI 1 m) [0; 1; 0] [1; 0; 0] 0 fi d 0 (pad3 p)).
Lemma wv_inc : forall m nodes, Forall (fun p => (1 <= length p <= 3)%nat) nodes -> incident nodes 0 (SPlane (wv m)) (incW m).
Proof. intros m nodes H. apply (plane_incident (FGauss 1 [m] 1) (gI 1 m)); auto. apply wv_ok. Qed.
(** Two elements of two nodes each around the point 0. *)
Definition exSub : submesh := mkSub [7; 8]%Z (fun k => if (k =? 0)%Z then [0; 1]%Z else [2; 3]%Z) (Some [8]%Z) (Some [7]%Z).
Definition exNodes : list (list R) := [[-1]; [0]; [0]; [1]].
Lemma ex_nodes : Forall (fun p : list R => (1 <= length p <= 3)%nat) exNodes.
Proof. apply Forall_forall. intros p [<-|[<-|[<-|[<-|[]]]]]; cbn; lia. Qed.
Lemma ex_dof : forall i e, dofOf exSub i e -> (e = 7 /\ (i = 0 \/ i = 1))%Z \/ (e = 8 /\ (i = 2 \/ i = 3))%Z.
Proof.
  intros i e (k & K & N & I). cbn [exSub sb_map sb_dofs] in *. destruct (Z.to_nat k) as [|[|n]] eqn:Ek.
  - assert (k = 0)%Z by lia. subst k. cbn in N, I. injection N as <-. left. split; [reflexivity|]. destruct I as [<-|[<-|[]]]; auto.
  - assert (k = 1)%Z by lia. subst k. cbn in N, I. injection N as <-. right. split; [reflexivity|]. destruct I as [<-|[<-|[]]]; auto.
  - cbn in N. destruct n; discriminate.
Qed.
Lemma ex_split : wellSplit (length exNodes) exSub.
Proof.
  split; [|split; [|split]].
  - cbn. constructor; [intros [X|[]]; discriminate|]. constructor; [intros []|constructor].
  - intros x [<-|[]]. right. left. reflexivity.
  - intros x [<-|[]]. left. reflexivity.
  - intros i e e' _ H H'. destruct (ex_dof i e H) as [(-> & A)|(-> & A)], (ex_dof i e' H') as [(-> & B)|(-> & B)]; lia.
Qed.
Lemma ex_weight : weight (dofOf exSub) (tfOf exSub) (sb_sf exSub) 1 (- / 2) /\ weight (dofOf exSub) (tfOf exSub) (sb_sf exSub) 2 (/ 2).
Proof.
  split; cbn [weight exSub sb_sf tfOf sb_tf].
  - exists 7%Z. split; [exists 0%Z; cbn; auto with zarith|]. right. cbn. split; [auto|]. split; [intros [X|[]]; discriminate|reflexivity].
  - exists 8%Z. split; [exists 1%Z; cbn; auto with zarith|]. left. cbn. split; [auto|]. split; [intros [X|[]]; discriminate|reflexivity].
Qed.
Definition exIncs : list (option (list R -> Z -> Z -> R)) := [incW 0; None; incW 1].
Definition exSrcs : list source := [SPlane (wv 0); SInit (mkIF (FGauss 1 [0] 1) 0 [0; 1; 0] [0]); SPlane (wv 1)].
Lemma ex_srcs : Forall2 (incident exNodes 0) exSrcs exIncs.
Proof. constructor; [apply wv_inc, ex_nodes|]. constructor; [reflexivity|]. constructor; [apply wv_inc, ex_nodes|constructor]. Qed.
Lemma inc_at0 : forall m, optInc (incW m) [0] 0 1 = exp (- (m ^ 2) / 2).
Proof.
  intros m. cbn [optInc incW]. unfold PW, gI, khat, amp, phat, dot3, pad3. rewrite n100, n010. zn. cbn -[exp Rdiv Rmult Rplus Rminus pow IZR].
  match goal with |- exp ?a * _ = _ => replace a with (- (m ^ 2) / 2); [lra|] end. field.
Qed.
(** The matrix operator with two plane waves: twice the last one instead of the sum. *)
Lemma two_waves : exists o, maxwellSources exSrcs exSub exNodes 0 (fun g r => g 0%Z 1%Z r) (fun _ => 0) = Ok o /\
  o 2%Z = - exp (- (1 ^ 2) / 2) /\ total (fun c => optInc c [0] 0 1) exIncs = 1 + exp (- (1 ^ 2) / 2) /\ o 2%Z <> 0 - / 2 * total (fun c => optInc c [0] 0 1) exIncs.
Proof.
  destruct (fallback_weight exSrcs exIncs exSub exNodes 0 ex_srcs ex_split) as (g & Eg & Vg).
  destruct (inject_count exSrcs exIncs exSub exNodes 0 (fun g r => g 0%Z 1%Z r) (fun _ => 0) g ex_srcs Eg) as (o & Eo & Vo). exists o. split; [exact Eo|].
  assert (T : total (fun c => optInc c [0] 0 1) exIncs = 1 + exp (- (1 ^ 2) / 2)).
  { unfold total, exIncs. cbn [fold_right]. rewrite !inc_at0. cbn [optInc]. replace (- (0 ^ 2) / 2) with 0 by field. rewrite exp_0. ring. }
  assert (O : o 2%Z = - exp (- (1 ^ 2) / 2)).
  { rewrite Vo, (Vg 0%Z 1%Z 2%Z (/ 2) ltac:(lia) ltac:(lia) ltac:(cbn; lia) (proj2 ex_weight)).
    change (lastInc exIncs (nth (Z.to_nat 2) exNodes []) 0 1) with (optInc (incW 1) [0] 0 1). rewrite inc_at0. cbn [filter isSome exIncs length incW]. cbn [INR]. field. }
  split; [exact O|]. split; [exact T|]. rewrite O, T. assert (H : exp (- (1 ^ 2) / 2) < exp 0) by (apply exp_increasing; lra). rewrite exp_0 in H. lra.
Qed.
Definition exOne : list source := [SPlane (wv 0); SInit (mkIF (FGauss 1 [0] 1) 0 [0; 1; 0] [0])].
Lemma ex_one : Forall2 (incident exNodes 0) exOne [incW 0; None] /\ length (filter isSome [incW 0; None]) = 1%nat /\ optInc (incW 0) [0] 0 1 = 1.
Proof.
  split; [constructor; [apply wv_inc, ex_nodes|]; constructor; [reflexivity|constructor]|]. split; [reflexivity|]. rewrite inc_at0. replace (- (0 ^ 2) / 2) with 0 by field. apply exp_0.
Qed.
(** Initial fields: two Gaussians in the plane and a plane wave, which takes no part. *)
Definition exInit : list source := [SInit (mkIF (FGauss 1 [0; 0] 2) 0 [0; 0; 1] [0; 0]); SPlane (wv 0); SInit (mkIF (FGauss 2 [0; 0] 2) 0 [1; 0; 1] [1; 2])].
Definition gau (sp : R) (q : list R) : R := exp (- fold_right (fun a s => a ^ 2 + s) 0 q / (2 * sp ^ 2)).
Definition exIdeals : list (option ideal) := [Some (mkIdeal 0 [0; 0; 1] [0; 0] (gau 1)); None; Some (mkIdeal 0 [1; 0; 1] [1; 2] (gau 2))].
Lemma ex_init : Forall (fun p : list R => length p = 2%nat) [[0; 0]; [1; 2]] /\ Forall2 (realises 2) exInit exIdeals /\
  total (fun o => optAt o [1; 2] 0 2) exIdeals = exp (- 5 / 2) + 1.
Proof.
  split; [apply Forall_forall; intros p [<-|[<-|[]]]; reflexivity|]. split.
  - constructor; [|constructor; [exact Logic.I|constructor; [|constructor]]]; cbn [realises exInit if_ft if_pol if_center if_fn id_ft id_pol id_center id_phi]; (repeat split; try reflexivity; try (cbn; lia)).
    + intros q L. apply (gauss_value 1 2 q); [lia|exact L].
    + intros q L. apply (gauss_value 2 2 q); [lia|exact L].
  - unfold total, exIdeals. cbn [fold_right optAt]. unfold idealAt. cbn [id_ft id_pol id_center id_phi Z.eqb]. zn. unfold gau. cbn -[exp Rdiv Rmult Rplus Rminus pow IZR].
    match goal with |- exp ?a * 1 + (0 + (exp ?b * 1 + 0)) = _ => replace a with (- 5 / 2) by field; replace b with 0 by field end. rewrite exp_0. ring.
Qed.

(** ** Frequencies *)
Definition mag0 : magnitude := mkMag None None None None None None None.
Definition src (ty : string) (m : magnitude) : jsource := mkJS ty None (Some m) None None None None None.
Definition modS (f sp : R) : jsource := src "planewave" (mkMag None (Some sp) (Some f) None None None None).
Definition gauS (sp : R) : jsource := src "initial" (mkMag (Some "gaussian"%string) (Some sp) None None None None None).
Definition plainS (sp : R) : jsource := src "planewave" (mkMag None (Some sp) None None None None None).
Lemma ex_freq : modulated (modS 5 2) 5 2 /\ plainGauss (gauS 3) 3 /\ 0 < edgeOf 5 2 /\
  In (gauS 3) [gauS 3; gauS 4] /\ (forall q f w, In q [gauS 3; gauS 4] -> modulated q f w -> edgeOf f w <= 0).
Proof.
  split; [eexists; repeat split; reflexivity|]. split; [eexists; repeat split; try reflexivity; lra|]. split; [unfold edgeOf; lra|]. split; [left; reflexivity|].
  intros q f w [<-|[<-|[]]] (m & Em & Ef & _); injection Em as <-; discriminate.
Qed.
(** A slow modulated source hides a fast Gaussian one. *)
Lemma mixed_freq : exists l s sp, In s l /\ plainGauss s sp /\ maxSourceFrequency l < edgeOf 0 sp.
Proof.
  exists [modS 1 299792458; gauS 1], (gauS 1), 1. split; [right; left; reflexivity|]. split; [eexists; repeat split; try reflexivity; lra|].
  unfold maxSourceFrequency. cbn [fold_left]. unfold freqStep at 2. cbn [js_mag modS src mg_freq mg_spread]. unfold speedOfLight_SI. destruct (Rlt_dec 0 (1 + 299792458 / (2 * 299792458))) as [_|N]; [|lra].
  unfold freqStep. cbn [js_mag gauS src mg_freq mg_spread mg_type String.eqb Ascii.eqb Bool.eqb]. destruct (Rlt_dec 0 1); [|lra]. unfold edgeOf. lra.
Qed.
(** A Gaussian plane wave has no magnitude type, and is not counted. *)
Lemma plane_freq : exists s, js_type s = "planewave"%string /\ (exists m, js_mag s = Some m /\ mg_freq m = None /\ mg_spread m = Some (/ 1000)) /\ maxSourceFrequency [s] < edgeOf 0 (/ 1000).
Proof.
  exists (plainS (/ 1000)). split; [reflexivity|]. split; [eexists; repeat split; reflexivity|]. unfold maxSourceFrequency. cbn [fold_left]. unfold freqStep. cbn [js_mag plainS src mg_freq mg_spread mg_type].
  unfold edgeOf. replace (2 * / 1000) with (/ 500) by lra. unfold Rdiv. rewrite Rinv_inv. lra.
Qed.

(** ** Automatic delay *)
Definition exSp : R := / (5 * sqrt 2).
Lemma exSp_pos : 0 < exSp.
Proof. unfold exSp. apply Rinv_0_lt_compat. pose proof (sqrt_lt_R0 2 ltac:(lra)). lra. Qed.
Definition exMag : magnitude := mkMag None (Some exSp) None None None None None.
Definition exPW : jsource := mkJS "planewave" None (Some exMag) None (Some [0; 1; 0]) (Some [1; 0; 0]) None (Some [3]%Z).
Definition exBes : list belem := [mkBE 3 [[-1; 1]; [1; -1]]].
Lemma ex_delay : exists w, buildSource (fun _ => 0) (fun _ => 0) (Some (exBes, 2%nat)) exPW = Ok [SPlane w] /\ hasTag (mkBE 3 [[-1; 1]; [1; -1]]) [3]%Z = true /\
  planeEval w [-1; 1] 0 0 1 = Ok 1.
Proof.
  assert (K : 5 * exSp * sqrt 2 = 1) by (unfold exSp; pose proof (sqrt_lt_R0 2 ltac:(lra)); field; lra).
  unfold buildSource. cbn [exPW js_type String.eqb Ascii.eqb Bool.eqb js_mag need bind exMag mg_spread js_pol js_prop mg_freq assemble3DVector]. unfold planeMean. cbn [mg_mean js_tags js_prop need bind assemble3DVector].
  eexists. split. { unfold buildPlane. cbn [exMag exPW mg_mean js_tags js_prop need bind assemble3DVector]. rewrite mk_wave. reflexivity. } split; [reflexivity|].
  rewrite n100. unfold minPhase, exBes, AUTO_DELAY_N_SIGMA. cbn [fold_left hasTag be_attr existsb Z.eqb Pos.eqb orb minOpt map]. rewrite K.
  unfold planeEval. cbn [pw_ft pw_pol pw_prop pw_fn Z.eqb]. unfold zget. cbn [Z.ltb Z.compare]. zn. cbn [nth_error bind]. unfold funcEval. cbn [Z.leb Z.compare Pos.compare Pos.compare_cont andb].
  unfold gaussArg. zn. change (zseq 1) with [0%Z]. cbn [foldM]. unfold zget. cbn [Z.ltb Z.compare]. zn. cbn [nth_error bind]. f_equal.
  unfold centroid, dotv, speedOfLight. cbn [be_verts length seq map combine fold_right fst snd nth]. cbn [INR].
  match goal with |- exp ?a * _ = _ => replace a with 0; [rewrite exp_0; lra|] end. field. apply Rgt_not_eq. exact exSp_pos.
Qed.
(** ** Dropped sources *)
Lemma ex_dropped : exists s, js_type s = "initial"%string /\ buildSources (fun _ => 0) (fun _ => 0) None [s] = Ok [].
Proof. exists (src "initial" (mkMag (Some "Gaussian"%string) (Some 1) None None None None None)). split; reflexivity. Qed.
Definition exGood : list jsource :=
  [mkJS "initial" (Some "electric"%string) (Some (mkMag (Some "gaussian"%string) (Some 1) None None None None None)) (Some [0; 0]) (Some [0; 0; 1]) None (Some 2%Z) None;
   mkJS "dipole" None (Some (mkMag None (Some 1) None None (Some 3) None (Some 2))) None None None None None].
Lemma ex_good : Forall (fun s => ~ dropped s) exGood /\ exists r, buildSources (fun _ => 0) (fun _ => 0) None exGood = Ok r /\ length r = 2%nat.
Proof.
  split; [|eexists; split; reflexivity]. apply Forall_forall. intros s [<-|[<-|[]]] (Ty & m & ty & Em & Et & K); [|discriminate].
  injection Em as <-. injection Et as <-. discriminate.
Qed.
Lemma short_vector : exists s, js_pol s = Some [0; 1] /\ buildSource (fun _ => 0) (fun _ => 0) None s = UB.
Proof. exists (mkJS "planewave" None (Some (mkMag None (Some 1) None None None None None)) None (Some [0; 1]) (Some [1; 0; 0]) None None). split; reflexivity. Qed.

Lemma ex_dip : dp_spread (mkDip 1 1 0) <> 0 /\ [1; 2; 3] <> [0; 0; 0].
Proof. split; [cbn [dp_spread]; lra|]. intros E. assert (Q : nth 0 [1; 2; 3] 0 = 0) by (rewrite E; reflexivity). cbn [nth] in Q. lra. Qed.
Lemma ex_delays : (exists w, buildSource (fun _ => 0) (fun _ => 0) (Some (exBes, 2%nat)) exPW = Ok [SPlane w]) /\ be_verts (mkBE 3 [[-1; 1]; [1; -1]]) <> [] /\
  leastOr0 [2; 1; 3] 1.
Proof.
  split; [destruct ex_delay as [w [E _]]; exists w; exact E|]. split; [discriminate|]. right. split; [right; left; reflexivity|].
  intros v [<-|[<-|[<-|[]]]]; lra.
Qed.

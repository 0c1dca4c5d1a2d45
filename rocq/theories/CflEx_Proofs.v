(** Cases for the automatic time step, and runs that blow up. *)
From Coq Require Import ZArith List Bool Reals Lia Lra Psatz.
From Verif Require Import Common Csr_Model Geo_Spec Face_Model Face_Spec Face_Proofs Nodal_Spec Nodal_Proofs NodalMult_Proofs NodalEnergy_Spec Setup_Model Setup_Spec Assembly_Model Form_Model Form_Spec Global_Spec GlobalBalance_Proofs Step_Model Step_Spec Time_Model Ode_Model Ode_Spec Cfl_Spec CflBound_Proofs CflLine_Proofs CflFin_Proofs CflBlow_Proofs.
Import ListNotations.
Local Open Scope R_scope.

Lemma step_mesh : forall n h, (forall k, 0 <= h k) -> sameLine n h (stepMesh n h).
Proof.
  intros n h H. split; [reflexivity|]. split; [cbn [stepMesh m_elements]; rewrite map_length, seq_length; reflexivity|].
  intros k e E. cbn [stepMesh m_elements] in E. assert (Hk : (k < n)%nat) by (rewrite <- (seq_length n 0), <- (map_length (fun k => mkElement Segment (h k) (h k) [] [nodeAt h k; nodeAt h (S k)])); apply nth_error_Some; congruence).
  rewrite nth_error_map, (nth_error_nth' _ 0%nat) in E by (rewrite seq_length; exact Hk). rewrite seq_nth in E by exact Hk. cbn [option_map Nat.add] in E. injection E as <-.
  exists (nodeAt h k), (nodeAt h (S k)). split; [reflexivity|]. cbn [nodeAt]. replace (nodeAt h k - (nodeAt h k + h k)) with (- h k) by ring. rewrite Rabs_Ropp. apply Rabs_pos_eq, H.
Qed.

(** Three elements of different lengths, glass in the middle, walls at the ends. *)
Definition exH (k : nat) : R := match k with 0%nat => 1 | 1%nat => / 2 | _ => 2 end.
Definition exW (g : Z) (k : nat) : R := if (g =? 0)%Z then match k with 1%nat => 4 | _ => 1 end else 1.
Lemma ex_h : forall k, 0 < exH k <= 10.
Proof. intros [|[|k]]; cbn; lra. Qed.
Lemma ex_w : forall g k, 1 <= exW g k.
Proof. intros g k. unfold exW. destruct (g =? 0)%Z; [|lra]. destruct k as [|[|k]]; lra. Qed.
Lemma noLoss_zero : forall N v u, mform N noLoss v u = 0.
Proof. intros N v u. unfold mform, noLoss. apply sumN_zero. intros i _. rewrite (sumN_zero N) by (intros; ring). ring. Qed.
Lemma ex_line : lineTags 3 (endWalls 3) [1%Z] /\ (forall k, (k < 3)%nat -> 0 < exH k <= 10) /\ (forall g k, 1 <= exW g k) /\ sameLine 3 exH (stepMesh 3 exH) /\
  tables (lineMesh 3 (endWalls 3) [1%Z]) [(1%Z, PEC)] [] [(PEC, [1%Z])] [] /\ passive (lineMesh 3 (endWalls 3) [1%Z]) [(1%Z, PEC)] [] /\ reflecting (lineMesh 3 (endWalls 3) [1%Z]) [(1%Z, PEC)] [] /\
  (forall v u, mform (2 * 3) noLoss v u = 0) /\ lossBound (2 * 3) (lineMass exH exW) noLoss 0 /\
  / 100 * (sqrt 12 + 6 * (1 + 1)) + / 100 * / 2 * 0 <= 1 / 4 /\ / 4 * (sqrt 12 + 6) <= sqrt 8.
Proof.
  assert (n0 : (0 < 3)%nat) by lia.
  assert (S12 : sqrt 12 <= 7 / 2) by (rewrite <- (sqrt_square (7 / 2)) by lra; apply sqrt_le_1_alt; lra).
  assert (S8 : 14 / 5 <= sqrt 8) by (rewrite <- (sqrt_square (14 / 5)) by lra; apply sqrt_le_1_alt; lra).
  split; [exact (w_tags 3 n0)|]. split; [intros; apply ex_h|]. split; [exact ex_w|]. split; [apply step_mesh; intros k; pose proof (ex_h k); lra|].
  split; [exact (w_tables 3 n0)|]. split; [exact (w_passive 3 n0)|]. split; [exact (w_reflecting 3 n0)|]. split; [apply noLoss_zero|].
  split; [split; [lra|]; intros v u; rewrite noLoss_zero; lra|]. split; lra.
Qed.

(** ** The bound, for every space *)
Theorem bound_of : forall N m dim alpha gb gi ob ib Mass MInv D MSigma sm,
  dgSpace N m dim Mass MInv D -> tables m gb gi ob ib -> massForm N Mass -> nonnegWeights m -> 0 <= alpha ->
  forall Cd Tr Sg, derivBound N dim Mass D Cd -> traceBound N m Mass Tr -> lossBound N Mass MSigma Sg ->
  exists A, buildGlobalOperator R Rplus Rmult 1 (-1) (factoryRows N m dim alpha ob ib MInv D MSigma sm) dim (Z.of_nat N) 0
              (match ib with [] => false | _ => true end) = Ok A /\ boundedBy A N Mass (IZR dim * Cd + (1 + alpha) * Tr + Sg).
Proof. exact op_bounded. Qed.
Theorem line_constants : forall n bdr battrs h w hm, (0 < n)%nat -> lineTags n bdr battrs -> 0 < hm -> (forall k, (k < n)%nat -> hm <= h k) -> (forall g k, 1 <= w g k) ->
  dgSpace (2 * n) (lineMesh n bdr battrs) 1 (lineMass h w) (lineInv h w) lineD /\ massForm (2 * n) (lineMass h w) /\ nonnegWeights (lineMesh n bdr battrs) /\ coercive (2 * n) (lineMass h w) (hm / 6) /\
  derivBound (2 * n) 1 (lineMass h w) lineD (sqrt 12 / hm) /\ traceBound (2 * n) (lineMesh n bdr battrs) (lineMass h w) (6 / hm).
Proof.
  intros n bdr battrs h w hm n0 T H0 Hh Hw.
  exact (conj (line_space n bdr battrs h w hm n0 T H0 Hh Hw) (conj (line_mass n h w hm H0 Hh Hw) (conj (line_weights n bdr battrs n0) (conj (line_coercive n h w hm H0 Hh Hw)
    (conj (line_deriv n h w hm H0 Hh Hw) (line_trace n bdr battrs h w hm n0 H0 Hh Hw)))))).
Qed.

(** ** Runs that blow up *)
Notation wallOp n h alpha A := (buildGlobalOperator R Rplus Rmult 1 (-1) (factoryRows (2 * n) (lineMesh n (endWalls n) [1%Z]) 1 alpha [(PEC, [1%Z])] [] (lineInv (fun _ => h) vacuum) lineD noLoss []) 1 (Z.of_nat (2 * n)) 0 false = Ok A).
Notation energy n h x := (fieldEnergy (2 * n) (lineMass (fun _ => h) vacuum) x).
Theorem central_runs : forall n h dmax gl st ms o, (0 < n)%nat -> 0 < h <= dmax -> sameLine n (fun _ => h) ms -> so_order o = 1%Z -> 0 < so_cfl o ->
  exists A, wallOp n h 0 A /\ estimateTimeStep dmax gl st ms o = Ok (so_cfl o * h) /\ 0 < energy n h (alternatingWave n) /\
  forall f imp, evaluates A (2 * n) f -> forall k, exists tr s', runR (list R) (odeStep f imp 0) (mkSolver 0 (so_cfl o * h) (INR k * (so_cfl o * h)) (alternatingWave n) []) tr s' /\ length tr = k /\
    energy n h (s_fields s') = (1 - 24 * so_cfl o ^ 6 + 36 * so_cfl o ^ 8) ^ k * energy n h (alternatingWave n).
Proof.
  intros n h dmax gl st ms o n0 (H0 & Hd) SL O1 C0. destruct (wave_run n h n0 H0 dmax gl st ms o Hd SL O1 C0) as (E & A & EA & P & V).
  exists A. split; [exact EA|]. split; [exact E|]. split; [exact P|exact V].
Qed.
Theorem upwind_runs : forall n h dmax gl st ms o, (0 < n)%nat -> 0 < h <= dmax -> sameLine n (fun _ => h) ms -> so_order o = 1%Z -> 0 < so_cfl o ->
  exists A, wallOp n h 1 A /\ estimateTimeStep dmax gl st ms o = Ok (so_cfl o * h) /\ 0 < energy n h (sawWave n) /\
  forall f imp, evaluates A (2 * n) f -> forall k, exists tr s', runR (list R) (odeStep f imp 0) (mkSolver 0 (so_cfl o * h) (INR k * (so_cfl o * h)) (sawWave n) []) tr s' /\ length tr = k /\
    energy n h (s_fields s') = ((1 - 6 * so_cfl o + 18 * so_cfl o ^ 2 - 36 * so_cfl o ^ 3 + 54 * so_cfl o ^ 4) ^ 2) ^ k * energy n h (sawWave n).
Proof.
  intros n h dmax gl st ms o n0 (H0 & Hd) SL O1 C0. destruct (saw_run n h n0 H0 dmax gl st ms o Hd SL O1 C0) as (E & A & EA & P & V).
  exists A. split; [exact EA|]. split; [exact E|]. split; [exact P|exact V].
Qed.
Lemma pow_ge : forall a b k, 0 <= a <= b -> a ^ k <= b ^ k.
Proof. intros a b k H. apply pow_incr. exact H. Qed.
Theorem upwind_half : forall n h dmax gl st ms o, (0 < n)%nat -> 0 < h <= dmax -> sameLine n (fun _ => h) ms -> so_order o = 1%Z -> 1 / 2 <= so_cfl o ->
  exists A dt, wallOp n h 1 A /\ estimateTimeStep dmax gl st ms o = Ok dt /\ 0 < energy n h (sawWave n) /\
  forall f imp, evaluates A (2 * n) f -> forall k, exists tr s', runR (list R) (odeStep f imp 0) (mkSolver 0 dt (INR k * dt) (sawWave n) []) tr s' /\ length tr = k /\
    (121 / 64) ^ k * energy n h (sawWave n) <= energy n h (s_fields s').
Proof.
  intros n h dmax gl st ms o n0 H SL O1 C0. destruct (upwind_runs n h dmax gl st ms o n0 H SL O1 ltac:(lra)) as (A & EA & E & P & V).
  exists A, (so_cfl o * h). split; [exact EA|]. split; [exact E|]. split; [exact P|]. intros f imp Ev k. destruct (V f imp Ev k) as (tr & s' & Rn & L & Q). exists tr, s'. split; [exact Rn|]. split; [exact L|].
  rewrite Q. apply Rmult_le_compat_r; [lra|]. apply pow_ge. split; [lra|]. set (c := so_cfl o) in *. clearbody c.
  assert (G : 11 / 8 <= 1 - 6 * c + 18 * c ^ 2 - 36 * c ^ 3 + 54 * c ^ 4).
  { set (t := c - 1 / 2). assert (0 <= t) by (unfold t; lra). replace c with (t + 1 / 2) by (unfold t; ring). clearbody t.
    replace (1 - 6 * (t + 1 / 2) + 18 * (t + 1 / 2) ^ 2 - 36 * (t + 1 / 2) ^ 3 + 54 * (t + 1 / 2) ^ 4) with (11 / 8 + 12 * t + 45 * t ^ 2 + 72 * t ^ 3 + 54 * t ^ 4) by field.
    pose proof (pow_le t 2 H0). pose proof (pow_le t 3 H0). pose proof (pow_le t 4 H0). lra. }
  set (g := 1 - 6 * c + 18 * c ^ 2 - 36 * c ^ 3 + 54 * c ^ 4) in *. clearbody g. cbn [pow]. nra.
Qed.
Theorem default_blows : forall n h dmax gl st ms o, (0 < n)%nat -> 0 < h <= dmax -> sameLine n (fun _ => h) ms -> so_order o = 1%Z -> so_cfl o = 1 ->
  (exists A dt, wallOp n h 1 A /\ estimateTimeStep dmax gl st ms o = Ok dt /\ 0 < energy n h (sawWave n) /\
   forall f imp, evaluates A (2 * n) f -> forall k, exists tr s', runR (list R) (odeStep f imp 0) (mkSolver 0 dt (INR k * dt) (sawWave n) []) tr s' /\ length tr = k /\
     energy n h (s_fields s') = 961 ^ k * energy n h (sawWave n)) /\
  (exists A dt, wallOp n h 0 A /\ estimateTimeStep dmax gl st ms o = Ok dt /\ 0 < energy n h (alternatingWave n) /\
   forall f imp, evaluates A (2 * n) f -> forall k, exists tr s', runR (list R) (odeStep f imp 0) (mkSolver 0 dt (INR k * dt) (alternatingWave n) []) tr s' /\ length tr = k /\
     energy n h (s_fields s') = 13 ^ k * energy n h (alternatingWave n)).
Proof.
  intros n h dmax gl st ms o n0 H SL O1 C1. split.
  - destruct (upwind_runs n h dmax gl st ms o n0 H SL O1 ltac:(lra)) as (A & EA & E & P & V). exists A, (so_cfl o * h). split; [exact EA|]. split; [exact E|]. split; [exact P|]. intros f imp Ev k.
    destruct (V f imp Ev k) as (tr & s' & Rn & L & Q). exists tr, s'. split; [exact Rn|]. split; [exact L|]. rewrite Q, C1. f_equal. f_equal. ring.
  - destruct (central_runs n h dmax gl st ms o n0 H SL O1 ltac:(lra)) as (A & EA & E & P & V). exists A, (so_cfl o * h). split; [exact EA|]. split; [exact E|]. split; [exact P|]. intros f imp Ev k.
    destruct (V f imp Ev k) as (tr & s' & Rn & L & Q). exists tr, s'. split; [exact Rn|]. split; [exact L|]. rewrite Q, C1. f_equal. f_equal. ring.
Qed.
Lemma ex_walls : sameLine 5 (fun _ => 2) (stepMesh 5 (fun _ => 2)) /\ dgSpace (2 * 5) (lineMesh 5 (endWalls 5) [1%Z]) 1 (lineMass (fun _ => 2) vacuum) (lineInv (fun _ => 2) vacuum) lineD /\
  tables (lineMesh 5 (endWalls 5) [1%Z]) [(1%Z, PEC)] [] [(PEC, [1%Z])] [] /\ reflecting (lineMesh 5 (endWalls 5) [1%Z]) [(1%Z, PEC)] [].
Proof.
  assert (n0 : (0 < 5)%nat) by lia. assert (h0 : 0 < 2) by lra.
  split; [apply step_mesh; intros; lra|]. split; [exact (w_space 5 2 n0 h0)|]. split; [exact (w_tables 5 n0)|exact (w_reflecting 5 n0)].
Qed.

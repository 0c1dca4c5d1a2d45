(** Proofs: implicit stages solve the stage equation; where the operator falls short. *)
From Coq Require Import ZArith List Bool Reals Lra Lia.
From Flocq Require Import Core.Raux.
From Verif Require Import Common Probe_Model Evol_Model Evol_Spec Evol_Proofs EvolHist_Proofs EvolSolve_Proofs EvolRhs_Proofs.
Import ListNotations.
Local Open Scope Z_scope.

Lemma dot_lin : forall row a x k y, length x = length k -> (forall i, nth i y 0%R = nth i x 0 + a * nth i k 0)%R ->
  dot row y = (dot row x + a * dot row k)%R.
Proof.
  intros row a x k y Hl Hy. unfold dot. induction row as [|[c v] row IH]; cbn [fold_right fst snd]; [lra|]. rewrite IH, Hy. lra.
Qed.

Section S.
Variable inv : list (list R) -> list R -> list R.
Variable ndofs : nat.
Variable Aop : matrix.
Variable Top : option matrix.
Variable hasTF : bool.
Variable sub2par : list Z.
Variable src : R -> list (list R).
Variables elem1 elem2 : list Z.
Variable junk : nat -> list R.
Hypothesis junk_len : forall n, length (junk n) = n.
Variable gmres : R -> list R -> list R -> list R.
Notation mult := (mult inv ndofs 0 Aop Top None hasTF sub2par src elem1 elem2 junk).
Notation implicitSolve := (implicitSolve inv ndofs 0 Aop Top hasTF sub2par src junk gmres).

Lemma packed_serial : forall nd input, length input = (6 * ndofs)%nat -> packed ndofs 0 nd input = input.
Proof.
  intros nd input Hl. destruct (packed_spec ndofs 0 junk junk_len nd input) as (L & P & _).
  { split; auto. congruence. }
  apply nth_ext with (d := 0%R) (d' := 0%R); [rewrite L; lia|]. intros i Hi. rewrite L in Hi.
  destruct ndofs as [|n'] eqn:En; [lia|].
  set (n := Z.of_nat (S n')) in *. specialize (P (Z.of_nat i / n) (Z.of_nat i mod n)).
  assert (Hn : 0 < n) by (unfold n; lia).
  pose proof (Z.div_mod (Z.of_nat i) n) as D. pose proof (Z.mod_pos_bound (Z.of_nat i) n Hn) as Mo.
  assert (0 <= Z.of_nat i / n < 6). { split; [apply Z.div_pos; lia|]. apply Z.div_lt_upper_bound; unfold n; lia. }
  rewrite Nat.add_0_r in P. fold n in P. specialize (P H Mo). unfold nthZ in P.
  replace (Z.to_nat (Z.of_nat i / n * n + Z.of_nat i mod n)) with i in P by lia. exact P.
Qed.

(** The vector returned for a stage is the right-hand side at the stage point. *)
Lemma implicit_stage : forall e t dt x k0 k e',
  length x = (6 * ndofs)%nat -> (6 * ndofs <= 600)%nat -> length Aop = (6 * ndofs)%nat -> Forall (colsIn (6 * ndofs)) Aop ->
  (hasTF = true -> src_ok ndofs sub2par src) ->
  (forall T, Top = Some T -> length T = (6 * ndofs)%nat /\ Forall (colsIn (6 * ndofs)) T) ->
  (e_work e = [] \/ e_work e = zeros (6 * ndofs)) -> cache_ok Aop (e_cache e) -> dt <> (-1)%R -> solves inv (jac Aop dt) ->
  implicitSolve e t dt [] x k0 = Ok (k, e') ->
  length k = length x /\
  forall y, length y = length x -> (forall i, nth i y 0%R = nth i x 0 + dt * nth i k 0)%R ->
  exists e2, mult e t [] y = Ok (k, e2).
Proof.
  intros e t dt x k0 k e' Hx H600 LA CA Hsrc HT Hw Hc Hdt Hinv Hi.
  assert (WS : Evol_Model.wsize ndofs 0 = (6 * ndofs)%nat) by (unfold Evol_Model.wsize; lia).
  assert (CA' : Forall (colsIn (Evol_Model.wsize ndofs 0)) Aop) by (rewrite WS; auto).
  assert (HT' : forall T, Top = Some T -> length T = (6 * ndofs)%nat /\ Forall (colsIn (Evol_Model.wsize ndofs 0)) T) by (rewrite WS; auto).
  unfold Evol_Model.implicitSolve in Hi. rewrite Nat.eqb_refl in Hi. cbn [bind] in Hi. rewrite spmv_ok in Hi by (rewrite Hx; auto). cbn [bind] in Hi.
  set (rx := map (fun r => dot r x) Aop) in *.
  assert (Lrx : length rx = (6 * ndofs)%nat) by (unfold rx; rewrite map_length; auto).
  ubind Hi. destruct v as [w r].
  (* the source part *)
  destruct (tfsf_ok ndofs 0 Top hasTF sub2par src t (zeros (length x))) as (F & s0 & HF & EF & LF & VF); auto; [unfold zeros; rewrite repeat_length; auto|].
  set (S := fun i => match Top with Some T => if srcOn hasTF src t then dot (nth i T []) F else 0%R | None => 0%R end).
  assert (HR : length r = (6 * ndofs)%nat /\ forall i, (i < 6 * ndofs)%nat -> nth i r 0%R = (nth i rx 0 - S i)%R).
  { destruct Top as [T|] eqn:ET.
    - destruct hasTF eqn:EH.
      + ubind E. destruct v as [w1 s1]. ubind E. injection E as <- <-.
        assert (W0 : applyTFSF ndofs 0 (Some T) true sub2par src t (e_work e) (zeros (length x)) = applyTFSF ndofs 0 (Some T) true sub2par src t (zeros (Evol_Model.wsize ndofs 0)) (zeros (length x))).
        { unfold applyTFSF. rewrite WS in *.
          replace (if Nat.eqb (length (zeros (6 * ndofs))) (6 * ndofs) then zeros (6 * ndofs) else zeros (6 * ndofs)) with (zeros (6 * ndofs)) by (destruct Nat.eqb; auto).
          replace (if Nat.eqb (length (e_work e)) (6 * ndofs) then e_work e else zeros (6 * ndofs)) with (zeros (6 * ndofs)); auto.
          destruct Hw as [->| ->].
          - destruct ndofs; reflexivity.
          - destruct Nat.eqb; auto. }
        rewrite W0, EF in E0. injection E0 as <- <-.
        destruct (vadd_ok 1 rx s0) as (z & Ez & Lz & Nz); [congruence|]. rewrite Ez in E1. injection E1 as <-.
        split; [congruence|]. intros i Hi2. rewrite Nz. assert (HV : nthZ s0 (Z.of_nat i) = (0 - S i)%R).
        { rewrite VF by (unfold Evol_Model.nZ; lia). rewrite nthZ_zeros. unfold S. rewrite Nat2Z.id. reflexivity. }
        unfold nthZ in HV. rewrite Nat2Z.id in HV. rewrite HV. lra.
      + injection E as <- <-. split; auto. intros i Hi2. unfold S, srcOn. cbn [andb]. lra.
    - injection E as <- <-. split; auto. intros i Hi2. unfold S. lra. }
  destruct HR as [Lr Vr].
  cbn [andb] in Hi. destruct (Nat.leb_spec (length x) 600); [|lia]. ubind Hi. destruct v as [k1 c1]. injection Hi as <- <-.
  destruct (dense_solves inv Aop dt r (e_cache e) k1 c1) as (C1 & L1 & V1); try rewrite LA; auto; try congruence.
  split; [congruence|]. intros y Hy Ny.
  (* the explicit operator at y *)
  unfold Evol_Model.mult. cbn [multSub bind]. rewrite (pack_value ndofs 0 junk junk_len) by (split; [congruence|congruence]). cbn [bind].
  rewrite packed_serial by congruence. rewrite spmv_ok by (rewrite Hy, Hx; auto). cbn [bind]. cbv zeta.
  replace (zeros (length y)) with (zeros (Evol_Model.wsize ndofs 0)) by (rewrite WS; f_equal; congruence).
  destruct (tfsf_ok ndofs 0 Top hasTF sub2par src t (map (fun r0 => dot r0 y) Aop)) as (F2 & o2 & HF2 & EF2 & LF2 & VF2); auto; [rewrite map_length; auto|].
  assert (EFF : match Top with Some _ => if srcOn hasTF src t then F = F2 else True | None => True end).
  { destruct Top as [T|]; auto. destruct (srcOn hasTF src t) eqn:ES; auto.
    destruct (HF) as (A1 & A2 & A3); auto; [discriminate|]. destruct HF2 as (B1 & B2 & B3); auto; [discriminate|].
    apply nth_ext with (d := 0%R) (d' := 0%R); [congruence|]. intros i Hi2. rewrite A1 in Hi2.
    destruct ndofs as [|n'] eqn:En; [lia|].
    set (n := Z.of_nat (Datatypes.S n' + 0)) in *. assert (Hn : 0 < n) by (unfold n; lia).
    pose proof (Z.div_mod (Z.of_nat i) n) as D. pose proof (Z.mod_pos_bound (Z.of_nat i) n Hn) as Mo.
    assert (Hc6 : 0 <= Z.of_nat i / n < 6). { split; [apply Z.div_pos; lia|]. apply Z.div_lt_upper_bound; unfold n; lia. }
    assert (Ei : Z.to_nat (Z.of_nat i / n * n + Z.of_nat i mod n) = i) by lia.
    destruct (in_dec Z.eq_dec (Z.of_nat i mod n) sub2par) as [Hin|Hin].
    - destruct (In_nth_error _ _ Hin) as (v & Hv). specialize (A2 _ _ _ Hc6 Hv). specialize (B2 _ _ _ Hc6 Hv). unfold nthZ in *. rewrite Ei in *. congruence.
    - specialize (A3 _ _ Hc6 Mo Hin). specialize (B3 _ _ Hc6 Mo Hin). unfold nthZ in *. rewrite Ei in *. congruence. }
  rewrite EF2. cbn [bind]. eexists. f_equal. f_equal.
  apply nth_ext with (d := 0%R) (d' := 0%R); [congruence|]. intros i Hi2. rewrite LF2 in Hi2.
  specialize (VF2 (Z.of_nat i)). unfold nthZ in VF2. rewrite Nat2Z.id in VF2. rewrite VF2 by (unfold Evol_Model.nZ; lia).
  rewrite nth_map_dot by lia. specialize (V1 i). rewrite (Vr i) in V1 by lia.
  assert (V1' := V1 ltac:(lia)). clear V1. unfold rx in V1'. rewrite nth_map_dot in V1' by lia.
  rewrite (dot_lin _ dt x k1 y) by (auto; congruence).
  assert (SE : S i = match Top with Some T => if srcOn hasTF src t then dot (nth i T []) F2 else 0%R | None => 0%R end).
  { unfold S. destruct Top; auto. destruct (srcOn hasTF src t); auto. rewrite EFF. reflexivity. }
  rewrite <- SE. lra.
Qed.
End S.

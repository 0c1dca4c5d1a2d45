(** Normals of straight triangles and tetrahedra; linear elements on two triangles. *)
From Coq Require Import ZArith List Bool Reals Lia Lra Psatz Permutation.
From Verif Require Import Common Csr_Model Face_Model Face_Spec Face_Proofs Setup_Model Setup_Spec Assembly_Model Form_Model Form_Spec Nodal_Spec NodalEnergy_Spec Nodal_Proofs Global_Spec Step_Model Step_Spec Time_Model Ode_Model Ode_Spec Cfl_Spec CflEx_Proofs CflLine_Proofs Elem_Spec Elem_Proofs ElemSpace_Proofs ElemEx_Proofs Simplex_Spec Simplex_Proofs.
Import ListNotations.
Local Open Scope R_scope.

Theorem triangle_normals : forall a b c g C, derivativesOf 2 [b; c] a g -> (forall d e, C d e = det2 a b c / 2 * g d e) ->
  forall i d, (i <= 2)%nat -> (0 <= d < 2)%Z -> normalOf (edgeOf a b c i) (Z.to_nat d) = - (INR (fact 2) * gradient 2 C d i).
Proof.
  intros a b c g C DG HC.
  pose proof (DG 0%nat 0%nat b ltac:(cbn; lia) eq_refl) as E00. pose proof (DG 0%nat 1%nat c ltac:(cbn; lia) eq_refl) as E01.
  pose proof (DG 1%nat 0%nat b ltac:(cbn; lia) eq_refl) as E10. pose proof (DG 1%nat 1%nat c ltac:(cbn; lia) eq_refl) as E11.
  change (Z.to_nat 2) with 2%nat in *. rewrite !sumN_S, !sumN_0 in E00, E01, E10, E11. cbn [Nat.eqb] in *. change (Z.of_nat 0) with 0%Z in *. change (Z.of_nat 1) with 1%Z in *.
  change (coord 0 b - coord 0 a) with (vminus b a 0) in *. change (coord 1 b - coord 1 a) with (vminus b a 1) in *. change (coord 0 c - coord 0 a) with (vminus c a 0) in *. change (coord 1 c - coord 1 a) with (vminus c a 1) in *.
  assert (I : forall d, vminus c b d = vminus c a d - vminus b a d) by (intros d; unfold vminus; ring). assert (J : forall d, vminus a c d = - vminus c a d) by (intros d; unfold vminus; ring).
  assert (X : forall d e, (d = 0%Z \/ d = 1%Z) -> (e = 0%nat \/ e = 1%nat) -> det2 a b c * g d e = match e with 0%nat => if (d =? 0)%Z then vminus c a 1 else - vminus c a 0 | _ => if (d =? 0)%Z then - vminus b a 1 else vminus b a 0 end).
  { unfold det2. set (bx := vminus b a 0) in *. set (by' := vminus b a 1) in *. set (cx := vminus c a 0) in *. set (cy := vminus c a 1) in *. clearbody bx by' cx cy.
    intros d e [-> | ->] [-> | ->]; cbn [Z.eqb].
    - transitivity (cy * (0 + g 0%Z 0%nat * bx + g 1%Z 0%nat * by') - by' * (0 + g 0%Z 0%nat * cx + g 1%Z 0%nat * cy)); [ring|rewrite E00, E01; ring].
    - transitivity (cy * (0 + g 0%Z 1%nat * bx + g 1%Z 1%nat * by') - by' * (0 + g 0%Z 1%nat * cx + g 1%Z 1%nat * cy)); [ring|rewrite E10, E11; ring].
    - transitivity (bx * (0 + g 0%Z 0%nat * cx + g 1%Z 0%nat * cy) - cx * (0 + g 0%Z 0%nat * bx + g 1%Z 0%nat * by')); [ring|rewrite E00, E01; ring].
    - transitivity (bx * (0 + g 0%Z 1%nat * cx + g 1%Z 1%nat * cy) - cx * (0 + g 0%Z 1%nat * bx + g 1%Z 1%nat * by')); [ring|rewrite E10, E11; ring]. }
  intros i d Hi Hd. assert (Hd' : d = 0%Z \/ d = 1%Z) by lia.
  pose proof (X d 0%nat Hd' (or_introl eq_refl)) as X0. pose proof (X d 1%nat Hd' (or_intror eq_refl)) as X1. cbv iota in X0, X1.
  change (INR (fact 2)) with (1 + 1).
  destruct i as [|[|[|i]]]; [| | |lia]; unfold gradient; rewrite ?sumN_S, ?sumN_0, !HC; unfold edgeOf; destruct Hd' as [-> | ->]; cbn [Z.eqb] in X0, X1; change (Z.to_nat 0) with 0%nat; change (Z.to_nat 1) with 1%nat; cbn [normalOf]; rewrite ?I, ?J; lra.
Qed.
Theorem tetra_normals : forall a b c v g C, derivativesOf 3 [b; c; v] a g -> (forall d e, C d e = det3 a b c v / 6 * g d e) ->
  forall i d, (i <= 3)%nat -> (0 <= d < 3)%Z -> normalOf (sideOf a b c v i) (Z.to_nat d) = - (INR (fact 3) * gradient 3 C d i).
Proof.
  intros a b c v g C DG HC.
  assert (Eq : forall e, (e < 3)%nat -> forall i p, nth_error [b; c; v] i = Some p -> g 0%Z e * vminus p a 0 + g 1%Z e * vminus p a 1 + g 2%Z e * vminus p a 2 = if (e =? i)%nat then 1 else 0).
  { intros e He i p Hp. rewrite <- (DG e i p ltac:(cbn; lia) Hp). change (Z.to_nat 3) with 3%nat. rewrite !sumN_S, sumN_0. cbn [Z.of_nat Pos.of_succ_nat Pos.succ]. unfold vminus. ring. }
  assert (I : forall p q d, vminus p q d = vminus p a d - vminus q a d) by (intros; unfold vminus; ring).
  assert (X : forall e, (e < 3)%nat -> forall d, (d = 0%Z \/ d = 1%Z \/ d = 2%Z) ->
    det3 a b c v * g d e = match e with 0%nat => cross (vminus c a) (vminus v a) (Z.to_nat d) | 1%nat => cross (vminus v a) (vminus b a) (Z.to_nat d) | _ => cross (vminus b a) (vminus c a) (Z.to_nat d) end).
  { intros e He d Hd. pose proof (Eq e He 0%nat b eq_refl) as Eb. pose proof (Eq e He 1%nat c eq_refl) as Ec. pose proof (Eq e He 2%nat v eq_refl) as Ev.
    unfold det3, cross. set (b0 := vminus b a 0) in *. set (b1 := vminus b a 1) in *. set (b2 := vminus b a 2) in *. set (c0 := vminus c a 0) in *. set (c1 := vminus c a 1) in *. set (c2 := vminus c a 2) in *.
    set (v0 := vminus v a 0) in *. set (v1 := vminus v a 1) in *. set (v2 := vminus v a 2) in *. set (g0 := g 0%Z e) in *. set (g1 := g 1%Z e) in *. set (g2 := g 2%Z e) in *.
    clearbody b0 b1 b2 c0 c1 c2 v0 v1 v2. 
    destruct Hd as [-> | [-> | ->]]; change (Z.to_nat 0) with 0%nat; change (Z.to_nat 1) with 1%nat; change (Z.to_nat 2) with 2%nat; cbv iota; fold g0; fold g1; fold g2; clearbody g0 g1 g2.
    - transitivity ((c1 * v2 - c2 * v1) * (g0 * b0 + g1 * b1 + g2 * b2) + (v1 * b2 - v2 * b1) * (g0 * c0 + g1 * c1 + g2 * c2) + (b1 * c2 - b2 * c1) * (g0 * v0 + g1 * v1 + g2 * v2)); [ring|].
      rewrite Eb, Ec, Ev. destruct e as [|[|[|e]]]; [| | |lia]; cbn [Nat.eqb]; ring.
    - transitivity ((c2 * v0 - c0 * v2) * (g0 * b0 + g1 * b1 + g2 * b2) + (v2 * b0 - v0 * b2) * (g0 * c0 + g1 * c1 + g2 * c2) + (b2 * c0 - b0 * c2) * (g0 * v0 + g1 * v1 + g2 * v2)); [ring|].
      rewrite Eb, Ec, Ev. destruct e as [|[|[|e]]]; [| | |lia]; cbn [Nat.eqb]; ring.
    - transitivity ((c0 * v1 - c1 * v0) * (g0 * b0 + g1 * b1 + g2 * b2) + (v0 * b1 - v1 * b0) * (g0 * c0 + g1 * c1 + g2 * c2) + (b0 * c1 - b1 * c0) * (g0 * v0 + g1 * v1 + g2 * v2)); [ring|].
      rewrite Eb, Ec, Ev. destruct e as [|[|[|e]]]; [| | |lia]; cbn [Nat.eqb]; ring. }
  intros i d Hi Hd. assert (Hd' : d = 0%Z \/ d = 1%Z \/ d = 2%Z) by lia.
  pose proof (X 0%nat ltac:(lia) d Hd') as X0. pose proof (X 1%nat ltac:(lia) d Hd') as X1. pose proof (X 2%nat ltac:(lia) d Hd') as X2. cbv iota in X0, X1, X2.
  assert (F : INR (fact 3) = 6) by (cbn; ring). rewrite F.
  assert (G : forall e, C d e = det3 a b c v * g d e / 6) by (intros e; rewrite HC; field).
  destruct i as [|[|[|[|i]]]]; [| | | |lia]; unfold gradient; rewrite ?sumN_S, ?sumN_0, !G, ?X0, ?X1, ?X2; unfold sideOf, G3of; destruct Hd' as [-> | [-> | ->]]; change (Z.to_nat 0) with 0%nat; change (Z.to_nat 1) with 1%nat; change (Z.to_nat 2) with 2%nat; cbn [normalOf cross];
    rewrite ?(I c b), ?(I v b); field.
Qed.

(** ** Linear elements on two triangles *)
Definition linearPhi : list poly := [[(1, [1; 0; 0]%nat)]; [(1, [0; 1; 0]%nat)]; [(1, [0; 0; 1]%nat)]].
Lemma linear_poly : polynomialElement 2 1 linearPhi linear2.
Proof.
  split; [reflexivity|]. split.
  - intros f c a If Ia. destruct If as [<-|[<-|[<-|[]]]]; destruct Ia as [E|[]]; injection E as _ <-; cbn; split; lia.
  - intros e a b He Ha Hb. cbn [length linearPhi] in *. destruct e as [|[|e]]; [| |lia]; destruct a as [|[|[|a]]]; try lia; destruct b as [|[|[|b]]]; try lia;
      unfold meanDiff, suml, meanD, meanT, facts; cbn; field.
Qed.
Definition pairLoc (k : nat) (s : nat * bool) : nat :=
  match k, fst s with 0%nat, 0%nat => 2%nat | 0%nat, 1%nat => 0%nat | 0%nat, _ => 1%nat | _, 1%nat => 1%nat | _, 3%nat => 2%nat | _, _ => 0%nat end.
Lemma small3 : forall a, length a = 3%nat -> (degree a <= 2)%nat -> In a [[0;0;0];[1;0;0];[0;1;0];[0;0;1];[2;0;0];[0;2;0];[0;0;2];[1;1;0];[1;0;1];[0;1;1]]%nat.
Proof.
  intros a L H. destruct a as [|x [|y [|z [|w a]]]]; try discriminate. unfold degree in H. cbn in H.
  destruct x as [|[|[|x]]]; [| | |lia]; destruct y as [|[|[|y]]]; try lia; destruct z as [|[|[|z]]]; try lia; cbn; tauto.
Qed.
Lemma pair_straight : straightMesh 2 1 linearPhi 2 pairMesh pairEl pairC.
Proof.
  intros k Hk. exists (pairLoc k). assert (Hk' : k = 0%nat \/ k = 1%nat) by lia. destruct Hk' as [-> | ->].
  - split.
    + change (map (pairLoc 0) (sides pairMesh pairEl 0)) with [2; 0; 1]%nat. change (seq 0 3) with [0; 1; 2]%nat. apply (perm_trans (l' := [0; 2; 1]%nat)); [apply perm_swap|]. apply perm_skip. apply perm_swap.
    + intros fi b f I E. change (sides pairMesh pairEl 0) with [(0%nat, true); (1%nat, true); (2%nat, true)] in I. exists q_s1.
      destruct I as [I|[I|[I|[]]]]; injection I as <- <-; cbn in E; injection E as <-; cbn [mf_face f_pts edge]; (split; [|intros q Iq; split]).
      all: try (intros a L Da; apply small3 in Da; [|exact L]; repeat (destruct Da as [<-|Da]; [unfold meanF, suml, facts; cbn; field|]); destruct Da).
      all: destruct Iq as [<-|[<-|[<-|[]]]]; try (intros d Hd; assert (Hd' : d = 0%Z \/ d = 1%Z) by lia; destruct Hd' as [-> | ->]; change (Z.to_nat 0) with 0%nat; change (Z.to_nat 1) with 1%nat); cbn; unfold polyAt, suml; cbn; unfold sumN; cbn; first [field|repeat (apply f_equal2; [field|]); reflexivity].
  - split.
    + change (map (pairLoc 1) (sides pairMesh pairEl 1)) with [1; 2; 0]%nat. change (seq 0 3) with [0; 1; 2]%nat. apply (perm_trans (l' := [1; 0; 2]%nat)); [apply perm_skip; apply perm_swap|]. apply perm_swap.
    + intros fi b f I E. change (sides pairMesh pairEl 1) with [(1%nat, false); (3%nat, true); (4%nat, true)] in I. exists (shapeOf b).
      destruct I as [I|[I|[I|[]]]]; injection I as <- <-; cbn in E; injection E as <-; cbn [mf_face f_pts edge]; (split; [|intros q Iq; split]).
      all: try (intros a L Da; apply small3 in Da; [|exact L]; repeat (destruct Da as [<-|Da]; [unfold meanF, suml, facts; cbn; field|]); destruct Da).
      all: destruct Iq as [<-|[<-|[<-|[]]]]; try (intros d Hd; assert (Hd' : d = 0%Z \/ d = 1%Z) by lia; destruct Hd' as [-> | ->]; change (Z.to_nat 0) with 0%nat; change (Z.to_nat 1) with 1%nat); cbn; unfold polyAt, suml; cbn; unfold sumN; cbn; first [field|repeat (apply f_equal2; [field|]); reflexivity].
Qed.
Lemma simplex_parts_mesh : forall D p phi r n m el C, (1 <= D)%nat -> polynomialElement D p phi r -> meshOk (n * r_dofs r) (Z.of_nat D) m -> straightMesh D p phi n m el C -> elementParts r n m el (Z.of_nat D) C.
Proof.
  intros D p phi r n m el C HD PE MO SM. apply (simplex_parts D p phi r n m el C HD PE); [|exact SM]. destruct MO as (_ & _ & _ & F). eapply Forall_impl; [|exact F]. intros f (W & _). exact W.
Qed.
Lemma simplex_space : forall D p phi r V w n m el C, (1 <= D)%nat -> referenceOk r -> polynomialElement D p phi r -> (forall k, (k < n)%nat -> 0 < V k) -> (forall g k, 1 <= w g k) ->
  touches (r_dofs r) n m el -> meshOk (n * r_dofs r) (Z.of_nat D) m -> straightMesh D p phi n m el C ->
  dgSpace (n * r_dofs r) m (Z.of_nat D) (affineMass r V w) (affineInv r V w) (affineD r D C).
Proof.
  intros D p phi r V w n m el C HD RO PE HV HW T MO SM. pose proof (elements_space n r V w m el (Z.of_nat D) C RO HV HW T MO (simplex_parts_mesh D p phi r n m el C HD PE MO SM)) as X.
  rewrite Nat2Z.id in X. exact X.
Qed.
Lemma ex_triangle : derivativesOf 2 [(4, 0, 0); (0, 3, 0)] (0, 0, 0) (fun d e => if (d =? 0)%Z then (if (e =? 0)%nat then / 4 else 0) else if (e =? 0)%nat then 0 else / 3) /\ det2 (0, 0, 0) (4, 0, 0) (0, 3, 0) = 12.
Proof.
  split; [|unfold det2, vminus, coord; cbn; ring]. intros e i p He Hp. change (Z.to_nat 2) with 2%nat in *. rewrite !sumN_S, sumN_0. destruct e as [|[|e]]; [| |lia]; destruct i as [|[|i]]; cbn in Hp; try (destruct i; discriminate); injection Hp as <-; cbn; field.
Qed.
Lemma ex_tetra : derivativesOf 3 [(2, 0, 0); (0, 2, 0); (0, 0, 2)] (0, 0, 0) (fun d e => if (d =? Z.of_nat e)%Z then / 2 else 0) /\ det3 (0, 0, 0) (2, 0, 0) (0, 2, 0) (0, 0, 2) = 8.
Proof.
  split; [|unfold det3, cross, vminus, coord; cbn; ring]. intros e i p He Hp. change (Z.to_nat 3) with 3%nat in *. rewrite !sumN_S, sumN_0. destruct e as [|[|[|e]]]; [| | |lia]; destruct i as [|[|[|i]]]; cbn in Hp; try (destruct i; discriminate); injection Hp as <-; cbn; field.
Qed.
Theorem straight_bounded : forall D p phi n r V S w m C T alpha el dmax gl st ms o n0 n1 dv ns gb gi ob ib MSigma sm,
  (0 < n)%nat -> referenceOk r -> (forall g k, 1 <= w g k) -> sameElements n V S ms -> m_dim ms = Z.of_nat D -> simplices (Z.of_nat D) n ms C ->
  touches (r_dofs r) n m el -> faceMeasures m el n S -> shapeSize m T -> nonnegWeights m ->
  polynomialElement D p phi r -> meshOk (n * r_dofs r) (Z.of_nat D) m -> straightMesh D p phi n m el C -> tables m gb gi ob ib ->
  (so_op o = Hesthaven -> D = 2%nat) -> gl (so_order o) = n0 :: n1 :: ns -> n0 <> n1 -> 0 < so_cfl o -> extraDivisor ms dv ->
  forall Sg, 0 <= alpha -> passive m gb gi -> (forall v, 0 <= mform (n * r_dofs r) MSigma v v) -> lossBound (n * r_dofs r) (affineMass r V w) MSigma Sg ->
  exists A dt, buildGlobalOperator R Rplus Rmult 1 (-1) (factoryRows (n * r_dofs r) m (Z.of_nat D) alpha ob ib (affineInv r V w) (affineD r D C) MSigma sm) (Z.of_nat D) (Z.of_nat (n * r_dofs r)) 0
              (match ib with [] => false | _ => true end) = Ok A /\
  estimateTimeStep dmax gl st ms o = Ok dt /\ 0 < dt /\
  (so_cfl o * Rabs (n0 - n1) / dv / globalFactor ms (so_op o) * refSize r (Z.of_nat D) alpha T + dt * Sg <= 1 / 4 ->
   forall f imp, evaluates A (n * r_dofs r) f -> forall s tr s', s_dt s = dt -> length (s_fields s) = (6 * (n * r_dofs r))%nat -> runR (list R) (odeStep f imp 0) s tr s' ->
   Forall (fun st => fieldEnergy (n * r_dofs r) (affineMass r V w) (s_fields st) <= 10001 / 10000 * (10001 / 10000) * fieldEnergy (n * r_dofs r) (affineMass r V w) (s_fields s)) tr).
Proof.
  intros D p phi n r V S w m C T alpha el dmax gl st ms o n0 n1 dv ns gb gi ob ib MSigma sm N0 RO Hw SE Ms SI TO FM SH Wt PE MO SM TB Hop.
  assert (HD : (1 <= D)%nat) by (destruct MO as (H & _); lia).
  assert (HV : forall k, (k < n)%nat -> 0 < V k). { intros k Hk. destruct SE as (L & H). destruct (nth_error (m_elements ms) k) as [e|] eqn:E; [|apply nth_error_None in E; lia]. apply (H k e E). }
  pose proof (simplex_space D p phi r V w n m el C HD RO PE HV Hw TO MO SM) as DG.
  assert (Hop' : so_op o = Hesthaven -> Z.of_nat D = 2%Z) by (intros E; rewrite (Hop E); reflexivity).
  pose proof (simplex_bounded n r V S w m (Z.of_nat D) C T alpha el dmax gl st ms o n0 n1 dv ns gb gi ob ib MSigma sm N0 RO Hw SE Ms SI TO FM SH Wt) as X. rewrite Nat2Z.id in X. intros GL NE C0 EX. exact (X DG TB Hop' GL NE C0 EX).
Qed.
Theorem straight_lossless : forall D p phi n r V S w m C T alpha el dmax gl st ms o n0 n1 dv ns gb gi ob ib MSigma sm,
  (0 < n)%nat -> referenceOk r -> (forall g k, 1 <= w g k) -> sameElements n V S ms -> m_dim ms = Z.of_nat D -> simplices (Z.of_nat D) n ms C ->
  touches (r_dofs r) n m el -> faceMeasures m el n S -> shapeSize m T -> nonnegWeights m ->
  polynomialElement D p phi r -> meshOk (n * r_dofs r) (Z.of_nat D) m -> straightMesh D p phi n m el C -> tables m gb gi ob ib ->
  (so_op o = Hesthaven -> D = 2%nat) -> gl (so_order o) = n0 :: n1 :: ns -> n0 <> n1 -> 0 < so_cfl o -> extraDivisor ms dv ->
  alpha = 0 -> reflecting m gb gi -> (forall v u, mform (n * r_dofs r) MSigma v u = 0) ->
  exists A dt, buildGlobalOperator R Rplus Rmult 1 (-1) (factoryRows (n * r_dofs r) m (Z.of_nat D) alpha ob ib (affineInv r V w) (affineD r D C) MSigma sm) (Z.of_nat D) (Z.of_nat (n * r_dofs r)) 0
              (match ib with [] => false | _ => true end) = Ok A /\
  estimateTimeStep dmax gl st ms o = Ok dt /\ 0 < dt /\
  (so_cfl o * Rabs (n0 - n1) / dv / globalFactor ms (so_op o) * refSize r (Z.of_nat D) alpha T <= sqrt 8 ->
   forall f imp, evaluates A (n * r_dofs r) f -> forall s tr s', s_dt s = dt -> length (s_fields s) = (6 * (n * r_dofs r))%nat -> runR (list R) (odeStep f imp 0) s tr s' ->
   neverRises (energies (n * r_dofs r) (affineMass r V w) s tr)).
Proof.
  intros D p phi n r V S w m C T alpha el dmax gl st ms o n0 n1 dv ns gb gi ob ib MSigma sm N0 RO Hw SE Ms SI TO FM SH Wt PE MO SM TB Hop.
  assert (HD : (1 <= D)%nat) by (destruct MO as (H & _); lia).
  assert (HV : forall k, (k < n)%nat -> 0 < V k). { intros k Hk. destruct SE as (L & H). destruct (nth_error (m_elements ms) k) as [e|] eqn:E; [|apply nth_error_None in E; lia]. apply (H k e E). }
  pose proof (simplex_space D p phi r V w n m el C HD RO PE HV Hw TO MO SM) as DG.
  assert (Hop' : so_op o = Hesthaven -> Z.of_nat D = 2%Z) by (intros E; rewrite (Hop E); reflexivity).
  pose proof (simplex_lossless n r V S w m (Z.of_nat D) C T alpha el dmax gl st ms o n0 n1 dv ns gb gi ob ib MSigma sm N0 RO Hw SE Ms SI TO FM SH Wt) as X. rewrite Nat2Z.id in X. intros GL NE C0 EX. exact (X DG TB Hop' GL NE C0 EX).
Qed.

(** Concrete nodal operators: two first-order elements on a line, with a metal wall on
    the left, an absorbing one on the right and, in the second, metal between them. *)
From Coq Require Import ZArith List Bool Reals Lia Lra Permutation.
From Verif Require Import Common Geo_Spec Nodal_Model Nodal_Spec Nodal_Proofs NodalMult_Proofs NodalEnergy_Spec NodalEnergy_Proofs.
Import ListNotations.
Local Open Scope R_scope.

Ltac cc := cbn -[IZR Rplus Rmult Rminus Ropp Rdiv Rinv Z.to_nat];
  repeat match goal with |- context [Z.to_nat ?z] => let v := eval compute in (Z.to_nat z) in change (Z.to_nat z) with v end;
  cbn -[IZR Rplus Rmult Rminus Ropp Rdiv Rinv].

Definition exDx : list (list R) := [[-1; 1]; [-1; 1]].
Definition exZ : list (list R) := [[0; 0]; [0; 0]].
Definition exEl (id : Z) (dofs : list Z) : helem :=
  mkEl id dofs [exDx; exZ; exZ] [[-1; 1]; [0; 0]; [0; 0]] [1; 1].
Definition el0 : helem := exEl 0 [0; 1]%Z.
Definition el1 : helem := exEl 1 [2; 3]%Z.
Definition noB : bmaps := mkB [] [].
Definition noI : ibmaps := mkIB [] [] [] [].
Definition exB (int : ibmaps) : bdrMaps := mkBdr (mkB [[0]] [[0]])%Z noB (mkB [[3]] [[3]])%Z int noI noI noI.
Definition exInt : ibmaps := (mkIB [[1]] [[2]] [[1]] [[2]])%Z.
Definition exN (a : R) (int : ibmaps) : nodal :=
  mkNodal 4 a [(0, 0); (1, 2); (2, 1); (3, 3)]%Z (exB int) [el0; el1] [] [[4; -2]; [-2; 4]] [].
Definition exM (_ : helem) (i j : nat) : R := if Nat.eqb i j then / 3 else / 6.
Definition exL (el : helem) : side := {| sd_el := el; sd_w := 1; sd_n := (-1, 0, 0); sd_phi := fun i => match i with 0%nat => 1 | _ => 0 end |}.
Definition exR (el : helem) : side := {| sd_el := el; sd_w := 1; sd_n := (1, 0, 0); sd_phi := fun i => match i with 1%nat => 1 | _ => 0 end |}.
Definition exSides (el : helem) : list side := [exL el; exR el].
Definition exF : list facept := [Outer KPEC (exL el0); Inner (exR el0) (exL el1); Outer KSMA (exR el1)].
Definition exFI : list facept := [Outer KPEC (exL el0); Outer KiPEC (exR el0); Outer KiPEC (exL el1); Outer KSMA (exR el1)].

Lemma ex_wfEl : forall a int el, In el [el0; el1] -> wfEl (exN a int) el.
Proof.
  intros a int el H. cbn [In] in H. destruct H as [<-|[<-|[]]]; unfold wfEl;
  (split; [cbn; lia|]); (split; [intros [|[|k]] Hk; [| |cbn in Hk; lia]; (split; [reflexivity|split; [unfold inR; cc; lia|reflexivity]])|]);
  (split; [reflexivity|]); (split; [repeat (constructor; [split; [reflexivity|repeat (constructor; [reflexivity|]); constructor]|]); constructor|]);
  (split; [reflexivity|]); (split; [repeat (constructor; [reflexivity|]); constructor|]);
  (split; [split; [reflexivity|repeat (constructor; [reflexivity|]); constructor]|]);
  intros [|[|i]] Hi; try (cbn in Hi; lia); (split; [unfold inR; cc; lia|]).
  - exists 0%nat. split; [cbn; lia|reflexivity].
  - exists 1%nat. split; [cbn; lia|reflexivity].
  - exists 0%nat. split; [cbn; lia|reflexivity].
  - exists 1%nat. split; [cbn; lia|reflexivity].
Qed.

Lemma wfI_none : forall g, wfIB g noI.
Proof. intros g. constructor. Qed.
Lemma wfI_int : wfIB [(0, 0); (1, 2); (2, 1); (3, 3)]%Z exInt.
Proof.
  unfold wfIB, exInt. cbn [mapB1 mapB2 vmapB1 vmapB2]. constructor; try reflexivity; [|constructor].
  intros [|k] Hk; [|cbn in Hk; lia]. cbn. unfold inR. repeat split; try lia; reflexivity.
Qed.

Lemma ex_wf : forall a int, (int = noI \/ int = exInt) -> a <> 0 -> wfNodal (exN a int).
Proof.
  intros a int Hi Ha. unfold wfNodal.
  split; [cbn; lia|]. split; [repeat (constructor; [unfold inR; cc; lia|]); constructor|].
  split; [repeat constructor; cc; lia|]. split; [constructor|]. split; [repeat constructor; cbn; lia|].
  split; [destruct Hi as [-> | ->]; [apply wfI_none|apply wfI_int]|].
  split; [apply wfI_none|]. split; [apply wfI_none|]. split; [apply wfI_none|].
  split; [left; exact Ha|].
  split; [apply Forall_forall; intros el Hel; apply ex_wfEl; exact Hel|].
  split; [cbn; repeat constructor; cc; intuition lia|].
  split; [intros e1 e2 [<-|[<-|[]]] [<-|[<-|[]]]; reflexivity|].
  split; constructor.
Qed.

Lemma ex_disc : forall a int el, In el [el0; el1] -> discretises (exN a int) (exM el) el (exSides el).
Proof.
  intros a int el Hel. unfold discretises. split; [|split].
  - intros sd [<-|[<-|[]]]; (split; [reflexivity|split; [unfold sq, dotp; cbn [exL exR sd_n]; ring|]]);
      destruct Hel as [<-|[<-|[]]]; intros [|[|i]] Hi; cbn in Hi; try lia; cbn [exL exR sd_phi sd_n]; intros Hp; try lra; try (exfalso; lra); reflexivity.
  - intros [|[|[|d]]] Hd; try lia; intros v u; cbn [In] in Hel; destruct Hel as [<-|[<-|[]]];
      unfold form, onEl, diff, suml, trace, interp, sumN, entry, dirMat, exM; cc; try field; try lra.
  - intros v g. cbn [In] in Hel. destruct Hel as [<-|[<-|[]]];
      unfold form, onEl, lift1, suml, trace, interp, sumN, entry, exM; cc; field.
Qed.

Lemma ex_perm : forall fps, flat_map faceSides fps = [exL el0; exR el0; exL el1; exR el1] -> Permutation (flat_map exSides [el0; el1]) (flat_map faceSides fps).
Proof. intros fps ->. apply Permutation_refl. Qed.

Lemma no_inc : forall a int p, incE (exN a int) p = (0, 0, 0) /\ incH (exN a int) p = (0, 0, 0).
Proof. intros. split; reflexivity. Qed.

Ltac onk := intros [|[|?]] Hi Hp; cbn in Hi; try lia; cbn in Hp; try (exfalso; lra); split; [reflexivity|split; reflexivity].

Theorem ex_discretised : forall a, discretised (exN a noI) exM exSides exF.
Proof.
  intros a. split; [|split].
  - apply Forall_forall. intros el Hel. apply ex_disc. exact Hel.
  - apply ex_perm. reflexivity.
  - constructor; [split; [discriminate|onk]|]. constructor; [|constructor; [split; [discriminate|onk]|constructor]].
    split; [reflexivity|]. split; [unfold scalep; cbn [exR exL sd_n]; apply v3_eq; ring|].
    split; [intros g; unfold traceN, trace, interp, sumN; cc; ring|]. split; [intros g; unfold traceN, trace, interp, sumN; cc; ring|].
    split; onk.
Qed.

Theorem ex_discretisedI : forall a, discretised (exN a exInt) exM exSides exFI.
Proof.
  intros a. split; [|split].
  - apply Forall_forall. intros el Hel. apply ex_disc. exact Hel.
  - apply ex_perm. reflexivity.
  - repeat (constructor; [split; [discriminate|onk]|]). constructor.
Qed.

(** A wave in the last node, leaving to the right. *)
Definition exX : list R := [0;0;0;0; 0;0;0;1; 0;0;0;0;  0;0;0;0; 0;0;0;0; 0;0;0;1].
(** A wave in node 1, travelling away from the metal between the elements. *)
Definition exY (a : R) : list R := [0;0;0;0; 0;1;0;0; 0;0;0;0;  0;0;0;0; 0;0;0;0; 0;-(a+1);0;0].

Theorem ex_hyps : wfNodal (exN 1 noI) /\ (exists out, nodalMult (exN 1 noI) exX = Ok out) /\
  discretised (exN 1 noI) exM exSides exF /\ 0 <= nd_alpha (exN 1 noI) /\
  Forall (fun f => 0 <= faceWeight f /\ passiveFace (exN 1 noI) f) exF.
Proof.
  assert (W : wfNodal (exN 1 noI)) by (apply ex_wf; [left; reflexivity|lra]).
  split; [exact W|]. split.
  { destruct (nodal_value (exN 1 noI) exX W eq_refl) as (out & E & _). exists out. exact E. }
  split; [apply ex_discretised|]. split; [cbn [nd_alpha exN]; lra|].
  repeat (constructor; [split; [cbn [faceWeight exL exR sd_w]; lra|cbn [passiveFace exN nd_alpha]; try exact I; lra]|]). constructor.
Qed.

(** Energy decreases: -1 per unit time. *)
Theorem ex_absorbed : exists out, nodalMult (exN 1 noI) exX = Ok out /\
  energyRate (exN 1 noI) exM (comp6 4 exX) (comp6 4 out) = -1.
Proof.
  assert (W : wfNodal (exN 1 noI)) by (apply ex_wf; [left; reflexivity|lra]).
  destruct (nodal_value (exN 1 noI) exX W eq_refl) as (out & E & _). exists out. split; [exact E|].
  change (comp6 4) with (comp6 (nd_N (exN 1 noI))).
  rewrite (energy_balance (exN 1 noI) exM exSides exF exX out W eq_refl E (ex_discretised 1)).
  - unfold exF, suml, faceWeight, faceRate, trE, trH, trace, interp, sumN, outflow, sq, tang, subp, addp, scalep, crossp, dotp, comp6. cc. field.
  - intros H. cbn [exN nd_alpha] in H. lra.
Qed.

(** Below one half, absorbing boundaries can feed energy into the domain. *)
Theorem SMA_small_alpha : exists out, nodalMult (exN (/ 4) noI) exX = Ok out /\
  energyRate (exN (/ 4) noI) exM (comp6 4 exX) (comp6 4 out) = 2.
Proof.
  assert (W : wfNodal (exN (/ 4) noI)) by (apply ex_wf; [left; reflexivity|lra]).
  destruct (nodal_value (exN (/ 4) noI) exX W eq_refl) as (out & E & _). exists out. split; [exact E|].
  change (comp6 4) with (comp6 (nd_N (exN (/ 4) noI))).
  rewrite (energy_balance (exN (/ 4) noI) exM exSides exF exX out W eq_refl E (ex_discretised (/ 4))).
  - unfold exF, suml, faceWeight, faceRate, trE, trH, trace, interp, sumN, outflow, sq, tang, subp, addp, scalep, crossp, dotp, comp6. cc. field.
  - intros H. cbn [exN nd_alpha] in H. lra.
Qed.

(** Metal between two elements can feed energy into the domain, whatever alpha. *)
Theorem interior_PEC_feeds : forall a, 0 < a -> exists out, nodalMult (exN a exInt) (exY a) = Ok out /\
  energyRate (exN a exInt) exM (comp6 4 (exY a)) (comp6 4 out) = / 2.
Proof.
  intros a Ha. assert (W : wfNodal (exN a exInt)) by (apply ex_wf; [right; reflexivity|lra]).
  destruct (nodal_value (exN a exInt) (exY a) W eq_refl) as (out & E & _). exists out. split; [exact E|].
  change (comp6 4) with (comp6 (nd_N (exN a exInt))).
  rewrite (energy_balance (exN a exInt) exM exSides exFI (exY a) out W eq_refl E (ex_discretisedI a)).
  - unfold exFI, suml, faceWeight, faceRate, trE, trH, trace, interp, sumN, outflow, sq, tang, subp, addp, scalep, crossp, dotp, comp6. cc. field. lra.
  - intros H. cbn [exN nd_alpha] in H. lra.
Qed.

(** Jumps with every component different. *)
Definition exJ : hfields := [[1;2;3;4]; [2;3;4;5]; [3;4;5;6]; [4;5;6;7]; [5;6;7;8]; [6;7;8;9]].
Lemma ex19 : exists fl, nodeFlux (exN 1 noI) exJ el0 1 = Ok fl /\ fl <> [0; 0; 0; 0; 0; 0] /\
  fget (el_nor el0) 0 1 = Ok 1 /\ fget (el_nor el0) 1 1 = Ok 0 /\ fget (el_nor el0) 2 1 = Ok 0.
Proof.
  eexists. split; [reflexivity|]. split; [|repeat split; reflexivity].
  intros H. apply (f_equal (fun l => nth 1 l 0)) in H. revert H. unfold fluxE, fluxH, ndot, at3. cc. lra.
Qed.

Lemma ex20 : sq (0, 1, 0) = 1 /\
  codeSide 1 (0, 1, 0) (1, 2, 3) (0, 1, 1) (subp (2, 0, 1) (1, 2, 3)) (subp (0, 5, 0) (0, 1, 1)) +
  codeSide 1 (scalep (-1) (0, 1, 0)) (2, 0, 1) (0, 5, 0) (subp (1, 2, 3) (2, 0, 1)) (subp (0, 1, 1) (0, 5, 0)) = - 3.
Proof.
  assert (E : sq (0, 1, 0) = 1) by (unfold sq, dotp; ring). split; [exact E|].
  rewrite code_interior by exact E. unfold sq, tang, subp, addp, scalep, dotp. field.
Qed.

Lemma code_PEC : forall alpha n E H, sq n = 1 -> codeSide alpha n E H (scalep (-2) E) (0, 0, 0) = - alpha * sq (tang n E).
Proof. intros. rewrite codeSide_eq. apply outer_PEC. assumption. Qed.
Lemma code_PMC : forall alpha n E H, sq n = 1 -> codeSide alpha n E H (0, 0, 0) (scalep (-2) H) = - alpha * sq (tang n H).
Proof. intros. rewrite codeSide_eq. apply outer_PMC. assumption. Qed.
Lemma code_SMA : forall alpha n E H, / 2 <= alpha -> sq n = 1 ->
  codeSide alpha n E H (scalep (- / alpha) E) (scalep (- / alpha) H) <= 0.
Proof. intros al n E H Ha Hn. rewrite codeSide_eq, outer_SMA by (assumption || lra). apply SMA_absorbs; assumption. Qed.

Lemma ex67 : wfNodal (exN 1 noI) /\ wfNodal (exN 1 exInt) /\ length exX = Z.to_nat (6 * nd_N (exN 1 noI)).
Proof. split; [apply ex_wf; [left; reflexivity|lra]|]. split; [apply ex_wf; [right; reflexivity|lra]|reflexivity]. Qed.

(** PEC on both ends, centred flux. *)
Definition exClosed : nodal :=
  mkNodal 4 0 [(0, 0); (1, 2); (2, 1); (3, 3)]%Z (mkBdr (mkB [[0]; [3]] [[0]; [3]])%Z noB noB noI noI noI noI) [el0; el1] [] [[4; -2]; [-2; 4]] [].
Definition exFC : list facept := [Outer KPEC (exL el0); Inner (exR el0) (exL el1); Outer KPEC (exR el1)].
Lemma ex_closed : wfNodal exClosed /\ discretised exClosed exM exSides exFC /\ nd_alpha exClosed = 0 /\
  Forall (fun f => match f with Inner _ _ => True | Outer KPEC _ => True | Outer KPMC _ => True | _ => False end) exFC.
Proof.
  split; [|split; [|split; [reflexivity|repeat constructor]]].
  - unfold wfNodal.
    split; [cbn; lia|]. split; [repeat (constructor; [unfold inR; cbn; lia|]); constructor|].
    split; [repeat constructor; cbn; lia|]. split; [constructor|]. split; [constructor|].
    split; [apply wfI_none|]. split; [apply wfI_none|]. split; [apply wfI_none|]. split; [apply wfI_none|].
    split; [right; reflexivity|].
    split; [apply Forall_forall; intros el Hel; exact (ex_wfEl 0 noI el Hel)|].
    split; [cbn; repeat constructor; cbn; intuition lia|].
    split; [intros e1 e2 [<-|[<-|[]]] [<-|[<-|[]]]; reflexivity|].
    split; constructor.
  - split; [|split].
    + apply Forall_forall. intros el Hel. exact (ex_disc 0 noI el Hel).
    + apply ex_perm. reflexivity.
    + constructor; [split; [discriminate|onk]|]. constructor; [|constructor; [split; [discriminate|onk]|constructor]].
      split; [reflexivity|]. split; [unfold scalep; cbn [exR exL sd_n]; apply v3_eq; ring|].
      split; [intros g; unfold traceN, trace, interp, sumN; cc; ring|]. split; [intros g; unfold traceN, trace, interp, sumN; cc; ring|].
      split; onk.
Qed.

(** A uniform Ex: no curl, no tangential jump except none at the walls (Ex is normal
    to them). *)
Definition exStill : list R := [1;1;1;1; 0;0;0;0; 0;0;0;0; 0;0;0;0; 0;0;0;0; 0;0;0;0].
Lemma ex_solves : solves (exN 1 noI) (fun _ => exStill).
Proof.
  intros t. split; [reflexivity|].
  assert (W : wfNodal (exN 1 noI)) by (apply ex_wf; [left; reflexivity|lra]).
  destruct (nodal_value (exN 1 noI) exStill W eq_refl) as (out & E & L & V & _).
  exists out. split; [exact E|]. intros i Hi.
  assert (Z0 : nth i out 0 = 0).
  { assert (G : forall k, (k < 4)%nat -> E3 (comp6 4 out) (Z.of_nat k) = (0, 0, 0) /\ H3 (comp6 4 out) (Z.of_nat k) = (0, 0, 0)).
    { intros k Hk.
      assert (Hel : exists el j, In el [el0; el1] /\ (j < 2)%nat /\ elDof el j = Z.of_nat k).
      { destruct k as [|[|[|[|k]]]]; [exists el0, 0%nat|exists el0, 1%nat|exists el1, 0%nat|exists el1, 1%nat|lia];
          (split; [cbn; auto|split; [lia|reflexivity]]). }
      destruct Hel as (el & j & Hin & Hj & Ej). rewrite <- Ej.
      destruct (V el j Hin) as [A B]; [destruct Hin as [<-|[<-|[]]]; exact Hj|].
      change (nd_N (exN 1 noI)) with 4%Z in A, B. rewrite A, B.
      destruct Hin as [<-|[<-|[]]]; destruct j as [|[|j]]; try lia;
      split; unfold rhsE, rhsH, curl, lifted, deriv, hatE, hatH, tang, dE, dH, jumpE, jumpH, elNormal, E3, H3, subp, addp, scalep, crossp, dotp, comp6, sumN, entry;
      cc; unfold pick; cbn [Z.eqb Pos.eqb]; unfold incE, incH, incident, suml; cc; apply v3_eq; field. }
    assert (Hc : exists c k, (c < 6)%nat /\ (k < 4)%nat /\ i = (c * 4 + k)%nat).
    { exists (i / 4)%nat, (i mod 4)%nat. change (i < 24)%nat in Hi. pose proof (Nat.div_mod i 4 ltac:(lia)). pose proof (Nat.mod_upper_bound i 4 ltac:(lia)).
      split; [apply Nat.div_lt_upper_bound; lia|]. split; [lia|lia]. }
    destruct Hc as (c & k & Hcc & Hk & ->). destruct (G k Hk) as [A B]. unfold E3, H3, comp6 in A, B.
    pose proof (f_equal (fun v : v3 => fst (fst v)) A) as A0. cbn [fst snd] in A0.
    pose proof (f_equal (fun v : v3 => snd (fst v)) A) as A1. cbn [fst snd] in A1.
    pose proof (f_equal (fun v : v3 => snd v) A) as A2. cbn [fst snd] in A2.
    pose proof (f_equal (fun v : v3 => fst (fst v)) B) as B0. cbn [fst snd] in B0.
    pose proof (f_equal (fun v : v3 => snd (fst v)) B) as B1. cbn [fst snd] in B1.
    pose proof (f_equal (fun v : v3 => snd v) B) as B2. cbn [fst snd] in B2.
    destruct c as [|[|[|[|[|[|c]]]]]]; try lia;
      [etransitivity; [|exact A0]|etransitivity; [|exact A1]|etransitivity; [|exact A2]|etransitivity; [|exact B0]|etransitivity; [|exact B1]|etransitivity; [|exact B2]]; f_equal; lia. }
  rewrite Z0. apply derivable_pt_lim_const.
Qed.

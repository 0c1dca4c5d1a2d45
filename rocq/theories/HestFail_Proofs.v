(** Meshes the nodal operator cannot be built on, and the tolerance for curved elements. *)
From Coq Require Import ZArith List Bool Reals Lia Lra Sorted.
From Verif Require Import Common Geo_Spec Face_Model Face_Spec Nodal_Model Nodal_Spec NodalEnergy_Spec Step_Model Setup_Model Conn_Model Conn_Spec.
From Verif Require Import Sub_Proofs Hest_Model Hest_Spec Hest_Proofs HestElem_Proofs HestWeak_Proofs HestBuild_Proofs.
Import ListNotations.
Local Open Scope R_scope.

Lemma etypeEqb_eq : forall a b, etypeEqb a b = true <-> a = b.
Proof. intros a b. destruct a, b; cbn; split; congruence. Qed.

Lemma same_type : forall t elems, elems <> [] -> Forall (fun g => ge_type g = t) elems ->
  allSameType elems = Ok true /\ exists g0, zget elems 0 = Ok g0 /\ ge_type g0 = t.
Proof.
  intros t [|g0 l] Hne H; [congruence|]. assert (E : ge_type g0 = t) by (inversion H; assumption). split; [|exists g0; split; [reflexivity|exact E]].
  unfold allSameType. change (zget (g0 :: l) 0) with (Ok g0). cbn [bind]. f_equal. apply forallb_forall. intros g I. apply etypeEqb_eq.
  rewrite Forall_forall in H. rewrite (H g I). exact E.
Qed.

(** A straight element whose size is not that of the reference matrices. *)
Lemma store_ub : forall fc dim Mi elems lin e g, lin <> [] -> (forall e, In e lin -> exists g, zget elems e = Ok g) ->
  (forall g, In g elems -> e_c Mi <> fc_n fc (ge_type g)) -> In e lin -> zget elems e = Ok g -> mapM (storeElement fc dim Mi elems) lin = UB.
Proof.
  intros fc dim Mi elems lin e g Hne Hall Hsz _ _. destruct lin as [|e0 l]; [congruence|]. cbn [mapM].
  destruct (Hall e0 (or_introl eq_refl)) as [g0 Hz].
  assert (E : storeElement fc dim Mi elems e0 = UB); [|rewrite E; reflexivity].
  unfold storeElement. rewrite Hz. cbn [bind seq mapM]. unfold storeDir at 1. unfold emul. cbn [derivMatrix e_r].
  destruct (Nat.eqb_spec (e_c Mi) (fc_n fc (ge_type g0))) as [Q|Q]; [exfalso; apply (Hsz g0); [exact (zget_in _ _ _ Hz)|exact Q]|]. reflexivity.
Qed.

Lemma build_ub : forall inv fc dim elems posLin posCur bdr global alpha conn maps src N Mi L,
  Forall (dofsIn posLin) elems -> Forall (dofsIn posCur) elems -> (exists g, In g elems /\ ~ curvedBy posLin posCur g) ->
  buildRefs inv fc dim elems = Ok (Mi, L) -> (forall g, In g elems -> e_c Mi <> fc_n fc (ge_type g)) ->
  buildNodal inv fc dim N elems posLin posCur [] bdr global alpha conn maps src = UB.
Proof.
  intros inv fc dim elems posLin posCur bdr global alpha conn maps src N Mi L H1 H2 [g [Ig Hc]] HR Hsz.
  destruct (split_right posLin posCur elems H1 H2) as [lin [cur [E [_ [_ [Hl _]]]]]].
  unfold buildNodal. rewrite E. cbn [bind snd fst checkTFSF foldM]. rewrite HR. cbn [bind fst].
  apply in_zget in Ig as [e Hz]. assert (Ie : In e lin) by (apply Hl; exists g; split; assumption).
  rewrite (store_ub fc dim Mi elems lin e g); [reflexivity|intros Q; rewrite Q in Ie; destruct Ie| |exact Hsz|exact Ie|exact Hz].
  intros e' I'. apply Hl in I' as [g' [Hz' _]]. exists g'. exact Hz'.
Qed.

(** Hexahedra: the matrices of the reference tetrahedron do not fit. *)
Lemma hex_ub : forall inv fc nf ref elems posLin posCur bdr global alpha conn maps src N,
  elems <> [] -> Forall (fun g => ge_type g = Hexahedron) elems -> Forall (dofsIn posLin) elems -> Forall (dofsIn posCur) elems ->
  (exists g, In g elems /\ ~ curvedBy posLin posCur g) ->
  nf = faceNodeCount (fc_order fc) Tetrahedron -> refShape fc Tetrahedron nf ref -> fc_n fc Tetrahedron <> fc_n fc Hexahedron ->
  buildNodal inv fc 3 N elems posLin posCur [] bdr global alpha conn maps src = UB.
Proof.
  intros inv fc nf ref elems posLin posCur bdr global alpha conn maps src N Hne Ht H1 H2 Hg En Hs Hd.
  destruct (same_type Hexahedron elems Hne Ht) as [Es [g0 [E0 T0]]].
  destruct (emat_value fc 3 Tetrahedron nf ref) as [A [EA [Er [Ec _]]]]; [rewrite En; reflexivity|exact Hs|].
  set (Mi := assembleInverseMass inv fc refTetrahedron).
  assert (Em : refElemInvMass inv fc Hexahedron 3 = Ok Mi) by reflexivity.
  assert (EE : refElemEmat fc Hexahedron 3 = Ok A).
  { unfold refElemEmat. cbn [getRefMesh Z.eqb Pos.eqb bind rm_type refTetrahedron]. rewrite EA. reflexivity. }
  assert (Cm : e_c Mi = fc_n fc Tetrahedron) by (unfold Mi; cbn [assembleInverseMass e_c refTetrahedron rm_ne rm_type]; lia).
  destruct (emul_value Mi A) as [L [EL _]]; [rewrite Cm, Er; reflexivity|].
  apply (build_ub inv fc 3 elems posLin posCur bdr global alpha conn maps src N Mi L H1 H2 Hg).
  - unfold buildRefs. rewrite Es. cbn [bind]. rewrite E0. cbn [bind]. rewrite T0, Em. cbn [bind]. rewrite EE. cbn [bind]. rewrite EL. reflexivity.
  - intros g Ig. rewrite Forall_forall in Ht. rewrite (Ht g Ig), Cm. exact Hd.
Qed.

(** Elements of two types: the reference matrices stay empty. *)
Lemma mixed_ub : forall inv fc dim elems posLin posCur bdr global alpha conn maps src N,
  (exists g g', In g elems /\ In g' elems /\ ge_type g <> ge_type g') -> Forall (dofsIn posLin) elems -> Forall (dofsIn posCur) elems ->
  (exists g, In g elems /\ ~ curvedBy posLin posCur g) -> (forall g, In g elems -> (0 < fc_n fc (ge_type g))%nat) ->
  buildNodal inv fc dim N elems posLin posCur [] bdr global alpha conn maps src = UB.
Proof.
  intros inv fc dim elems posLin posCur bdr global alpha conn maps src N [g [g' [I1 [I2 D]]]] H1 H2 Hg Hp.
  apply (build_ub inv fc dim elems posLin posCur bdr global alpha conn maps src N emptyE emptyE H1 H2 Hg).
  - unfold buildRefs, allSameType. destruct elems as [|g0 l]; [destruct I1|]. change (zget (g0 :: l) 0) with (Ok g0). cbn [bind].
    destruct (forallb _ (g0 :: l)) eqn:F; [|reflexivity]. exfalso. rewrite forallb_forall in F.
    apply D. transitivity (ge_type g0); [symmetry|]; apply etypeEqb_eq; apply F; assumption.
  - intros g1 I. specialize (Hp g1 I). cbn [emptyE e_c]. lia.
Qed.

(** A mesh of segments, and a part of the mesh without elements. *)
Lemma segment_throws : forall inv fc t elems posLin posCur bdr global alpha conn maps src N,
  elems <> [] -> Forall (fun g => ge_type g = t) elems -> Forall (dofsIn posLin) elems -> Forall (dofsIn posCur) elems ->
  buildNodal inv fc 1 N elems posLin posCur [] bdr global alpha conn maps src = Throw.
Proof.
  intros inv fc t elems posLin posCur bdr global alpha conn maps src N Hne Ht H1 H2.
  destruct (split_right posLin posCur elems H1 H2) as [lin [cur [E _]]]. destruct (same_type t elems Hne Ht) as [Es [g0 [E0 T0]]].
  unfold buildNodal. rewrite E. cbn [bind snd fst checkTFSF foldM]. unfold buildRefs. rewrite Es. cbn [bind]. rewrite E0. cbn [bind]. reflexivity.
Qed.
Lemma type_throws : forall inv fc dim t elems posLin posCur bdr global alpha conn maps src N,
  elems <> [] -> Forall (fun g => ge_type g = t) elems -> Forall (dofsIn posLin) elems -> Forall (dofsIn posCur) elems ->
  (dim = 2%Z /\ t <> Triangle /\ t <> Quadrilateral) \/ (dim = 3%Z /\ (t = OtherType \/ t = Segment)) ->
  buildNodal inv fc dim N elems posLin posCur [] bdr global alpha conn maps src = Throw.
Proof.
  intros inv fc dim t elems posLin posCur bdr global alpha conn maps src N Hne Ht H1 H2 Hd.
  destruct (split_right posLin posCur elems H1 H2) as [lin [cur [E _]]]. destruct (same_type t elems Hne Ht) as [Es [g0 [E0 T0]]].
  unfold buildNodal. rewrite E. cbn [bind snd fst checkTFSF foldM]. unfold buildRefs. rewrite Es. cbn [bind]. rewrite E0. cbn [bind]. rewrite T0.
  destruct Hd as [(-> & A & B)|(-> & [-> | ->])]; [|reflexivity|reflexivity]. destruct t; try congruence; reflexivity.
Qed.
Lemma empty_ub : forall inv fc dim posLin posCur bdr global alpha conn maps src N,
  buildNodal inv fc dim N [] posLin posCur [] bdr global alpha conn maps src = UB.
Proof. reflexivity. Qed.

(** ** The tolerance *)
Definition scaleV (c : R) (p : vertex) : vertex := let '(x, y, z) := p in (c * x, c * y, c * z).
Lemma coord_scale : forall c p d, (0 <= d < 3)%Z -> coord (scaleV c p) d = c * coord p d.
Proof. intros c [[x y] z] d H. assert (d = 0 \/ d = 1 \/ d = 2)%Z as [-> |[-> | ->]] by lia; reflexivity. Qed.
Lemma coords_bound : forall l : list vertex, exists B, 0 < B /\ forall k d, (0 <= d < 3)%Z -> Rabs (coord (nth k l (0, 0, 0)) d) <= B.
Proof.
  induction l as [|p l [B [HB IH]]].
  - exists 1. split; [lra|]. intros k d Hd. destruct k; cbn [nth]; assert (d = 0 \/ d = 1 \/ d = 2)%Z as [-> |[-> | ->]] by lia; cbn; rewrite Rabs_R0; lra.
  - exists (B + Rabs (coord p 0) + Rabs (coord p 1) + Rabs (coord p 2)).
    pose proof (Rabs_pos (coord p 0)). pose proof (Rabs_pos (coord p 1)). pose proof (Rabs_pos (coord p 2)).
    split; [lra|]. intros [|k] d Hd; cbn [nth]; [assert (d = 0 \/ d = 1 \/ d = 2)%Z as [-> |[-> | ->]] by lia; lra|]. specialize (IH k d Hd). lra.
Qed.
Lemma nth_scale : forall c l k, nth k (map (scaleV c) l) (0, 0, 0) = scaleV c (nth k l (0, 0, 0)).
Proof. intros c l k. replace (0, 0, 0) with (scaleV c (0, 0, 0)) at 1 by (unfold scaleV; rewrite !Rmult_0_r; reflexivity). apply map_nth. Qed.

(** In small enough units no element is curved. *)
Lemma small_units : forall posLin posCur, exists c, 0 < c /\ forall g, ~ curvedBy (map (scaleV c) posLin) (map (scaleV c) posCur) g.
Proof.
  intros posLin posCur. destruct (coords_bound posLin) as [A [HA BA]]. destruct (coords_bound posCur) as [B [HB BB]].
  exists (/ 100000 / (A + B)). assert (Hc : 0 < / 100000 / (A + B)) by (apply Rdiv_lt_0_compat; lra). split; [exact Hc|].
  intros g [k [_ [d [Hd Q]]]]. revert Q. rewrite !nth_scale, !coord_scale by exact Hd. set (c := / 100000 / (A + B)) in *.
  rewrite <- Rmult_minus_distr_l, Rabs_mult, (Rabs_right c) by lra.
  specialize (BA (Z.to_nat k) d Hd). specialize (BB (Z.to_nat k) d Hd).
  set (a := coord (nth (Z.to_nat k) posLin (0, 0, 0)) d) in *. set (b := coord (nth (Z.to_nat k) posCur (0, 0, 0)) d) in *.
  assert (Rabs (a - b) <= A + B) by (unfold Rminus; eapply Rle_trans; [apply Rabs_triang|]; rewrite Rabs_Ropp; lra).
  assert (c * (A + B) = / 100000) by (unfold c; field; lra). intros Q. nra.
Qed.

(** ** Blocks of the matrix of two triangles *)
Lemma half_double : forall n, ((n + n) / 2)%nat = n.
Proof. intros n. replace (n + n)%nat with (n * 2)%nat by lia. apply Nat.div_mul. lia. Qed.
Lemma block_right : forall G n e, e_r G = (n + n)%nat -> e_c G = (n + n)%nat ->
  (e = 0 \/ e = 1)%Z -> exists B, getElemMass e G Triangle = Ok B /\ e_r B = n /\ e_c B = n /\
  forall i j, e_at B i j = e_at G (Z.to_nat e * n + i)%nat (Z.to_nat e * n + j)%nat.
Proof.
  intros G n e Hr Hc [-> | ->]; cbn [getElemMass Z.eqb]; (eexists; split; [reflexivity|]); unfold loadMatrixForTris; cbn [e_r e_c e_at]; rewrite Hr, Hc, !half_double;
    (split; [reflexivity|]); (split; [reflexivity|]); intros i j.
  - reflexivity.
  - change (Z.to_nat 1) with 1%nat. rewrite Nat.mul_1_l. reflexivity.
Qed.
Lemma block_throws : forall G e t,
  (getElemMass e G t = Throw <-> (t = Triangle /\ e <> 0 /\ e <> 1)%Z \/ t = Segment \/ t = OtherType) /\
  (t = Quadrilateral \/ t = Tetrahedron \/ t = Hexahedron -> getElemMass e G t = Ok G) /\ getElemMass e G t <> UB.
Proof.
  intros G e t. assert (D : (e = 0 \/ e = 1 \/ (e <> 0 /\ e <> 1))%Z) by lia.
  destruct t; cbn [getElemMass]; try (intuition congruence).
  destruct D as [-> |[-> |(A & B)]]; cbn [Z.eqb Pos.eqb]; try (intuition congruence).
  replace (e =? 0)%Z with false by (symmetry; apply Z.eqb_neq; exact A). replace (e =? 1)%Z with false by (symmetry; apply Z.eqb_neq; exact B). intuition congruence.
Qed.

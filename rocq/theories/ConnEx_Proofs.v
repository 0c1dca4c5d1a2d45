(** A mesh of two triangles, and what goes wrong elsewhere. *)
From Coq Require Import ZArith List Bool Lia Reals Lra Sorted.
From Verif Require FaceEx_Proofs.
From Verif Require Import Common Face_Model Face_Spec Face_Proofs Nodal_Model Nodal_Spec NodalMult_Proofs Nodal_Proofs Setup_Model Conn_Model Conn_Spec ConnFlux_Proofs Conn_Proofs ConnPos_Proofs ConnBdr_Proofs ConnInt_Proofs ConnWf_Proofs.
Import ListNotations.
Local Open Scope Z_scope.

(** Shape functions of order one along an edge from local node [a] to local node [b]. *)
Definition edge (a b : nat) (t : R) : list R :=
  map (fun k => if (k =? a)%nat then (1 - t)%R else if (k =? b)%nat then t else 0%R) [0; 1; 2]%nat.
(** Simpson's rule. *)
Definition qs (a b c d : nat) : list qpoint :=
  map (fun wt => mkQ (fst wt) (G2 0 1) (edge a b (snd wt)) (edge c d (snd wt))) [(1/6, 0); (2/3, 1/2); (1/6, 1)]%R.
Definition bdrEdge (e : Z) (a b : nat) : cface := mkCF e (-1) (mkFace 3 None (qs a b a b)).
(** Element 0 has edges 0, 1, 2; element 1 has edges 3, 4, 1: the shared edge goes from node 1
    to node 2 of element 0 and from node 2 to node 0 of element 1. *)
Definition triF : list cface :=
  [bdrEdge 0 0 1; mkCF 0 1 (mkFace 3 (Some 3%nat) (qs 1 2 2 0)); bdrEdge 0 2 0; bdrEdge 1 0 1; bdrEdge 1 1 2].
Definition triN (f : Z) : list (nat * nat) :=
  nth (Z.to_nat f) [[(0, 0); (1, 1)]; [(1, 2); (2, 0)]; [(2, 2); (0, 0)]; [(0, 0); (1, 1)]; [(1, 1); (2, 2)]]%nat [].
Definition triM : cmesh := mkCM 6 [[0; 1; 2]; [3; 4; 5]] [1; 1] [[0; 1; 2]; [3; 4; 1]] triF
  [(0, 1); (2, 1); (3, 2); (4, 2); (1, 3)] [1; 1; 1; 1; -1]%R.

Ltac faces f H := unfold inF, triM in H; cbn [cm_face triF length] in H;
  assert (f = 0 \/ f = 1 \/ f = 2 \/ f = 3 \/ f = 4) as [-> |[-> |[-> |[-> | -> ]]]] by lia.
Ltac lz := lazy -[Z.le Z.lt lt not].
Ltac lzi H := lazy -[Z.le Z.lt lt not] in H.
Ltac three i := destruct i as [|[|[|i]]]; [| | |exfalso; lia].

Lemma bdr_edge : forall e a b, a <> b -> (a < 3)%nat -> (b < 3)%nat -> bdrConforms (cf_geo (bdrEdge e a b)) 3 [(a, a); (b, b)].
Proof.
  intros e a b Hab Ha Hb. unfold bdrConforms, bdrEdge. cbn [cf_geo f_el1 f_el2 f_pts]. split; [|split; [reflexivity|split; [reflexivity|]]].
  - unfold wfFace, wfPoint. cbn [f_pts]. unfold qs. cbn [map]. repeat apply Forall_cons; try apply Forall_nil; cbn [q_geo q_s1 f_el1 f_el2]; (split; [cbn [geoOk]; rewrite FaceEx_Proofs.weight_one; lra|split; [reflexivity|exact I]]).
  - split; [cbn [map fst]; constructor; [intros [E|[]]; congruence|constructor; [intros []|constructor]]|].
    split; [constructor; [cbn; lia|constructor; [cbn; lia|constructor]]|]. split.
    + intros q i Hq Hi Hn. cbn [map fst In] in Hn. unfold qs in Hq. cbn [map] in Hq. unfold sh1.
      destruct Hq as [<-|[<-|[<-|[]]]]; cbn [q_s1]; unfold edge; cbn [map];
        three i; cbn [nth]; repeat match goal with |- context [(?x =? ?y)%nat] => destruct (Nat.eqb_spec x y); [subst; exfalso; apply Hn; auto|] end; reflexivity.
    + intros ij [<-|[<-|[]]]; cbn [fst]; unfold overlap, qs, suml, sh1; cbn [f_pts map fold_right q_w q_s1 fst snd]; unfold connTol, edge; cbn [map].
      * three a; cbn [nth Nat.eqb]; lra.
      * three b; cbn [nth Nat.eqb]; three a; try congruence; cbn [Nat.eqb]; lra.
Qed.
Lemma tri_edge : conforms (cf_geo (faceAt triM 1)) 3 (triN 1) /\ separated (cf_geo (faceAt triM 1)) (triN 1).
Proof.
  change (faceAt triM 1) with (mkCF 0 1 (mkFace 3 (Some 3%nat) (qs 1 2 2 0))). change (triN 1) with [(1, 2); (2, 0)]%nat. unfold conforms, separated. cbn [cf_geo f_el1 f_el2 f_pts].
  split; [split; [|split; [reflexivity|split; [reflexivity|]]]|].
  - unfold wfFace, wfPoint. cbn [f_pts]. unfold qs. cbn [map]. repeat apply Forall_cons; try apply Forall_nil; cbn [q_geo q_s1 q_s2 f_el1 f_el2]; (split; [cbn [geoOk]; rewrite FaceEx_Proofs.weight_one; lra|split; reflexivity]).
  - split; [cbn; constructor; [intros [E|[]]; congruence|constructor; [intros []|constructor]]|].
    split; [cbn; constructor; [intros [E|[]]; congruence|constructor; [intros []|constructor]]|].
    split; [constructor; [cbn; lia|constructor; [cbn; lia|constructor]]|]. split; [|split].
    + intros q i Hq Hi Hn. cbn [map fst In] in Hn. unfold qs in Hq. cbn [map] in Hq. unfold sh1.
      destruct Hq as [<-|[<-|[<-|[]]]]; three i; try (exfalso; apply Hn; auto; fail); reflexivity.
    + intros q i Hq Hi Hn. cbn [map snd In] in Hn. unfold qs in Hq. cbn [map] in Hq. unfold sh2.
      destruct Hq as [<-|[<-|[<-|[]]]]; three i; try (exfalso; apply Hn; auto; fail); reflexivity.
    + intros q ij Hq Hij. destruct Hij as [<-|[<-|[]]]; unfold qs in Hq; cbn [map] in Hq; destruct Hq as [<-|[<-|[<-|[]]]]; reflexivity.
  - split.
    + intros ij [<-|[<-|[]]]; cbn [fst]; unfold overlap, qs, suml, sh1; cbn [f_pts map fold_right q_w q_s1 fst snd]; unfold connTol, edge; cbn [map nth Nat.eqb]; lra.
    + intros ij kl [<-|[<-|[]]] [<-|[<-|[]]] N; cbn [fst] in *; try congruence; unfold overlap, qs, suml, sh1; cbn [f_pts map fold_right q_w q_s1 fst snd]; unfold connTol, edge; cbn [map nth Nat.eqb];
        rewrite Rabs_left; lra.
Qed.
Lemma tri_conforming : conforming triM 3 triN.
Proof.
  constructor.
  - intros e He. unfold inR, cm_ne, triM in He. cbn [cm_dofs length] in He. assert (e = 0 \/ e = 1) as [-> | ->] by lia; reflexivity.
  - reflexivity.
  - reflexivity.
  - cbn. unfold meshingTag. intuition congruence.
  - reflexivity.
  - intros e f He Hf. unfold inR, cm_ne, triM in He. cbn [cm_dofs length] in He. unfold inF. cbn [cm_face triM triF length].
    assert (e = 0 \/ e = 1) as [-> | ->] by lia; cbn in Hf; destruct Hf as [<-|[<-|[<-|[]]]]; (split; [lia|]); lz; auto.
  - intros f Hf. faces f Hf; unfold inR; lz; lia.
  - intros f Hf Hi. faces f Hf; try (unfold interior in Hi; lzi Hi; lia). split; [lz; lia|]. exact tri_edge.
  - intros f Hf Hi. faces f Hf; try (exfalso; apply Hi; unfold interior; lz; lia); (split; [reflexivity|]); apply bdr_edge; lia.
  - intros f f' Hf Hf' Hi Hi' _ _. faces f Hf; try (unfold interior in Hi; lzi Hi; lia); faces f' Hf'; try (unfold interior in Hi'; lzi Hi'; lia).
Qed.
Lemma tri_order : faceOrder triM 3 triN.
Proof.
  constructor.
  - intros e He. unfold inR, cm_ne, triM in He. cbn [cm_dofs length] in He. assert (e = 0 \/ e = 1) as [-> | ->] by lia; cbn; repeat (constructor; [cbn; lia|]); constructor.
  - intros f Hf. faces f Hf; lz; (split; [lia|]); unfold interior; lz; lia.
  - intros f Hf. faces f Hf; discriminate.
  - intros e f f' He H H' N. unfold inR, cm_ne, triM in He. cbn [cm_dofs length] in He.
    assert (e = 0 \/ e = 1) as [-> | ->] by lia; lzi H; lzi H';
      destruct H as [<-|[<-|[<-|[]]]]; destruct H' as [<-|[<-|[<-|[]]]]; try congruence; unfold ownLocal; lz;
      first [ eexists; split; [left; reflexivity|cbn; lia] | eexists; split; [right; left; reflexivity|cbn; lia] ].
  - intros e l f f' r He E. unfold inR, cm_ne, triM in He. cbn [cm_dofs length] in He.
    assert (e = 0 \/ e = 1) as [-> | ->] by lia; lzi E; (destruct l as [|x [|y [|z l]]]; cbn in E; inversion E; subst; try (destruct l; discriminate));
      unfold ownLocal; lz;
      first [ do 2 eexists; split; [left; reflexivity|split; [left; reflexivity|cbn; lia]]
            | do 2 eexists; split; [right; left; reflexivity|split; [left; reflexivity|cbn; lia]]
            | do 2 eexists; split; [left; reflexivity|split; [right; left; reflexivity|cbn; lia]]
            | do 2 eexists; split; [right; left; reflexivity|split; [right; left; reflexivity|cbn; lia]] ].
Qed.
Lemma tri_uniform : uniform triM triN 3 2.
Proof.
  split.
  - intros e He. unfold inR, cm_ne, triM in He. cbn [cm_dofs length] in He. assert (e = 0 \/ e = 1) as [-> | ->] by lia; reflexivity.
  - intros f Hf. faces f Hf; reflexivity.
Qed.
Definition triPEC : list (cond * list Z) := [(PEC, [1; 0; 0]); (SMA, [0; 1; 0])].
Definition triTF : list (cond * list Z) := [(TotalFieldIn, [0; 0; 1])].
Lemma tri_bdrs : wfBdrs triM triPEC /\ wfBdrs triM [] /\ wfBdrs triM triTF.
Proof.
  assert (ND : NoDup (map fst (cm_bdr triM))) by (cbn; repeat (constructor; [cbn; lia|]); constructor).
  assert (HF : forall b, inB triM b -> inF triM (bdrFace triM b) /\ 1 <= bdrAttr triM b <= 3).
  { intros b Hb. unfold inB in Hb. cbn [cm_bdr triM length] in Hb. unfold inF. cbn [cm_face triM triF length].
    assert (b = 0 \/ b = 1 \/ b = 2 \/ b = 3 \/ b = 4) as [-> |[-> |[-> |[-> | -> ]]]] by lia; lz; lia. }
  split; [|split]; (split; [exact ND|split; [apply HF|]]); intros b mk Hb Hm; specialize (HF b Hb); destruct HF as [_ HF]; cbn in Hm; intuition (subst; cbn [snd length]; lia).
Qed.
Lemma tri_int : intOk triM [] /\ intOk triM triTF.
Proof.
  split; [intros b mk _ []|]. intros b mk Hb [<-|[]] H. unfold inB in Hb. cbn [cm_bdr triM length] in Hb.
  assert (b = 0 \/ b = 1 \/ b = 2 \/ b = 3 \/ b = 4) as [-> |[-> |[-> |[-> | -> ]]]] by lia; lzi H; try discriminate. split; [unfold interior; lz; lia|cbn; auto].
Qed.
Lemma tri_run : exists g s, connectivities triM triPEC [] triTF = Ok (g, s, [1; 1]) /\
  g = [(0, 0); (1, 1); (1, 5); (2, 3); (0, 0); (2, 2); (3, 3); (4, 4); (4, 4); (5, 5); (3, 2); (5, 1)] /\
  mapB (bPEC s) = [[0; 1]; [4; 5]] /\ vmapB (bSMA s) = [[3; 4]; [4; 5]] /\ mapB1 (bTFSF s) = [[11; 10]] /\ mapB2 (bTFSF s) = [[2; 3]].
Proof.
  destruct tri_bdrs as [W1 [W2 W3]]. destruct tri_int as [I2 I3].
  assert (TB : trueB triM <> []) by (cbn; discriminate).
  destruct (connectivities_right triM 3 triN triPEC [] triTF tri_conforming tri_order W1 W2 W3 I2 I3 eq_refl TB) as [g [s [E [HG [B1 [B2 [B3 [J1 [J2 [J3 J4]]]]]]]]]].
  assert (Bk : forall e f l1 l2, isBlock triM 3 triN e f l1 -> isBlock triM 3 triN e f l2 -> l1 = l2).
  { intros e f l1 l2 [S1 M1] [S2 M2]. apply (sorted_ext (fun x y : Z * Z => fst x < fst y)); try (intros; lia); [exact S1|exact S2|]. intros p. rewrite M1, M2. reflexivity. }
  assert (K3 : forall e f a b p q, triN f = [a; b] -> p = seenFrom triM 3 e f a -> q = seenFrom triM 3 e f b -> fst p < fst q -> isBlock triM 3 triN e f [p; q]).
  { intros e f a b p q E1 E2 E3 Hlt. split; [repeat constructor; exact Hlt|]. intros x. rewrite E1. cbn [In]. split.
    - intros [<-|[<-|[]]]; [exists a|exists b]; auto.
    - intros [ij [[<-|[<-|[]]] ->]]; auto. }
  assert (K4 : forall e f a b p q, triN f = [b; a] -> p = seenFrom triM 3 e f a -> q = seenFrom triM 3 e f b -> fst p < fst q -> isBlock triM 3 triN e f [p; q]).
  { intros e f a b p q E1 E2 E3 Hlt. split; [repeat constructor; exact Hlt|]. intros x. rewrite E1. cbn [In]. split.
    - intros [<-|[<-|[]]]; [exists a|exists b]; auto.
    - intros [ij [[<-|[<-|[]]] ->]]; auto. }
  assert (Eg : g = [(0, 0); (1, 1); (1, 5); (2, 3); (0, 0); (2, 2); (3, 3); (4, 4); (4, 4); (5, 5); (3, 2); (5, 1)]).
  { destruct (flat_global _ _ _ _ HG) as [Bs [-> F]]. cbn in F.
    repeat match goal with H : Forall2 _ (_ :: _) _ |- _ => inversion H; subst; clear H end. match goal with H : Forall2 _ [] _ |- _ => inversion H; subst; clear H end.
    cbn [fst snd] in *.
    repeat match goal with
    | H : isBlock _ _ _ 0 0 ?l |- _ => tryif is_var l then assert (l = [(0, 0); (1, 1)]) as -> by (apply (Bk 0 0); [exact H|]; eapply K3; [reflexivity|vm_compute; reflexivity|vm_compute; reflexivity|cbn; lia]) else fail
    | H : isBlock _ _ _ 0 1 ?l |- _ => tryif is_var l then assert (l = [(1, 5); (2, 3)]) as -> by (apply (Bk 0 1); [exact H|]; eapply K3; [reflexivity|vm_compute; reflexivity|vm_compute; reflexivity|cbn; lia]) else fail
    | H : isBlock _ _ _ 0 2 ?l |- _ => tryif is_var l then assert (l = [(0, 0); (2, 2)]) as -> by (apply (Bk 0 2); [exact H|]; eapply K4; [reflexivity|vm_compute; reflexivity|vm_compute; reflexivity|cbn; lia]) else fail
    | H : isBlock _ _ _ 1 3 ?l |- _ => tryif is_var l then assert (l = [(3, 3); (4, 4)]) as -> by (apply (Bk 1 3); [exact H|]; eapply K3; [reflexivity|vm_compute; reflexivity|vm_compute; reflexivity|cbn; lia]) else fail
    | H : isBlock _ _ _ 1 4 ?l |- _ => tryif is_var l then assert (l = [(4, 4); (5, 5)]) as -> by (apply (Bk 1 4); [exact H|]; eapply K3; [reflexivity|vm_compute; reflexivity|vm_compute; reflexivity|cbn; lia]) else fail
    | H : isBlock _ _ _ 1 1 ?l |- _ => tryif is_var l then assert (l = [(3, 2); (5, 1)]) as -> by (apply (Bk 1 1); [exact H|]; eapply K4; [reflexivity|vm_compute; reflexivity|vm_compute; reflexivity|cbn; lia]) else fail
    end. reflexivity. }
  exists g, s. split; [exact E|]. split; [exact Eg|]. destruct B1 as [B1 _]. destruct B3 as [B3 B3v]. split; [rewrite B1; reflexivity|].
  split; [rewrite B3v, B3, Eg; reflexivity|]. destruct J4 as [qs0 [-> F]]. cbn [ofQuads mapB1 mapB2].
  change (wanted triM [] TotalFieldIn (allB triM) ++ wanted triM triTF TotalFieldIn (allB triM)) with [4] in F.
  inversion F as [|? q ? ? Hq F']; subst. inversion F'; subst. cbn [map].
  change (nth (Z.to_nat 4) (cm_ori triM) 0%R) with (-1)%R in Hq. destruct (Rle_dec 0 (-1)) as [X|_]; [exfalso; lra|].
  destruct q as [[[m1 m2] v1] v2]. cbn [flipQ] in Hq. unfold isSides in Hq. destruct Hq as [M2 [_ [_ F2]]].
  change (range (start triM triN (cf_e1 (faceAt triM (bdrFace triM 4))) (bdrFace triM 4)) (length (triN (bdrFace triM 4)))) with [2; 3] in M2. subst m2. cbn [fst snd].
  split; [|reflexivity]. f_equal. cbn in F2. inversion F2 as [|a ? b ? [P1 P2] F3]; subst. inversion F3 as [|c ? d ? [P3 P4] F4]; subst. inversion F4; subst.
  change (10 <= a < 12) in P1. change (10 <= c < 12) in P3.
  assert (a = 11) by (assert (a = 10 \/ a = 11) as [-> | ->] by lia; [discriminate|reflexivity]).
  assert (c = 10) by (assert (c = 10 \/ c = 11) as [-> | ->] by lia; [reflexivity|discriminate]). subst. reflexivity.
Qed.

(** ** Where the hypotheses matter *)
(** An element of the user's mesh with the attribute 777 joins every sub-mesh. *)
Lemma tag_refuted : exists orig F, 0 <= cf_e1 F < cf_e2 F /\ cf_e2 F < Z.of_nat (length orig) /\
  exists sub, interiorFaceSubMesh orig orig F = Ok (sub, orig) /\ In 2 sub /\ cf_e1 F <> 2 /\ cf_e2 F <> 2.
Proof.
  exists [1; 1; 777], (mkCF 0 1 (mkFace 0 None [])). cbn [cf_e1 cf_e2 length]. split; [lia|]. split; [lia|].
  exists [0; 1; 2]. split; [reflexivity|]. split; [right; right; left; reflexivity|lia].
Qed.
(** Without a boundary element on the boundary of the domain the constructor throws. *)
Lemma no_boundary : forall m n nodes bdrMk intMk tfsfMk, conforming m n nodes -> wfBdrs m bdrMk -> trueB m = [] ->
  connectivities m bdrMk intMk tfsfMk = Throw.
Proof.
  intros m n nodes bdrMk intMk tfsfMk G W T. unfold connectivities. destruct (global_map m n nodes G) as [g [Eg _]]. rewrite Eg. cbn [bind].
  rewrite (true_bdr m bdrMk W), T. reflexivity.
Qed.
(** An interior condition on a face of the boundary of the domain is undefined. *)
Lemma int_on_boundary : forall g s, initIntFaceMaps triM g [(PEC, [1; 0; 0])] (s, [1; 1]) = UB.
Proof. reflexivity. Qed.
(** A condition other than PEC, PMC, SMA and the total field throws. *)
Lemma int_other : forall ids ps c ori s, c <> PEC -> c <> PMC -> c <> SMA -> c <> TotalFieldIn -> loadIntBdr ids ps c ori s = Throw.
Proof. intros ids ps c ori s H1 H2 H3 H4. destruct c; try congruence; reflexivity. Qed.

(** ** One dimension *)
Lemma nth_flat2 : forall (h k : Z -> Z * Z) n i, (i < n)%nat ->
  nth (2 * i) (flat_map (fun e => [h e; k e]) (zseq n)) (0, 0) = h (Z.of_nat i) /\ nth (2 * i + 1) (flat_map (fun e => [h e; k e]) (zseq n)) (0, 0) = k (Z.of_nat i).
Proof.
  intros h k n i Hi. unfold zseq. assert (H : forall s n i, (i < n)%nat ->
    nth (2 * i) (flat_map (fun e => [h e; k e]) (map Z.of_nat (seq s n))) (0, 0) = h (Z.of_nat (s + i)) /\
    nth (2 * i + 1) (flat_map (fun e => [h e; k e]) (map Z.of_nat (seq s n))) (0, 0) = k (Z.of_nat (s + i))).
  { clear. intros s n. revert s. induction n as [|n IH]; intros s i Hi; [lia|]. cbn [seq map flat_map Datatypes.app]. destruct i as [|i].
    - rewrite Nat.add_0_r. split; reflexivity.
    - replace (2 * S i)%nat with (S (S (2 * i))) by lia. replace (S (S (2 * i)) + 1)%nat with (S (S (2 * i + 1))) by lia. cbn [nth].
      destruct (IH (S s) i) as [A B]; [lia|]. replace (s + S i)%nat with (S s + i)%nat by lia. split; [exact A|exact B]. }
  exact (H 0%nat n i Hi).
Qed.
Lemma length_flat2 : forall (h k : Z -> Z * Z) l, length (flat_map (fun e => [h e; k e]) l) = (2 * length l)%nat.
Proof. intros h k l. induction l as [|x t IH]; [reflexivity|]. cbn [flat_map Datatypes.app length]. rewrite IH. lia. Qed.
Lemma line_map : forall n p, 0 < n -> 0 <= p -> exists g, globalConnectivity1D n p = Ok g /\ Z.of_nat (length g) = 2 * n /\
  valAt g 0 = (firstDof p 0, firstDof p 0) /\
  (forall k, 0 <= k < n - 1 ->
     (valAt g (2 * k + 1) = (lastDof p k, firstDof p (k + 1)) /\ valAt g (2 * k + 2) = (firstDof p (k + 1), lastDof p k)) <-> k = 0) /\
  (valAt g (2 * n - 1) = (lastDof p (n - 1), lastDof p (n - 1)) <-> p = n - 1).
Proof.
  intros n p Hn Hp. unfold globalConnectivity1D. replace (n <=? 0) with false by (symmetry; apply Z.leb_gt; lia). eexists. split; [reflexivity|].
  set (h := fun e => (p * e + p, p * e + p + 1)). set (k := fun e => (p * e + p + 1, p * e + p)).
  change (flat_map (fun e => [(p * e + p, p * e + p + 1); (p * e + p + 1, p * e + p)])) with (flat_map (fun e => [h e; k e])).
  assert (L : length (flat_map (fun e => [h e; k e]) (zseq (Z.to_nat (n - 1)))) = (2 * Z.to_nat (n - 1))%nat) by (rewrite length_flat2, zseq_length; reflexivity).
  split; [rewrite !app_length, L; cbn [length]; lia|]. split; [reflexivity|]. split.
  - intros i Hi. destruct (nth_flat2 h k (Z.to_nat (n - 1)) (Z.to_nat i)) as [A B]; [lia|].
    assert (A' : valAt ([(0, 0)] ++ flat_map (fun e => [h e; k e]) (zseq (Z.to_nat (n - 1))) ++ [(p * n + p, p * n + p)]) (2 * i + 1) = h i).
    { unfold valAt. rewrite app_nth2 by (cbn [length]; lia). rewrite app_nth1 by (rewrite L; cbn [length]; lia).
      rewrite Z2Nat.id in A by lia. rewrite <- A. f_equal. cbn [length]. lia. }
    assert (B' : valAt ([(0, 0)] ++ flat_map (fun e => [h e; k e]) (zseq (Z.to_nat (n - 1))) ++ [(p * n + p, p * n + p)]) (2 * i + 2) = k i).
    { unfold valAt. rewrite app_nth2 by (cbn [length]; lia). rewrite app_nth1 by (rewrite L; cbn [length]; lia).
      rewrite Z2Nat.id in B by lia. rewrite <- B. f_equal. cbn [length]. lia. }
    rewrite A', B'. unfold h, k, firstDof, lastDof. split.
    + intros [E _]. injection E as E1 E2. nia.
    + intros ->. split; f_equal; lia.
  - assert (Z' : valAt ([(0, 0)] ++ flat_map (fun e => [h e; k e]) (zseq (Z.to_nat (n - 1))) ++ [(p * n + p, p * n + p)]) (2 * n - 1) = nth 0 [(p * n + p, p * n + p)] (0, 0)).
    { unfold valAt. rewrite app_nth2 by (cbn [length]; lia). rewrite app_nth2 by (rewrite L; cbn [length]; lia). rewrite L. f_equal. cbn [length]. lia. }
    rewrite Z'. cbn [nth]. unfold lastDof. split.
    + intros E. injection E as E1. nia.
    + intros ->. f_equal; ring.
Qed.
Lemma line_refuted : exists n p g k, 0 < n /\ 0 < p /\ 0 <= k < n - 1 /\ globalConnectivity1D n p = Ok g /\
  valAt g (2 * k + 1) <> (lastDof p k, firstDof p (k + 1)).
Proof.
  exists 3, 1, [(0, 0); (1, 2); (2, 1); (2, 3); (3, 2); (4, 4)], 1. split; [lia|]. split; [lia|]. split; [lia|]. split; [reflexivity|]. discriminate.
Qed.
(** The entry of the right end may name a dof that does not exist. *)
Lemma line_oob : exists n p g, 0 < n /\ 0 < p /\ globalConnectivity1D n p = Ok g /\ lastDof p (n - 1) < fst (valAt g (2 * n - 1)).
Proof. exists 1, 2, [(0, 0); (4, 4)]. split; [lia|]. split; [lia|]. split; [reflexivity|]. lz. lia. Qed.

(** The nodal operator on a square of two triangles and on a square element, and the meshes on
    which it goes wrong. *)
From Coq Require Import ZArith List Bool Lia Reals Lra Sorted Permutation.
From Verif Require FaceEx_Proofs.
From Verif Require Import Common Geo_Spec Face_Model Face_Spec Face_Proofs Nodal_Model Nodal_Spec NodalEnergy_Spec Step_Model Setup_Model Conn_Model Conn_Spec.
From Verif Require Import Nodal_Proofs NodalMult_Proofs NodalEnergy_Proofs ConnPos_Proofs ConnBdr_Proofs ConnInt_Proofs ConnWf_Proofs ConnEx_Proofs Hest_Model Hest_Spec Hest_Proofs HestBuild_Proofs HestRun_Proofs HestFail_Proofs.
Import ListNotations.
Local Open Scope Z_scope.

(** ** Two triangles *)
(** Nodes of element 0: (0,0), (1,0), (0,1); of element 1: (1,0), (1,1), (0,1). *)
Definition sqF : list cface :=
  [bdrEdge 0 0 1; mkCF 0 1 (mkFace 3 (Some 3%nat) (qs 1 2 0 2)); bdrEdge 0 2 0; bdrEdge 1 0 1; bdrEdge 1 1 2].
Definition sqN (f : Z) : list (nat * nat) :=
  nth (Z.to_nat f) [[(0, 0); (1, 1)]; [(1, 0); (2, 2)]; [(2, 2); (0, 0)]; [(0, 0); (1, 1)]; [(1, 1); (2, 2)]]%nat [].
Definition sqM : cmesh := mkCM 6 [[0; 1; 2]; [3; 4; 5]] [1; 1] [[0; 1; 2]; [3; 4; 1]] sqF
  [(0, 1); (2, 1); (3, 2); (4, 2); (1, 3)] [1; 1; 1; 1; -1]%R.
Ltac faces f H ::= unfold inF, sqM in H; cbn [cm_face sqF length] in H;
  assert (f = 0 \/ f = 1 \/ f = 2 \/ f = 3 \/ f = 4) as [-> |[-> |[-> |[-> | -> ]]]] by lia.

Lemma sq_edge : conforms (cf_geo (faceAt sqM 1)) 3 (sqN 1) /\ separated (cf_geo (faceAt sqM 1)) (sqN 1).
Proof.
  change (faceAt sqM 1) with (mkCF 0 1 (mkFace 3 (Some 3%nat) (qs 1 2 0 2))). change (sqN 1) with [(1, 0); (2, 2)]%nat. unfold conforms, separated. cbn [cf_geo f_el1 f_el2 f_pts].
  split; [split; [|split; [reflexivity|split; [reflexivity|]]]|].
  - unfold wfFace, wfPoint. cbn [f_pts]. unfold qs. cbn [map]. repeat apply Forall_cons; try apply Forall_nil; cbn [q_geo q_s1 q_s2 f_el1 f_el2]; (split; [cbn [geoOk]; rewrite FaceEx_Proofs.weight_one; lra|split; reflexivity]).
  - split; [cbn; constructor; [intros [E|[]]; congruence|constructor; [intros []|constructor]]|].
    split; [cbn; constructor; [intros [E|[]]; congruence|constructor; [intros []|constructor]]|].
    split; [constructor; [cbn; lia|constructor; [cbn; lia|constructor]]|]. split; [|split].
    + intros q i Hq Hi Hn. cbn [map fst In] in Hn. unfold qs in Hq. cbn [map] in Hq. unfold sh1.
      destruct Hq as [<-|[<-|[<-|[]]]]; three i; try (exfalso; apply Hn; auto; fail); reflexivity.
    + intros q i Hq Hi Hn. cbn [map snd In] in Hn. unfold qs in Hq. cbn [map] in Hq. unfold sh2.
      destruct Hq as [<-|[<-|[<-|[]]]]; three i; try (exfalso; apply Hn; auto; fail); reflexivity.
    + intros q ij Hq Hij. destruct Hij as [<-|[<-|[]]]; unfold qs in Hq; cbn [map] in Hq; destruct Hq as [<-|[<-|[<-|[]]]]; reflexivity.
  - split.
    + intros ij [<-|[<-|[]]]; cbn [fst]; unfold overlap, qs, suml, sh1; cbn [f_pts map fold_right q_w q_s1 fst snd]; unfold connTol, edge; cbn [map nth Nat.eqb]; lra.
    + intros ij kl [<-|[<-|[]]] [<-|[<-|[]]] N; cbn [fst] in *; try congruence; unfold overlap, qs, suml, sh1; cbn [f_pts map fold_right q_w q_s1 fst snd]; unfold connTol, edge; cbn [map nth Nat.eqb];
        rewrite Rabs_left; lra.
Qed.
Lemma sq_conforming : conforming sqM 3 sqN.
Proof.
  constructor.
  - intros e He. unfold inR, cm_ne, sqM in He. cbn [cm_dofs length] in He. assert (e = 0 \/ e = 1) as [-> | ->] by lia; reflexivity.
  - reflexivity.
  - reflexivity.
  - cbn. unfold meshingTag. intuition congruence.
  - reflexivity.
  - intros e f He Hf. unfold inR, cm_ne, sqM in He. cbn [cm_dofs length] in He. unfold inF. cbn [cm_face sqM sqF length].
    assert (e = 0 \/ e = 1) as [-> | ->] by lia; cbn in Hf; destruct Hf as [<-|[<-|[<-|[]]]]; (split; [lia|]); lz; auto.
  - intros f Hf. faces f Hf; unfold inR; lz; lia.
  - intros f Hf Hi. faces f Hf; try (unfold interior in Hi; lzi Hi; lia). split; [lz; lia|]. exact sq_edge.
  - intros f Hf Hi. faces f Hf; try (exfalso; apply Hi; unfold interior; lz; lia); (split; [reflexivity|]); apply bdr_edge; lia.
  - intros f f' Hf Hf' Hi Hi' _ _. faces f Hf; try (unfold interior in Hi; lzi Hi; lia); faces f' Hf'; try (unfold interior in Hi'; lzi Hi'; lia).
Qed.
Lemma sq_order : faceOrder sqM 3 sqN.
Proof.
  constructor.
  - intros e He. unfold inR, cm_ne, sqM in He. cbn [cm_dofs length] in He. assert (e = 0 \/ e = 1) as [-> | ->] by lia; cbn; repeat (constructor; [cbn; lia|]); constructor.
  - intros f Hf. faces f Hf; lz; (split; [lia|]); unfold interior; lz; lia.
  - intros f Hf. faces f Hf; discriminate.
  - intros e f f' He H H' N. unfold inR, cm_ne, sqM in He. cbn [cm_dofs length] in He.
    assert (e = 0 \/ e = 1) as [-> | ->] by lia; lzi H; lzi H';
      destruct H as [<-|[<-|[<-|[]]]]; destruct H' as [<-|[<-|[<-|[]]]]; try congruence; unfold ownLocal; lz;
      first [ eexists; split; [left; reflexivity|cbn; lia] | eexists; split; [right; left; reflexivity|cbn; lia] ].
  - intros e l f f' r He E. unfold inR, cm_ne, sqM in He. cbn [cm_dofs length] in He.
    assert (e = 0 \/ e = 1) as [-> | ->] by lia; lzi E; (destruct l as [|x [|y [|z l]]]; cbn in E; inversion E; subst; try (destruct l; discriminate));
      unfold ownLocal; lz;
      first [ do 2 eexists; split; [left; reflexivity|split; [left; reflexivity|cbn; lia]]
            | do 2 eexists; split; [right; left; reflexivity|split; [left; reflexivity|cbn; lia]]
            | do 2 eexists; split; [left; reflexivity|split; [right; left; reflexivity|cbn; lia]]
            | do 2 eexists; split; [right; left; reflexivity|split; [right; left; reflexivity|cbn; lia]] ].
Qed.
Lemma sq_uniform : uniform sqM sqN 3 2.
Proof.
  split.
  - intros e He. unfold inR, cm_ne, sqM in He. cbn [cm_dofs length] in He. assert (e = 0 \/ e = 1) as [-> | ->] by lia; reflexivity.
  - intros f Hf. faces f Hf; reflexivity.
Qed.
Definition sqMk : list (cond * list Z) := [(PEC, [1; 0; 0]); (SMA, [0; 1; 0])].
Definition sqTF : list (cond * list Z) := [(TotalFieldIn, [0; 0; 1])].
Lemma sq_bdrs : wfBdrs sqM sqMk /\ wfBdrs sqM [] /\ wfBdrs sqM sqTF.
Proof.
  assert (ND : NoDup (map fst (cm_bdr sqM))) by (cbn; repeat (constructor; [cbn; lia|]); constructor).
  assert (HF : forall b, inB sqM b -> inF sqM (bdrFace sqM b) /\ 1 <= bdrAttr sqM b <= 3).
  { intros b Hb. unfold inB in Hb. cbn [cm_bdr sqM length] in Hb. unfold inF. cbn [cm_face sqM sqF length].
    assert (b = 0 \/ b = 1 \/ b = 2 \/ b = 3 \/ b = 4) as [-> |[-> |[-> |[-> | -> ]]]] by lia; lz; lia. }
  split; [|split]; (split; [exact ND|split; [apply HF|]]); intros b mk Hb Hm; specialize (HF b Hb); destruct HF as [_ HF]; cbn in Hm; intuition (subst; cbn [snd length]; lia).
Qed.
Lemma sq_int : intOk sqM [] /\ intOk sqM sqTF.
Proof.
  split; [intros b mk _ []|]. intros b mk Hb [<-|[]] H. unfold inB in Hb. cbn [cm_bdr sqM length] in Hb.
  assert (b = 0 \/ b = 1 \/ b = 2 \/ b = 3 \/ b = 4) as [-> |[-> |[-> |[-> | -> ]]]] by lia; lzi H; try discriminate. split; [unfold interior; lz; lia|cbn; auto].
Qed.
Local Open Scope R_scope.

Definition p1Mass : mat := fun i j => if (i =? j)%nat then / 12 else / 24.
Definition p1Inv (n : nat) (A : mat) : mat := fun i j => (if (i =? j)%nat then 18 else -6) / (12 * A 0%nat 0%nat).
Definition p1 : fecol := mkFec 1 (fun _ => 3%nat) (fun _ => p1Mass)
  (fun _ => [mkFace 3 None (qs 0 1 0 1); mkFace 3 None (qs 1 2 1 2); mkFace 3 None (qs 2 0 2 0)]).
Definition p1Ref : list (list nat) := [[0; 1]; [1; 2]; [0; 2]]%nat.

Lemma three_lt : forall i, (i < 3)%nat -> i = 0%nat \/ i = 1%nat \/ i = 2%nat. Proof. intros; lia. Qed.
Lemma p1_edge : forall a b ns, a <> b -> (a < 3)%nat -> (b < 3)%nat -> StronglySorted lt ns -> (forall k, In k ns <-> k = a \/ k = b) ->
  faceHas 3 (mkFace 3 None (qs a b a b)) ns.
Proof.
  intros a b ns Hab Ha Hb Hs Hin. destruct (bdr_edge 0 a b Hab Ha Hb) as [W [_ [_ [_ [_ [V O]]]]]]. cbn [cf_geo bdrEdge f_pts] in *.
  split; [exact W|]. split; [reflexivity|]. split; [reflexivity|]. split; [exact Hs|]. split; [apply Forall_forall; intros k I; apply Hin in I; lia|]. split.
  - intros q i Hq Hi N. apply (V q i Hq Hi). cbn [map fst In]. rewrite Hin in N. intuition.
  - intros k I. apply Hin in I. unfold overlap, qs, suml, sh1. cbn [f_pts map fold_right q_w q_s1 fst snd]. unfold edge. cbn [map].
    destruct I as [-> | ->]; [destruct (three_lt a Ha) as [-> |[-> | ->]]|destruct (three_lt b Hb) as [-> |[-> | ->]]; destruct (three_lt a Ha) as [-> |[-> | ->]]; try congruence];
      cbn [nth Nat.eqb]; lra.
Qed.
Lemma p1_shape : refShape p1 Triangle 2 p1Ref.
Proof.
  unfold refShape, p1, p1Ref. cbn [fc_faces fc_n]. repeat apply Forall2_cons; try apply Forall2_nil; (split; [|reflexivity]); (apply p1_edge; try lia; [repeat constructor; lia|intros k; cbn [In]; lia]).
Qed.
Lemma p1_inv : forall c, 0 < c -> isInverse 3 (fun i j => c * p1Mass i j) (p1Inv 3 (fun i j => c * p1Mass i j)).
Proof.
  intros c Hc i j Hi Hj. unfold p1Inv, p1Mass. unfold sumN. cbn [seq map fold_right Nat.eqb].
  destruct (three_lt i Hi) as [-> |[-> | ->]]; destruct (three_lt j Hj) as [-> |[-> | ->]]; cbn [Nat.eqb]; field; lra.
Qed.
Lemma p1_ref : refElement p1Inv p1 Triangle 2 p1Ref.
Proof. constructor; [reflexivity|exact p1_shape|exact p1_inv]. Qed.

Definition grad (l : list (list R)) : nat -> mat := fun d _ j => / 6 * nth j (nth d l []) 0.
Definition sqE0 : gelem := mkGE Triangle [0; 1; 2]%Z 1 (/ 2) [G2 1 0; G2 (-1) 1; G2 0 (-1)] (grad [[-1; 1; 0]; [-1; 0; 1]]).
Definition sqE1 : gelem := mkGE Triangle [3; 4; 5]%Z 1 (/ 2) [G2 0 1; G2 (-1) 0; G2 1 (-1)] (grad [[0; 1; -1]; [-1; 1; 0]]).
Definition sqE : list gelem := [sqE0; sqE1].
Definition sqPos : list vertex := [(0, 0, 0); (1, 0, 0); (0, 1, 0); (1, 0, 0); (1, 1, 0); (0, 1, 0)].
Lemma same_pos : forall pos g, ~ curvedBy pos pos g.
Proof. intros pos g [d [_ [k [_ Q]]]]. rewrite Rminus_diag_eq, Rabs_R0 in Q by reflexivity. lra. Qed.
Lemma g2_pos : forall a b, 0 < a * a + b * b -> geoDim 2 (G2 a b) /\ 0 < weightOf (G2 a b).
Proof. intros a b H. split; [reflexivity|]. cbn [weightOf]. apply sqrt_lt_R0. exact H. Qed.
Lemma sq_straight : Forall (straight p1 2 Triangle) sqE.
Proof.
  unfold sqE. repeat constructor; cbn [sqE0 sqE1 ge_det ge_vol ge_geo ge_type refVolume]; try lra; try (repeat constructor; apply g2_pos; lra).
  all: intros d i j Hd Hi Hj; cbn [p1 fc_n] in Hi, Hj; assert (d = 0%nat \/ d = 1%nat) as [-> | ->] by lia;
    destruct (three_lt i Hi) as [-> |[-> | ->]]; destruct (three_lt j Hj) as [-> |[-> | ->]];
    unfold faceN, geoN, suml, sh1, qs, edge, grad; cbn [sqE0 sqE1 ge_D ge_geo p1 fc_faces length seq nth map fold_right f_pts q_w q_s1 fst snd calculateNormal Nat.eqb]; unfold grad, qs, edge; cbn [nth map fold_right q_w q_s1 fst snd Nat.eqb]; lra.
Qed.
Lemma sq_local : localMesh p1 2 Triangle sqPos sqPos sqE.
Proof.
  constructor; [discriminate|repeat constructor| | |].
  - unfold sqE, dofsIn, sqPos. cbn [length]. repeat constructor; cbn [sqE0 sqE1 ge_dofs]; repeat constructor; lia.
  - unfold sqE, dofsIn, sqPos. cbn [length]. repeat constructor; cbn [sqE0 sqE1 ge_dofs]; repeat constructor; lia.
  - intros g I _. pose proof sq_straight as H. rewrite Forall_forall in H. apply H. exact I.
Qed.
Lemma sq_mesh : operatorMesh sqM 3 sqN sqMk [] [].
Proof.
  destruct sq_bdrs as [W1 [W2 _]]. destruct sq_int as [I _].
  constructor; [exact sq_conforming|exact sq_order|exact W1|exact W2|exact W2|exact I|exact I|reflexivity|cbn; discriminate].
Qed.
Lemma sq_same : sameMesh sqM sqN p1 Triangle 2 p1Ref sqE.
Proof.
  constructor; [reflexivity| |exact sq_uniform|].
  - intros e g Hz. pose proof (Sub_Proofs.zget_len _ _ _ Hz) as L. cbn [sqE length] in L. assert (e = 0 \/ e = 1)%Z as [-> | ->] by lia; injection Hz as <-; reflexivity.
  - intros e lf He Hl k. unfold inR, cm_ne, sqM in He. cbn [cm_dofs length] in He. cbn [p1 fc_faces length] in Hl.
    assert (e = 0 \/ e = 1)%Z as [-> | ->] by lia; destruct (three_lt lf Hl) as [-> |[-> | ->]]; lazy -[iff]; tauto.
Qed.
Lemma sqrt2_pos : 0 < sqrt (-1 * -1 + 1 * 1). Proof. apply sqrt_lt_R0. lra. Qed.
Lemma sq_match : facesMatch sqM sqN p1 Triangle sqE.
Proof.
  intros f lf1 lf2 g1 g2 Hf Hi e1 e2 N1 N2 Z1 Z2. faces f Hf; try (unfold interior in Hi; lzi Hi; lia).
  change e1 with 0%Z in *. change e2 with 1%Z in *. injection Z1 as <-. injection Z2 as <-.
  change (nth (Z.to_nat 0) (cm_elface sqM) []) with [0; 1; 2]%Z in N1. change (nth (Z.to_nat 1) (cm_elface sqM) []) with [3; 4; 1]%Z in N2.
  destruct lf1 as [|[|[|lf1]]]; try discriminate N1; [|destruct lf1; discriminate N1]. destruct lf2 as [|[|[|lf2]]]; try discriminate N2; [|destruct lf2; discriminate N2].
  change (geoN sqE0 1) with (G2 (-1) 1). change (geoN sqE1 2) with (G2 1 (-1)). pose proof sqrt2_pos as P.
  assert (EW : weightOf (G2 1 (-1)) = weightOf (G2 (-1) 1)) by (cbn [weightOf]; f_equal; lra).
  split; [exact EW|]. split.
  - unfold unit3. rewrite EW. cbn [calculateNormal nth scalep weightOf]. f_equal; [f_equal|]; field; lra.
  - change (faceN p1 Triangle 1) with (mkFace 3 None (qs 1 2 1 2)). change (faceN p1 Triangle 2) with (mkFace 3 None (qs 2 0 2 0)). cbn [f_pts].
    exists (combine (qs 1 2 1 2) (rev (qs 2 0 2 0))). split; [reflexivity|]. split; [cbn [qs map combine rev app snd]; apply Permutation_sym, Permutation_rev|].
    intros q Hq. unfold qs in Hq. cbn [map rev app combine In] in Hq.
    destruct Hq as [<-|[<-|[<-|[]]]]; cbn [fst snd q_w]; (split; [lra|]); intros ij Hij; change (sqN 1) with [(1, 0); (2, 2)]%nat in Hij; destruct Hij as [<-|[<-|[]]];
      unfold sh1; cbn [q_s1 fst snd]; unfold edge; cbn [map nth Nat.eqb]; lra.
Qed.
Lemma sq_closed : closedBox sqM sqMk [] [].
Proof.
  split; [|intros f c [[b [mk [_ [_ [[] _]]]]]|[b [mk [_ [_ [[] _]]]]]]].
  intros f Hf Hi. faces f Hf; try (exfalso; apply Hi; unfold interior; lz; lia).
  - left. exists 0%Z, (PEC, [1; 0; 0]%Z). repeat split; try reflexivity; lia || (left; reflexivity) || (unfold inB; cbn; lia).
  - left. exists 1%Z, (PEC, [1; 0; 0]%Z). repeat split; try reflexivity; lia || (left; reflexivity) || (unfold inB; cbn; lia).
  - right. right. exists 2%Z, (SMA, [0; 1; 0]%Z). repeat split; try reflexivity; lia || (right; left; reflexivity) || (unfold inB; cbn; lia).
  - right. right. exists 3%Z, (SMA, [0; 1; 0]%Z). repeat split; try reflexivity; lia || (right; left; reflexivity) || (unfold inB; cbn; lia).
Qed.
Lemma sq_weights : forall F q, In F (fc_faces p1 Triangle) -> In q (f_pts F) -> 0 <= q_w q.
Proof. intros F q HF Hq. cbn [p1 fc_faces In] in HF. destruct HF as [<-|[<-|[<-|[]]]]; cbn [f_pts] in Hq; unfold qs in Hq; cbn [map In] in Hq; destruct Hq as [<-|[<-|[<-|[]]]]; cbn [q_w fst]; lra. Qed.

Lemma sq_conn : exists conn maps, connectivities sqM sqMk [] [] = Ok (conn, maps, [1; 1]%Z).
Proof.
  destruct sq_mesh as [M1 M2 M3 M4 M5 M6 M7 M8 M9].
  destruct (connectivities_right sqM 3 sqN sqMk [] [] M1 M2 M3 M4 M5 M6 M7 M8 M9) as [g [s [E _]]]. exists g, s. exact E.
Qed.
Lemma sq_built : exists conn maps s, connectivities sqM sqMk [] [] = Ok (conn, maps, [1; 1]%Z) /\
  buildNodal p1Inv p1 2 6 sqE sqPos sqPos [] [] (fun _ => []) 1 conn maps [] = Ok s /\ length (nd_lin s) = 2%nat.
Proof.
  destruct sq_conn as [conn [maps E]]. exists conn, maps.
  destruct (build_outcome p1Inv p1 2 Triangle 2 p1Ref sqE sqPos sqPos [] [] (fun _ => []) 1 conn maps [] 6) as [lin [cur [E1 [[[s [E2 [E3 _]]] _]|[_ [mk [b [[] _]]]]]]]];
    [left; auto|exact p1_ref|exact sq_local|constructor|].
  exists s. split; [exact E|]. split; [exact E2|]. rewrite <- (map_length el_id), E3.
  destruct (split_right sqPos sqPos sqE (lm_lin _ _ _ _ _ _ sq_local) (lm_cur _ _ _ _ _ _ sq_local)) as [lin' [cur' [E1' [Sl [_ [Hl _]]]]]]. rewrite E1 in E1'. injection E1' as <- <-.
  rewrite (HestMesh_Proofs.sorted_same_Z lin [0; 1]%Z Sl); [reflexivity|repeat constructor; lia|].
  intros x. rewrite Hl. split.
  - intros [g [Hz _]]. apply Sub_Proofs.zget_len in Hz. cbn [sqE length] in Hz. cbn [In]. lia.
  - intros [<-|[<-|[]]]; eexists; (split; [reflexivity|apply same_pos]).
Qed.

(** ** One square element of order one *)
Definition edge4 (a b : nat) (t : R) : list R :=
  map (fun k => if (k =? a)%nat then 1 - t else if (k =? b)%nat then t else 0) [0; 1; 2; 3]%nat.
Definition qs4 (a b : nat) : list qpoint :=
  map (fun wt => mkQ (fst wt) (G2 0 1) (edge4 a b (snd wt)) (edge4 a b (snd wt))) [(1/6, 0); (2/3, 1/2); (1/6, 1)].
Definition face4 (a b : nat) : face := mkFace 4 None (qs4 a b).
Definition quM : cmesh := mkCM 4 [[0; 1; 2; 3]]%Z [1]%Z [[0; 1; 2; 3]]%Z
  [mkCF 0 (-1) (face4 0 1); mkCF 0 (-1) (face4 1 3); mkCF 0 (-1) (face4 3 2); mkCF 0 (-1) (face4 2 0)]
  [(0, 1); (1, 1); (2, 1); (3, 1)]%Z [1; 1; 1; 1].
Definition quN (f : Z) : list (nat * nat) := nth (Z.to_nat f) [[(0, 0); (1, 1)]; [(1, 1); (3, 3)]; [(3, 3); (2, 2)]; [(2, 2); (0, 0)]]%nat [].
Definition m1 : mat := fun i j => if (i =? j)%nat then / 3 else / 6.
Definition s1 : mat := fun _ j => if (j =? 0)%nat then - / 2 else / 2.
Definition q1Mass : mat := fun i j => m1 (Nat.modulo i 2) (Nat.modulo j 2) * m1 (Nat.div i 2) (Nat.div j 2).
Definition q1D (d : nat) : mat := fun i j =>
  if (d =? 0)%nat then s1 (Nat.modulo i 2) (Nat.modulo j 2) * m1 (Nat.div i 2) (Nat.div j 2) else m1 (Nat.modulo i 2) (Nat.modulo j 2) * s1 (Nat.div i 2) (Nat.div j 2).
Definition i1 : mat := fun i j => if (i =? j)%nat then 4 else -2.
Definition q1Inv (n : nat) (A : mat) : mat := fun i j => i1 (Nat.modulo i 2) (Nat.modulo j 2) * i1 (Nat.div i 2) (Nat.div j 2) / (9 * A 0%nat 0%nat).
Definition q1 : fecol := mkFec 1 (fun _ => 4%nat) (fun _ => q1Mass) (fun _ => [face4 0 1; face4 1 3; face4 3 2; face4 2 0]).
Definition q1Ref : list (list nat) := [[0; 1]; [1; 3]; [2; 3]; [0; 2]]%nat.
Definition quE : list gelem := [mkGE Quadrilateral [0; 1; 2; 3]%Z 1 1 [G2 1 0; G2 0 1; G2 (-1) 0; G2 0 (-1)] q1D].
Definition quPos : list vertex := [(0, 0, 0); (1, 0, 0); (0, 1, 0); (1, 1, 0)].

Lemma four_lt : forall i, (i < 4)%nat -> i = 0%nat \/ i = 1%nat \/ i = 2%nat \/ i = 3%nat. Proof. intros; lia. Qed.
Lemma edge4_wf : forall a b, wfFace (face4 a b).
Proof.
  intros a b. unfold wfFace, wfPoint, face4. cbn [f_pts]. unfold qs4. cbn [map].
  repeat apply Forall_cons; try apply Forall_nil; cbn [q_geo q_s1 f_el1 f_el2]; (split; [cbn [geoOk]; rewrite FaceEx_Proofs.weight_one; lra|split; [reflexivity|exact I]]).
Qed.
Lemma edge4_zero : forall a b q i, In q (qs4 a b) -> (i < 4)%nat -> i <> a -> i <> b -> sh1 q i = 0.
Proof.
  intros a b q i Hq Hi Na Nb. unfold qs4 in Hq. cbn [map In] in Hq. unfold sh1.
  destruct Hq as [<-|[<-|[<-|[]]]]; cbn [q_s1]; unfold edge4; cbn [map]; destruct (four_lt i Hi) as [-> |[-> |[-> | ->]]]; cbn [nth];
    repeat match goal with |- context [(?x =? ?y)%nat] => destruct (Nat.eqb_spec x y); [congruence|] end; reflexivity.
Qed.
Lemma edge4_overlap : forall a b k, a <> b -> (a < 4)%nat -> (b < 4)%nat -> k = a \/ k = b -> overlap (face4 a b) k k = 2 / 3.
Proof.
  intros a b k Hab Ha Hb Hk. unfold overlap, face4, qs4, suml, sh1. cbn [f_pts map fold_right q_w q_s1 fst snd]. unfold edge4. cbn [map].
  destruct Hk as [-> | ->].
  - destruct (four_lt a Ha) as [-> |[-> |[-> | ->]]]; cbn [nth Nat.eqb]; lra.
  - destruct (four_lt b Hb) as [-> |[-> |[-> | ->]]]; destruct (four_lt a Ha) as [-> |[-> |[-> | ->]]]; try congruence; cbn [nth Nat.eqb]; lra.
Qed.
Lemma edge4_has : forall a b ns, a <> b -> (a < 4)%nat -> (b < 4)%nat -> StronglySorted lt ns -> (forall k, In k ns <-> k = a \/ k = b) -> faceHas 4 (face4 a b) ns.
Proof.
  intros a b ns Hab Ha Hb Hs Hin. split; [apply edge4_wf|]. split; [reflexivity|]. split; [reflexivity|]. split; [exact Hs|].
  split; [apply Forall_forall; intros k I; apply Hin in I; lia|]. split.
  - intros q i Hq Hi N. rewrite Hin in N. apply (edge4_zero a b); try assumption; intuition.
  - intros k I. apply Hin in I. rewrite edge4_overlap by assumption. lra.
Qed.
Lemma q1_shape : refShape q1 Quadrilateral 2 q1Ref.
Proof.
  unfold refShape, q1, q1Ref. cbn [fc_faces fc_n]. repeat apply Forall2_cons; try apply Forall2_nil; (split; [|reflexivity]);
    (apply edge4_has; try lia; [repeat constructor; lia|intros k; cbn [In]; lia]).
Qed.
Lemma q1_inv : forall c, 0 < c -> isInverse 4 (fun i j => c * q1Mass i j) (q1Inv 4 (fun i j => c * q1Mass i j)).
Proof.
  intros c Hc i j Hi Hj. unfold q1Inv, q1Mass. unfold sumN. cbn [seq map fold_right].
  destruct (four_lt i Hi) as [-> |[-> |[-> | ->]]]; destruct (four_lt j Hj) as [-> |[-> |[-> | ->]]]; cbn [Nat.modulo Nat.div Nat.divmod fst snd Nat.sub]; unfold m1, i1; cbn [Nat.eqb]; field; lra.
Qed.
Lemma q1_ref : refElement q1Inv q1 Quadrilateral 2 q1Ref.
Proof. constructor; [reflexivity|exact q1_shape|exact q1_inv]. Qed.
Lemma qu_straight : Forall (straight q1 2 Quadrilateral) quE.
Proof.
  unfold quE. repeat constructor; cbn [ge_det ge_vol ge_geo ge_type refVolume]; try lra; try (repeat constructor; apply g2_pos; lra).
  intros d i j Hd Hi Hj; cbn [q1 fc_n] in Hi, Hj; assert (d = 0%nat \/ d = 1%nat) as [-> | ->] by lia;
    destruct (four_lt i Hi) as [-> |[-> |[-> | ->]]]; destruct (four_lt j Hj) as [-> |[-> |[-> | ->]]];
    unfold faceN, geoN, suml, sh1; cbn [ge_D ge_geo q1 fc_faces length seq nth map fold_right f_pts calculateNormal]; unfold face4, qs4, edge4, q1D, s1, m1;
    cbn [nth map fold_right f_pts q_w q_s1 fst snd Nat.eqb Nat.modulo Nat.div Nat.divmod Nat.sub]; lra.
Qed.
Lemma qu_local : localMesh q1 2 Quadrilateral quPos quPos quE.
Proof.
  constructor; [discriminate|repeat constructor| | |].
  - unfold quE, dofsIn, quPos. cbn [length]. repeat constructor; cbn [ge_dofs]; repeat constructor; lia.
  - unfold quE, dofsIn, quPos. cbn [length]. repeat constructor; cbn [ge_dofs]; repeat constructor; lia.
  - intros g I _. pose proof qu_straight as H. rewrite Forall_forall in H. apply H. exact I.
Qed.
Ltac faces4 f H := unfold inF, quM in H; cbn [cm_face length] in H; assert (f = 0 \/ f = 1 \/ f = 2 \/ f = 3)%Z as [-> |[-> |[-> | ->]]] by lia.
Lemma qu_conforming : conforming quM 4 quN.
Proof.
  constructor.
  - intros e He. unfold inR, cm_ne, quM in He. cbn [cm_dofs length] in He. assert (e = 0)%Z as -> by lia; reflexivity.
  - reflexivity.
  - reflexivity.
  - cbn. unfold meshingTag. intuition congruence.
  - reflexivity.
  - intros e f He Hf. unfold inR, cm_ne, quM in He. cbn [cm_dofs length] in He. unfold inF. cbn [cm_face quM length].
    assert (e = 0)%Z as -> by lia; cbn in Hf; destruct Hf as [<-|[<-|[<-|[<-|[]]]]]; (split; [lia|]); left; reflexivity.
  - intros f Hf. faces4 f Hf; unfold inR; lz; lia.
  - intros f Hf Hi. faces4 f Hf; unfold interior in Hi; lzi Hi; lia.
  - intros f Hf _. faces4 f Hf; (split; [reflexivity|]);
      match goal with |- bdrConforms (cf_geo (faceAt quM ?f)) _ _ => let F := eval cbv [faceAt quM cm_face Z.to_nat nth cf_geo Pos.to_nat Pos.iter_op Nat.add] in (cf_geo (faceAt quM f)) in change (cf_geo (faceAt quM f)) with F; let N := eval cbv [quN Z.to_nat nth Pos.to_nat Pos.iter_op Nat.add] in (quN f) in change (quN f) with N end;
      unfold bdrConforms; (split; [apply edge4_wf|]); (split; [reflexivity|]); (split; [reflexivity|]);
      (split; [cbn [map fst]; constructor; [cbn; lia|constructor; [intros []|constructor]]|]);
      (split; [constructor; [cbn; lia|constructor; [cbn; lia|constructor]]|]); (split;
      [intros q i Hq Hi N; cbn [map fst In] in N; eapply edge4_zero; [exact Hq|exact Hi| |]; intuition
      |intros ij Hij; cbn [In] in Hij; destruct Hij as [<-|[<-|[]]]; cbn [fst]; rewrite edge4_overlap by lia; unfold connTol; lra]).
  - intros f f' Hf _ Hi. faces4 f Hf; unfold interior in Hi; lzi Hi; lia.
Qed.
Lemma qu_order : faceOrder quM 4 quN.
Proof.
  constructor.
  - intros e He. unfold inR, cm_ne, quM in He. cbn [cm_dofs length] in He. assert (e = 0)%Z as -> by lia; cbn; repeat (constructor; [cbn; lia|]); constructor.
  - intros f Hf. faces4 f Hf; lz; (split; [lia|]); unfold interior; lz; lia.
  - intros f Hf. faces4 f Hf; discriminate.
  - intros e f f' He H H' N. unfold inR, cm_ne, quM in He. cbn [cm_dofs length] in He. assert (e = 0)%Z as -> by lia; lzi H; lzi H';
      destruct H as [<-|[<-|[<-|[<-|[]]]]]; destruct H' as [<-|[<-|[<-|[<-|[]]]]]; try congruence; unfold ownLocal; lz;
      first [ eexists; split; [left; reflexivity|cbn; lia] | eexists; split; [right; left; reflexivity|cbn; lia] ].
  - intros e l f f' r He E. unfold inR, cm_ne, quM in He. cbn [cm_dofs length] in He. assert (e = 0)%Z as -> by lia.
    lzi E; (destruct l as [|x [|y [|z [|w l]]]]; cbn in E; inversion E; subst; try (destruct l; discriminate));
      unfold ownLocal; lz;
      first [ do 2 eexists; split; [left; reflexivity|split; [left; reflexivity|cbn; lia]]
            | do 2 eexists; split; [right; left; reflexivity|split; [left; reflexivity|cbn; lia]]
            | do 2 eexists; split; [left; reflexivity|split; [right; left; reflexivity|cbn; lia]]
            | do 2 eexists; split; [right; left; reflexivity|split; [right; left; reflexivity|cbn; lia]] ].
Qed.
Definition quMk : list (cond * list Z) := [(PEC, [1])%Z].
Lemma qu_mesh : operatorMesh quM 4 quN quMk [] [].
Proof.
  assert (HF : forall b, inB quM b -> inF quM (bdrFace quM b) /\ (1 <= bdrAttr quM b <= 1)%Z).
  { intros b Hb. unfold inB in Hb. cbn [cm_bdr quM length] in Hb. unfold inF. cbn [cm_face quM length].
    assert (b = 0 \/ b = 1 \/ b = 2 \/ b = 3)%Z as [-> |[-> |[-> | ->]]] by lia; lz; lia. }
  assert (ND : NoDup (map fst (cm_bdr quM))) by (cbn; repeat (constructor; [cbn; lia|]); constructor).
  constructor; try exact qu_conforming; try exact qu_order; try reflexivity; try (cbn; discriminate); try (intros b mk _ []).
  - split; [exact ND|]. split; [intros b Hb; apply HF; exact Hb|]. intros b mk Hb [<-|[]]. cbn [snd length]. apply HF in Hb. lia.
  - split; [exact ND|]. split; [intros b Hb; apply HF; exact Hb|]. intros b mk Hb [].
  - split; [exact ND|]. split; [intros b Hb; apply HF; exact Hb|]. intros b mk Hb [].
Qed.
Lemma qu_same : sameMesh quM quN q1 Quadrilateral 2 q1Ref quE.
Proof.
  constructor; [reflexivity| | |].
  - intros e g Hz. pose proof (Sub_Proofs.zget_len _ _ _ Hz) as L. cbn [quE length] in L. assert (e = 0)%Z as -> by lia; injection Hz as <-; reflexivity.
  - split; [intros e He; unfold inR, cm_ne, quM in He; cbn [cm_dofs length] in He; assert (e = 0)%Z as -> by lia; reflexivity|intros f Hf; faces4 f Hf; reflexivity].
  - intros e lf He Hl k. unfold inR, cm_ne, quM in He. cbn [cm_dofs length] in He. cbn [q1 fc_faces length] in Hl.
    assert (e = 0)%Z as -> by lia; destruct (four_lt lf Hl) as [-> |[-> |[-> | ->]]]; lazy -[iff]; tauto.
Qed.
Lemma qu_conn : exists conn maps, connectivities quM quMk [] [] = Ok (conn, maps, [1]%Z).
Proof.
  destruct qu_mesh as [M1 M2 M3 M4 M5 M6 M7 M8 M9].
  destruct (connectivities_right quM 4 quN quMk [] [] M1 M2 M3 M4 M5 M6 M7 M8 M9) as [g [s [E _]]]. exists g, s. exact E.
Qed.
(** Field x on the unit square: its derivative comes out as 4. *)
Lemma quad_wrong : exists conn maps s el, connectivities quM quMk [] [] = Ok (conn, maps, [1]%Z) /\
  buildNodal q1Inv q1 2 4 quE quPos quPos [] [] (fun _ => []) 1 conn maps [] = Ok s /\ In el (nd_lin s) /\
  form el (ownMass q1 Quadrilateral (nth 0 quE noEl)) (onEl el (fun _ => 1)) (diff el 0 (fun d => coord (nth (Z.to_nat d) quPos (0, 0, 0)) 0)) = 4 /\
  form el (weakD 2 (nth 0 quE noEl) 0) (onEl el (fun _ => 1)) (onEl el (fun d => coord (nth (Z.to_nat d) quPos (0, 0, 0)) 0)) = 1.
Proof.
  destruct qu_conn as [conn [maps E]]. exists conn, maps.
  assert (Sup : supported Quadrilateral 2) by (right; left; auto).
  destruct (build_outcome q1Inv q1 2 Quadrilateral 2 q1Ref quE quPos quPos [] [] (fun _ => []) 1 conn maps [] 4) as [lin [cur [E1 [[[s [E2 [E3 _]]] _]|[_ [mk [b [[] _]]]]]]]];
    [exact Sup|exact q1_ref|exact qu_local|constructor|].
  destruct (split_right quPos quPos quE (lm_lin _ _ _ _ _ _ qu_local) (lm_cur _ _ _ _ _ _ qu_local)) as [lin' [cur' [E1' [Sl [_ [Hl _]]]]]]. rewrite E1 in E1'. injection E1' as <- <-.
  assert (I0 : In 0%Z lin) by (apply Hl; eexists; split; [reflexivity|apply same_pos]). rewrite <- E3 in I0. apply in_map_iff in I0 as [el [Ei Il]].
  exists s, el. split; [exact E|]. split; [exact E2|]. split; [exact Il|].
  destruct (run_element q1Inv q1 2 Quadrilateral 2 q1Ref quE quPos quPos [] [] (fun _ => []) 1 conn maps [1]%Z quM quN quMk [] [] Sup q1_ref qu_local qu_mesh qu_same E [] s E2 el Il)
    as [g [Hz [_ [Ed [_ D]]]]].
  rewrite Ei in Hz. injection Hz as <-.
  assert (Q : form el (weakD 2 (nth 0 quE noEl) 0) (onEl el (fun _ => 1)) (onEl el (fun d => coord (nth (Z.to_nat d) quPos (0, 0, 0)) 0)) = 1).
  { assert (Es : elSize el = 4%nat) by (unfold elSize; rewrite Ed; reflexivity). unfold form, onEl, elDof. rewrite Ei, Es. unfold sumN. cbn [seq map fold_right]. unfold weakD. cbn [quE nth Z.of_nat Z.ltb Z.compare ge_D Z.mul Z.add Pos.of_succ_nat Pos.succ].
    unfold q1D, s1, m1. cbn [nth Nat.eqb Nat.modulo Nat.div Nat.divmod fst snd Nat.sub Z.to_nat Pos.to_nat Pos.iter_op Nat.add quPos coord Z.eqb Pos.eqb]. change (Pos.to_nat 1) with 1%nat. change (Pos.to_nat 2) with 2%nat. change (Pos.to_nat 3) with 3%nat. cbn [fst snd]. lra. }
  split; [|exact Q]. pose proof (D 0%nat ltac:(lia) (fun _ => 1) (fun d => coord (nth (Z.to_nat d) quPos (0, 0, 0)) 0)) as D0. cbn [kappa] in D0.
  exact (eq_trans D0 (eq_trans (f_equal (Rmult 4) Q) (Rmult_1_r 4))).
Qed.

(** ** A curved element beside a straight one *)
(** The second triangle has a node moved. *)
Definition cuPos : list vertex := [(0, 0, 0); (1, 0, 0); (0, 1, 0); (1, 0, 0); (11 / 10, 1, 0); (0, 1, 0)].
Lemma cu_curved : curvedBy sqPos cuPos sqE1 /\ ~ curvedBy sqPos cuPos sqE0.
Proof.
  split.
  - exists 4%Z. split; [cbn; lia|]. exists 0%Z. split; [lia|]. change (/ 100000 < Rabs (1 - 11 / 10)). rewrite Rabs_left; lra.
  - intros [d [Hd [k [Hk Q]]]]. cbn [sqE0 ge_dofs In] in Hd. assert (k = 0 \/ k = 1 \/ k = 2)%Z as HK by lia.
    assert (Z : coord (nth (Z.to_nat d) sqPos (0, 0, 0)) k = coord (nth (Z.to_nat d) cuPos (0, 0, 0)) k) by (destruct Hd as [<-|[<-|[<-|[]]]]; reflexivity).
    rewrite Z, Rminus_diag_eq, Rabs_R0 in Q by reflexivity. lra.
Qed.
Lemma cu_local : localMesh p1 2 Triangle sqPos cuPos sqE.
Proof.
  destruct sq_local as [L1 L2 L3 L4 L5]. constructor; [exact L1|exact L2|exact L3|exact L3|].
  intros g I _. pose proof sq_straight as H. rewrite Forall_forall in H. apply H. exact I.
Qed.
Definition cuG (r : Z) : list (Z * R) := [(r, 2); (0%Z, 1)].
Lemma cu_rows : rowsIn 6 cuG.
Proof. intros r Hr. unfold inR in *. repeat constructor; cbn [fst]; lia. Qed.
Lemma cu_built : exists conn maps s, connectivities sqM sqMk [] [] = Ok (conn, maps, [1; 1]%Z) /\
  buildNodal p1Inv p1 2 6 sqE sqPos cuPos [] [] cuG 1 conn maps [] = Ok s.
Proof.
  destruct sq_conn as [conn [maps E]]. exists conn, maps.
  destruct (build_outcome p1Inv p1 2 Triangle 2 p1Ref sqE sqPos cuPos [] [] cuG 1 conn maps [] 6) as [lin [cur [E1 [[[s [E2 [E3 _]]] _]|[_ [mk [b [[] _]]]]]]]];
    [left; auto|exact p1_ref|exact cu_local|constructor|]. exists s. split; assumption.
Qed.
(** An incident field on the curved element stops the construction. *)
Lemma cu_throws : forall conn maps, buildNodal p1Inv p1 2 6 sqE sqPos cuPos [(TotalFieldIn, [1]%Z)] [mkBE 1 0 1] cuG 1 conn maps [] = Throw.
Proof.
  intros conn maps. destruct (build_outcome p1Inv p1 2 Triangle 2 p1Ref sqE sqPos cuPos [(TotalFieldIn, [1]%Z)] [mkBE 1 0 1] cuG 1 conn maps [] 6) as [lin [cur [E1 H]]];
    [left; auto|exact p1_ref|exact cu_local|repeat constructor; cbn; lia|].
  destruct H as [[_ N]|[E _]]; [|exact E]. exfalso. apply (N (TotalFieldIn, [1]%Z) (mkBE 1 0 1)); [left; reflexivity|left; reflexivity|].
  split; [reflexivity|]. right. split; [cbn; lia|]. cbn [be_e2].
  destruct (split_right sqPos cuPos sqE (lm_lin _ _ _ _ _ _ cu_local) (lm_cur _ _ _ _ _ _ cu_local)) as [lin' [cur' [E1' [_ [_ [_ Hc]]]]]]. rewrite E1 in E1'. injection E1' as <- <-.
  apply in_map_iff. exists (1%Z, [3; 4; 5]%Z). split; [reflexivity|]. apply Hc. exists sqE1. split; [reflexivity|]. split; [apply cu_curved|reflexivity].
Qed.

(** ** Meshes that cannot be used *)
(** Hexahedra and tetrahedra of order zero would have the same size; of order one they do not. *)
Definition hx : fecol := mkFec 1 (fun t => match t with Hexahedron => 8 | Triangle => 3 | _ => 4 end)%nat (fun _ => mzero) (fun _ => []).
Definition hxE : list gelem := [mkGE Hexahedron [0; 1; 2; 3; 4; 5; 6; 7]%Z 1 1 [] (fun _ => mzero)].
Definition hxPos : list vertex := repeat (0, 0, 0) 8.
Lemma hx_ex : Forall (dofsIn hxPos) hxE /\ ~ curvedBy hxPos hxPos (nth 0 hxE noEl) /\ refShape hx Tetrahedron 3 [] /\ fc_n hx Tetrahedron <> fc_n hx Hexahedron /\
  3%nat = faceNodeCount (fc_order hx) Tetrahedron.
Proof.
  split; [unfold hxE, dofsIn, hxPos; rewrite repeat_length; repeat constructor; cbn [ge_dofs]; repeat constructor; lia|]. split; [apply same_pos|]. split; [constructor|]. split; [cbn; lia|reflexivity].
Qed.
Definition mxE : list gelem := [mkGE Triangle [0; 1; 2]%Z 1 1 [] (fun _ => mzero); mkGE Quadrilateral [3; 4; 5; 6]%Z 1 1 [] (fun _ => mzero)].
Lemma mx_ex : Forall (dofsIn hxPos) mxE /\ ~ curvedBy hxPos hxPos (nth 0 mxE noEl) /\ forall g, In g mxE -> (0 < fc_n hx (ge_type g))%nat.
Proof.
  split; [unfold mxE, dofsIn, hxPos; rewrite repeat_length; repeat constructor; cbn [ge_dofs]; repeat constructor; lia|]. split; [apply same_pos|].
  intros g [<-|[<-|[]]]; cbn; lia.
Qed.

(** A surface of two edges in a sub-mesh with three boundary edges. *)
From Coq Require Import ZArith List Bool Lia Reals Lra.
From Verif Require Import Common Face_Model Sub_Model SurfGeo_Model SurfGeo_Spec SurfGeo_Proofs SurfGeoEx_Proofs SurfTag_Model SurfTag_Spec SurfTag_Proofs.
Import ListNotations.
Local Open Scope Z_scope.

(** Boundary elements with attributes 5, [a] and 5; only the boundary of the mesh is used here. *)
Definition exMesh (a : Z) : mesh := mkMesh 2 [] [] [] [] [] [mkBdr 5 [] 0; mkBdr a [] 2; mkBdr 5 [] 3].
(** The child has the faces 3, 0 and 2 of the parent; they are boundary elements 1, 0 and 2. *)
Definition exFam (a : Z) : family := mkFam [0; -1; 1; 2] [1; 0; 2] [3; 0; 2] [5; 5; a] [Some [exP1]; Some [exP2]; Some [exP3]].

Lemma ex_tagged : forall a i, a <> 5 -> (onTagged (exMesh a) [5] (exFam a) i <-> (i = 0 \/ i = 1)%nat).
Proof.
  intros a i Ha. split.
  - intros (be & b & face & cface & E1 & E2 & E3 & E4 & E5). destruct E2 as [E2|[]].
    destruct be as [|[|[|be]]]; cbn in E1; try (injection E1 as <-; cbn in E2); try congruence; [| |now destruct be].
    + assert (face = 0%nat).
      { destruct face as [|[|[|[|face]]]]; cbn in E3; try discriminate; try reflexivity. now destruct face. }
      subst face. destruct cface as [|[|[|cface]]]; cbn in E4, E5; try discriminate; [|now destruct cface]. injection E5; lia.
    + assert (face = 3%nat).
      { destruct face as [|[|[|[|face]]]]; cbn in E3; try discriminate; try reflexivity. now destruct face. }
      subst face. destruct cface as [|[|[|cface]]]; cbn in E4, E5; try discriminate; [|now destruct cface]. injection E5; lia.
  - intros [->| ->].
    + exists 0%nat, (mkBdr 5 [] 0), 0%nat, 1%nat. cbn. auto 8.
    + exists 2%nat, (mkBdr 5 [] 3), 3%nat, 0%nat. cbn. auto 8.
Qed.
Lemma ex_family : forall a maxAttr, 1 <= a -> a <= maxAttr -> 5 <= maxAttr -> goodFamily (exMesh a) maxAttr (exFam a) /\ goodTags maxAttr [5].
Proof.
  intros a maxAttr H1 H2 H3. split; [|intros t [<-|[]]; lia]. unfold goodFamily, exMesh, exFam. cbn [m_bdr fa_f2b fa_cf2b fa_map fa_attr fa_rule].
  split; [intros b [<-|[<-|[<-|[]]]]; cbn; lia|]. split.
  - intros i j x Hx Hi Hj. destruct i as [|[|[|[|i]]]]; destruct j as [|[|[|[|j]]]]; cbn in Hi, Hj; try reflexivity; try congruence;
      try (now destruct i); try (now destruct j); injection Hi as <-; lia.
  - split; [repeat constructor; cbn; lia|]. split; [reflexivity|]. split; [intros b [<-|[<-|[<-|[]]]]; cbn; lia|]. split; [reflexivity|].
    intros x [<-|[<-|[<-|[]]]]; lia.
Qed.
Lemma ex_hypotheses : goodFamily (exMesh 7) 7 (exFam 7) /\ goodTags 7 [5] /\ ~ In 201 (fa_attr (exFam 7)) /\
  (exists i, onTagged (exMesh 7) [5] (exFam 7) i) /\ Forall (regular 2) (pick [true; true; false] (fa_rule (exFam 7))).
Proof.
  destruct (ex_family 7 7) as (G & T); try lia. split; [exact G|]. split; [exact T|]. split; [cbn; lia|]. split.
  - exists 0%nat. apply ex_tagged; [lia|auto].
  - change (pick [true; true; false] (fa_rule (exFam 7))) with [exP1; exP2].
    repeat constructor; cbn; try lia; intros E; injection E; intros; lra.
Qed.

(** The third edge is a wall of the mesh that has the attribute 201. *)
Lemma ex_inherited : exists dim m maxAttr tags f sel A, goodFamily m maxAttr f /\ goodTags maxAttr tags /\
  (forall i, nth_error sel i = Some true <-> onTagged m tags f i) /\ length (pick sel (fa_rule f)) = 2%nat /\
  exportSurface dim m maxAttr tags f = Ok (3%nat, A).
Proof.
  destruct (ex_family 201 201) as (G & T); try lia.
  assert (E : exists mk, buildSurfaceMarker 201 [5] = Ok mk /\
    setChild (exMesh 201) mk (fa_f2b (exFam 201)) (fa_cf2b (exFam 201)) (fa_map (exFam 201)) ntff (fa_attr (exFam 201)) = Ok [201; 201; 201]).
  { eexists. split; vm_compute; reflexivity. }
  destruct E as (mk & E1 & E2).
  set (els := [mkBE 201 (Some [exP1]); mkBE 201 (Some [exP2]); mkBE 201 (Some [exP3])]).
  assert (EC : childElements (exMesh 201) 201 [5] (exFam 201) = Ok els).
  { unfold childElements. rewrite E1. cbn [bind]. rewrite E2. reflexivity. }
  assert (HS : hasSurface els).
  { split; [intros e [<-|[<-|[<-|[]]]]; cbn; lia|]. exists (mkBE 201 (Some [exP1])). cbn; split; [auto|lia]. }
  assert (RG : Forall (regular 2) (surfacePoints els)).
  { change (surfacePoints els) with [exP1; exP2; exP3]. repeat constructor; cbn; try lia; intros Q; injection Q; intros; lra. }
  destruct (geometry_ok 2 els HS RG) as (A & EA & _).
  exists 2%nat, (exMesh 201), 201, [5], (exFam 201), [true; true; false], A. split; [exact G|]. split; [exact T|]. split; [|split; [reflexivity|]].
  - intros i. rewrite ex_tagged by lia. destruct i as [|[|[|i]]]; cbn; split; intros Q; try discriminate; auto; try lia. now destruct i.
  - unfold exportSurface. rewrite EC. cbn [bind]. rewrite count_ok by exact HS. cbn [bind]. rewrite EA. reflexivity.
Qed.

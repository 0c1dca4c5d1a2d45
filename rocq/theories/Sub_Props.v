From Coq Require Import ZArith List Bool Reals.
From Verif Require Import Common Conn_Model Sub_Model Sub_Spec Sub_Proofs SubGeo_Proofs SubSide_Proofs SubChild_Proofs SubLine_Proofs SubSpace_Proofs SubEx_Proofs.
Import ListNotations.
Local Open Scope Z_scope.

(** C40: in two and three dimensions every marked face gives its two sides to opposite lists, or
    its only side to one list, in order, and nothing else is listed. *)
Theorem C40_lists : forall (m : mesh) (marker attrs : list Z), wfMesh m -> wfGeo m -> covers m marker -> m_dim m = 2 \/ m_dim m = 3 -> length attrs = length (m_everts m) ->
  exists s cs, tfsfSubMesher m marker attrs = Ok s /\ Forall2 (contributes m) (marked m marker) cs /\ t_tf s = concat (map fst cs) /\ t_sf s = concat (map snd cs).
Proof. exact lists_ok. Qed.
Print Assumptions C40_lists.
Example C40_lists_ex : wfMesh strip1 /\ wfGeo strip1 /\ covers strip1 [1].
Proof. exact strip1_wf. Qed.
Theorem C40_valid : forall (m : mesh) (marker attrs : list Z) (s : tfsf), wfMesh m -> wfGeo m -> covers m marker -> m_dim m = 2 \/ m_dim m = 3 -> length attrs = length (m_everts m) ->
  tfsfSubMesher m marker attrs = Ok s -> forall e l, In (e, l) (t_tf s) \/ In (e, l) (t_sf s) -> 0 <= e < numElems m /\ exists f, localFace m e f l.
Proof. exact lists_valid. Qed.
Print Assumptions C40_valid.
Example C40_valid_ex : tfsfSubMesher strip1 [1] [1; 1; 1] = Ok (mkT [2000; 1000; 1] [(1, 3)] [(0, 1)]).
Proof. exact strip1_run. Qed.
(** In one dimension, with one or two marked points in order. *)
Theorem C40_line_partial : forall (m : mesh) (marker attrs : list Z), wfMesh m -> lineMesh m -> covers m marker -> m_dim m = 1 -> length attrs = length (m_everts m) ->
  match marked m marker with
  | [b] => (forall f e2, beside m b f 0 e2 -> leftEnd m b) | [b; b'] => ~ rightEnd m b /\ ~ leftEnd m b' | _ => False end ->
  exists s cs, tfsfSubMesher m marker attrs = Ok s /\ Forall2 (contributes m) (marked m marker) cs /\ t_tf s = concat (map fst cs) /\ t_sf s = concat (map snd cs).
Proof. exact line_ok. Qed.
Print Assumptions C40_line_partial.
Example C40_line_ex : marked line [1; 1] = [0; 1] /\ ~ rightEnd line 0 /\ ~ leftEnd line 1.
Proof. exact line_hyp. Qed.
Example C40_line_ex2 : tfsfSubMesher line [1; 1] [1; 1; 1] = Ok (mkT [2000; 1000; 2000] [(1, 0); (1, 1)] [(0, 1); (2, 0)]).
Proof. exact line_both. Qed.
(** A single marked point beside the first element loses a side. *)
Theorem C40_line_refuted : exists m marker attrs s, wfMesh m /\ lineMesh m /\ covers m marker /\ m_dim m = 1 /\ marked m marker = [0] /\ tfsfSubMesher m marker attrs = Ok s /\
  ~ exists c, contributes m 0 c /\ fst c = t_tf s /\ snd c = t_sf s.
Proof. exact line_bad. Qed.
Print Assumptions C40_line_refuted.
(** When the library reports the neighbour on another rank as less than -1, it stays in the list. *)
Theorem C40_shared_refuted : exists m marker attrs s, covers m marker /\ tfsfSubMesher m marker attrs = Ok s /\ exists e l, (In (e, l) (t_tf s) \/ In (e, l) (t_sf s)) /\ e < 0.
Proof. exact shared_bad. Qed.
Print Assumptions C40_shared_refuted.

(** C41: in the plane, with counter-clockwise elements, every pair is right. *)
Theorem C41_plane : forall m marker attrs, wfMesh m -> wfGeo m -> covers m marker -> m_dim m = 2 -> length attrs = length (m_everts m) -> marked m marker <> [] -> (forall be, In be (marked m marker) -> ccwFace m be) ->
  exists a ps, ntffSubMesher m marker attrs = Ok (a, ps) /\ Forall2 (rightPair m) (marked m marker) ps.
Proof. exact ntff2_ok. Qed.
Print Assumptions C41_plane.
Example C41_plane_ex : forall be, In be (marked strip [1; 0]) -> ccwFace strip be.
Proof. exact strip_ccw. Qed.
(** In general only when the face has one side or the same number on both. *)
Theorem C41_partial : forall m marker attrs, wfMesh m -> wfGeo m -> covers m marker -> m_dim m = 2 \/ m_dim m = 3 -> length attrs = length (m_everts m) -> marked m marker <> [] ->
  (forall be f e1 e2, In be (marked m marker) -> beside m be f e1 e2 -> e2 < 0 \/ exists l, localFace m e1 f l /\ localFace m e2 f l) ->
  exists a ps, ntffSubMesher m marker attrs = Ok (a, ps) /\ Forall2 (rightPair m) (marked m marker) ps.
Proof. exact ntff3_ok. Qed.
Print Assumptions C41_partial.
Example C41_partial_ex : exists m marker (attrs : list Z), wfMesh m /\ wfGeo m /\ covers m marker /\ m_dim m = 2 /\ length attrs = length (m_everts m) /\ marked m marker <> [] /\
  (forall be f e1 e2, In be (marked m marker) -> beside m be f e1 e2 -> e2 < 0 \/ exists l, localFace m e1 f l /\ localFace m e2 f l).
Proof. exact strip1_same. Qed.
(** In space the number may be that of the other element. *)
Theorem C41_space_refuted : exists m marker attrs a ps, wfMesh m /\ wfGeo m /\ covers m marker /\ m_dim m = 3 /\ ntffSubMesher m marker attrs = Ok (a, ps) /\ ~ Forall2 (rightPair m) (marked m marker) ps.
Proof. exact box_far_refuted. Qed.
Print Assumptions C41_space_refuted.
(** The element of the pair is always beside the face, and the number belongs to one of the two. *)
Theorem C41_sides : forall m marker attrs, wfMesh m -> wfGeo m -> covers m marker -> m_dim m = 2 \/ m_dim m = 3 -> length attrs = length (m_everts m) -> marked m marker <> [] ->
  exists a ps, ntffSubMesher m marker attrs = Ok (a, ps) /\
   Forall2 (fun be p => exists f e1 e2, beside m be f e1 e2 /\ (fst p = e1 \/ 0 <= e2 /\ fst p = e2) /\ (localFace m e1 f (snd p) \/ 0 <= e2 /\ localFace m e2 f (snd p))) (marked m marker) ps.
Proof. exact ntff_sides. Qed.
Print Assumptions C41_sides.
Example C41_sides_ex : wfMesh box /\ wfGeo box /\ covers box [1].
Proof. exact box_wf. Qed.

(** A far field surface without any face, or a mesh of dimension one, is rejected. *)
Theorem C41_empty : forall m marker attrs, covers m marker -> marked m marker = [] \/ m_dim m <> 2 /\ m_dim m <> 3 -> ntffSubMesher m marker attrs = Throw.
Proof. exact ntff_none. Qed.
Print Assumptions C41_empty.
Example C41_empty_ex : covers box [0] /\ marked box [0] = [].
Proof. exact box_unmarked. Qed.

(** In space, exactly which pair is recorded for each face. *)
Theorem C41_space_exact : forall m marker attrs, wfMesh m -> wfGeo m -> covers m marker -> m_dim m = 3 -> length attrs = length (m_everts m) -> marked m marker <> [] ->
  exists a ps, ntffSubMesher m marker attrs = Ok (a, ps) /\ Forall2 (spacePair m) (marked m marker) ps.
Proof. exact ntff_space. Qed.
Print Assumptions C41_space_exact.
Example C41_space_exact_ex : beside box 4 5 0 2 /\ isBary box 0 (-5, 0, 0)%R /\ isBary box 2 (-2, 0, 1)%R /\ exists vs i j k v0 v1 v2, zget (m_fverts box) 5 = Ok vs /\ cornerOf vs i j k /\
  zget (m_coord box) i = Ok v0 /\ zget (m_coord box) j = Ok v1 /\ zget (m_coord box) k = Ok v2 /\ (0 < triple (-5, 0, 0) (-2, 0, 1) v0 v1 v2)%R.
Proof. exact box_corner. Qed.

(** C75: in the plane the first element of each face is always put in the scattered field. *)
Theorem C75_plane_partial : forall m marker attrs s, wfMesh m -> wfGeo m -> covers m marker -> m_dim m = 2 -> length attrs = length (m_everts m) -> tfsfSubMesher m marker attrs = Ok s ->
  forall be f e1 e2, In be (marked m marker) -> ccwFace m be -> beside m be f e1 e2 -> (exists l, In (e1, l) (t_sf s)) /\ (0 <= e2 -> exists l, In (e2, l) (t_tf s)).
Proof. exact side2_ok. Qed.
Print Assumptions C75_plane_partial.
Example C75_plane_ex : tfsfSubMesher strip [1; 0] [1; 1; 1] = Ok (mkT [2000; 2000; 1000] [(1, 3); (2, 3)] [(0, 1); (1, 1)]).
Proof. exact strip_run. Qed.
(** In space, when the barycentres face each other across the surface seen from its centre. *)
Theorem C75_space_partial : forall m marker attrs s c, wfMesh m -> wfGeo m -> covers m marker -> m_dim m = 3 -> length attrs = length (m_everts m) -> tfsfSubMesher m marker attrs = Ok s -> isCentre m marker c ->
  forall be f e1 e2 p1 p2 n, In be (marked m marker) -> beside m be f e1 e2 -> 0 <= e2 -> isBary m e1 p1 -> isBary m e2 p2 -> straight n p1 p2 ->
  ((0 < along n c (middle p1 p2))%R -> (exists l, In (e1, l) (t_tf s)) /\ exists l, In (e2, l) (t_sf s)) /\
  ((along n c (middle p1 p2) < 0)%R -> (exists l, In (e1, l) (t_sf s)) /\ exists l, In (e2, l) (t_tf s)).
Proof. exact side3_ok. Qed.
Print Assumptions C75_space_partial.
Example C75_space_ex : isCentre box [1] (0, 0, 0)%R /\ isBary box 0 (-5, 0, 0)%R /\ isBary box 2 (-2, 0, 1)%R /\ straight (3, 0, 1)%R (-5, 0, 0)%R (-2, 0, 1)%R /\ (along (3, 0, 1) (0, 0, 0) (middle (-5, 0, 0) (-2, 0, 1)) < 0)%R.
Proof. exact box_hyps. Qed.
(** The inside of the surface may end up in the scattered field, and the outside in the total field. *)
Theorem C75_plane_refuted : exists m marker attrs s inside, wfMesh m /\ wfGeo m /\ covers m marker /\ (forall be, In be (marked m marker) -> ccwFace m be) /\ separates m marker inside /\
  tfsfSubMesher m marker attrs = Ok s /\ (exists e, In e inside /\ In e (domain (t_attr s) ScatteredFieldMarker)) /\ (exists e, ~ In e inside /\ In e (domain (t_attr s) TotalFieldMarker)).
Proof. exact strip_refuted. Qed.
Print Assumptions C75_plane_refuted.
Theorem C75_space_refuted : exists m marker attrs s inside, wfMesh m /\ wfGeo m /\ covers m marker /\ m_dim m = 3 /\ separates m marker inside /\
  (forall e, In e inside -> vertsIn m inBox e) /\ tfsfSubMesher m marker attrs = Ok s /\
  exists e l, ~ In e inside /\ vertsIn m aboveBox e /\ In (e, l) (t_tf s).
Proof. exact box_refuted. Qed.
Print Assumptions C75_space_refuted.

(** C76: the sub-meshes hold exactly the listed elements, and the global one those beside the surface. *)
Theorem C76_domains : forall (m : mesh) (marker attrs : list Z) (s : tfsf), wfMesh m -> wfGeo m -> covers m marker -> m_dim m = 2 \/ m_dim m = 3 ->
  length attrs = length (m_everts m) -> (forall a, In a attrs -> a <> TotalFieldMarker /\ a <> ScatteredFieldMarker) ->
  tfsfSubMesher m marker attrs = Ok s -> (forall e l l', In (e, l) (t_tf s) -> In (e, l') (t_sf s) -> False) ->
  forall e, (In e (domain (t_attr s) TotalFieldMarker) <-> exists l, In (e, l) (t_tf s)) /\ (In e (domain (t_attr s) ScatteredFieldMarker) <-> exists l, In (e, l) (t_sf s)).
Proof. exact domains_lists. Qed.
Print Assumptions C76_domains.
Example C76_domains_ex : (forall e l l', In (e, l) [(1, 3)] -> In (e, l') [(0, 1)] -> False) /\ domain [2000; 1000; 1] TotalFieldMarker = [1] /\ domain [2000; 1000; 1] ScatteredFieldMarker = [0].
Proof. exact strip1_ex. Qed.
(** The two sub-meshes created: none when no face was assigned to the side, otherwise exactly the elements listed for it. *)
Theorem C76_meshes : forall (m : mesh) (marker attrs : list Z) (s : tfsf), wfMesh m -> wfGeo m -> covers m marker -> m_dim m = 2 \/ m_dim m = 3 ->
  length attrs = length (m_everts m) -> (forall a, In a attrs -> a <> TotalFieldMarker /\ a <> ScatteredFieldMarker) ->
  tfsfSubMesher m marker attrs = Ok s -> (forall e l l', In (e, l) (t_tf s) -> In (e, l') (t_sf s) -> False) ->
  (t_tf s = [] /\ tfMesh s = None \/ exists d, tfMesh s = Some d /\ d <> [] /\ forall e, In e d <-> exists l, In (e, l) (t_tf s)) /\
  (t_sf s = [] /\ sfMesh s = None \/ exists d, sfMesh s = Some d /\ d <> [] /\ forall e, In e d <-> exists l, In (e, l) (t_sf s)).
Proof. exact meshes_lists. Qed.
Print Assumptions C76_meshes.
Example C76_meshes_ex : (forall e l l', In (e, l) [(1, 3)] -> In (e, l') [(0, 1)] -> False) /\ domain [2000; 1000; 1] TotalFieldMarker = [1] /\ domain [2000; 1000; 1] ScatteredFieldMarker = [0].
Proof. exact strip1_ex. Qed.
Theorem C76_global : forall (m : mesh) (marker attrs : list Z), wfMesh m -> covers m marker -> length attrs = length (m_everts m) ->
  (forall a, In a attrs -> a <> GlobalSubMeshMarker) ->
  exists a, globalAttrs m marker attrs = Ok a /\ forall e, In e (domain a GlobalSubMeshMarker) <-> exists be, In be (marked m marker) /\ touches m be e.
Proof. exact global_ok. Qed.
Print Assumptions C76_global.
Example C76_global_ex : wfMesh line /\ covers line [1; 0] /\ covers line [0; 1] /\ covers line [1; 1].
Proof. exact line_wf. Qed.
(** The boundary of the sub-mesh on the marked faces gets the code of the condition, the rest is unchanged. *)
Theorem C76_child : forall (m : mesh) (marker f2b cf2b fmap cattr : list Z) (code : Z), covers m marker -> onceNonneg f2b -> NoDup fmap ->
  length cf2b = length fmap -> (forall cb, In cb cf2b -> cb < Z.of_nat (length cattr)) ->
  exists a, setChild m marker f2b cf2b fmap code cattr = Ok a /\ length a = length cattr /\
    forall cb, 0 <= cb < Z.of_nat (length cattr) ->
      ((exists be, In be (marked m marker) /\ inherits f2b cf2b fmap be cb) -> zget a cb = Ok code) /\
      ((forall be, In be (marked m marker) -> ~ inherits f2b cf2b fmap be cb) -> zget a cb = zget cattr cb).
Proof. exact setChild_ok. Qed.
Print Assumptions C76_child.
Example C76_child_ex : covers strip [1; 0] /\ onceNonneg [2; 0; -1; -1; -1; 1; -1; -1; -1; -1] /\ NoDup [1; 4; 5; 6] /\
  setChild strip [1; 0] [2; 0; -1; -1; -1; 1; -1; -1; -1; -1] [1; 2; 3; 0] [4; 5; 6; 1] 301 [7; 7; 7; 7] = Ok [301; 7; 301; 7] /\ inherits [2; 0; -1; -1; -1; 1; -1; -1; -1; -1] [1; 2; 3; 0] [4; 5; 6; 1] 0 0.
Proof. exact child_ex. Qed.
(** Adding a sub-mesh field gives every entry its gathered value, and subtracting it restores. *)
Theorem C76_transfer_add : forall (map_ : list Z) (src dst : list R), length map_ = length src -> (forall k, In k map_ -> 0 <= k < Z.of_nat (length dst))%Z ->
  exists d, transferAdd map_ src dst = Ok d /\ length d = length dst /\ forall k, (0 <= k < Z.of_nat (length dst))%Z -> nth (Z.to_nat k) d 0%R = (nth (Z.to_nat k) dst 0 + gathered map_ src k)%R.
Proof. exact add_ok. Qed.
Print Assumptions C76_transfer_add.
Theorem C76_transfer_sub : forall (map_ : list Z) (src dst : list R), length map_ = length src -> (forall k, In k map_ -> 0 <= k < Z.of_nat (length dst))%Z ->
  exists d, transferSub map_ src dst = Ok d /\ length d = length dst /\ forall k, (0 <= k < Z.of_nat (length dst))%Z -> nth (Z.to_nat k) d 0%R = (nth (Z.to_nat k) dst 0 - gathered map_ src k)%R.
Proof. exact sub_ok. Qed.
Print Assumptions C76_transfer_sub.
Theorem C76_restore : forall (map_ : list Z) (src dst d : list R), length map_ = length src -> (forall k, In k map_ -> 0 <= k < Z.of_nat (length dst))%Z ->
  transferAdd map_ src dst = Ok d -> transferSub map_ src d = Ok dst.
Proof. exact add_sub. Qed.
Print Assumptions C76_restore.
Example C76_transfer_ex : forall k, In k [3; 1; 3] -> 0 <= k < 4.
Proof. intros k [<- |[<- |[<- |[]]]]; split; discriminate || reflexivity. Qed.

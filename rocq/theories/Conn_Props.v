(** Properties of the face connectivity of the nodal operator. *)
From Coq Require Import ZArith List Bool Reals.
From Verif Require Import Common Face_Model Face_Spec Nodal_Model Nodal_Spec Setup_Model Conn_Model Conn_Spec Conn_Proofs ConnBdr_Proofs ConnInt_Proofs ConnWf_Proofs ConnEx_Proofs.
Import ListNotations.
Local Open Scope Z_scope.

(** Every node of every face of every element is paired with the node of the neighbour at the
    same place, or with itself on the boundary. *)
Theorem C73_global : forall m n nodes, conforming m n nodes -> exists g, globalConnectivity m = Ok g /\ isGlobal m n nodes g.
Proof. exact global_map. Qed.
Print Assumptions C73_global.
Example C73_global_ex : conforming triM 3 triN.
Proof. exact tri_conforming. Qed.

(** The maps of the conditions name the faces where the condition holds, and the attributes
    of the mesh are left as they were. *)
Theorem C73_maps : forall m n nodes bdrMk intMk tfsfMk,
  conforming m n nodes -> faceOrder m n nodes -> wfBdrs m bdrMk -> wfBdrs m intMk -> wfBdrs m tfsfMk ->
  intOk m intMk -> intOk m tfsfMk -> length (cm_ori m) = length (cm_bdr m) -> trueB m <> [] ->
  exists g s, connectivities m bdrMk intMk tfsfMk = Ok (g, s, cm_attr m) /\ isGlobal m n nodes g /\
    isBMap m nodes g (wanted m bdrMk PEC (trueB m)) (bPEC s) /\
    isBMap m nodes g (wanted m bdrMk PMC (trueB m)) (bPMC s) /\
    isBMap m nodes g (wanted m bdrMk SMA (trueB m)) (bSMA s) /\
    isIMap m nodes g (wanted m intMk PEC (allB m) ++ wanted m tfsfMk PEC (allB m)) (iPEC s) /\
    isIMap m nodes g (wanted m intMk PMC (allB m) ++ wanted m tfsfMk PMC (allB m)) (iPMC s) /\
    isIMap m nodes g (wanted m intMk SMA (allB m) ++ wanted m tfsfMk SMA (allB m)) (iSMA s) /\
    isTMap m nodes g (wanted m intMk TotalFieldIn (allB m) ++ wanted m tfsfMk TotalFieldIn (allB m)) (bTFSF s).
Proof. exact connectivities_right. Qed.
Print Assumptions C73_maps.
Example C73_maps_ex : faceOrder triM 3 triN /\ (wfBdrs triM triPEC /\ wfBdrs triM [] /\ wfBdrs triM triTF) /\ (intOk triM [] /\ intOk triM triTF).
Proof. exact (conj tri_order (conj tri_bdrs tri_int)). Qed.
Example C73_maps_run : exists g s, connectivities triM triPEC [] triTF = Ok (g, s, [1; 1]) /\
  g = [(0, 0); (1, 1); (1, 5); (2, 3); (0, 0); (2, 2); (3, 3); (4, 4); (4, 4); (5, 5); (3, 2); (5, 1)] /\
  mapB (bPEC s) = [[0; 1]; [4; 5]] /\ vmapB (bSMA s) = [[3; 4]; [4; 5]] /\ mapB1 (bTFSF s) = [[11; 10]] /\ mapB2 (bTFSF s) = [[2; 3]].
Proof. exact tri_run. Qed.

(** What the nodal operator requires of the maps holds. *)
Theorem C73_usable : forall m n nodes bdrMk intMk tfsfMk,
  conforming m n nodes -> faceOrder m n nodes -> wfBdrs m bdrMk -> wfBdrs m intMk -> wfBdrs m tfsfMk ->
  intOk m intMk -> intOk m tfsfMk -> length (cm_ori m) = length (cm_bdr m) -> trueB m <> [] ->
  exists g s, connectivities m bdrMk intMk tfsfMk = Ok (g, s, cm_attr m) /\
    Forall (fun ab => inR (fst ab) (cm_N m) /\ inR (snd ab) (cm_N m)) g /\
    wfB g (bPEC s) /\ wfB g (bPMC s) /\ wfB g (bSMA s) /\ wfIB g (iPEC s) /\ wfIB g (iPMC s) /\ wfIB g (iSMA s) /\ wfIB g (bTFSF s).
Proof. exact connectivities_usable. Qed.
Print Assumptions C73_usable.

(** With equal faces, node [i] of local face [lf] of element [e] is where the operator looks
    for it. *)
Theorem C73_positions : forall m n nodes g nf k, conforming m n nodes -> isGlobal m n nodes g -> uniform m nodes nf k ->
  length g = (cm_ne m * (nf * k))%nat /\
  forall e lf i, inR e (Z.of_nat (cm_ne m)) -> (lf < nf)%nat -> (i < k)%nat ->
    let f := nth lf (nth (Z.to_nat e) (cm_elface m) []) 0 in
    exists ij, In ij (nodes f) /\ valAt g ((e * Z.of_nat nf + Z.of_nat lf) * Z.of_nat k + Z.of_nat i) = seenFrom m n e f ij /\
      exists j, (j < n)%nat /\ fst (valAt g ((e * Z.of_nat nf + Z.of_nat lf) * Z.of_nat k + Z.of_nat i)) = gdof n e j.
Proof. exact positions_right. Qed.
Print Assumptions C73_positions.
Example C73_positions_ex : uniform triM triN 3 2.
Proof. exact tri_uniform. Qed.

(** The limits: an attribute 777 in the mesh, no boundary, an interior condition on the
    boundary, a condition the maps cannot hold. *)
Theorem C73_tag_refuted : exists orig F, 0 <= cf_e1 F < cf_e2 F /\ cf_e2 F < Z.of_nat (length orig) /\
  exists sub, interiorFaceSubMesh orig orig F = Ok (sub, orig) /\ In 2 sub /\ cf_e1 F <> 2 /\ cf_e2 F <> 2.
Proof. exact tag_refuted. Qed.
Print Assumptions C73_tag_refuted.
Theorem C73_no_boundary : forall m n nodes bdrMk intMk tfsfMk, conforming m n nodes -> wfBdrs m bdrMk -> trueB m = [] ->
  connectivities m bdrMk intMk tfsfMk = Throw.
Proof. exact no_boundary. Qed.
Print Assumptions C73_no_boundary.
Theorem C73_interior_on_boundary_refuted : forall g s, initIntFaceMaps triM g [(PEC, [1; 0; 0])] (s, [1; 1]) = UB.
Proof. exact int_on_boundary. Qed.
Print Assumptions C73_interior_on_boundary_refuted.
Theorem C73_interior_other : forall ids ps c ori s, c <> PEC -> c <> PMC -> c <> SMA -> c <> TotalFieldIn -> loadIntBdr ids ps c ori s = Throw.
Proof. exact int_other. Qed.
Print Assumptions C73_interior_other.
Example C73_interior_other_ex : loadIntBdr [] [] SGBC 0 noBdr = Throw.
Proof. exact eq_refl. Qed.

(** In one dimension only the first interface is right, and the right end only when the order
    is one less than the number of elements. *)
Theorem C42_partial : forall n p, 0 < n -> 0 <= p -> exists g, globalConnectivity1D n p = Ok g /\ Z.of_nat (length g) = 2 * n /\
  valAt g 0 = (firstDof p 0, firstDof p 0) /\
  (forall k, 0 <= k < n - 1 ->
     (valAt g (2 * k + 1) = (lastDof p k, firstDof p (k + 1)) /\ valAt g (2 * k + 2) = (firstDof p (k + 1), lastDof p k)) <-> k = 0) /\
  (valAt g (2 * n - 1) = (lastDof p (n - 1), lastDof p (n - 1)) <-> p = n - 1).
Proof. exact line_map. Qed.
Print Assumptions C42_partial.
Example C42_partial_ex : globalConnectivity1D 2 3 = Ok [(0, 0); (3, 4); (4, 3); (9, 9)].
Proof. exact eq_refl. Qed.
Theorem C42_refuted : exists n p g k, 0 < n /\ 0 < p /\ 0 <= k < n - 1 /\ globalConnectivity1D n p = Ok g /\
  valAt g (2 * k + 1) <> (lastDof p k, firstDof p (k + 1)).
Proof. exact line_refuted. Qed.
Print Assumptions C42_refuted.
Theorem C42_range_refuted : exists n p g, 0 < n /\ 0 < p /\ globalConnectivity1D n p = Ok g /\ lastDof p (n - 1) < fst (valAt g (2 * n - 1)).
Proof. exact line_oob. Qed.
Print Assumptions C42_range_refuted.

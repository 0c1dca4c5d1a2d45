(** C84: every pair of nodes of a thin-layer surface carries one layer, turned the right way. *)
From Coq Require Import ZArith List Bool Reals Sorting.Sorted.
From Verif Require Import Common Evol_Model Evol_Spec EvolLayer_Spec Setup_Model Geo_Model Geo_Spec Input_Model Wall_Model Wall_Spec Sub_Model Sub_Spec SubEx_Proofs Attach_Model Attach_Spec Attach_Proofs AttachSite_Proofs AttachAll_Proofs AttachTotal_Proofs WallEx_Proofs AttachEx_Proofs.
Import ListNotations.
Open Scope Z_scope.

Theorem C84_total :
  forall m order mkI mkB dofs ndofs fp fn nodes quad, tableOk dofs ndofs -> sitesOk m mkI mkB dofs fp fn nodes quad ->
  forall sb checked, Forall (fun p => forall k, exists w msg, buildWall k p = Ok (w, msg, true)) sb ->
  exists ats l1 l2, attach m order mkI mkB dofs ndofs fp fn nodes quad sb checked = Ok (ats, l1, l2).
Proof. exact attach_total. Qed.
Print Assumptions C84_total.
Example C84_total_ex : tableOk exDofs 12 /\ sitesOk strip [1; 0] [0; 1] exDofs exPairs exNodes exRef exQuad /\ exists ats l1 l2, exAttach [exA; exB] = Ok (ats, l1, l2).
Proof. exact (conj ex_table (conj ex_sites ex_total)). Qed.

Theorem C84_tags :
  forall m order mkI mkB dofs ndofs fp fn nodes quad, tableOk dofs ndofs -> sitesOk m mkI mkB dofs fp fn nodes quad ->
  forall sb checked ats l1 l2, attach m order mkI mkB dofs ndofs fp fn nodes quad sb checked = Ok (ats, l1, l2) ->
  StronglySorted Z.lt (map at_tag ats) /\
  forall t, In t (map at_tag ats) <-> (0 < named sb t)%nat /\ exists be ps, In be (withTag m t) /\ contributed m mkI mkB fp fn be ps /\ ps <> [].
Proof. exact tags_spec. Qed.
Print Assumptions C84_tags.

Theorem C84_sits :
  forall m order mkI mkB dofs ndofs fp fn nodes quad, tableOk dofs ndofs -> sitesOk m mkI mkB dofs fp fn nodes quad ->
  forall sb checked ats l1 l2, attach m order mkI mkB dofs ndofs fp fn nodes quad sb checked = Ok (ats, l1, l2) ->
  forall g s, In g ats -> In s (at_states g) -> exists be, In be (withTag m (at_tag g)) /\ sits m dofs nodes quad be s /\ framed s.
Proof. exact states_sit. Qed.
Print Assumptions C84_sits.

Theorem C84_once :
  forall m order mkI mkB dofs ndofs fp fn nodes quad, tableOk dofs ndofs -> sitesOk m mkI mkB dofs fp fn nodes quad ->
  forall sb checked ats l1 l2, attach m order mkI mkB dofs ndofs fp fn nodes quad sb checked = Ok (ats, l1, l2) ->
  forall g, In g ats -> named sb (at_tag g) = 1%nat ->
  exists p, In p sb /\ In (at_tag g) (sp_tags p) /\ (exists k msg c, buildWall k p = Ok (at_wall g, msg, c)) /\
  (exists P, (forall be, In be (withTag m (at_tag g)) -> contributed m mkI mkB fp fn be (P be)) /\
    map (fun s => (s_gl (as_state s), s_gr (as_state s))) (at_states g) = flat_map P (withTag m (at_tag g))) /\
  Forall (fun s => s_fs (as_state s) = zeros (stateSize (at_wall g))) (at_states g).
Proof. exact states_once. Qed.
Print Assumptions C84_once.
Example C84_once_ex : forall sb ats l1 l2, exAttach sb = Ok (ats, l1, l2) -> named sb 1 = 1%nat -> exists g, In g ats /\ at_tag g = 1 /\
  map (fun s => (s_gl (as_state s), s_gr (as_state s))) (at_states g) = [(1, 4); (3, 6); (5, 8); (7, 10)] /\
  map as_e1 (at_states g) = [0; 0; 1; 1] /\ map as_e2 (at_states g) = [1; 1; 2; 2].
Proof. exact ex_states. Qed.

Theorem C84_count :
  forall m order mkI mkB dofs ndofs fp fn nodes quad, tableOk dofs ndofs -> sitesOk m mkI mkB dofs fp fn nodes quad ->
  forall sb checked ats l1 l2, attach m order mkI mkB dofs ndofs fp fn nodes quad sb checked = Ok (ats, l1, l2) ->
  forall g, In g ats -> exists P, (forall be, In be (withTag m (at_tag g)) -> contributed m mkI mkB fp fn be (P be)) /\
  List.length (at_states g) = (named sb (at_tag g) * List.length (flat_map P (withTag m (at_tag g))))%nat.
Proof. exact states_length. Qed.
Print Assumptions C84_count.

Theorem C84_tasks :
  forall m order mkI mkB dofs ndofs fp fn nodes quad, tableOk dofs ndofs -> sitesOk m mkI mkB dofs fp fn nodes quad ->
  forall sb checked ats l1 l2, attach m order mkI mkB dofs ndofs fp fn nodes quad sb checked = Ok (ats, l1, l2) ->
  NoDup (tasks ats) /\ forall t i, In (t, i) (tasks ats) <-> exists g, In g ats /\ at_tag g = t /\ (i < List.length (at_states g))%nat.
Proof. exact tasks_spec. Qed.
Print Assumptions C84_tasks.

Theorem C84_first_dofs :
  forall m order mkI mkB dofs ndofs fp fn nodes quad, tableOk dofs ndofs -> sitesOk m mkI mkB dofs fp fn nodes quad ->
  forall sb checked ats l1 l2, attach m order mkI mkB dofs ndofs fp fn nodes quad sb checked = Ok (ats, l1, l2) ->
  dofSet dofs (fun e => exists g s, In g ats /\ In s (at_states g) /\ as_e1 s = e) l1.
Proof. exact elem1_spec. Qed.
Print Assumptions C84_first_dofs.
Theorem C84_second_dofs :
  forall m order mkI mkB dofs ndofs fp fn nodes quad, tableOk dofs ndofs -> sitesOk m mkI mkB dofs fp fn nodes quad ->
  forall sb checked ats l1 l2, attach m order mkI mkB dofs ndofs fp fn nodes quad sb checked = Ok (ats, l1, l2) ->
  dofSet dofs (fun e => e <> -1 /\ exists g s, In g ats /\ In s (at_states g) /\ as_e2 s = e) l2.
Proof. exact elem2_spec. Qed.
Print Assumptions C84_second_dofs.

Theorem C84_roomy :
  forall m order mkI mkB dofs ndofs fp fn nodes quad, tableOk dofs ndofs -> sitesOk m mkI mkB dofs fp fn nodes quad ->
  forall sb checked ats l1 l2, attach m order mkI mkB dofs ndofs fp fn nodes quad sb checked = Ok (ats, l1, l2) ->
  Forall (fun p => sp_layers p <> [] /\ Forall layerOk (sp_layers p)) sb ->
  forall A ode g, In g (map (groupOf A ode) ats) -> roomy (g_w g).
Proof. exact groups_roomy. Qed.
Print Assumptions C84_roomy.
Example C84_roomy_ex : Forall (fun p => sp_layers p <> [] /\ Forall layerOk (sp_layers p)) [exA; exB].
Proof. exact ex_layers. Qed.
Theorem C84_fits :
  forall m order mkI mkB dofs ndofs fp fn nodes quad, tableOk dofs ndofs -> sitesOk m mkI mkB dofs fp fn nodes quad ->
  forall sb checked ats l1 l2, attach m order mkI mkB dofs ndofs fp fn nodes quad sb checked = Ok (ats, l1, l2) ->
  forall A ode g s, In g ats -> In s (at_states g) -> named sb (at_tag g) = 1%nat ->
  List.length (s_fs (as_state s)) = (6 * Z.to_nat (w_n (wrapperOf A ode (at_wall g))))%nat /\ orthonormal (s_rot (as_state s)) /\
  0 <= s_gl (as_state s) < Z.of_nat ndofs /\ (s_gr (as_state s) = -1 \/ 0 <= s_gr (as_state s) < Z.of_nat ndofs).
Proof. exact states_fit. Qed.
Print Assumptions C84_fits.
Theorem C84_fresh :
  forall ats A ode base dt, (forall (w : wall) t h x, (0 < h)%R -> avoids (ode w t h x)) ->
  fresh (mkEvol [] (map (groupOf A ode) ats) None base dt newCache).
Proof. exact groups_fresh. Qed.
Print Assumptions C84_fresh.

Theorem C84_line_inner :
  forall m p n fp nodes quad be e1, m_dim m = 1 -> 0 <= p -> 0 <= e1 -> e1 + 1 < Z.of_nat n ->
  exists a b, innerPairs m p (lineDofs p n) fp nodes quad be e1 = Ok [((a, b), [1; 0; 0; 0; 1; 0; 0; 0; 1]%R)] /\ lastDof (lineDofs p n) e1 a /\ firstDof (lineDofs p n) (e1 + 1) b.
Proof. exact line_inner. Qed.
Print Assumptions C84_line_inner.
Theorem C84_line_outer :
  forall m p n fn nodes quad be e1, m_dim m = 1 -> 0 <= p -> 0 <= e1 < Z.of_nat n ->
  exists a, outerPairs m p (lineDofs p n) fn nodes quad be e1 = Ok [((a, -1), [1; 0; 0; 0; 1; 0; 0; 0; 1]%R)] /\ (e1 = 0 -> firstDof (lineDofs p n) e1 a) /\ (e1 <> 0 -> lastDof (lineDofs p n) e1 a).
Proof. exact line_outer. Qed.
Print Assumptions C84_line_outer.
Example C84_line_ex : lineDofs 2 2 = [[0; 1; 2]; [3; 4; 5]].
Proof. exact eq_refl. Qed.

Theorem C84_plane_unturned :
  forall m mkI mkB fp fn be ps b, m_dim m = 2 -> ccwFace m be -> contributed m mkI mkB fp fn be ps -> zget (m_bdr m) be = Ok b -> ~ setIn mkB (b_attr b) ->
  setIn mkI (b_attr b) -> fp be = Ok ps.
Proof. exact plane_unturned. Qed.
Print Assumptions C84_plane_unturned.
Example C84_plane_ex : forall be, In be (marked strip [1; 0]) -> ccwFace strip be.
Proof. exact strip_ccw. Qed.

Theorem C84_side_refuted : exists m order mkI mkB dofs ndofs fp fn nodes quad sb inside ats l1 l2 g s s',
  wfMesh m /\ tableOk dofs ndofs /\ sitesOk m mkI mkB dofs fp fn nodes quad /\ (forall be, In be (marked m mkI) -> ccwFace m be) /\ separates m mkI inside /\
  attach m order mkI mkB dofs ndofs fp fn nodes quad sb false = Ok (ats, l1, l2) /\ In g ats /\ In s (at_states g) /\ In s' (at_states g) /\
  named sb (at_tag g) = 1%nat /\ ~ In (as_e1 s) inside /\ In (as_e2 s) inside /\ In (as_e1 s') inside /\ ~ In (as_e2 s') inside.
Proof. exact side_refuted. Qed.
Print Assumptions C84_side_refuted.
Theorem C84_twice_refuted : exists m order mkI mkB dofs ndofs fp fn nodes quad sb ats l1 l2 g s s',
  tableOk dofs ndofs /\ sitesOk m mkI mkB dofs fp fn nodes quad /\ Forall (fun p => sp_layers p <> [] /\ Forall layerOk (sp_layers p)) sb /\
  attach m order mkI mkB dofs ndofs fp fn nodes quad sb false = Ok (ats, l1, l2) /\ In g ats /\ In s (at_states g) /\ In s' (at_states g) /\ s <> s' /\
  s_gl (as_state s) = s_gl (as_state s') /\ s_gr (as_state s) = s_gr (as_state s') /\ (List.length (s_fs (as_state s)) < stateSize (at_wall g))%nat.
Proof. exact twice_refuted. Qed.
Print Assumptions C84_twice_refuted.
Theorem C84_line_refuted : exists m order mkB dofs ndofs fn sb ats l1 l2 g s be, wfMesh m /\ m_dim m = 1 /\ tableOk dofs ndofs /\
  fn be = Ok [1] /\ withTag m (at_tag g) = [be] /\ attach m order [] mkB dofs ndofs (fun _ => UB) fn (fun _ => []) (fun _ => []) sb false = Ok (ats, l1, l2) /\
  In g ats /\ at_states g = [s] /\ s_gl (as_state s) = 0.
Proof. exact line_refuted. Qed.
Print Assumptions C84_line_refuted.
Theorem C84_order_refuted : exists m p dofs fp nodes quad be f e1 e2 a b v0 v1 v2, wfMesh m /\ m_dim m = 1 /\ dofs = lineDofs p 2 /\ beside m be f e1 e2 /\ zget (m_fverts m) f = Ok [v1] /\
  zget (m_everts m) e1 = Ok [v1; v2] /\ zget (m_everts m) e2 = Ok [v0; v1] /\ v1 <> v2 /\ v0 <> v1 /\
  innerPairs m p dofs fp nodes quad be e1 = Ok [((a, b), [1; 0; 0; 0; 1; 0; 0; 0; 1]%R)] /\ lastDof dofs e1 a /\ firstDof dofs e2 b.
Proof. exact order_refuted. Qed.
Print Assumptions C84_order_refuted.

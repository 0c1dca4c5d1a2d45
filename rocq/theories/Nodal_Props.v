(** C19, C20, C21, C67, C68: the nodal operator. *)
From Coq Require Import ZArith List Bool Reals.
From Verif Require Import Common Geo_Spec Nodal_Model Nodal_Spec Nodal_Proofs NodalMult_Proofs NodalEnergy_Spec NodalEnergy_Proofs NodalEx_Proofs.
Import ListNotations.
Local Open Scope R_scope.

(** The six flux components at a face node have no part along the normal. *)
Theorem C19_tangential : forall s F el i fl nx ny nz, nodeFlux s F el i = Ok fl ->
  fget (el_nor el) 0 i = Ok nx -> fget (el_nor el) 1 i = Ok ny -> fget (el_nor el) 2 i = Ok nz ->
  nx * nx + ny * ny + nz * nz = 1 ->
  exists ex ey ez hx hy hz, fl = [ex; ey; ez; hx; hy; hz] /\
    nx * ex + ny * ey + nz * ez = 0 /\ nx * hx + ny * hy + nz * hz = 0.
Proof. exact flux_no_normal. Qed.
Print Assumptions C19_tangential.
Example C19_ex : exists fl, nodeFlux (exN 1 noI) exJ el0 1 = Ok fl /\ fl <> [0; 0; 0; 0; 0; 0] /\
  fget (el_nor el0) 0 1 = Ok 1 /\ fget (el_nor el0) 1 1 = Ok 0 /\ fget (el_nor el0) 2 1 = Ok 0.
Proof. exact ex19. Qed.

(** Energy exchanged at an interior face node. *)
Theorem C20_balance : forall alpha n E1 H1 E2 H2, sq n = 1 ->
  codeSide alpha n E1 H1 (subp E2 E1) (subp H2 H1) + codeSide alpha (scalep (-1) n) E2 H2 (subp E1 E2) (subp H1 H2) =
  - (alpha / 2) * (sq (tang n (subp E2 E1)) + sq (tang n (subp H2 H1))).
Proof. exact code_interior. Qed.
Print Assumptions C20_balance.
Theorem C20_sign : forall alpha n E1 H1 E2 H2, sq n = 1 -> 0 <= alpha ->
  codeSide alpha n E1 H1 (subp E2 E1) (subp H2 H1) + codeSide alpha (scalep (-1) n) E2 H2 (subp E1 E2) (subp H1 H2) <= 0 /\
  (alpha = 0 -> codeSide alpha n E1 H1 (subp E2 E1) (subp H2 H1) + codeSide alpha (scalep (-1) n) E2 H2 (subp E1 E2) (subp H1 H2) = 0).
Proof. exact code_interior_sign. Qed.
Print Assumptions C20_sign.
Example C20_ex : sq (0, 1, 0) = 1 /\
  codeSide 1 (0, 1, 0) (1, 2, 3) (0, 1, 1) (subp (2, 0, 1) (1, 2, 3)) (subp (0, 5, 0) (0, 1, 1)) +
  codeSide 1 (scalep (-1) (0, 1, 0)) (2, 0, 1) (0, 5, 0) (subp (1, 2, 3) (2, 0, 1)) (subp (0, 1, 1) (0, 5, 0)) = - 3.
Proof. exact ex20. Qed.

(** Jumps the operator uses at boundary nodes: mirror images for PEC and PMC. *)
Theorem C21_mirror_partial : forall s x, wfNodal s -> length x = Z.to_nat (6 * nd_N s) ->
  exists F, (J0 <- initJumps s x ;; J1 <- applyBoundary s x J0 ;; evaluateTFSF s J1) = Ok F /\
  forall q d, (0 <= q < Z.of_nat (length (nd_global s)))%Z -> (0 <= d < 3)%Z ->
    inCurved s (fst (pairAt s q)) = false -> incE s q = (0, 0, 0) -> incH s q = (0, 0, 0) ->
    let e := comp6 (nd_N s) x d (fst (pairAt s q)) in let h := comp6 (nd_N s) x (3 + d) (fst (pairAt s q)) in
    exists je jh, fget F d q = Ok je /\ fget F (3 + d) q = Ok jh /\
    match kindAt (nd_bdr s) q with
    | KInterior => je = comp6 (nd_N s) x d (snd (pairAt s q)) - e /\ jh = comp6 (nd_N s) x (3 + d) (snd (pairAt s q)) - h
    | KPEC => (e + (e + je)) / 2 = 0 /\ jh = 0
    | KPMC => je = 0 /\ (h + (h + jh)) / 2 = 0
    | KSMA => je = - e / nd_alpha s /\ jh = - h / nd_alpha s
    | KiPEC => e + je = 0 /\ jh = 0
    | KiPMC => je = 0 /\ h + jh = 0
    | KiSMA => e + je = e / 2 /\ h + jh = h / 2
    end.
Proof. exact boundary_jumps. Qed.
Print Assumptions C21_mirror_partial.
(** Energy at boundary nodes; absorbing boundaries need alpha of at least one half. *)
Theorem C21_PEC : forall alpha n E H, sq n = 1 -> codeSide alpha n E H (scalep (-2) E) (0, 0, 0) = - alpha * sq (tang n E).
Proof. exact code_PEC. Qed.
Print Assumptions C21_PEC.
Theorem C21_PMC : forall alpha n E H, sq n = 1 -> codeSide alpha n E H (0, 0, 0) (scalep (-2) H) = - alpha * sq (tang n H).
Proof. exact code_PMC. Qed.
Print Assumptions C21_PMC.
Theorem C21_SMA_partial : forall alpha n E H, / 2 <= alpha -> sq n = 1 ->
  codeSide alpha n E H (scalep (- / alpha) E) (scalep (- / alpha) H) <= 0.
Proof. exact code_SMA. Qed.
Print Assumptions C21_SMA_partial.
Theorem C21_SMA_refuted : exists out, nodalMult (exN (/ 4) noI) exX = Ok out /\
  energyRate (exN (/ 4) noI) exM (comp6 4 exX) (comp6 4 out) = 2.
Proof. exact SMA_small_alpha. Qed.
Print Assumptions C21_SMA_refuted.
Theorem C21_interior_PEC_refuted : forall a, 0 < a -> exists out, nodalMult (exN a exInt) (exY a) = Ok out /\
  energyRate (exN a exInt) exM (comp6 4 (exY a)) (comp6 4 out) = / 2.
Proof. exact interior_PEC_feeds. Qed.
Print Assumptions C21_interior_PEC_refuted.

(** Every entry of the output. *)
Theorem C67_value : forall s x, wfNodal s -> length x = Z.to_nat (6 * nd_N s) ->
  exists out, nodalMult s x = Ok out /\ length out = length x /\
    (forall el k, In el (nd_lin s) -> (k < elSize el)%nat ->
       E3 (comp6 (nd_N s) out) (elDof el k) = rhsE s (comp6 (nd_N s) x) el k /\
       H3 (comp6 (nd_N s) out) (elDof el k) = rhsH s (comp6 (nd_N s) x) el k) /\
    (forall r, In r (curRows s) -> nth (Z.to_nat (fst r)) out 0 = suml (fun cv => snd cv * nth (Z.to_nat (fst cv)) x 0) (snd r)) /\
    (forall c i, (0 <= c < 6)%Z -> (0 <= i < nd_N s)%Z ->
       (forall el k, In el (nd_lin s) -> (k < elSize el)%nat -> i <> elDof el k) ->
       ~ In (c * nd_N s + i)%Z (map fst (curRows s)) -> comp6 (nd_N s) out c i = 0).
Proof. exact nodal_value. Qed.
Print Assumptions C67_value.
Example C67_ex : wfNodal (exN 1 noI) /\ wfNodal (exN 1 exInt) /\ length exX = Z.to_nat (6 * nd_N (exN 1 noI)).
Proof. exact ex67. Qed.

(** Energy of the scheme. *)
Theorem C68_balance : forall s mass sides fps x out,
  wfNodal s -> length x = Z.to_nat (6 * nd_N s) -> nodalMult s x = Ok out ->
  discretised s mass sides fps -> noSMA0 s fps ->
  energyRate s mass (comp6 (nd_N s) x) (comp6 (nd_N s) out) =
  suml (fun f => faceWeight f * faceRate s (comp6 (nd_N s) x) f) fps.
Proof. exact energy_balance. Qed.
Print Assumptions C68_balance.
Theorem C68_never_grows : forall s mass sides fps x out,
  wfNodal s -> length x = Z.to_nat (6 * nd_N s) -> nodalMult s x = Ok out ->
  discretised s mass sides fps -> 0 <= nd_alpha s ->
  Forall (fun f => 0 <= faceWeight f /\ passiveFace s f) fps ->
  energyRate s mass (comp6 (nd_N s) x) (comp6 (nd_N s) out) <= 0.
Proof. exact energy_never_grows. Qed.
Print Assumptions C68_never_grows.
Theorem C68_conserved : forall s mass sides fps x out,
  wfNodal s -> length x = Z.to_nat (6 * nd_N s) -> nodalMult s x = Ok out ->
  discretised s mass sides fps -> nd_alpha s = 0 ->
  Forall (fun f => match f with Inner _ _ => True | Outer KPEC _ => True | Outer KPMC _ => True | _ => False end) fps ->
  energyRate s mass (comp6 (nd_N s) x) (comp6 (nd_N s) out) = 0.
Proof. exact energy_conserved. Qed.
Print Assumptions C68_conserved.
Theorem C68_decay : forall s mass sides fps x,
  wfNodal s -> solves s x -> (forall el j k, mass el j k = mass el k j) ->
  discretised s mass sides fps -> 0 <= nd_alpha s -> Forall (fun f => 0 <= faceWeight f /\ passiveFace s f) fps ->
  forall t1 t2, t1 <= t2 -> energyOf s mass (comp6 (nd_N s) (x t2)) <= energyOf s mass (comp6 (nd_N s) (x t1)).
Proof. exact energy_decays. Qed.
Print Assumptions C68_decay.
Example C68_ex : wfNodal (exN 1 noI) /\ (exists out, nodalMult (exN 1 noI) exX = Ok out) /\
  discretised (exN 1 noI) exM exSides exF /\ 0 <= nd_alpha (exN 1 noI) /\
  Forall (fun f => 0 <= faceWeight f /\ passiveFace (exN 1 noI) f) exF.
Proof. exact ex_hyps. Qed.
Example C68_ex_absorbed : exists out, nodalMult (exN 1 noI) exX = Ok out /\
  energyRate (exN 1 noI) exM (comp6 4 exX) (comp6 4 out) = -1.
Proof. exact ex_absorbed. Qed.
(** A closed cavity with centred flux, and a solution that never changes. *)
Example C68_ex_closed : wfNodal exClosed /\ discretised exClosed exM exSides exFC /\ nd_alpha exClosed = 0 /\
  Forall (fun f => match f with Inner _ _ => True | Outer KPEC _ => True | Outer KPMC _ => True | _ => False end) exFC.
Proof. exact ex_closed. Qed.
Example C68_ex_solves : solves (exN 1 noI) (fun _ => exStill).
Proof. exact ex_solves. Qed.

(** Property theorems C22, C23, C24, C26, C62, C63. *)
From Coq Require Import ZArith List Reals.
From Verif Require Import Common Evol_Model Evol_Spec Evol_Proofs EvolHist_Proofs EvolSolve_Proofs EvolRhs_Proofs EvolStage_Proofs EvolReach_Proofs EvolEx_Proofs.
Import ListNotations.
Local Open Scope Z_scope.

(** C22.  Whatever evaluations, commits and finalisations are made, in any order,
    the work vector the operator shares between them is empty or all zero after
    each: nothing one evaluation adds to it is seen by the next. *)
Theorem C22_workspace_clean :
  forall inv ndofs nbr Aop Top Sop hasTF sub2par src elem1 elem2 junk,
  (forall n, length (junk n) = n) -> forall gmres l e e',
  fresh e -> runOps inv ndofs nbr Aop Top Sop hasTF sub2par src elem1 elem2 junk gmres e l = Ok e' ->
  e_work e' = [] \/ e_work e' = zeros (6 * (ndofs + nbr)).
Proof. exact fresh_clean. Qed.
Print Assumptions C22_workspace_clean.

(** C23.  [e1] and [e2] are operators in the middle of a step: from the same fresh
    operator, after histories of steps that differ at most in the evaluations made,
    then the same commit, then any evaluations.  Mult gives the same answer. *)
Theorem C23_mult_depends_on_arguments :
  forall inv ndofs nbr Aop Top Sop hasTF sub2par src elem1 elem2 junk,
  (forall n, length (junk n) = n) -> forall gmres e0 h1 h2 base dt fields c1 c2 e1 e2 t nd input,
  Forall2 same_outline h1 h2 ->
  midStep inv ndofs nbr Aop Top Sop hasTF sub2par src elem1 elem2 junk gmres e0 h1 base dt fields c1 e1 ->
  midStep inv ndofs nbr Aop Top Sop hasTF sub2par src elem1 elem2 junk gmres e0 h2 base dt fields c2 e2 ->
  sized ndofs nbr nd input ->
  agree (fun a b => fst a = fst b)
    (mult inv ndofs nbr Aop Top Sop hasTF sub2par src elem1 elem2 junk e1 t nd input)
    (mult inv ndofs nbr Aop Top Sop hasTF sub2par src elem1 elem2 junk e2 t nd input).
Proof. exact mid_mult. Qed.
Print Assumptions C23_mult_depends_on_arguments.

(** The same for ImplicitSolve. *)
Theorem C23_implicit_depends_on_arguments :
  forall inv ndofs nbr Aop Top Sop hasTF sub2par src elem1 elem2 junk,
  (forall n, length (junk n) = n) -> forall gmres e0 h1 h2 base dt fields c1 c2 e1 e2 t g nd x k0,
  Forall2 same_outline h1 h2 ->
  midStep inv ndofs nbr Aop Top Sop hasTF sub2par src elem1 elem2 junk gmres e0 h1 base dt fields c1 e1 ->
  midStep inv ndofs nbr Aop Top Sop hasTF sub2par src elem1 elem2 junk gmres e0 h2 base dt fields c2 e2 ->
  g <> (-1)%R -> sized ndofs nbr nd x ->
  agree (fun a b => fst a = fst b)
    (implicitSolve inv ndofs nbr Aop Top hasTF sub2par src junk gmres e1 t g nd x k0)
    (implicitSolve inv ndofs nbr Aop Top hasTF sub2par src junk gmres e2 t g nd x k0).
Proof. exact mid_implicit. Qed.
Print Assumptions C23_implicit_depends_on_arguments.

(** And the fields inside the layers after whole steps do not depend on the
    evaluations made during them. *)
Theorem C23_layers_depend_on_steps :
  forall inv ndofs nbr Aop Top Sop hasTF sub2par src elem1 elem2 junk,
  (forall n, length (junk n) = n) -> forall gmres e l1 l2 f1 f2,
  fresh e -> Forall2 same_outline l1 l2 -> Forall (good_step ndofs nbr) l1 -> Forall (good_step ndofs nbr) l2 ->
  runSteps inv ndofs nbr Aop Top Sop hasTF sub2par src elem1 elem2 junk gmres e l1 = Ok f1 ->
  runSteps inv ndofs nbr Aop Top Sop hasTF sub2par src elem1 elem2 junk gmres e l2 = Ok f2 ->
  layers f1 = layers f2.
Proof. exact layers_same. Qed.
Print Assumptions C23_layers_depend_on_steps.

(** Finding: with thin layers present, Mult before the first commit throws. *)
Theorem C23_mult_before_commit :
  forall inv ndofs nbr Aop Top M hasTF sub2par src elem1 elem2 junk e t nd input,
  e_cp e = None -> e_groups e <> [] ->
  mult inv ndofs nbr Aop Top (Some M) hasTF sub2par src elem1 elem2 junk e t nd input = Throw.
Proof. exact mult_before_commit. Qed.
Print Assumptions C23_mult_before_commit.

(** Two histories of one step, one with an evaluation and one without, both run;
    an evaluation made in the middle of the next step gives a field that is not
    zero. *)
Example C23_hypotheses_met :
  fresh exE /\ Forall2 same_outline [stepA] [stepB] /\ Forall (good_step 2 0) [stepA] /\ Forall (good_step 2 0) [stepB] /\
  (exists f, exRun exE [stepA] = Ok f) /\ (exists f, exRun exE [stepB] = Ok f) /\
  exists e, midStep exInv 2 0 exA None (Some exM) false [] (fun _ => []) [0] [1] exJunk (fun _ _ k0 => k0) exE [] 0 1 exIn [] e /\
  exists out e', mult exInv 2 0 exA None (Some exM) false [] (fun _ => []) [0] [1] exJunk e 1 [] exIn = Ok (out, e') /\ nthZ out 0 = 2%R.
Proof. exact ex_history. Qed.

(** C24.  Any sequence of dense stage solves with steps of any kind except -1, the
    cached factorisation being reused or rebuilt as the code does, gives for each
    request the solution of its own system (1 - dt*A) k = rhs. *)
Theorem C24_cached_solves_are_right :
  forall inv A, Forall (colsIn (length A)) A ->
  forall l, Forall (fun p => fst p <> (-1)%R /\ length (snd p) = length A /\ solves inv (jac A (fst p))) l ->
  exists ks c, solveAll inv A l newCache = Ok (ks, c) /\
    Forall2 (fun p k => forall i, (i < length A)%nat ->
      (nth i k 0 - fst p * dot (nth i A []) k)%R = nth i (snd p) 0%R) l ks.
Proof. exact solveAll_spec. Qed.
Print Assumptions C24_cached_solves_are_right.

(** Finding: the value -1 stands for "nothing cached", so a first request with
    step -1 uses a factorisation that does not exist. *)
Theorem C24_minus_one_refuted :
  forall inv A rhs, denseSolve inv A (-1) rhs newCache = UB.
Proof. exact first_minus_one_ub. Qed.
Print Assumptions C24_minus_one_refuted.

(** Requests with changing and returning steps, on a rotation matrix. *)
Example C24_hypotheses_met :
  Forall (colsIn (length rotA)) rotA /\
  Forall (fun p => fst p <> (-1)%R /\ length (snd p) = length rotA /\ solves cramer (jac rotA (fst p)))
    [(1, [1; 0]); (1, [0; 1]); (1/2, [1; 0]); (1, [3; 4])]%R.
Proof. exact ex_solveAll. Qed.

(** C26.  The sub-steps of a layer: with a recommended step [sub] the step [dt] is
    cut in the least number of equal parts not longer than [sub]... *)
Theorem C26_substeps :
  forall sub dt, (0 < sub)%R -> (0 < dt)%R -> (dt / sub <= 2147483647)%R ->
  exists m, nsteps sub dt = Ok m /\ 1 <= m /\ (dt / IZR m <= sub)%R /\ (1 < m -> (IZR (m - 1) * sub < dt)%R).
Proof. exact nsteps_spec. Qed.
Print Assumptions C26_substeps.

(** ... and, if the parts are at least 1e-9 long, the layer's clock ends at
    [base + dt]. *)
Theorem C26_layer_time_partial :
  forall inv w base dt gh s d s' d' m, nsteps (w_rec w) dt = Ok m -> (/ 1000000000 <= dt / IZR m)%R ->
  advance inv w base dt gh s d = Ok (s', d') -> d_time d' = (base + dt)%R.
Proof. exact advance_time. Qed.
Print Assumptions C26_layer_time_partial.

(** The last part starts at base + dt - dt/m, lasts dt/m, and the fields at the two
    sides are interpolated with weight 1: those of the end of the step. *)
Theorem C26_last_part :
  forall inv w base dt gh s d s' d' m, nsteps (w_rec w) dt = Ok m ->
  advance inv w base dt gh s d = Ok (s', d') ->
  exists d1 all, gh 1%R (m - 1) (d_all d1) = Ok all /\
    solve inv w (base + dt - dt / IZR m)%R (dt / IZR m)%R (set_all d1 all) = Ok d' /\ s_fs s' = d_all d'.
Proof. exact advance_last. Qed.
Print Assumptions C26_last_part.

(** Finding: a layer with a recommended step below 1e-9 is never advanced: its
    fields stay as they were, whatever the step. *)
Theorem C26_thin_layer_refuted :
  forall inv w base dt gh s d s' d', (0 < w_rec w < / 1000000000)%R -> (w_rec w < dt)%R -> (dt / w_rec w <= 2147483647)%R ->
  (forall a k all, gh a k all = Ok all) ->
  advance inv w base dt gh s d = Ok (s', d') -> s_fs s' = s_fs s.
Proof. exact thin_layer_frozen. Qed.
Print Assumptions C26_thin_layer_refuted.

Example C26_hypotheses_met :
  nsteps (w_rec exW) 1 = Ok 1 /\ (/ 1000000000 <= 1 / IZR 1)%R /\
  exists fs d', advance exInv exW 0 1 (fun _ _ all => Ok all) exS exD = Ok (with_fs exS fs, d').
Proof. exact ex_layer_time. Qed.
Example C26_substeps_met : exists m, nsteps (3 / 10) 1 = Ok m /\ m = 4.
Proof. exact ex_nsteps. Qed.

(** C62.  The right-hand side, entry by entry: operator times (fields and neighbour
    data), minus TFSF operator times incident field, plus, on the elements at
    layers, layer operator times what the layer shows to that element.  [gs] are
    the layers restored from the last commit and advanced to the time. *)
Theorem C62_right_hand_side_partial :
  forall inv ndofs nbr Aop Top Sop hasTF sub2par src elem1 elem2 junk,
  (forall n, length (junk n) = n) -> forall e t nd input gs quiet,
  multSub inv ndofs Sop e t input = Ok (gs, quiet) ->
  sized ndofs nbr nd input -> length Aop = (6 * ndofs)%nat -> Forall (colsIn (6 * (ndofs + nbr))) Aop ->
  (hasTF = true -> src_ok ndofs sub2par src) ->
  (forall T, Top = Some T -> length T = (6 * ndofs)%nat /\ Forall (colsIn (6 * (ndofs + nbr))) T) ->
  (forall M, Sop = Some M -> length M = (6 * ndofs)%nat /\ Forall (colsIn (6 * (ndofs + nbr))) M) ->
  Forall (fits ndofs) (wstates gs) -> NoDup (flat_map dofsOf (wstates gs)) ->
  NoDup elem1 -> NoDup elem2 ->
  (forall d, In d elem1 -> 0 <= d < Z.of_nat ndofs) -> (forall d, In d elem2 -> 0 <= d < Z.of_nat ndofs) ->
  exists P F W1 W2 out e',
    packedAs ndofs nbr nd input P /\ (Top <> None -> srcOn hasTF src t = true -> incident ndofs nbr sub2par (src t) F) /\
    seenBy1 ndofs nbr input (wstates gs) W1 /\ seenBy2 ndofs nbr input (wstates gs) W2 /\
    mult inv ndofs nbr Aop Top Sop hasTF sub2par src elem1 elem2 junk e t nd input = Ok (out, e') /\ length out = (6 * ndofs)%nat /\
    forall c d, 0 <= c < 6 -> 0 <= d < Z.of_nat ndofs -> let i := c * Z.of_nat ndofs + d in
      nthZ out i = (dot (nth (Z.to_nat i) Aop []) P
        - match Top with Some T => if srcOn hasTF src t then dot (nth (Z.to_nat i) T []) F else 0 | None => 0 end
        + match Sop, gs with
          | Some M, _ :: _ => if quiet then 0 else
              (if in_dec Z.eq_dec d elem1 then dot (nth (Z.to_nat i) M []) W1 else 0)
              + (if in_dec Z.eq_dec d elem2 then dot (nth (Z.to_nat i) M []) W2 else 0)
          | _, _ => 0
          end)%R.
Proof. exact rhs_formula. Qed.
Print Assumptions C62_right_hand_side_partial.

(** Finding: if two layers share a mesh dof the formula fails; a layer then changes
    what the elements of the other layer see. *)
Theorem C62_shared_dof_refuted : exists a b e1 e2 o1 o2 f1 f2,
  commit 3 shE 0 1 (shIn a) = Ok e1 /\ commit 3 shE 0 1 (shIn b) = Ok e2 /\
  shMult e1 0%R [] (shIn a) = Ok (o1, f1) /\ shMult e2 0%R [] (shIn b) = Ok (o2, f2) /\
  (forall i, i <> 2 -> 0 <= i -> nthZ (shIn a) i = nthZ (shIn b) i) /\ nthZ o1 1 <> nthZ o2 1.
Proof. exact shared_dof_refuted. Qed.
Print Assumptions C62_shared_dof_refuted.

Example C62_hypotheses_met : forall e, commit 2 exE 0 1 exIn = Ok e ->
  exists d fs, let gs := [mkG exW d [with_fs exS fs]] in
  multSub exInv 2 (Some exM) e 1 exIn = Ok (gs, false) /\ Forall (fits 2) (wstates gs) /\ NoDup (flat_map dofsOf (wstates gs)) /\
  sized 2 0 [] exIn /\ length exA = 12%nat /\ Forall (colsIn 12) exA /\ length exM = 12%nat /\ Forall (colsIn 12) exM.
Proof. exact ex_rhs. Qed.

(** C63.  ImplicitSolve solves its stage: in the middle of a step, without thin
    layers, the answer [k] satisfies k = Mult(x + dt*k). *)
Theorem C63_implicit_stage_partial :
  forall inv ndofs Aop Top hasTF sub2par src elem1 elem2 junk,
  (forall n, length (junk n) = n) -> forall gmres e t dt x k0 k e',
  length x = (6 * ndofs)%nat -> (6 * ndofs <= 600)%nat -> length Aop = (6 * ndofs)%nat -> Forall (colsIn (6 * ndofs)) Aop ->
  (hasTF = true -> src_ok ndofs sub2par src) ->
  (forall T, Top = Some T -> length T = (6 * ndofs)%nat /\ Forall (colsIn (6 * ndofs)) T) ->
  (e_work e = [] \/ e_work e = zeros (6 * ndofs)) -> cache_ok Aop (e_cache e) -> dt <> (-1)%R -> solves inv (jac Aop dt) ->
  implicitSolve inv ndofs 0 Aop Top hasTF sub2par src junk gmres e t dt [] x k0 = Ok (k, e') ->
  length k = length x /\
  forall y, length y = length x -> (forall i, nth i y 0%R = nth i x 0 + dt * nth i k 0)%R ->
  exists e2, mult inv ndofs 0 Aop Top None hasTF sub2par src elem1 elem2 junk e t [] y = Ok (k, e2).
Proof. exact implicit_stage. Qed.
Print Assumptions C63_implicit_stage_partial.

(** The two conditions on the operator hold of every operator a run goes through. *)
Theorem C63_conditions_reachable :
  forall inv ndofs nbr Aop Top Sop hasTF sub2par src elem1 elem2 junk,
  (forall n, length (junk n) = n) -> forall gmres e0 hist base dt fields calls e,
  midStep inv ndofs nbr Aop Top Sop hasTF sub2par src elem1 elem2 junk gmres e0 hist base dt fields calls e ->
  (e_work e = [] \/ e_work e = zeros (6 * (ndofs + nbr))) /\ cache_ok Aop (e_cache e).
Proof. exact mid_conditions. Qed.
Print Assumptions C63_conditions_reachable.

(** Finding: with thin layers the stage leaves their contribution out, so k differs
    from Mult(x + dt*k). *)
Theorem C63_layers_refuted : exists e k e2 y out e3,
  fresh exE /\ commit 2 exE 0 1 exIn = Ok e /\ solves exInv (jac zA 1) /\
  implicitSolve exInv 2 0 zA None false [] (fun _ => []) exJunk (fun _ _ k0 => k0) e 1 1 [] exIn (zeros 12) = Ok (k, e2) /\
  (forall i, nth i y 0 = nth i exIn 0 + 1 * nth i k 0)%R /\
  mult exInv 2 0 zA None (Some exM) false [] (fun _ => []) [0] [1] exJunk e 1 [] y = Ok (out, e3) /\
  nthZ k 0 = 0%R /\ nthZ out 0 = 2%R.
Proof. exact stage_layers_refuted. Qed.
Print Assumptions C63_layers_refuted.

Example C63_hypotheses_met : forall dt, solves exInv (jac zA dt) /\ length zA = 12%nat /\ Forall (colsIn 12) zA /\ cache_ok zA newCache.
Proof. exact ex_stage. Qed.

(** Model of the statistics files of a run: src/driver/driver.cpp 1624-1661, src/solver/Solver.cpp
    131-146, 356-367, 404-444 and 531.

    The file system, the ranks and their schedules are those of Output_Model; the other files a run
    writes are in the programs below as that model has them.

    Not modelled: how numbers are printed; what the clock and the system say about time and memory
    (any values); MPI_COMM_WORLD and the communicator of the mesh are taken to be the same. *)
From Coq Require Import String ZArith List Bool Reals.
From Flocq Require Import Core.
From Verif Require Import Common Probe_Model Output_Model.
Import ListNotations.
Local Open Scope string_scope.
Local Open Scope list_scope.

(** "Exports/" + getRunModeTag() + "/" + meshName_ + "/SimulationStats/",
    driver.cpp 1634, Solver.cpp 134, 414. *)
Definition statsDir (e : env) : path := exportDir e (e_case e) "SimulationStats".
(** Solver.cpp 135, 418. *)
Definition statsFile (e : env) (r : nat) : path :=
  statsDir e ++ [("statistics_rank" ++ to_string r ++ ".dat")%string].

(** prepareExportDirectories, driver.cpp 1624-1645, on rank [r]. *)
Definition prepareExportDirectories (e : env) (r : nat) : list op :=
  (if Nat.eqb r 0 then [ORemove (statsDir e); OMkdirs (statsDir e)] else []) ++ [OBarrier].

(** static_cast<std::int64_t>(std::pow(n, 2.0)), Solver.cpp 430: the square rounded to a double
    (pow is taken to round to nearest, ties to even), then truncated. *)
Definition squaredElements (n : Z) : Z :=
  Ztrunc (round radix2 (FLT_exp (-1074) 53) ZnearestE (IZR (n * n))).
(** calcAverageElementSizeInMesh, Solver.cpp 356-367: 0/0 is not a number. *)
Definition averageElementSize (sizes : list R) : option R :=
  match sizes with
  | [] => None
  | _ => Some (fold_left Rplus sizes 0 / INR (length sizes))%R
  end.

(** What one rank knows at the end of its constructor and of its run. [i_operator] is the height,
    the width and the number of stored entries of the global operator, if that is the one used.
    Solver.cpp 138-141, 421-437. *)
Record info := mkInfo {
  i_sub : bool; i_initTime : R; i_peak : R; i_runTime : R; i_final : R; i_dt : R;
  i_sizes : list R; i_dofs : nat; i_operator : option (Z * Z * Z); i_memory : R }.

(** Used in [runLines], Solver.cpp 423-424. *)
Definition inNs (t : R) : R := (t / speedOfLight_SI * 1000000000)%R.
(** Solver.cpp 138-142. *)
Definition initLines (i : info) : list line :=
  [LStat "Initialization Time" (Some (i_initTime i)); LStat "Assembly Peak Memory Consumption (B)" (Some (i_peak i))].
(** Solver.cpp 421-437. *)
Definition runLines (i : info) : list line :=
  [LStat "Simulation Run Time" (Some (i_runTime i)); LStat "Final Time" (Some (inNs (i_final i))); LStat "Time Step" (Some (inNs (i_dt i)));
   LStat "Number of Mesh Elements" (Some (INR (length (i_sizes i))));
   LStat "Average Element Size in Mesh" (averageElementSize (i_sizes i));
   LStat "Number of Local Degrees of Freedom" (Some (INR (i_dofs i)))] ++
  match i_operator i with
  | Some (h, w, nnz) =>
      [LStat "Operator Total Elements for Local Degrees of Freedom" (Some (IZR (squaredElements h)));
       LStat "Operator Total Elements for Local and Ghost Degrees of Freedom" (Some (IZR (h * w)));
       LStat "Number of Operator Non-Zero Elements" (Some (IZR nnz))]
  | None => []
  end ++
  [LStat "Temporal Evolution Memory Consumption (B)" (Some (i_memory i))].

(** The end of the constructor, Solver.cpp 133-146: nothing is created, the file is opened for appending. *)
Definition constructed (e : env) (r : nat) (i : info) : list op :=
  if i_sub i then [] else [OAppend (statsFile e r) (initLines i)].
(** writeSimulationStatistics, Solver.cpp 404-444, at the end of run, 531. *)
Definition finished (e : env) (r : nat) (i : info) : list op :=
  if i_sub i then [] else [OMkdirs (statsDir e); OAppend (statsFile e r) (runLines i)].

Section Fields.
(** As in Output_Model, ProbesManager.cpp 357, 389-394, 438, 638. *)
Variable F : Type.
Variable getValue : F -> comp -> Z -> list R -> R.
Variable dofs : F -> comp -> list R.
Variable surf : F -> list Z -> comp -> list R.

(** All file operations of rank [r] when a case is started from its file: buildSolver (driver.cpp
    1647-1661), the constructor with its first call of updateProbes (Solver.cpp 127-146), and run
    with the others (483-550). *)
Definition caseProgram (e : env) (p : probes) (first : R * (nat -> F)) (calls : list (R * (nat -> F))) (info : nat -> info) (r : nat) : res (list op) :=
  i <- initPointField e r p ;;
  ' q <- updateProbes F getValue dofs surf e r p 0 first (map (fun m => (mp_name m, mkMstate (mp_window m) None [])) (pr_mor p)) ;;
  u <- allUpdates F getValue dofs surf e r p 1 calls (fst q) ;;
  Ok (prepareExportDirectories e r ++
      (concat (map (nearInit e r) (pr_near p)) ++ concat (map (surfInit e r) (pr_surf p)) ++ i ++ snd q) ++
      constructed e r (info r) ++ u ++ finished e r (info r)).
(** A case started from its file that ends, on all ranks in any order. driver.cpp 1647-1661, Solver.cpp 483-533. *)
Definition launched (e : env) (p : probes) (first : R * (nat -> F)) (calls : list (R * (nat -> F))) (info : nat -> info) (s s' : fs) : Prop :=
  exists todo, mapM (caseProgram e p first calls info) (seq 0 (e_ranks e)) = Ok todo /\ ends s todo s'.
End Fields.

(** A program that uses Solver itself, without probes, on one rank: constructors and runs in any
    order and number, of any solvers with this mesh name. Solver.cpp 70-146, 483-533. *)
Inductive use := New (i : info) | Run (i : info).
(** Used in [used], Solver.cpp 131-146, 404-444. *)
Definition useOps (e : env) (u : use) : list op :=
  match u with New i => constructed e 0 i | Run i => finished e 0 i end.
(** Solver.cpp 131-146, 404-444, one call after the other. *)
Definition used (e : env) (us : list use) (s : fs) : res fs :=
  foldM (fun s o => exec o s) (concat (map (useOps e) us)) s.

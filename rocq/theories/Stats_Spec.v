(** What a statistics file should say, stated without the model's helpers. *)
From Coq Require Import String ZArith List Bool Reals.
From Verif Require Import Output_Model Stats_Model.
Import ListNotations.
Local Open Scope string_scope.
Local Open Scope list_scope.

(** The statistics file of a rank of a case. *)
Definition statisticsOf (e : env) (r : nat) : path :=
  ["Exports"; runModeTag e] ++ e_case e ++ ["SimulationStats"; ("statistics_rank" ++ to_string r ++ ".dat")%string].
Definition statisticsDir (e : env) : path := ["Exports"; runModeTag e] ++ e_case e ++ ["SimulationStats"].
(** The numbers of one run, without the operator's. *)
Definition initialRecord (i : info) : list line :=
  [LStat "Initialization Time" (Some (i_initTime i)); LStat "Assembly Peak Memory Consumption (B)" (Some (i_peak i))].
(** A mean lies between the smallest and the largest and is the sum over the number. *)
Definition isMean (l : list R) (m : R) : Prop := (m * INR (length l) = fold_right Rplus 0 l)%R.
(** The record of a run: the requested times in nanoseconds, the numbers of elements and unknowns,
    the mean size, and for the global operator its numbers of places and of entries. *)
Definition runRecord (i : info) (l : list line) : Prop :=
  exists mean op,
    (forall m, mean = Some m -> isMean (i_sizes i) m) /\ (mean = None <-> i_sizes i = []) /\
    (forall h w nnz, i_operator i = Some (h, w, nnz) -> exists sq,
       op = [LStat "Operator Total Elements for Local Degrees of Freedom" (Some (IZR sq));
             LStat "Operator Total Elements for Local and Ghost Degrees of Freedom" (Some (IZR (h * w)));
             LStat "Number of Operator Non-Zero Elements" (Some (IZR nnz))] /\ ((0 <= h <= 94906265)%Z -> sq = (h * h)%Z)) /\
    (i_operator i = None -> op = []) /\
    l = [LStat "Simulation Run Time" (Some (i_runTime i)); LStat "Final Time" (Some (i_final i / 299792458 * 1000000000)%R); LStat "Time Step" (Some (i_dt i / 299792458 * 1000000000)%R);
         LStat "Number of Mesh Elements" (Some (INR (length (i_sizes i)))); LStat "Average Element Size in Mesh" mean;
         LStat "Number of Local Degrees of Freedom" (Some (INR (i_dofs i)))] ++ op ++
        [LStat "Temporal Evolution Memory Consumption (B)" (Some (i_memory i))].
(** The records a history of constructors and runs leaves when the directory is missing at first:
    those before the first run of a solver that is not part of a layer are lost. *)
Inductive leaves : bool -> list use -> list line -> Prop :=
| lv_nil : forall b, leaves b [] []
| lv_sub_new : forall b i us l, i_sub i = true -> leaves b us l -> leaves b (New i :: us) l
| lv_sub_run : forall b i us l, i_sub i = true -> leaves b us l -> leaves b (Run i :: us) l
| lv_new : forall i us l, i_sub i = false -> leaves true us l -> leaves true (New i :: us) (initialRecord i ++ l)
| lv_lost : forall i us l, i_sub i = false -> leaves false us l -> leaves false (New i :: us) l
| lv_run : forall b i us l q, i_sub i = false -> runRecord i q -> leaves true us l -> leaves b (Run i :: us) (q ++ l).

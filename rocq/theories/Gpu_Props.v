(** Property theorems C27. *)
From Coq Require Import ZArith List Reals.
From Verif Require Import Common Evol_Model Evol_Spec Gpu_Model Gpu_Proofs.
Import ListNotations.
Local Open Scope Z_scope.

(** C27.  The two load kernels, their iterations run in any order on a vector with
    any contents, give the vector the CPU loops build. *)
Theorem C27_device_load :
  forall ndofs nbr junk w w0 nd input r1, (forall n, length (junk n) = n) ->
  sized ndofs nbr nd input -> length w0 = (6 * (ndofs + nbr))%nat ->
  launch (ehKernel ndofs nbr input) w0 r1 ->
  exists v1, r1 = Ok v1 /\ forall r2, launch (nbrKernel ndofs nbr nd) v1 r2 -> r2 = pack ndofs nbr junk w input nd.
Proof. exact gpu_pack_all. Qed.
Print Assumptions C27_device_load.

(** Loading the six field components gives back the input. *)
Theorem C27_device_fields :
  forall ndofs input w r, length input = (6 * ndofs)%nat -> length w = (6 * ndofs)%nat ->
  launch (loadKernel ndofs input) w r -> r = Ok input.
Proof. exact gpu_load. Qed.
Print Assumptions C27_device_fields.

(** Scattering the incident field is what the CPU loop does. *)
Theorem C27_device_scatter :
  forall ndofs nbr sub2par, NoDup sub2par -> (forall p, In p sub2par -> 0 <= p < Z.of_nat (ndofs + nbr)) ->
  forall func w r, length func = 6%nat -> Forall (fun v => length v = length sub2par) func -> length w = (6 * (ndofs + nbr))%nat ->
  launch (scatterKernel ndofs nbr sub2par func) w r -> r = scatter ndofs nbr sub2par func w.
Proof. exact gpu_scatter. Qed.
Print Assumptions C27_device_scatter.

(** The device clears only the entries it wrote; after that the vector is zero. *)
Theorem C27_device_clear :
  forall ndofs nbr sub2par, NoDup sub2par -> (forall p, In p sub2par -> 0 <= p < Z.of_nat (ndofs + nbr)) ->
  forall func w1 r, length func = 6%nat -> Forall (fun v => length v = length sub2par) func ->
  launch (scatterKernel ndofs nbr sub2par func) (zeros (6 * (ndofs + nbr))) (Ok w1) ->
  launch (zeroKernel ndofs nbr sub2par) w1 r -> r = Ok (zeros (6 * (ndofs + nbr))).
Proof. exact gpu_clear. Qed.
Print Assumptions C27_device_clear.

Example C27_launches_exist : forall k w, exists r, launch k w r.
Proof. exact launch_ex. Qed.
Example C27_hypotheses_met :
  sized 2 1 (repeat [5%R] 6) (repeat 3%R 12) /\ NoDup [0; 2] /\ (forall p, In p [0; 2] -> 0 <= p < Z.of_nat (2 + 1)) /\
  length (repeat [4; 9]%R 6) = 6%nat /\ Forall (fun v => length v = length [0; 2]) (repeat [4; 9]%R 6).
Proof. exact ex_gpu. Qed.

(** Model of the device kernels of src/evolution/GlobalEvolution.cu.  A kernel is
    the list of the copies its iterations make; the device may carry them out in
    any order.  The calls Read, Write and ReadWrite of mfem are taken to give the
    valid data of the vector (Write of a vector already on the device keeps it). *)
From Coq Require Import ZArith List Bool Reals Permutation.
From Verif Require Import Common Evol_Model.
Import ListNotations.
Local Open Scope Z_scope.

(** One assignment dst[i] = src[k]. GlobalEvolution.cu 7-131. *)
Definition copy := (Z * (list R * Z))%type.
(** GlobalEvolution.cu 7-131. *)
Definition doCopy (w : list R) (c : copy) : res (list R) :=
  x <- zget (fst (snd c)) (snd (snd c)) ;; zset w (fst c) x.
(** A run of a kernel: its copies in some order. GlobalEvolution.cu 7-131. *)
Definition launch (k : list copy) (w : list R) (r : res (list R)) : Prop :=
  exists k', Permutation k k' /\ foldM doCopy k' w = r.

Section Kernels.
Variables ndofs nbr : nat.
Variable sub2par : list Z.
Notation nZ := (Z.of_nat ndofs).
Notation bZ := (Z.of_nat (ndofs + nbr)).

(** load_in_to_eh_gpu GlobalEvolution.cu 7-29; the six grid functions one after the other. *)
Definition loadKernel (input : list R) : list copy :=
  flat_map (fun v => map (fun c => (c * nZ + v, (input, c * nZ + v))) comps) (zseq ndofs).
(** load_eh_to_innew_gpu GlobalEvolution.cu 31-50. *)
Definition ehKernel (input : list R) : list copy :=
  flat_map (fun v => map (fun c => (c * bZ + v, (input, c * nZ + v))) comps) (zseq ndofs).
(** load_nbr_to_innew_gpu GlobalEvolution.cu 52-77. *)
Definition nbrKernel (nd : list (list R)) : list copy :=
  flat_map (fun v => map (fun c => (c * bZ + (nZ + v), (nth (Z.to_nat c) nd [], v))) comps) (zseq nbr).
(** scatter_tfsf_to_assembled_gpu GlobalEvolution.cu 82-108. *)
Definition scatterKernel (func : list (list R)) : list copy :=
  flat_map (fun vp => map (fun c => (c * bZ + snd vp, (nth (Z.to_nat c) func [], fst vp))) comps)
    (combine (zseq (length sub2par)) sub2par).
(** zero_tfsf_assembled_gpu GlobalEvolution.cu 112-131. *)
Definition zeroKernel : list copy :=
  flat_map (fun p => map (fun c => (c * bZ + p, ([0%R], 0))) comps) sub2par.
End Kernels.

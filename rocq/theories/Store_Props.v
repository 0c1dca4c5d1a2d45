(** Properties of the store of shared matrices. *)
From Coq Require Import ZArith List Bool.
From Flocq Require Import IEEE754.Binary IEEE754.Bits.
From Verif Require Import Common Store_Model Store_Spec Store_Proofs.
Import ListNotations.

(** Without NaN the order is a strict weak ordering whose equivalence is equality of the
    values (the tolerance used is zero). *)
Theorem C52_order_partial : strictWeak noNan lessThan /\
  forall a b, noNan a -> noNan b -> (lessThan a b = false /\ lessThan b a = false <-> sameMat a b).
Proof. exact (conj order_strict order_equiv). Qed.
Print Assumptions C52_order_partial.

(** Whatever the sequence of matrices and the shape of the tree, every element is given a
    matrix equal to its own, equal matrices are stored once, and what was given stays. *)
Theorem C52_sharing_partial : forall ks, Forall noNan ks -> (exists vs t, stores Leaf ks vs t) /\
  forall vs t, stores Leaf ks vs t -> Forall2 sameMat ks vs /\ Forall (fun v => In v (inorder t)) vs /\
    (forall i j a b, nth_error ks i = Some a -> nth_error ks j = Some b -> sameMat a b -> nth_error vs i = nth_error vs j).
Proof. exact sharing. Qed.
Print Assumptions C52_sharing_partial.
Example C52_sharing_ex : exists vs t, stores Leaf [mat1 one1; mat1 two1; mat1 one1] vs t /\ vs = [mat1 one1; mat1 two1; mat1 one1] /\
  length (inorder t) = 2%nat /\ Forall noNan [mat1 one1; mat1 two1; mat1 one1].
Proof. exact sharing_ex. Qed.
Example C52_distinct_ex : ~ sameMat (mat1 one1) (mat1 two1).
Proof. exact one_two. Qed.

(** A matrix with NaN is given to elements with other matrices. *)
Theorem C52_nan_refuted : exists ks vs t, stores Leaf ks vs t /\ exists k v, nth_error ks 1 = Some k /\ nth_error vs 1 = Some v /\ noNan k /\ ~ noNan v.
Proof. exact nan_refuted. Qed.
Print Assumptions C52_nan_refuted.
(** An element whose matrix has NaN is given the matrix of another element. *)
Theorem C52_hidden_refuted : exists ks vs t, stores Leaf ks vs t /\ exists k v, nth_error ks 1 = Some k /\ nth_error vs 1 = Some v /\ ~ noNan k /\ noNan v.
Proof. exact nan_hidden. Qed.
Print Assumptions C52_hidden_refuted.
Theorem C52_order_refuted : ~ strictWeak (fun _ => True) lessThan.
Proof. exact order_nan. Qed.
Print Assumptions C52_order_refuted.

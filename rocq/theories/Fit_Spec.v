(** What a fit should be. *)
From Coq Require Import ZArith List Bool Reals Permutation.
From Coquelicot Require Import Complex.
From Verif Require Import Common Fit_Model.
Import ListNotations.

(** A fit that may be returned as soon as it is found. *)
Definition meets (tol : R) (r : fitRes) : Prop := f_stable r = true /\ (f_err r < tol)%R.
(** [r] is what the search over the orders 1 .. n should give. *)
Definition chosen (calc : nat -> fitRes) (n : nat) (tol : R) (r : fitRes) : Prop :=
  (exists k, (1 <= k <= n)%nat /\ r = calc k /\ meets tol r /\ forall j, (1 <= j < k)%nat -> ~ meets tol (calc j)) \/
  ((forall j, (1 <= j <= n)%nat -> ~ meets tol (calc j)) /\
   ((exists k, (1 <= k <= n)%nat /\ r = calc k /\ f_stable r = true /\
       forall j, (1 <= j <= n)%nat -> f_stable (calc j) = true -> (f_err r <= f_err (calc j))%R /\ ((j < k)%nat -> (f_err r < f_err (calc j))%R)) \/
    (r = noFit /\ forall j, (1 <= j <= n)%nat -> f_stable (calc j) = true -> (10 ^ 9 <= f_err (calc j))%R))).

(** Value of a sum of simple poles. *)
Definition sumPoles (ps rs : list C) (s : C) : C := fold_right (fun pr acc => Cplus (Cdiv (snd pr) (Cminus s (fst pr))) acc) (RtoC 0) (combine ps rs).
(** Relative deviation of a fit at a sample. *)
Definition relErr (ps rs : list C) (s z : C) : R := (Cmod (Cminus (sumPoles ps rs s) z) / (Cmod z + / 10 ^ 20))%R.

(** Exact linear algebra. *)
Definition mv (A : list (list C)) (x : list C) : list C := map (fun row => fold_right Cplus (RtoC 0) (map (fun p => Cmult (fst p) (snd p)) (combine row x))) A.
Definition cols (A : list (list C)) (n : nat) : Prop := Forall (fun row => length row = n) A.
(** A consistent system is solved. *)
Definition exactSolve (solve : list (list C) -> list C -> list C) : Prop :=
  forall A b n, A <> [] -> cols A n -> (exists x, length x = n /\ mv A x = b) -> length (solve A b) = n /\ mv A (solve A b) = b.
(** [l] is an eigenvalue of [A]. *)
Definition eigenvalue (A : list (list C)) (l : C) : Prop :=
  exists v, length v = length A /\ Exists (fun c => c <> RtoC 0) v /\ mv A v = map (Cmult l) v.
(** The eigenvalues of a square matrix are found when they are all simple. *)
Definition exactEig (eig : list (list C) -> list C) : Prop :=
  forall A ls, cols A (length A) -> NoDup ls -> length ls = length A -> (forall l, In l ls <-> eigenvalue A l) -> Permutation ls (eig A).

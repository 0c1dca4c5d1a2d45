(** What consistent names are, when two paths name the same file, and what the arguments of the
    launcher mean; nothing here uses the model's string functions. *)
From Coq Require Import String Ascii ZArith List.
From Verif Require Import Case_Model.
Import ListNotations.

(** [P] is a directory prefix: nothing, or something that ends in a separator. *)
Definition dirPrefix (P : str) : Prop := P = [] \/ exists Q, P = Q ++ [slash].

(** [c] can be the name of a case: one non-empty path component. *)
Definition caseName (c : str) : Prop := c <> [] /\ ~ In slash c.

(** The path names the file c.json in the folder c below P ([k] separators between them). *)
Definition casePath (P c : str) (k : nat) (path : str) : Prop :=
  dirPrefix P /\ caseName c /\ (1 <= k)%nat /\
  path = P ++ c ++ repeat slash k ++ c ++ lit ".json".

(** The mesh of that case: the file c.msh beside it. *)
Definition caseMesh (P c : str) : str := P ++ c ++ slash :: c ++ lit ".msh".

(** Two POSIX paths that differ only in repeated separators name the same file. *)
Inductive sameFile : str -> str -> Prop :=
| sf_refl p : sameFile p p
| sf_sym p q : sameFile p q -> sameFile q p
| sf_trans p q r : sameFile p q -> sameFile q r -> sameFile p r
| sf_rep a b : sameFile (a ++ slash :: slash :: b) (a ++ slash :: b).

(** [pat] occurs in [l]. *)
Definition occurs (pat l : str) : Prop := exists a b, l = a ++ pat ++ b.

(** The meaning of one argument group. *)
Inductive item := IPath (p : str) | IHelp | IDevice (d : str) | IOther (a : str).

Definition isFlag (a : str) : Prop :=
  a = lit "-i" \/ a = lit "-h" \/ a = lit "-d" \/ a = lit "--device".

(** The command line read from left to right: -i and -d/--device take the next argument. *)
Inductive reads : list str -> list item -> Prop :=
| r_end : reads [] []
| r_path p t is : reads t is -> reads (lit "-i" :: p :: t) (IPath p :: is)
| r_help t is : reads t is -> reads (lit "-h" :: t) (IHelp :: is)
| r_dev f d t is : f = lit "-d" \/ f = lit "--device" ->
    reads t is -> reads (f :: d :: t) (IDevice d :: is)
| r_lone f : f = lit "-i" \/ f = lit "-d" \/ f = lit "--device" -> reads [f] [IOther f]
| r_other a t is : ~ isFlag a -> reads t is -> reads (a :: t) (IOther a :: is).

Definition knownDevice (d : str) : Prop := d = lit "cpu" \/ d = lit "omp" \/ d = lit "cuda".

(** An item the launcher does not go past. *)
Definition stops (i : item) : Prop :=
  i = IHelp \/ exists d, i = IDevice d /\ ~ knownDevice d.

(** The value given by the last item of a kind, or the default. *)
Definition lastPath (is : list item) (p : str) : Prop :=
  (exists a b, is = a ++ IPath p :: b /\ forall q, ~ In (IPath q) b) \/
  (p = [] /\ forall q, ~ In (IPath q) is).
Definition lastDevice (is : list item) (d : str) : Prop :=
  (exists a b, is = a ++ IDevice d :: b /\ forall q, ~ In (IDevice q) b) \/
  (d = lit "cpu" /\ forall q, ~ In (IDevice q) is).

(** What the user is told the command line does. *)
Definition launchSpec (args : list str) (o : launch) : Prop :=
  exists is, reads args is /\
  match o with
  | Exit c =>
      (c = 1%Z /\ args = []) \/
      (c = 2%Z /\ exists a b, is = a ++ IHelp :: b /\ forall i, In i a -> ~ stops i) \/
      (c = 3%Z /\ args <> [] /\ (forall i, In i is -> ~ stops i) /\
       exists p, lastPath is p /\ ~ occurs (lit ".json") p)
  | Abort => exists a d b, is = a ++ IDevice d :: b /\ ~ knownDevice d /\
                           forall i, In i a -> ~ stops i
  | Start p d => (forall i, In i is -> ~ stops i) /\ lastPath is p /\ lastDevice is d /\
                 occurs (lit ".json") p
  end.

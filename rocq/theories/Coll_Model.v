(** Model of the class Sources (components/Sources.h 75-142) as a user sees it: several
    collections in one program, each a vector of unique_ptr<Source>, over one heap. *)
From Coq Require Import ZArith List Bool.
From Verif Require Import Common.
Import ListNotations.
Local Open Scope Z_scope.

Section Coll.
(** What a source object holds. *)
Variable A : Type.
(** The heap (None: not allocated or freed), the next address, and the vector of each
    collection (None: a null unique_ptr).  A collection not yet built is empty.
    Used in [addTo], Sources.h 131-135. *)
Record cst := mkC { c_heap : Z -> option A; c_next : Z; c_env : Z -> list (option Z) }.
(** Used in [addTo], Sources.h 131-135. *)
Definition setF {B} (f : Z -> B) (k : Z) (v : B) : Z -> B := fun j => if j =? k then v else f j.
(** make_unique or clone. Used in [addTo], Sources.h 131-135. *)
Definition alloc (s : cst) (v : A) : Z * cst := (c_next s, mkC (setF (c_heap s) (c_next s) (Some v)) (c_next s + 1) (c_env s)).
(** add, Sources.h 131-135. *)
Definition addTo (s : cst) (c : Z) (v : A) : cst :=
  let '(a, s) := alloc s v in mkC (c_heap s) (c_next s) (setF (c_env s) c (c_env s c ++ [Some a])).
(** v_.clear(): each unique_ptr frees its object. Used in [copyTo], Sources.h 96-103. *)
Definition clear (s : cst) (c : Z) : cst :=
  mkC (fold_left (fun h p => match p with Some a => setF h a None | None => h end) (c_env s c) (c_heap s)) (c_next s) (setF (c_env s) c []).
(** The loop of the copies, Sources.h 85-88 and 99-101: v->clone() of a null pointer, or of a freed
    object, is undefined. *)
Definition cloneFrom (s : cst) (c c' : Z) : res cst :=
  foldM (fun s p => match p with
                    | None => UB
                    | Some a => match c_heap s a with None => UB | Some v => Ok (addTo s c v) end
                    end) (c_env s c') s.
(** The copy assignment, Sources.h 96-103; the copy constructor 84-89 is the same on an empty
    collection. *)
Definition copyTo (s : cst) (c c' : Z) : res cst := let s := clear s c in cloneFrom s c c'.
(** The move assignment, Sources.h 104-113, and the move constructor 90-95: the vector of the other
    collection keeps its length, with null pointers. *)
Definition moveTo (s : cst) (c c' : Z) : cst :=
  let s := clear s c in
  mkC (c_heap s) (c_next s) (setF (setF (c_env s) c' (map (fun _ => None) (c_env s c'))) c (if c =? c' then [] else c_env s c')).
(** Writing through a pointer got from begin() or add(). Sources.h 75-142. *)
Definition mutate (s : cst) (c k : Z) (v : A) : res cst :=
  p <- zget (c_env s c) k ;;
  match p with
  | None => UB
  | Some a => match c_heap s a with None => UB | Some _ => Ok (mkC (setF (c_heap s) a (Some v)) (c_next s) (c_env s)) end
  end.
(** Going through a collection from begin() to end(). Sources.h 75-142. *)
Definition values (s : cst) (c : Z) : res (list A) :=
  mapM (fun p => match p with None => UB | Some a => match c_heap s a with None => UB | Some v => Ok v end end) (c_env s c).

(** Sources.h 75-142. *)
Inductive op := OAdd (c : Z) (v : A) | OCopy (c c' : Z) | OMove (c c' : Z) | OMut (c k : Z) (v : A).
(** Sources.h 75-142. *)
Definition exec (s : cst) (o : op) : res cst :=
  match o with
  | OAdd c v => Ok (addTo s c v)
  | OCopy c c' => copyTo s c c'
  | OMove c c' => Ok (moveTo s c c')
  | OMut c k v => mutate s c k v
  end.
(** Sources.h 75-142. *)
Definition execAll (l : list op) : res cst := foldM exec l (mkC (fun _ => None) 0 (fun _ => [])).
End Coll.
Arguments mkC {A}. Arguments c_heap {A}. Arguments c_next {A}. Arguments c_env {A}.
Arguments OAdd {A}. Arguments OCopy {A}. Arguments OMove {A}. Arguments OMut {A}.

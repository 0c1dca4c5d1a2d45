(** Model of the geometric helpers: spherical coordinates, the frame of a face, the
    mesh of a layered wall and the comparison of face orientations. `double` is R. *)
From Coq Require Import ZArith List Bool Reals.
From Verif Require Import Common.
Import ListNotations.
Local Open Scope R_scope.

(** ** Spherical.cpp *)

(** libm's atan2 on the reals (no signed zeros). Used in [fromCartesian], Spherical.cpp 12-23. *)
Definition atan2 (y x : R) : R :=
  if Rlt_dec 0 x then atan (y / x)
  else if Rlt_dec x 0 then (if Rlt_dec y 0 then atan (y / x) - PI else atan (y / x) + PI)
  else if Rlt_dec 0 y then PI / 2 else if Rlt_dec y 0 then - (PI / 2) else 0.

(** SphericalVector, Spherical.h 11-44; `None` for theta is NaN. *)
Record spherical := mkSph { sp_radius : R; sp_theta : option R; sp_phi : R }.

(** SphericalVector(const mfem::Vector&), Spherical.cpp 12-23 (5-10 copies into a
    Vector and delegates). A size other than 2 or 3 fails the assertion. *)
Definition fromCartesian (p : list R) : res spherical :=
  match p with
  | [x; y] => Ok (mkSph (sqrt (0 + x ^ 2 + y ^ 2)) (Some (PI / 2)) (atan2 y x))
  | [x; y; z] =>
      let r := sqrt (0 + x ^ 2 + y ^ 2 + z ^ 2) in
      Ok (mkSph r (if Req_EM_T r 0 then None else Some (acos (z / r))) (atan2 y x))
  | _ => UB
  end.
(** convertToCartesian, Spherical.cpp 33-40, for a theta that is a number. *)
Definition toCartesian (r th ph : R) : list R := [r * sin th * cos ph; r * sin th * sin ph; r * cos th].
(** convertSphericalVectorFieldToCartesian, Spherical.cpp 42-53. *)
Definition fieldToCartesian (th ph Ar At Ap : R) : list R :=
  [cos ph * (sin th * Ar + cos th * At) - sin ph * Ap;
   sin ph * (sin th * Ar + cos th * At) + cos ph * Ap;
   cos th * Ar - sin th * At].

(** ** SolverExtension.h 71-107: buildFaceRotationMatrix, row-major *)
Definition faceRotation (normal : list R) (meshDim : Z) : res (list R) :=
  if (meshDim <=? 1)%Z then Ok [1; 0; 0; 0; 1; 0; 0; 0; 1]
  else match normal with
  | [] => UB (* normal(0) is out of range *)
  | nx0 :: rest =>
      let ny0 := nth 0 rest 0 in let nz0 := nth 1 rest 0 in
      let len := sqrt (nx0 * nx0 + ny0 * ny0 + nz0 * nz0) in
      if Req_EM_T len 0 then UB (* the code goes on with NaN *)
      else
      let nx := nx0 / len in let ny := ny0 / len in let nz := nz0 / len in
      if (meshDim =? 2)%Z then Ok [nx; ny; 0; - ny; nx; 0; 0; 0; 1]
      else
        let '(rx, ry, rz) := if Rlt_dec (Rabs nx) (9 / 10) then (1, 0, 0) else (0, 1, 0) in
        let t1x := ny * rz - nz * ry in
        let t1y := nz * rx - nx * rz in
        let t1z := nx * ry - ny * rx in
        let t1l := sqrt (t1x * t1x + t1y * t1y + t1z * t1z) in
        let t1x := t1x / t1l in let t1y := t1y / t1l in let t1z := t1z / t1l in
        Ok [nx; ny; nz; t1x; t1y; t1z; ny * t1z - nz * t1y; nz * t1x - nx * t1z; nx * t1y - ny * t1x]
  end.

(** ** The mesh of a layered wall *)

(** SGBCLayer, Model.h 77-85, with any type of material. *)
Record layer (M : Type) := mkLayer { l_mat : M; l_width : R; l_segs : nat; l_order : nat }.
Arguments mkLayer {M}. Arguments l_mat {M}. Arguments l_width {M}. Arguments l_segs {M}. Arguments l_order {M}.

Section Wall.
Context {M : Type}.
(** SGBCProperties::totalWidth, totalSegments, maxOrder, Model.h 96-114. *)
Definition totalWidth (ls : list (layer M)) : R := fold_left (fun w l => w + l_width l) ls 0.
(** Used in [wallVertices], SolverExtension.cpp 51-77. *)
Definition totalSegments (ls : list (layer M)) : nat := fold_left (fun n l => n + l_segs l)%nat ls 0%nat.
(** Used in [leftInterface], SolverExtension.cpp 191-198. *)
Definition maxOrder (ls : list (layer M)) : nat := fold_left (fun o l => Nat.max o (l_order l)) ls 1%nat.

(** The loop over the segments of a layer, SolverExtension.cpp 68-71: the abscissa and
    the vertices so far. *)
Definition segLoop (dx : R) (n : nat) (st : R * list R) : R * list R :=
  fold_left (fun st _ => let x := fst st + dx in (x, snd st ++ [x])) (seq 0 n) st.
(** Vertex coordinates, SolverExtension.cpp 51-77. *)
Definition wallVertices (ls : list (layer M)) (nGhost : nat) : list R :=
  let ghostDx := totalWidth ls / INR (totalSegments ls) in
  let left := map (fun i => INR i * ghostDx) (seq 0 (S nGhost)) in
  let '(x, vs) := fold_left (fun st l => segLoop (l_width l / INR (l_segs l)) (l_segs l) st) ls (INR nGhost * ghostDx, left) in
  vs ++ map (fun i => x + INR i * ghostDx) (seq 1 nGhost).

(** mesh.SetAttribute(i, a): mfem asserts that the element exists.
    Used in [wallAttributes], SolverExtension.cpp 100-115. *)
Definition setAttribute (attrs : list nat) (i a : nat) : res (list nat) :=
  if (i <? List.length attrs)%nat then Ok (upd attrs i a) else UB.
(** Element attributes, SolverExtension.cpp 100-115; elements are created with
    attribute 1, 85-87. *)
Definition wallAttributes (ls : list (layer M)) (nGhost : nat) : res (list nat) :=
  let numElements := (List.length (wallVertices ls nGhost) - 1)%nat in
  let vacuumAttr := S (List.length ls) in
  a <- foldM (fun a i => setAttribute a i vacuumAttr) (seq 0 nGhost) (repeat 1%nat numElements) ;;
  ' (a, idx) <- foldM (fun st li =>
        foldM (fun st (_ : nat) => a' <- setAttribute (fst st) (snd st) (S li) ;; Ok (a', S (snd st)))
          (seq 0 (match nth_error ls li with Some l => l_segs l | None => 0%nat end)) st)
      (seq 0 (List.length ls)) (a, nGhost) ;;
  foldM (fun a i => setAttribute a (idx + i) vacuumAttr) (seq 0 nGhost) a.
(** Boundary points (vertex, attribute), SolverExtension.cpp 88-89 and 93-94. *)
Definition wallBoundary (ls : list (layer M)) (nGhost : nat) : list (nat * nat) :=
  [(0, 1); (List.length (wallVertices ls nGhost) - 1, 2); (nGhost, 3); (nGhost + totalSegments ls, 4)]%nat.
(** buildSGBCModel SolverExtension.cpp 127-131: the material of an attribute; `insert` keeps the first. *)
Definition wallMaterials (vacuum : M) (ls : list (layer M)) : list (nat * M) :=
  combine (seq 1 (List.length ls)) (map l_mat ls) ++ [(S (List.length ls), vacuum)].
(** SolverExtension.cpp 127-131. *)
Fixpoint mapFind (k : nat) (l : list (nat * M)) : option M :=
  match l with [] => None | (j, m) :: t => if (j =? k)%nat then Some m else mapFind k t end.

(** SGBCWrapper constructor 489: number of ghost elements.
    Used in [leftInterface], SolverExtension.cpp 191-198. *)
Definition ghosts (ls : list (layer M)) : nat := Nat.max 3 (maxOrder ls + 1).
(** getLeftInterfaceIndex, getRightInterfaceIndex, SolverExtension.cpp 191-198, for a
    field of `size` dofs. *)
Definition leftInterface (ls : list (layer M)) : Z := Z.of_nat (ghosts ls) * (Z.of_nat (maxOrder ls) + 1).
(** SolverExtension.cpp 195-198. *)
Definition rightInterface (ls : list (layer M)) (size : Z) : Z := (size - 1) - Z.of_nat (ghosts ls) * (Z.of_nat (maxOrder ls) + 1).
End Wall.

(** ** math/Geometry.cpp 7-42: elementsHaveSameOrientation *)
Inductive elType := Segment | Triangle | OtherElement (n : nat).
(** Geometry.cpp 7-42. *)
Definition elType_eqb (a b : elType) : bool :=
  match a, b with
  | Segment, Segment | Triangle, Triangle => true
  | OtherElement n, OtherElement m => Nat.eqb n m
  | _, _ => false
  end.
(** Geometry.cpp 7-42. *)
Fixpoint zlist_eqb (a b : list Z) : bool :=
  match a, b with
  | [], [] => true
  | x :: a', y :: b' => (x =? y)%Z && zlist_eqb a' b'
  | _, _ => false
  end.
(** std::find: the position of the first occurrence. Geometry.cpp 7-42. *)
Fixpoint find_idx (x : Z) (l : list Z) : option nat :=
  match l with [] => None | y :: t => if (y =? x)%Z then Some 0%nat else option_map S (find_idx x t) end.
(** std::rotate(begin, begin + n, end). Geometry.cpp 7-42. *)
Definition rotate {A} (n : nat) (l : list A) : list A := skipn n l ++ firstn n l.
(** Geometry.cpp 7-42. *)
Definition sameOrientation (t1 : elType) (v1 : list Z) (t2 : elType) (v2 : list Z) : res bool :=
  if negb (elType_eqb t1 t2) then Throw
  else match t1 with
  | Segment => Ok (zlist_eqb v1 v2)
  | Triangle =>
      match v1 with
      | [] => UB
      | x :: _ => match find_idx x v2 with None => Ok false | Some n => Ok (zlist_eqb v1 (rotate n v2)) end
      end
  | OtherElement _ => Throw
  end.

(** Model of the far-field surface data file: the writer
    src/components/RCSSurfaceExporter.cpp and the reader readRankData of
    src/components/RCSSurfacePostProcessor.cpp 75-118.

    A file is a list of bytes; a double is its 64-bit pattern; the machine is
    little-endian (writer and reader run on the same one). *)
From Coq Require Import ZArith List Bool.
From Verif Require Import Common.
Import ListNotations.
Local Open Scope Z_scope.

(** The [k] bytes of a word, and back. Used in [headerBytes], RCSSurfaceExporter.cpp 57-65. *)
Fixpoint bytesOf (k : nat) (z : Z) : list Z :=
  match k with O => [] | S k' => z mod 256 :: bytesOf k' (z / 256) end.
(** Used in [readSnaps], RCSSurfacePostProcessor.cpp 104-116. *)
Fixpoint wordOf (l : list Z) : Z := match l with [] => 0 | b :: r => b + 256 * wordOf r end.
(** int32_t in two's complement. Used in [readRankData], RCSSurfacePostProcessor.cpp 75-118. *)
Definition int32 (l : list Z) : Z := let w := wordOf l in if w <? 2147483648 then w else w - 4294967296.

(** RCSSurfaceGeometry and SurfaceSnapshot, RCSSurfacePostProcessor.h 11-27; the
    six components of a snapshot in the order Ex Ey Ez Hx Hy Hz. *)
Record geometry := mkGeo {
  g_dim : Z; g_dofs : Z; g_bdr : Z; g_qp : Z; g_basis : Z;
  g_pos : list Z; g_nor : list Z; g_wei : list Z }.
(** Used in [snapshotBytes], RCSSurfaceExporter.cpp 140-153. *)
Record snapshot := mkSnap { s_time : Z; s_comps : list (list Z) }.

(** ** Writer. Used in [geometryBytes], RCSSurfaceExporter.cpp 130-135. *)
Definition doubles (l : list Z) : list Z := flat_map (bytesOf 8) l.
(** The five header words, RCSSurfaceExporter.cpp 57-65. *)
Definition headerBytes (g : geometry) : list Z :=
  flat_map (bytesOf 4) [g_dim g; g_dofs g; g_bdr g; g_qp g; g_basis g].
(** RCSSurfaceExporter.cpp 130-135. *)
Definition geometryBytes (g : geometry) : list Z := doubles (g_pos g) ++ doubles (g_nor g) ++ doubles (g_wei g).
(** writeSnapshot RCSSurfaceExporter.cpp 140-153. *)
Definition snapshotBytes (s : snapshot) : list Z := doubles [s_time s] ++ flat_map doubles (s_comps s).
(** The file after the constructor and the given snapshots.
    RCSSurfaceExporter.cpp 57-65, 130-135 and 140-153. *)
Definition fileOf (g : geometry) (l : list snapshot) : list Z :=
  headerBytes g ++ geometryBytes g ++ flat_map snapshotBytes l.

(** ** Reader *)

(** std::ifstream: unread bytes, and whether good() holds.
    Used in [readSnaps], RCSSurfacePostProcessor.cpp 104-116. *)
Record stream := mkStream { st_rest : list Z; st_good : bool }.
(** f.read(buf, n): a stream that is not good reads nothing; a short read fills the
    front of the buffer and makes the stream bad.
    Used in [readSnaps], RCSSurfacePostProcessor.cpp 104-116. *)
Definition read (n : nat) (buf : list Z) (f : stream) : list Z * stream :=
  if st_good f then
    if (n <=? length (st_rest f))%nat then (firstn n (st_rest f), mkStream (skipn n (st_rest f)) true)
    else (st_rest f ++ skipn (length (st_rest f)) buf, mkStream [] false)
  else (buf, f).
(** Used in [readRankData], RCSSurfacePostProcessor.cpp 75-118. *)
Fixpoint words8 (k : nat) (l : list Z) : list Z :=
  match k with O => [] | S k' => wordOf (firstn 8 l) :: words8 k' (skipn 8 l) end.
(** vec.resize(k) (zeros) and reading k doubles into it.
    Used in [readRankData], RCSSurfacePostProcessor.cpp 75-118. *)
Definition readDoubles (k : nat) (f : stream) : list Z * stream :=
  let '(b, f') := read (8 * k) (repeat 0 (8 * k)) f in (words8 k b, f').
(** resize with an int count: a negative one is a huge size_t and throws; the
    products are computed in int. Used in [readSnaps], RCSSurfacePostProcessor.cpp 104-116. *)
Definition count (z : Z) : res nat :=
  if negb ((-2147483648 <=? z) && (z <=? 2147483647)) then UB else if z <? 0 then Throw else Ok (Z.to_nat z).

(** Used in [readSnaps], RCSSurfacePostProcessor.cpp 104-116. *)
Fixpoint readComps (n : nat) (k : nat) (f : stream) : list (list Z) * stream :=
  match n with
  | O => ([], f)
  | S n' => let '(v, f) := readDoubles k f in let '(r, f) := readComps n' k f in (v :: r, f)
  end.
(** The loop RCSSurfacePostProcessor.cpp 104-116: peek gives EOF on a bad or exhausted stream.  [fuel] bounds
    the iterations; each takes at least the 8 bytes of the time. *)
Fixpoint readSnaps (fuel : nat) (ndofs : Z) (f : stream) : res (list snapshot) :=
  match fuel with
  | O => Ok []
  | S fuel' =>
      if st_good f && negb (match st_rest f with [] => true | _ => false end) then
        let '(tb, f) := read 8 (repeat 0 8) f in
        if st_good f then
          k <- count ndofs ;;
          let '(cs, f) := readComps 6 k f in
          rest <- readSnaps fuel' ndofs f ;;
          Ok (mkSnap (wordOf tb) cs :: rest)
        else Ok []
      else Ok []
  end.
(** readRankData, RCSSurfacePostProcessor.cpp 75-118, on the bytes of the file.  A file shorter than the header
    leaves [hdr] undefined. *)
Definition readRankData (file : list Z) : res (geometry * list snapshot) :=
  let '(h, f) := read 20 (repeat 0 20) (mkStream file true) in
  if st_good f then
    let w i := int32 (firstn 4 (skipn (4 * i) h)) in
    let dim := w 0%nat in let dofs := w 1%nat in let nqp := w 3%nat in
    a <- count (nqp * dim) ;; b <- count (nqp * 3) ;; c <- count nqp ;;
    let '(pos, f) := readDoubles a f in
    let '(nor, f) := readDoubles b f in
    let '(wei, f) := readDoubles c f in
    snaps <- readSnaps (S (length file)) dofs f ;;
    Ok (mkGeo dim dofs (w 2%nat) nqp (w 4%nat) pos nor wei, snaps)
  else UB.

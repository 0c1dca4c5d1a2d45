(** A small surface: two edges of a plane, one face of the outer boundary and one without transformation. *)
From Coq Require Import ZArith List Bool Lia Reals Lra.
From Verif Require Import Common Face_Model SurfGeo_Model SurfGeo_Spec SurfGeo_Proofs Codec_Model Codec_Spec.
Import ListNotations.
Local Open Scope R_scope.

Definition exP1 : bpoint := mkBP (/ 2) [1; 2] (G2 3 4).
Definition exP2 : bpoint := mkBP (/ 2) [5; 6] (G2 3 4).
Definition exP3 : bpoint := mkBP 1 [7; 8] (G2 0 (-2)).
Definition exEls : list belem :=
  [mkBE 3 (Some [mkBP 1 [0; 0] (G2 1 0)]); mkBE 201 (Some [exP1; exP2]); mkBE 201 None; mkBE 201 (Some [exP3])].
(** Two faces in space; the second attribute is larger than that of the surface. *)
Definition exEls3 : list belem :=
  [mkBE 201 (Some [mkBP 1 [1; 2; 3] (G3 1 0 0 0 2 0)]); mkBE 301 (Some [mkBP 1 [0; 0; 0] (G3 0 1 0 0 0 1)])].

Lemma ex_points : surfacePoints exEls = [exP1; exP2; exP3].
Proof. reflexivity. Qed.
Lemma ex_met : hasSurface exEls /\ Forall (regular 2) (surfacePoints exEls) /\ totalQuadPts exEls = Ok 3%nat.
Proof.
  assert (M : hasSurface exEls).
  { split.
    - intros e H; repeat (destruct H as [<-|H]; [cbn; lia|]); contradiction.
    - exists (mkBE 201 None). cbn. split; [auto|lia]. }
  split; [exact M|]. split.
  - rewrite ex_points. repeat constructor; cbn; try lia; intros E; injection E; intros; lra.
  - rewrite count_ok by exact M. reflexivity.
Qed.
Lemma ex_met3 : hasSurface exEls3 /\ Forall (regular 3) (surfacePoints exEls3) /\ length (surfacePoints exEls3) = 1%nat.
Proof.
  split; [|split; [|reflexivity]].
  - split.
    + intros e H; repeat (destruct H as [<-|H]; [cbn; lia|]); contradiction.
    + exists (mkBE 301 (Some [mkBP 1 [0; 0; 0] (G3 0 1 0 0 0 1)])). cbn. split; [auto|lia].
  - change (surfacePoints exEls3) with [mkBP 1 [1; 2; 3] (G3 1 0 0 0 2 0)].
    repeat constructor; cbn; try lia; intros E; injection E; intros; lra.
Qed.

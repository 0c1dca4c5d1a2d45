(** Face frames in the exchange with thin layers, and concrete cases for Geo_Props. *)
From Coq Require Import ZArith List Bool Reals Lra Lia Psatz Nsatz.
From Verif Require Import Common Evol_Model Evol_Spec EvolLayer_Spec EvolLayer_Proofs Geo_Model Geo_Spec Geo_Proofs GeoWall_Proofs.
Import ListNotations.
Local Open Scope R_scope.

Lemma frame_columns : forall a1 a2 a3 b1 b2 b3 c1 c2 c3 : R, rightFrame (a1, a2, a3) (b1, b2, b3) (c1, c2, c3) ->
  a1 * a1 + b1 * b1 + c1 * c1 = 1 /\ a2 * a2 + b2 * b2 + c2 * c2 = 1 /\ a3 * a3 + b3 * b3 + c3 * c3 = 1 /\
  a1 * a2 + b1 * b2 + c1 * c2 = 0 /\ a1 * a3 + b1 * b3 + c1 * c3 = 0 /\ a2 * a3 + b2 * b3 + c2 * c3 = 0.
Proof.
  intros a1 a2 a3 b1 b2 b3 c1 c2 c3 (A & B & C & AB & BC & AC & X). unfold dotp, crossp in *. injection X as X1 X2 X3. subst c1 c2 c3.
  repeat split; nsatz.
Qed.
Lemma frame_orthonormal : forall r, List.length r = 9%nat -> rightFrame (row r 0) (row r 1) (row r 2) -> orthonormal r.
Proof.
  intros r L F. split; [assumption|].
  destruct r as [|a1 [|a2 [|a3 [|b1 [|b2 [|b3 [|c1 [|c2 [|c3 [|]]]]]]]]]]; try discriminate L.
  unfold row in F. cbn [List.nth Nat.mul Nat.add] in F. apply frame_columns in F. destruct F as (A & B & C & D & E & G).
  intros i j Hi Hj. assert (Ci : i = 0%Z \/ i = 1%Z \/ i = 2%Z) by lia. assert (Cj : j = 0%Z \/ j = 1%Z \/ j = 2%Z) by lia.
  destruct Ci as [-> | [-> | ->]], Cj as [-> | [-> | ->]]; unfold nthZ;
    repeat match goal with |- context [Z.to_nat ?z] => let n := eval compute in (Z.to_nat z) in change (Z.to_nat z) with n end;
    cbn [List.nth Z.eqb Pos.eqb]; lra.
Qed.

(** The exchange through any frame the code builds. *)
Definition properNormal (normal : list R) (dim : Z) : Prop :=
  (dim = 2%Z /\ exists x y, normal = [x; y] /\ (x, y) <> (0, 0)) \/
  ((3 <= dim)%Z /\ exists x y z, normal = [x; y; z] /\ (x, y, z) <> (0, 0, 0)).
Definition normal3 (normal : list R) : v3 := (List.nth 0 normal 0, List.nth 1 normal 0, List.nth 2 normal 0).

Lemma rot_proper : forall normal dim, properNormal normal dim -> exists r, faceRotation normal dim = Ok r /\ List.length r = 9%nat /\
  rightFrame (row r 0) (row r 1) (row r 2) /\ det3 (row r 0) (row r 1) (row r 2) = 1 /\
  (dotp (row r 0) (unitp (normal3 normal)), dotp (row r 1) (unitp (normal3 normal)), dotp (row r 2) (unitp (normal3 normal))) = (1, 0, 0).
Proof.
  intros normal dim [[-> (x & y & -> & N)]|[D (x & y & z & -> & N)]].
  - destruct (rot2 x y N) as (r & E & L & F & U). exists r. split; [assumption|]. split; [assumption|]. split; [assumption|].
    split; [apply frame_det; assumption|]. unfold normal3. cbn [List.nth]. rewrite <- U. apply frame_first. assumption.
  - destruct (rot3 dim x y z D N) as (r & E & L & F & U). exists r. split; [assumption|]. split; [assumption|]. split; [assumption|].
    split; [apply frame_det; assumption|]. unfold normal3. cbn [List.nth]. rewrite <- U. apply frame_first. assumption.
Qed.
Lemma rot_exchange : forall normal dim r u c, properNormal normal dim \/ (dim <= 1)%Z -> faceRotation normal dim = Ok r -> (0 <= c < 6)%Z ->
  seen Transparent r u (intoFrame r u) c = u c.
Proof.
  intros normal dim r u c H E Hc. apply frame_round; [|assumption]. apply frame_orthonormal.
  - destruct H as [H|H].
    + destruct (rot_proper _ _ H) as (r' & E' & L & _). rewrite E in E'. injection E' as ->. assumption.
    + unfold faceRotation in E. destruct (Z.leb_spec dim 1); [|lia]. injection E as <-. reflexivity.
  - destruct H as [H|H].
    + destruct (rot_proper _ _ H) as (r' & E' & L & F & _). rewrite E in E'. injection E' as ->. assumption.
    + unfold faceRotation in E. destruct (Z.leb_spec dim 1); [|lia]. injection E as <-. unfold row. cbn [List.nth Nat.mul Nat.add].
      unfold rightFrame, dotp, crossp. repeat split; try ring. f_equal; [f_equal|]; ring.
Qed.
(** In one dimension the frame does not follow the normal. *)
Lemma rot1_refuted : exists r, faceRotation [-1] 1 = Ok r /\ dotp (row r 0) (unitp (normal3 [-1])) <> 1.
Proof.
  eexists. split; [reflexivity|]. unfold row, normal3. cbn [List.nth Nat.mul Nat.add]. unfold unitp, lenp, dotp, scalep.
  replace (-1 * -1 + 0 * 0 + 0 * 0) with 1 by ring. rewrite sqrt_1. lra.
Qed.

Lemma ex_normal : properNormal [1; 2; 2] 3 /\ properNormal [3; 4] 2.
Proof.
  split; [right | left]; (split; [lia || reflexivity|]).
  - exists 1, 2, 2. split; [reflexivity|]. intros E. injection E. lra.
  - exists 3, 4. split; [reflexivity|]. intros E. injection E. lra.
Qed.
(** A wall of two layers: 1 wide in 2 segments, 3 wide in 1. *)
Definition exWall : list (layer bool) := [mkLayer true 1 2 1; mkLayer false 3 1 2].
Lemma ex_wall : Forall positive (shape exWall) /\ exWall <> [] /\ ghosts exWall = 3%nat /\
  map (depth (shape exWall)) [0; 1; 2; 3]%nat = [0; / 2; 1; 4] /\ map (layerOf (shape exWall)) [0; 1; 2]%nat = [0; 0; 1]%nat.
Proof.
  split; [|split; [discriminate|split; [reflexivity|split; [|reflexivity]]]].
  - unfold exWall, shape, positive. cbn [map l_width l_segs]. repeat constructor; cbn [fst snd]; lra.
  - unfold exWall, shape. cbn [map l_width l_segs depth Nat.leb Nat.sub]. cbn [INR].
    repeat f_equal; field.
Qed.
Lemma boundary_spec : forall {M : Type} (ls : list (layer M)) g, Forall positive (shape ls) ->
  wallBoundary ls g = [(0, 1); (2 * g + sumSegs (shape ls), 2); (g, 3); (g + sumSegs (shape ls), 4)]%nat.
Proof. intros M ls g H. unfold wallBoundary. rewrite vertices_length, totalSegments_sum by assumption. replace (2 * g + sumSegs (shape ls) + 1 - 1)%nat with (2 * g + sumSegs (shape ls))%nat by lia. reflexivity. Qed.
Lemma ex_triangles : NoDup [4; 2; 7]%Z /\ cyclic [2; 7; 4]%Z [4; 2; 7]%Z /\ ~ cyclic [7; 2; 4]%Z [4; 2; 7]%Z.
Proof.
  assert (N : NoDup [4; 2; 7]%Z). { repeat constructor; cbn; intros H; repeat destruct H as [H|H]; try discriminate; contradiction. }
  split; [assumption|]. split; [exists (4 :: nil)%Z, (2 :: 7 :: nil)%Z; split; reflexivity|].
  intros H. apply (proj1 (triangle_spec [7; 2; 4]%Z [4; 2; 7]%Z ltac:(discriminate) N)) in H. cbv in H. discriminate.
Qed.

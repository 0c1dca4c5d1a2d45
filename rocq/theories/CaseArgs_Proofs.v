(** Proofs about the launcher's arguments, and the concrete cases. *)
From Coq Require Import String Ascii ZArith List Bool Lia.
From Verif Require Import Common Case_Model Case_Spec Case_Proofs CaseLoad_Proofs.
Import ListNotations.

Definition knownb (d : str) : bool := streq d (lit "cpu") || streq d (lit "omp") || streq d (lit "cuda").
Lemma knownb_iff d : knownb d = true <-> knownDevice d.
Proof.
  unfold knownb, knownDevice. rewrite !orb_true_iff, !streq_iff. tauto.
Qed.

Fixpoint interp (path dev : str) (is : list item) : launch :=
  match is with
  | [] => Start path dev
  | IPath p :: t => interp p dev t
  | IHelp :: _ => Exit 2
  | IDevice d :: t => if knownb d then interp path d t else Abort
  | IOther _ :: t => interp path dev t
  end.

Lemma other_flags a : ~ isFlag a ->
  streq a (lit "-i") = false /\ streq a (lit "-h") = false /\
  streq a (lit "--device") = false /\ streq a (lit "-d") = false.
Proof.
  unfold isFlag. rewrite !streq_false. tauto.
Qed.

Lemma argLoop_cons path dev a t : argLoop path dev (a :: t) =
  match t with
  | nxt :: rest' =>
      if streq a (lit "-i") then argLoop nxt dev rest'
      else if streq a (lit "-h") then Exit 2
      else if streq a (lit "--device") || streq a (lit "-d") then
        if streq nxt (lit "cpu") || streq nxt (lit "omp") || streq nxt (lit "cuda")
        then argLoop path nxt rest'
        else Abort
      else argLoop path dev t
  | [] => if streq a (lit "-h") then Exit 2 else argLoop path dev t
  end.
Proof. destruct t; reflexivity. Qed.

Lemma argLoop_interp args is : reads args is -> forall path dev,
  argLoop path dev args = interp path dev is.
Proof.
  intros R. induction R as [| p t is R IH | t is R IH | f d t is F R IH | f F | a t is N R IH];
    intros path dev; rewrite ?argLoop_cons; cbn [interp].
  - reflexivity.
  - replace (streq (lit "-i") (lit "-i")) with true by reflexivity. apply IH.
  - destruct t; reflexivity.
  - destruct F as [-> | ->].
    + replace (streq (lit "-d") (lit "-i")) with false by reflexivity.
      replace (streq (lit "-d") (lit "-h")) with false by reflexivity.
      replace (streq (lit "--device") (lit "-d") || streq (lit "-d") (lit "-d")) with true by reflexivity.
      replace (streq (lit "-d") (lit "--device") || streq (lit "-d") (lit "-d")) with true by reflexivity.
      change (streq d (lit "cpu") || streq d (lit "omp") || streq d (lit "cuda")) with (knownb d).
      now rewrite IH.
    + replace (streq (lit "--device") (lit "-i")) with false by reflexivity.
      replace (streq (lit "--device") (lit "-h")) with false by reflexivity.
      replace (streq (lit "--device") (lit "--device") || streq (lit "--device") (lit "-d")) with true by reflexivity.
      change (streq d (lit "cpu") || streq d (lit "omp") || streq d (lit "cuda")) with (knownb d).
      now rewrite IH.
  - destruct F as [-> | [-> | ->]]; reflexivity.
  - destruct (other_flags a N) as (E1 & E2 & E3 & E4). rewrite E1, E2, E3, E4. cbn [orb].
    destruct t; apply IH.
Qed.

Lemma isFlag_dec a : isFlag a \/ ~ isFlag a.
Proof.
  unfold isFlag. destruct (list_eq_dec ascii_dec a (lit "-i")); [tauto|].
  destruct (list_eq_dec ascii_dec a (lit "-h")); [tauto|].
  destruct (list_eq_dec ascii_dec a (lit "-d")); [tauto|].
  destruct (list_eq_dec ascii_dec a (lit "--device")); tauto.
Qed.

Lemma reads_total args : exists is, reads args is.
Proof.
  remember (length args) as n eqn:L. assert (LE : (length args <= n)%nat) by lia. clear L.
  revert args LE. induction n as [|n IH]; intros args LE.
  - destruct args; [|cbn [length] in LE; lia]. exists []. constructor.
  - destruct args as [|a t]; [exists []; constructor|]. cbn [length] in LE.
    destruct (isFlag_dec a) as [F | N].
    + destruct F as [-> | [-> | [-> | ->]]].
      * destruct t as [|p t]; [eexists; apply r_lone; tauto|]. cbn [length] in LE.
        destruct (IH t) as (is & R); [lia|]. eexists. apply r_path. exact R.
      * destruct (IH t) as (is & R); [lia|]. eexists. apply r_help. exact R.
      * destruct t as [|p t]; [eexists; apply r_lone; tauto|]. cbn [length] in LE.
        destruct (IH t) as (is & R); [lia|]. eexists. apply r_dev; [tauto | exact R].
      * destruct t as [|p t]; [eexists; apply r_lone; tauto|]. cbn [length] in LE.
        destruct (IH t) as (is & R); [lia|]. eexists. apply r_dev; [tauto | exact R].
    + destruct (IH t) as (is & R); [lia|]. eexists. apply r_other; [exact N | exact R].
Qed.

(** Last value of a kind with a default. *)
Fixpoint lastP (p : str) (is : list item) : str :=
  match is with [] => p | IPath q :: t => lastP q t | _ :: t => lastP p t end.
Fixpoint lastD (d : str) (is : list item) : str :=
  match is with [] => d | IDevice q :: t => lastD q t | _ :: t => lastD d t end.

Lemma lastP_app p a b : lastP p (a ++ b) = lastP (lastP p a) b.
Proof. revert p. induction a as [|[] a IH]; intros q; cbn [app lastP]; auto. Qed.
Lemma lastD_app p a b : lastD p (a ++ b) = lastD (lastD p a) b.
Proof. revert p. induction a as [|[] a IH]; intros q; cbn [app lastD]; auto. Qed.
Lemma lastP_none p b : (forall q, ~ In (IPath q) b) -> lastP p b = p.
Proof.
  induction b as [|[q| |q|q] b IH]; intros H; cbn [lastP]; [reflexivity | | | |].
  - exfalso. apply (H q). now left.
  - apply IH. intros q Q. apply (H q). now right.
  - apply IH. intros r Q. apply (H r). now right.
  - apply IH. intros r Q. apply (H r). now right.
Qed.
Lemma lastD_none p b : (forall q, ~ In (IDevice q) b) -> lastD p b = p.
Proof.
  induction b as [|[q| |q|q] b IH]; intros H; cbn [lastD]; [reflexivity | | | |].
  - apply IH. intros r Q. apply (H r). now right.
  - apply IH. intros q Q. apply (H q). now right.
  - exfalso. apply (H q). now left.
  - apply IH. intros r Q. apply (H r). now right.
Qed.

Lemma lastP_split p is :
  (exists a b, is = a ++ IPath (lastP p is) :: b /\ forall q, ~ In (IPath q) b) \/
  (lastP p is = p /\ forall q, ~ In (IPath q) is).
Proof.
  revert p. induction is as [|i is IH]; intros p; [right; split; [reflexivity | intros q []]|].
  destruct (IH (match i with IPath q => q | _ => p end)) as [(a & b & E & N) | (E & N)].
  - left. exists (i :: a), b. split; [|exact N].
    destruct i; cbn [lastP app] in *; now rewrite <- E.
  - destruct i as [q| |q|q]; cbn [lastP]; rewrite E.
    + left. exists [], is. split; [reflexivity | exact N].
    + right. split; [reflexivity|]. intros r [R | R]; [discriminate R | now apply (N r)].
    + right. split; [reflexivity|]. intros r [R | R]; [discriminate R | now apply (N r)].
    + right. split; [reflexivity|]. intros r [R | R]; [discriminate R | now apply (N r)].
Qed.
Lemma lastD_split p is :
  (exists a b, is = a ++ IDevice (lastD p is) :: b /\ forall q, ~ In (IDevice q) b) \/
  (lastD p is = p /\ forall q, ~ In (IDevice q) is).
Proof.
  revert p. induction is as [|i is IH]; intros p; [right; split; [reflexivity | intros q []]|].
  destruct (IH (match i with IDevice q => q | _ => p end)) as [(a & b & E & N) | (E & N)].
  - left. exists (i :: a), b. split; [|exact N].
    destruct i; cbn [lastD app] in *; now rewrite <- E.
  - destruct i as [q| |q|q]; cbn [lastD]; rewrite E.
    + right. split; [reflexivity|]. intros r [R | R]; [discriminate R | now apply (N r)].
    + right. split; [reflexivity|]. intros r [R | R]; [discriminate R | now apply (N r)].
    + left. exists [], is. split; [reflexivity | exact N].
    + right. split; [reflexivity|]. intros r [R | R]; [discriminate R | now apply (N r)].
Qed.

Lemma lastPath_iff is p : lastPath is p <-> p = lastP [] is.
Proof.
  split.
  - intros [(a & b & -> & N) | (-> & N)].
    + rewrite lastP_app. cbn [lastP]. now rewrite lastP_none.
    + now rewrite lastP_none.
  - intros ->. unfold lastPath. destruct (lastP_split [] is) as [(a & b & E & N) | (E & N)].
    + left. now exists a, b.
    + right. now split.
Qed.
Lemma lastDevice_iff is d : lastDevice is d <-> d = lastD (lit "cpu") is.
Proof.
  split.
  - intros [(a & b & -> & N) | (-> & N)].
    + rewrite lastD_app. cbn [lastD]. now rewrite lastD_none.
    + now rewrite lastD_none.
  - intros ->. unfold lastDevice. destruct (lastD_split (lit "cpu") is) as [(a & b & E & N) | (E & N)].
    + left. now exists a, b.
    + right. now split.
Qed.

Lemma interp_pass is path dev t : (forall i, In i is -> ~ stops i) ->
  interp path dev (is ++ t) = interp (lastP path is) (lastD dev is) t.
Proof.
  revert path dev. induction is as [|[p| |d|a] is IH]; intros path dev H; cbn [app interp lastP lastD].
  - reflexivity.
  - apply IH. intros i I. apply H. now right.
  - exfalso. apply (H IHelp); [now left | now left].
  - destruct (knownb d) eqn:K.
    + apply IH. intros i I. apply H. now right.
    + exfalso. apply (H (IDevice d)); [now left|]. right. exists d. split; [reflexivity|].
      rewrite <- knownb_iff. congruence.
  - apply IH. intros i I. apply H. now right.
Qed.

Lemma first_stop (is : list item) :
  (forall i, In i is -> ~ stops i) \/
  exists a i b, is = a ++ i :: b /\ stops i /\ forall j, In j a -> ~ stops j.
Proof.
  induction is as [|i is IH]; [left; intros i []|].
  assert (D : stops i \/ ~ stops i).
  { destruct i as [p| |d|a]; unfold stops.
    - right. intros [H | (d & H & _)]; discriminate H.
    - left. now left.
    - destruct (knownb d) eqn:K.
      + right. intros [H | (d' & [= <-] & H)]; [discriminate H|]. apply H. now apply knownb_iff.
      + left. right. exists d. split; [reflexivity|]. rewrite <- knownb_iff. congruence.
    - right. intros [H | (d & H & _)]; discriminate H. }
  destruct D as [D | D].
  - right. exists [], i, is. repeat split; auto.
  - destruct IH as [IH | (a & j & b & -> & S & N)].
    + left. intros j [<- | J]; auto.
    + right. exists (i :: a), j, b. repeat split; auto. intros k [<- | K]; auto.
Qed.

Lemma launcher_sound args : launchSpec args (launcher args).
Proof.
  destruct (reads_total args) as (is & R). exists is. split; [exact R|].
  unfold launcher. destruct args as [|a0 t0]; [left; auto|].
  rewrite (argLoop_interp _ _ R). clear R.
  destruct (first_stop is) as [N | (a & i & b & -> & S & N)].
  - rewrite <- (app_nil_r is), (interp_pass is _ _ [] N), app_nil_r. cbn [interp].
    set (p := lastP [] is). set (d := lastD (lit "cpu") is).
    destruct (find (lit ".json") p) as [n|] eqn:F.
    + split; [exact N|]. split; [now apply lastPath_iff|]. split; [now apply lastDevice_iff|].
      apply find_some in F. destruct F as (x & y & -> & _). now exists x, y.
    + right. right. split; [reflexivity|]. split; [discriminate|]. split; [exact N|].
      exists p. split; [now apply lastPath_iff | now apply find_none].
  - rewrite (interp_pass a _ _ _ N). destruct S as [-> | (d & -> & K)]; cbn [interp].
    + right. left. split; [reflexivity|]. now exists a, b.
    + destruct (knownb d) eqn:KB; [apply knownb_iff in KB; contradiction|]. now exists a, d, b.
Qed.

Lemma launcher_unique args o : launchSpec args o -> launcher args = o.
Proof.
  intros (is & R & H). unfold launcher.
  destruct args as [|a0 t0].
  { inversion R; subst is. destruct o as [c| |p d].
    - destruct H as [[-> _] | [(-> & a & b & E & _) | (_ & NE & _)]];
        [reflexivity | destruct a; discriminate E | congruence].
    - destruct H as (a & d & b & E & _). destruct a; discriminate E.
    - destruct H as (_ & LP & _ & O). exfalso. apply lastPath_iff in LP. cbn [lastP] in LP. subst p.
      destruct O as (x & y & O). destruct x; discriminate O. }
  rewrite (argLoop_interp _ _ R). destruct o as [c| |p d].
  - destruct H as [[_ NE] | [(-> & a & b & -> & N) | (-> & _ & N & p & LP & O)]].
    + discriminate NE.
    + now rewrite (interp_pass a _ _ _ N).
    + rewrite <- (app_nil_r is), (interp_pass is _ _ [] N). cbn [interp].
      apply lastPath_iff in LP. rewrite <- LP. now rewrite find_not.
  - destruct H as (a & d & b & -> & K & N). rewrite (interp_pass a _ _ _ N). cbn [interp].
    destruct (knownb d) eqn:KB; [apply knownb_iff in KB; contradiction | reflexivity].
  - destruct H as (N & LP & LD & O). rewrite <- (app_nil_r is), (interp_pass is _ _ [] N). cbn [interp].
    apply lastPath_iff in LP. apply lastDevice_iff in LD. rewrite <- LP, <- LD.
    destruct (find_occurs _ _ O) as (n & ->). reflexivity.
Qed.

Lemma launcher_iff args o : launcher args = o <-> launchSpec args o.
Proof. split; [intros <-; apply launcher_sound | apply launcher_unique]. Qed.

(** A flag without its value is skipped in silence. *)
Lemma lone_ignored (args : list str) (f : str) : (f = lit "-i" \/ f = lit "-d" \/ f = lit "--device") ->
  (exists is, reads args is /\ reads (args ++ [f]) (is ++ [IOther f])) ->
  args <> [] -> launcher (args ++ [f]) = launcher args.
Proof.
  intros F (is & R1 & R2) NE.
  assert (I : forall p d, interp p d (is ++ [IOther f]) = interp p d is).
  { clear. induction is as [|[p'| |d'|a] is IH]; intros p d; cbn [app interp]; auto.
    destruct (knownb d'); auto. }
  unfold launcher. destruct args as [|a t]; [contradiction|]. cbn [app].
  change (a :: t ++ [f]) with ((a :: t) ++ [f]).
  rewrite (argLoop_interp _ _ R1), (argLoop_interp _ _ R2), I. reflexivity.
Qed.

(** ** Concrete cases *)
Definition exPath : str := lit "cases/1D_PEC//1D_PEC.json".
Definition exMesh : str := lit "cases/1D_PEC/1D_PEC.msh".
Definition exFs (p : str) : bool := streq p exMesh.

Lemma ex_accept : casePath (lit "cases/") (lit "1D_PEC") 2 exPath /\
  validateCaseNamingStyle exFs exPath (Some (lit "1D_PEC.msh")) = Ok tt /\
  caseMesh (lit "cases/") (lit "1D_PEC") = exMesh.
Proof.
  split; [|split; reflexivity]. split; [right; now exists (lit "cases")|].
  split; [split; [discriminate | apply notin_lit; reflexivity]|]. split; [lia | reflexivity].
Qed.
Lemma ex_reject :
  validateCaseNamingStyle exFs (lit "cases/other/1D_PEC.json") (Some (lit "1D_PEC.msh")) = Throw /\
  validateCaseNamingStyle exFs (lit "1D_PEC.json") (Some (lit "1D_PEC.msh")) = Throw /\
  validateCaseNamingStyle exFs exPath (Some (lit "1D_PEC/1D_PEC.msh")) = Throw /\
  validateCaseNamingStyle exFs exPath None = Throw.
Proof. repeat split. Qed.

(** The check passes on the mesh a.json.msh but another name is opened. *)
Lemma early_json : exists ex path m n parse,
  buildNames ex parse path false = Ok (m, n) /\
  (forall q, ex q = true <-> q = lit "a.json/a.json.msh") /\
  path = lit "a.json/a.json.json" /\ m = lit "a/a.json.json.msh".
Proof.
  exists (fun q => streq q (lit "a.json/a.json.msh")), (lit "a.json/a.json.json"),
    (lit "a/a.json.json.msh"), (lit "a.json"), (fun _ => Some (Some (lit "a.json.msh"))).
  split; [reflexivity|]. split; [intros q; apply streq_iff|]. split; reflexivity.
Qed.
Lemma mesh_in_name : exists ex path m n parse,
  buildNames ex parse path false = Ok (m, n) /\
  path = lit "a.mesh/a.mesh.json" /\ m = lit "a.mesh/a.mesh.msh.mesh" /\ ex m = false.
Proof.
  exists (fun q => streq q (lit "a.mesh/a.mesh.msh")), (lit "a.mesh/a.mesh.json"),
    (lit "a.mesh/a.mesh.msh.mesh"), (lit "a.mesh"), (fun _ => Some (Some (lit "a.mesh.msh"))).
  repeat split.
Qed.

(** A path such as x.json/run passes the launcher's own test, the check of names refuses it. *)
Lemma launcher_weaker :
  launcher [lit "-i"; lit "x.json/run"] = Start (lit "x.json/run") (lit "cpu") /\
  forall ex mf, validateCaseNamingStyle ex (lit "x.json/run") mf = Throw.
Proof. split; [reflexivity|]. intros ex mf. reflexivity. Qed.

Lemma ex_launch :
  launcher [lit "-i"; lit "a/a.json"; lit "--device"; lit "omp"; lit "-i"; lit "b/b.json"; lit "-v"]
    = Start (lit "b/b.json") (lit "omp") /\
  launcher [lit "-d"; lit "gpu"; lit "-h"] = Abort /\ launcher [lit "-h"; lit "-d"; lit "gpu"] = Exit 2 /\
  launcher [] = Exit 1 /\ launcher [lit "a/a.json"] = Exit 3.
Proof. repeat split. Qed.
Lemma ex_lone :
  launcher [lit "-i"; lit "a/a.json"; lit "-i"] = Start (lit "a/a.json") (lit "cpu") /\
  launcher [lit "-i"; lit "a/a.json"; lit "-d"] = Start (lit "a/a.json") (lit "cpu") /\
  launcher [lit "-i"; lit "-h"] = Exit 3.
Proof. repeat split. Qed.

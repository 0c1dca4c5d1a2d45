(** What a user of the case file relies on. *)
From Coq Require Import String List ZArith Reals.
From Verif Require Import Common Setup_Model Geo_Model Input_Model.
Import ListNotations.
Open Scope Z_scope.

(** The value an object holds under a key (its first one). *)
Definition given (j : json) (k : string) (v : json) : Prop :=
  exists l1 l2, j = JObj (l1 ++ (k, v) :: l2) /\ ~ In k (map fst l1).
Definition absent (j : json) (k : string) : Prop := forall v, ~ given j k v.

(** The values a JSON value may stand for. *)
Inductive number : json -> R -> Prop :=
| num_int : forall z, number (JInt z) (IZR z)
| num_real : forall r, number (JReal r) r.
Inductive truth : json -> bool -> Prop := truth_b : forall b, truth (JBool b) b.
(** An integer below a bound: a boolean, an integer taken modulo the size of the type, a
    floating number without its fractional part. *)
Inductive whole (lo hi : Z) : json -> Z -> Prop :=
| wh_bool : forall b, whole lo hi (JBool b) (Z.b2z b)
| wh_int : forall z n, (exists q, z = n + q * (hi - lo)) -> lo <= n < hi -> whole lo hi (JInt z) n
| wh_real : forall r n, lo <= n < hi ->
    ((0 <= r < IZR n + 1 /\ IZR n <= r)%R \/ (r < 0 /\ IZR n - 1 < r <= IZR n)%R) -> whole lo hi (JReal r) n.
Definition whole32 := whole (-2^31) (2^31).
Definition whole64 := whole 0 (2^64).
Inductive opName : json -> evop -> Prop :=
| op_m : opName (JStr "maxwell") OpMaxwell
| op_g : opName (JStr "global") OpGlobal
| op_h : opName (JStr "hesthaven") OpHesthaven.

(** The value given for a key or the default. *)
Definition optionIs {A} (conv : json -> A -> Prop) (j : json) (k : string) (d v : A) : Prop :=
  (exists x, given j k x /\ conv x v) \/ (absent j k /\ v = d).

Definition optionsFrom (so : json) (o : sopts) : Prop :=
  optionIs number so "upwind_alpha" 1%R (so_alpha o) /\
  optionIs number so "time_step" 0%R (so_dt o) /\
  optionIs number so "final_time" 2%R (so_tf o) /\
  optionIs number so "cfl" 1%R (so_cfl o) /\
  optionIs whole32 so "order" 2 (so_order o) /\
  optionIs truth so "spectral" false (so_spectral o) /\
  optionIs truth so "export_operator" false (so_export o) /\
  optionIs opName so "evolution_operator" OpGlobal (so_op o) /\
  optionIs whole32 so "basis_type" 1 (so_basis o) /\
  optionIs whole64 so "ode_type" 0 (so_ode o).
(** Without "solver_options" every option is a default one. *)
Definition optionsOf (c : json) (o : sopts) : Prop :=
  (exists so, given c "solver_options" so /\ optionsFrom so o) \/
  (absent c "solver_options" /\ optionsFrom (JObj []) o).
(** Every option given is of its type. *)
Definition fits {A} (conv : json -> A -> Prop) (j : json) (k : string) : Prop := forall x, given j k x -> exists v, conv x v.
Definition wellTyped (so : json) : Prop :=
  fits number so "upwind_alpha" /\ fits number so "time_step" /\ fits number so "final_time" /\ fits number so "cfl" /\
  fits whole32 so "order" /\ fits truth so "spectral" /\ fits truth so "export_operator" /\
  fits opName so "evolution_operator" /\ fits whole32 so "basis_type" /\ fits whole64 so "ode_type".
(** A floating value of a whole option is in the range of the type. *)
Definition realsFit (conv : json -> Z -> Prop) (j : json) (k : string) : Prop := forall r, given j k (JReal r) -> exists v, conv (JReal r) v.
Definition isObject (j : json) : Prop := exists l, j = JObj l.

(** ** Thin layers *)
(** The material of a layer: relative permittivity and permeability, one by default, and the
    conductivity in the units of the solver. *)
Record layerIn (j : json) (eps mu sigma width : R) : Prop := mkLI {
  li_eps : optionIs number j "relative_permittivity" 1%R eps;
  li_mu : optionIs number j "relative_permeability" 1%R mu;
  li_sigma : exists x, given j "bulk_conductivity" x /\ number x sigma;
  li_width : exists x, given j "material_width" x /\ number x width;
  li_phys : (1 <= eps /\ 1 <= mu /\ 0 <= sigma)%R }.
(** The wave length and the skin depth of a medium at a frequency, by their equations. *)
Definition isWavelength (f eps mu lam : R) : Prop :=
  (0 < lam /\ lam * lam * (f * f) * (mu * vacuumPermeabilitySI * (eps * vacuumPermittivitySI)) = 1)%R.
Definition isSkinDepth (f mu sigma d : R) : Prop :=
  (0 < d /\ d * d * (PI * f * (mu * vacuumPermeabilitySI) * sigma) = 1)%R.
(** A cell size that resolves the wave with 20 degrees of freedom (of which each cell holds
    as many as its order) and the skin depth with two cells. *)
Definition resolves (f eps mu sigma : R) (order : nat) (h : R) : Prop :=
  (forall lam, isWavelength f eps mu lam -> h * 20 <= lam * INR order)%R /\
  (forall d, (0 < sigma)%R -> isSkinDepth f mu sigma d -> h * 2 <= d)%R.

(** ** Markers *)
(** A list of cells, one for each attribute 1 .. n, set where [P] holds. *)
Definition marks (n : Z) (P : Z -> Prop) (mk : list Z) : Prop :=
  List.length mk = Z.to_nat n /\
  forall a, 1 <= a <= n -> exists v, nth_error mk (Z.to_nat (a - 1)) = Some v /\ (v = 0 \/ v = 1) /\ (v = 1 <-> P a).
(** A source or a boundary of the case: its type and its tags. *)
Definition entry (j : json) (ty : string) (tags : list Z) : Prop :=
  given j "type" (JStr ty) /\ given j "tags" (JArr (map JInt tags)) /\ Forall (fun t => 0 < t < 2^31) tags.
(** The marker of the surface made of the boundary elements of the partition whose attribute
    is one of the tags; none when there is no such element. *)
Definition surfaceOf (pm : pmesh) (tags : Z -> Prop) (m : option (list Z)) : Prop :=
  match m with
  | Some mk => (exists a, In a (pm_attrs pm) /\ tags a) /\ marks (pm_max pm) (fun a => In a (pm_attrs pm) /\ tags a) mk
  | None => forall a, In a (pm_attrs pm) -> ~ tags a
  end.
Definition meshOk (pm : pmesh) : Prop := Forall (fun a => 1 <= a <= pm_max pm) (pm_attrs pm).
Definition isTotalField (ty : string) : Prop := ty = "planewave"%string \/ ty = "dipole"%string.

(** ** The boundaries with thin layers *)
(** The elements a list of the case holds; nothing and an empty object count as empty lists. *)
Definition listOf (j : json) (l : list json) : Prop := j = JArr l \/ (l = [] /\ (j = JNull \/ j = JObj [])).
Definition tagsIs (conv : json -> Z -> Prop) (b : json) (tags : list Z) : Prop :=
  exists x l, given b "tags" x /\ listOf x l /\ Forall2 conv l tags.
Inductive endName : json -> cond -> Prop :=
| en_pec : endName (JStr "PEC") PEC
| en_pmc : endName (JStr "PMC") PMC
| en_sma : endName (JStr "SMA") SMA.
(** The condition an object asks for at one end. *)
Definition endAt (src : json) (k : string) (c : option cond) : Prop :=
  match c with
  | Some x => exists sb s, given src "sgbc_boundaries" sb /\ given sb k s /\ endName s x
  | None => forall sb, given src "sgbc_boundaries" sb -> absent sb k
  end.
(** The ends of a wall: those of the boundary; when it names none, those of its material. *)
Definition endsOf (b : json) (l r : option cond) : Prop :=
  (endAt b "left" l /\ endAt b "right" r /\ (l <> None \/ r <> None \/ absent b "material")) \/
  (endAt b "left" None /\ endAt b "right" None /\ exists m, given b "material" m /\ endAt m "left" l /\ endAt m "right" r).
(** The layers of a wall: those listed, in their order, or the single material. *)
Definition layersOf (f : R) (b : json) (ls : list slayer) : Prop :=
  (exists x, given b "layers" x /\ Forall2 (fun j L => parseSGBCLayer f j = Ok L) (jelems x) ls) \/
  (absent b "layers" /\ exists m L, given b "material" m /\ parseSGBCLayer f m = Ok L /\ ls = [L]).
Record wallOf (f : R) (b : json) (p : sprops) : Prop := mkWO {
  wo_tags : tagsIs whole64 b (sp_tags p);
  wo_layers : layersOf f b (sp_layers p);
  wo_ends : endsOf b (sp_left p) (sp_right p) }.
Definition sgbcB (b : json) : Prop := given b "type" (JStr "SGBC").
(** The elements of a list that satisfy a predicate, in order, paired with results. *)
Inductive selected {A B} (P : A -> Prop) (Q : A -> B -> Prop) : list A -> list B -> Prop :=
| sel_nil : selected P Q [] []
| sel_in : forall a b l r, P a -> Q a b -> selected P Q l r -> selected P Q (a :: l) (b :: r)
| sel_out : forall a l r, ~ P a -> selected P Q l r -> selected P Q (a :: l) r.

(** ** What the runner hands to the solver *)
(** A source or boundary that has a tag among the attributes of the partition. *)
Definition touches (pm : pmesh) (tags : list Z) : Prop := exists a, In a (pm_attrs pm) /\ In a tags.
(** The sources of a case: their JSON, types and tags. *)
Definition entriesOf (c : json) (k : string) (es : list (string * list Z)) : Prop :=
  exists l, given c k (JArr l) /\ Forall2 (fun j e => entry j (fst e) (snd e)) l es.
Definition caseOf (c : json) (srcs bdrs : list (string * list Z)) : Prop :=
  entriesOf c "sources" srcs /\ exists m, given c "model" m /\ entriesOf m "boundaries" bdrs.
(** The attributes of all the entries of some types. *)
Definition tagsOfAll (P : string -> Prop) (es : list (string * list Z)) (a : Z) : Prop := exists e, In e es /\ P (fst e) /\ In a (snd e).
(** The surface of the first total field source that touches the partition. *)
Inductive firstOf (pm : pmesh) : list (string * list Z) -> option (list Z) -> Prop :=
| fo_nil : firstOf pm [] None
| fo_here : forall ty tags es mk, isTotalField ty -> touches pm tags -> marks (pm_max pm) (fun a => In a (pm_attrs pm) /\ In a tags) mk ->
    firstOf pm ((ty, tags) :: es) (Some mk)
| fo_skip : forall ty tags es m, (~ isTotalField ty \/ ~ touches pm tags) -> firstOf pm es m -> firstOf pm ((ty, tags) :: es) m.


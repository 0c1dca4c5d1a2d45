(** The far-field tool. *)
From Coq Require Import String Ascii ZArith List Bool Reals Lia Lra.
From Verif Require Import Common Case_Model Case_Spec Case_Proofs CaseLoad_Proofs Rcs_Model Tool_Model Tool_Spec.
Import ListNotations.
Local Open Scope R_scope.

(** ** Arguments *)
Lemma toolArgs_cons : forall file a t, toolArgs file (a :: t) =
  match t with
  | nxt :: rest' => if streq a (lit "-i") then toolArgs nxt rest' else if streq a (lit "-h") then None else toolArgs file t
  | [] => if streq a (lit "-h") then None else toolArgs file t
  end.
Proof. intros. destruct t; reflexivity. Qed.
Lemma spells_total : forall args, exists ws, spells args ws.
Proof.
  intros args. remember (length args) as n eqn:L. assert (LE : (length args <= n)%nat) by lia. clear L. revert args LE.
  induction n as [|n IH]; intros [|a t] LE; try (exists []; constructor); cbn [length] in LE; [lia|].
  destruct (list_eq_dec ascii_dec a (lit "-i")) as [->|Ni].
  - destruct t as [|f t]; [eexists; apply sp_lone|]. destruct (IH t ltac:(cbn in LE; lia)) as (ws & H). exists (Input f :: ws). apply sp_input. exact H.
  - destruct (IH t ltac:(lia)) as (ws & H). destruct (list_eq_dec ascii_dec a (lit "-h")) as [->|Nh]; [exists (AskHelp :: ws); apply sp_help; exact H|exists (Ignored a :: ws); apply sp_other; assumption].
Qed.
Fixpoint lastOf (f : str) (ws : list word) : str := match ws with [] => f | Input g :: r => lastOf g r | _ :: r => lastOf f r end.
Lemma spells_args : forall args ws, spells args ws -> forall f,
  (In AskHelp ws -> toolArgs f args = None) /\ (~ In AskHelp ws -> toolArgs f args = Some (lastOf f ws)).
Proof.
  intros args ws H. induction H as [|g t ws H IH|t ws H IH| |a t ws Ni Nh H IH]; intros f; rewrite ?toolArgs_cons; cbn [lastOf].
  - split; [intros []|reflexivity].
  - replace (streq (lit "-i") (lit "-i")) with true by reflexivity. destruct (IH g) as (A & B). split; [intros [X|X]; [discriminate|exact (A X)]|intros X; apply B; intros Y; apply X; right; exact Y].
  - split; [intros _; destruct t; reflexivity|intros X; exfalso; apply X; left; reflexivity].
  - split; [intros [X|[]]; discriminate|intros _; reflexivity].
  - rewrite (proj2 (streq_false a (lit "-i")) Ni), (proj2 (streq_false a (lit "-h")) Nh). destruct (IH f) as (A & B).
    split; [intros [X|X]; [discriminate|]; destruct t; exact (A X)|intros X]. destruct t; apply B; intros Y; apply X; right; exact Y.
Qed.
Lemma lastOf_is : forall ws f, lastInput ws (lastOf f ws) \/ ((forall g, ~ In (Input g) ws) /\ lastOf f ws = f).
Proof.
  induction ws as [|w ws IH]; intros f; [right; split; [intros g []|reflexivity]|]. destruct w as [g| |a]; cbn [lastOf].
  - left. destruct (IH g) as [(a & b & E & N)|(N & E)].
    + exists (Input g :: a), b. split; [rewrite E at 1; reflexivity|exact N].
    + exists [], ws. rewrite E. split; [reflexivity|exact N].
  - destruct (IH f) as [(a & b & E & N)|(N & E)]; [left; exists (AskHelp :: a), b; split; [rewrite E at 1; reflexivity|exact N]|right; split; [intros g [X|X]; [discriminate|exact (N g X)]|exact E]].
  - destruct (IH f) as [(a' & b & E & N)|(N & E)]; [left; exists (Ignored a :: a'), b; split; [rewrite E at 1; reflexivity|exact N]|right; split; [intros g [X|X]; [discriminate|exact (N g X)]|exact E]].
Qed.

(** ** Paths *)
Fixpoint splitS (p : str) : list str :=
  match p with
  | [] => [[]]
  | a :: p => if ascii_dec a slash then [] :: splitS p else match splitS p with x :: r => (a :: x) :: r | [] => [[a]] end
  end.
Definition keep (c : str) : bool := negb (streq c []) && negb (streq c [dot]).
Definition partsF (p : str) : list str := filter keep (splitS p).
Lemma splitS_some : forall p, exists x r, splitS p = x :: r.
Proof. intros [|a p]; [exists [], []; reflexivity|]. cbn [splitS]. destruct (ascii_dec a slash); [eexists; eexists; reflexivity|]. destruct (splitS p); eexists; eexists; reflexivity. Qed.
Lemma splitS_app : forall a b, splitS (a ++ slash :: b) = splitS a ++ splitS b.
Proof.
  induction a as [|x a IH]; intros b; cbn [app splitS].
  - destruct (ascii_dec slash slash); [reflexivity|contradiction].
  - destruct (ascii_dec x slash); [rewrite IH; reflexivity|]. rewrite IH. destruct (splitS_some a) as (y & r & ->). reflexivity.
Qed.
Lemma splitS_no : forall c, ~ In slash c -> splitS c = [c].
Proof.
  induction c as [|x c IH]; intros N; [reflexivity|]. cbn [splitS]. destruct (ascii_dec x slash) as [->|Ne]; [exfalso; apply N; left; reflexivity|]. rewrite IH; [reflexivity|]. intros X. apply N. right. exact X.
Qed.
Lemma partsF_app : forall a b, partsF (a ++ slash :: b) = partsF a ++ partsF b.
Proof. intros a b. unfold partsF. rewrite splitS_app. apply filter_app. Qed.
Lemma partsF_no : forall c, c <> [] -> ~ In slash c -> partsF c = if list_eq_dec ascii_dec c [dot] then [] else [c].
Proof.
  intros c N S. unfold partsF. rewrite (splitS_no c S). cbn [filter]. unfold keep. rewrite (proj2 (streq_false c []) N). cbn [negb andb]. unfold streq. destruct (list_eq_dec ascii_dec c [dot]); reflexivity.
Qed.
Lemma parts_F : forall p l, parts p l -> l = partsF p.
Proof.
  intros p l H. induction H as [|p l H IH|c N S|c p l N S H IH].
  - reflexivity.
  - rewrite IH. exact (eq_sym (partsF_app [] p)).
  - symmetry. exact (partsF_no c N S).
  - rewrite partsF_app, <- IH, (partsF_no c N S). destruct (list_eq_dec ascii_dec c [dot]); reflexivity.
Qed.
Lemma first_sep : forall p : str, (~ In slash p) \/ exists c q, p = c ++ slash :: q /\ ~ In slash c.
Proof.
  induction p as [|a p IH]; [left; intros []|]. destruct (ascii_dec a slash) as [->|Ne]; [right; exists [], p; split; [reflexivity|intros []]|].
  destruct IH as [N|(c & q & -> & N)]; [left; intros [X|X]; [congruence|exact (N X)]|right; exists (a :: c), q; split; [reflexivity|intros [X|X]; [congruence|exact (N X)]]].
Qed.
Lemma F_parts : forall p, parts p (partsF p).
Proof.
  intros p. remember (length p) as n eqn:L. assert (LE : (length p <= n)%nat) by lia. clear L. revert p LE.
  induction n as [|n IH]; intros p LE; [destruct p; [constructor|cbn in LE; lia]|].
  destruct (first_sep p) as [N|(c & q & -> & N)].
  - destruct p as [|a p]; [constructor|]. rewrite partsF_no by (discriminate || exact N). apply pt_last; [discriminate|exact N].
  - rewrite app_length in LE. cbn [length] in LE. rewrite partsF_app. destruct c as [|a c]; [exact (pt_sep q _ (IH q ltac:(lia)))|].
    rewrite partsF_no by (discriminate || exact N). pose proof (pt_comp (a :: c) q (partsF q) ltac:(discriminate) N (IH q ltac:(cbn in LE; lia))) as X. destruct (list_eq_dec ascii_dec (a :: c) [dot]); exact X.
Qed.
Theorem parts_one : forall p, exists l, parts p l /\ forall l', parts p l' -> l' = l.
Proof. intros p. exists (partsF p). split; [apply F_parts|apply parts_F]. Qed.
Lemma dataPath_F : forall mode c name, partsF (dataPath mode c name) = lit "Exports" :: partsF mode ++ partsF c ++ lit "RCSSurface" :: partsF name.
Proof.
  intros mode c name. assert (E : dataPath mode c name = lit "./Exports" ++ slash :: mode ++ slash :: c ++ slash :: lit "RCSSurface" ++ slash :: name ++ slash :: []) by reflexivity.
  rewrite E, !partsF_app. change (partsF []) with (@nil str). rewrite app_nil_r. change (partsF (lit "./Exports")) with [lit "Exports"]. change (partsF (lit "RCSSurface")) with [lit "RCSSurface"]. reflexivity.
Qed.
Lemma exportBase_F : forall tag c name, partsF (exportBase tag c name) = partsF (dataPath tag c name).
Proof.
  intros tag c name. rewrite dataPath_F. assert (E : exportBase tag c name = lit "Exports" ++ slash :: tag ++ slash :: c ++ slash :: lit "RCSSurface" ++ slash :: name) by reflexivity.
  rewrite E, !partsF_app. change (partsF (lit "Exports")) with [lit "Exports"]. change (partsF (lit "RCSSurface")) with [lit "RCSSurface"]. reflexivity.
Qed.
Lemma json_part : forall c, ~ In slash c -> partsF (c ++ lit ".json") = [c ++ lit ".json"].
Proof.
  intros c N. assert (Ne : c ++ lit ".json" <> []) by (destruct c; discriminate). rewrite partsF_no; [|exact Ne|].
  - destruct (list_eq_dec ascii_dec (c ++ lit ".json") [dot]) as [E|]; [|reflexivity]. apply (f_equal (@length ascii)) in E. rewrite app_length in E. cbn in E. lia.
  - intros X. apply in_app_or in X. destruct X as [X|X]; [exact (N X)|exact (nosl_jext X)].
Qed.
Lemma caseJson_F : forall c, ~ In slash c -> partsF (caseJson c) = lit "testData" :: lit "maxwellInputs" :: partsF c ++ [c ++ lit ".json"].
Proof.
  intros c N. assert (E : caseJson c = lit "./testData/maxwellInputs" ++ slash :: c ++ slash :: c ++ lit ".json") by reflexivity.
  rewrite E, !partsF_app, json_part by exact N. reflexivity.
Qed.

(** ** Requests *)
Lemma sweep_ok : forall r, sweeps r (sweep r).
Proof.
  intros [a b n]. unfold sweeps, sweep, sweepAt. cbn [rg_start rg_end rg_steps]. destruct n as [|[|n]]; cbn [linspace].
  - split; [reflexivity|]. intros i Hi. lia.
  - split; [reflexivity|]. intros [|i] Hi; [reflexivity|lia].
  - split; [rewrite map_length, seq_length; reflexivity|]. intros i Hi. change (S (S n) =? 1)%nat with false. cbv iota.
    set (g := fun i => a + INR i * ((b - a) / INR (S (S n) - 1))). change (nth i (map g (seq 0 (S (S n)))) 0 = g i).
    rewrite (nth_indep _ 0 (g 0%nat)) by (rewrite map_length, seq_length; exact Hi). rewrite map_nth, seq_nth by exact Hi. reflexivity.
Qed.
Lemma angles_at : forall ts ps, length (angleList ts ps) = (length ts * length ps)%nat /\ forall i k, (i < length ts)%nat -> (k < length ps)%nat ->
  nth (i * length ps + k) (angleList ts ps) (0, 0) = (nth i ts 0, nth k ps 0).
Proof.
  intros ts ps. unfold angleList, angle. induction ts as [|t ts (L & IH)]; [split; [reflexivity|]; intros i k Hi; cbn in Hi; lia|]. cbn [flat_map length]. split; [rewrite app_length, map_length, L; lia|].
  intros [|i] k Hi Hk.
  - cbn [Nat.mul Nat.add nth]. rewrite app_nth1 by (rewrite map_length; exact Hk). rewrite (nth_indep _ (0, 0) (t, 0)) by (rewrite map_length; exact Hk). rewrite (map_nth (fun p => (t, p))). reflexivity.
  - rewrite app_nth2 by (rewrite map_length; lia). rewrite map_length. replace (S i * length ps + k - length ps)%nat with (i * length ps + k)%nat by lia. cbn [nth]. apply IH; [lia|exact Hk].
Qed.
Lemma job_asked : forall q n, asks q n (jobOf q n).
Proof.
  intros q n. unfold asks, jobOf. cbn [j_path j_case j_freqs j_angles j_max]. repeat split.
  - intros a b Ha Hb c Hc. rewrite (parts_F _ _ Ha), (parts_F _ _ Hb), (parts_F _ _ Hc), <- dataPath_F. apply F_parts.
  - intros b Hb N. rewrite (parts_F _ _ Hb), <- caseJson_F by exact N. apply F_parts.
  - apply sweep_ok.
  - apply sweep_ok.
  - exists (sweep (q_theta q)), (sweep (q_phi q)). destruct (sweep_ok (q_theta q)) as (L1 & S1), (sweep_ok (q_phi q)) as (L2 & S2). destruct (angles_at (sweep (q_theta q)) (sweep (q_phi q))) as (A & B). rewrite L1, L2 in *. repeat split; assumption.
Qed.
Lemma loop_carries : forall works q l jobs b, probeLoop works q l = (jobs, b) -> exists done, Forall2 (asks q) done jobs /\
  ((b = true /\ l = map Some done /\ Forall (fun j => works j = true) jobs) \/
   (b = false /\ (exists r, l = map Some done ++ None :: r) /\ Forall (fun j => works j = true) jobs) \/
   (b = false /\ (exists r, l = map Some done ++ r) /\ exists js j, jobs = js ++ [j] /\ Forall (fun j => works j = true) js /\ works j = false)).
Proof.
  intros works q l. induction l as [|[n|] l IH]; intros jobs b E; cbn [probeLoop] in E.
  - injection E as <- <-. exists []. split; [constructor|]. left. repeat split. constructor.
  - destruct (works (jobOf q n)) eqn:W.
    + injection E as <- <-. destruct (IH _ _ (surjective_pairing _)) as (dn & F & H). exists (n :: dn). split; [constructor; [apply job_asked|exact F]|].
      destruct H as [(B & -> & G)|[(B & (r & ->) & G)|(B & (r & ->) & js & j & Ej & G & Wj)]].
      * left. repeat split; [exact B|]. constructor; assumption.
      * right. left. split; [exact B|]. split; [exists r; reflexivity|]. constructor; assumption.
      * right. right. split; [exact B|]. split; [exists r; reflexivity|]. exists (jobOf q n :: js), j. split; [rewrite Ej; reflexivity|]. split; [constructor; assumption|exact Wj].
    + injection E as <- <-. exists [n]. split; [constructor; [apply job_asked|constructor]|]. right. right. split; [reflexivity|]. split; [exists l; reflexivity|]. exists [], (jobOf q n). repeat split; [constructor|exact W].
  - injection E as <- <-. exists []. split; [constructor|]. right. left. split; [reflexivity|]. split; [exists l; reflexivity|constructor].
Qed.
Lemma run_carries : forall requests cases works f, carries requests cases works f (if snd (runRCS requests cases works f) then Status 0 else Thrown) (fst (runRCS requests cases works f)).
Proof.
  intros requests cases works f. unfold carries, runRCS. destruct (requests f) as [q|]; [|split; reflexivity].
  change (lit "./testData/maxwellInputs/" ++ q_case q ++ lit "/" ++ q_case q ++ lit ".json") with (caseJson (q_case q)).
  destruct (cases (caseJson (q_case q))) as [[l|]|]; [|split; reflexivity|split; reflexivity].
  destruct (probeLoop works q l) as [jobs b] eqn:E. cbn [fst snd]. destruct (loop_carries works q l jobs b E) as (dn & F & H). exists dn. split; [exact F|].
  destruct H as [(-> & A)|[(-> & A)|(-> & A)]]; [left|right; left|right; right]; (split; [reflexivity|exact A]).
Qed.
Theorem tool_does : forall requests cases works args o jobs, rcsMain requests cases works args = (o, jobs) -> toolSpec requests cases works args o jobs.
Proof.
  intros requests cases works args o jobs E. destruct (spells_total args) as (ws & Sp). exists ws. split; [exact Sp|]. destruct (spells_args args ws Sp []) as (A & B).
  unfold rcsMain in E. destruct args as [|a args]; [injection E as <- <-; left; repeat split|]. right.
  assert (D : In AskHelp ws \/ ~ In AskHelp ws). { clear. induction ws as [|w ws IH]; [right; intros []|]. destruct w; [| left; left; reflexivity|]; (destruct IH as [X|X]; [left; right; exact X|right; intros [Y|Y]; [discriminate|exact (X Y)]]). }
  destruct D as [D|D]; [rewrite (A D) in E; injection E as <- <-; left; repeat split; exact D|]. rewrite (B D) in E. right. destruct (lastOf_is ws []) as [L|(N & L)].
  - destruct (lastOf [] ws) as [|x f]; [injection E as <- <-; left; repeat split; [exact D|right; exact L]|]. cbv zeta in E. injection E as <- <-.
    right. split; [exact D|]. exists (x :: f). split; [discriminate|]. split; [exact L|]. apply run_carries.
  - rewrite L in E. injection E as <- <-. left. repeat split; [exact D|left; exact N].
Qed.

(** ** The run and the tool *)
Lemma case_of : forall P c k d, casePath P c k (caseJson d) -> caseName d -> c = d.
Proof.
  intros P c k d (HP & (Nc & Sc) & Hk & E) (Nd & Sd). destruct k as [|k]; [lia|].
  assert (E1 : stem (caseJson d) = d). { assert (X : caseJson d = (lit "./testData/maxwellInputs/" ++ d) ++ slash :: d ++ jext) by (unfold caseJson; rewrite <- app_assoc; reflexivity). rewrite X. apply stem_json; assumption. }
  assert (R : forall m, repeat slash (S m) = repeat slash m ++ [slash]). { clear. induction m as [|m IH]; [reflexivity|]. cbn [repeat app] in *. rewrite <- IH. reflexivity. }
  assert (E2 : stem (caseJson d) = c). { rewrite E, R. replace (P ++ c ++ (repeat slash k ++ [slash]) ++ c ++ lit ".json") with ((P ++ c ++ repeat slash k) ++ slash :: c ++ jext) by (rewrite <- !app_assoc; reflexivity). apply stem_json; assumption. }
  congruence.
Qed.
Theorem tool_finds : forall ex parse d m n name q, caseName d ->
  buildNames ex parse (caseJson d) false = Ok (m, n) -> q_case q = d ->
  j_case (jobOf q name) = caseJson d /\ forall l, parts (exportBase (q_mode q) n name) l <-> parts (j_path (jobOf q name)) l.
Proof.
  intros ex parse d m n name q Hd Hb Hq. destruct (built ex parse (caseJson d) m n Hb) as (P' & c & k & Hc & _ & _ & -> & _).
  pose proof (case_of P' c k d Hc Hd) as ->. unfold jobOf. cbn [j_case j_path]. rewrite Hq. split; [reflexivity|].
  intros l. split; intros H; apply parts_F in H; rewrite H; [rewrite exportBase_F|rewrite <- exportBase_F]; apply F_parts.
Qed.

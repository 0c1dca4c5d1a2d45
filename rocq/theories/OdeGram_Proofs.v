(** The certificates of the classical Runge-Kutta method and of SDIRK33. *)
From Coq Require Import ZArith List Bool Reals Lia Lra.
From Verif Require Import Common Ode_Model OdeRk_Proofs.
Import ListNotations.
Local Open Scope R_scope.

Lemma diag : forall g : nat -> nat -> R, (forall l, 0 <= lsum l 0 (fun i => lsum l 0 (fun j => g i j))) -> forall i, 0 <= g i i.
Proof.
  intros g P i. specialize (P (repeat 0 i ++ [1])).
  assert (Z : forall m k h, lsum (repeat 0 m ++ [1]) k h = h (k + m)%nat).
  { induction m as [|m IH]; intros k h; cbn [repeat app lsum]; [rewrite Nat.add_0_r; ring|]. rewrite IH. replace (Datatypes.S k + m)%nat with (k + Datatypes.S m)%nat by lia. ring. }
  rewrite !Z in P. exact P.
Qed.
Lemma pair : forall g : nat -> nat -> R, (forall i j, g i j = g j i) -> (forall l, 0 <= lsum l 0 (fun i => lsum l 0 (fun j => g i j))) ->
  forall i u, 0 <= g (Datatypes.S i) (Datatypes.S i) + 2 * u * g (Datatypes.S i) i + u * u * g i i.
Proof.
  intros g Sym P i u. specialize (P (repeat 0 i ++ [u; 1])).
  assert (Z : forall m k h, lsum (repeat 0 m ++ [u; 1]) k h = u * h (k + m)%nat + h (Datatypes.S (k + m))).
  { induction m as [|m IH]; intros k h; cbn [repeat app lsum]; [rewrite Nat.add_0_r; ring|]. rewrite IH. replace (Datatypes.S k + m)%nat with (k + Datatypes.S m)%nat by lia. ring. }
  rewrite !Z in P. cbn [Nat.add] in P. rewrite (Sym i (Datatypes.S i)) in P. lra.
Qed.
Lemma low : forall g : nat -> nat -> R, (forall i j, g i j = g j i) -> (forall l, 0 <= lsum l 0 (fun i => lsum l 0 (fun j => g i j))) ->
  (forall i, g (Datatypes.S i) (Datatypes.S i) <= 1 / 16 * g i i) -> forall i, - 2 * g (Datatypes.S i) i <= 1 / 2 * g i i.
Proof. intros g Sym P K i. pose proof (pair g Sym P i (1 / 4)). specialize (K i). lra. Qed.

Lemma two_steps : forall g : nat -> nat -> R, (forall i j, g i j = g j i) ->
  (forall l, lsum l 0 (fun i => lsum l 0 (fun j => g i (Datatypes.S j))) <= 0) -> (forall l, 0 <= lsum l 0 (fun i => lsum l 0 (fun j => g i j))) ->
  (forall i, g (Datatypes.S i) (Datatypes.S i) <= 1 / 16 * g i i) ->
  lsum [(1); (2); (2); (4 / 3); (2 / 3); (1 / 4); (5 / 72); (1 / 72); (1 / 576)] 0 (fun i => lsum [(1); (2); (2); (4 / 3); (2 / 3); (1 / 4); (5 / 72); (1 / 72); (1 / 576)] 0 (fun j => g i j)) <= g 0%nat 0%nat.
Proof.
  intros g Sym D P K.
  pose proof (D [(1); (1); (2 / 3); (1 / 3); (1 / 8); (5 / 144); (1 / 144); (1 / 1152)]) as D0.
  pose proof (D [(0); (1); (1); (5 / 8); (13 / 48); (1 / 12); (7 / 384); (1 / 384)]) as D1.
  pose proof (D [(0); (0); (1); (3 / 2); (1); (19 / 48); (5 / 48); (1 / 48)]) as D2.
  pose proof (D [(0); (0); (0); (1 / 4); (- (1)); (0); (0); (0)]) as D34.
  pose proof (D [(0); (0); (0); (1 / 16); (0); (- (1)); (0); (0)]) as D35.
  pose proof (D [(0); (0); (0); (1 / 64); (0); (0); (- (1)); (0)]) as D36.
  pose proof (D [(0); (0); (0); (1 / 256); (0); (0); (0); (- (1))]) as D37.
  pose proof (D [(0); (0); (0); (0); (1 / 4); (- (1)); (0); (0)]) as D45.
  pose proof (D [(0); (0); (0); (0); (1 / 16); (0); (- (1)); (0)]) as D46.
  pose proof (D [(0); (0); (0); (0); (1 / 64); (0); (0); (- (1))]) as D47.
  pose proof (D [(0); (0); (0); (0); (0); (1 / 4); (- (1)); (0)]) as D56.
  pose proof (D [(0); (0); (0); (0); (0); (0); (1 / 4); (1)]) as D67.
  pose proof (low g Sym P K 0) as A0.
  pose proof (low g Sym P K 1) as A1.
  pose proof (low g Sym P K 2) as A2.
  pose proof (low g Sym P K 3) as A3.
  pose proof (low g Sym P K 4) as A4.
  pose proof (low g Sym P K 5) as A5.
  pose proof (low g Sym P K 6) as A6.
  pose proof (low g Sym P K 7) as A7.
  pose proof (K 0%nat) as K0.
  pose proof (K 1%nat) as K1.
  pose proof (K 2%nat) as K2.
  pose proof (K 3%nat) as K3.
  pose proof (K 4%nat) as K4.
  pose proof (K 5%nat) as K5.
  pose proof (K 6%nat) as K6.
  pose proof (K 7%nat) as K7.
  pose proof (diag g P 0) as A.
  pose proof (diag g P 8) as A'.
  clear D P K. cbn [lsum] in *.
  rewrite ?(Sym 1 0)%nat, ?(Sym 2 0)%nat, ?(Sym 2 1)%nat, ?(Sym 3 0)%nat, ?(Sym 3 1)%nat, ?(Sym 3 2)%nat, ?(Sym 4 0)%nat, ?(Sym 4 1)%nat, ?(Sym 4 2)%nat, ?(Sym 4 3)%nat, ?(Sym 5 0)%nat, ?(Sym 5 1)%nat, ?(Sym 5 2)%nat, ?(Sym 5 3)%nat, ?(Sym 5 4)%nat, ?(Sym 6 0)%nat, ?(Sym 6 1)%nat, ?(Sym 6 2)%nat, ?(Sym 6 3)%nat, ?(Sym 6 4)%nat, ?(Sym 6 5)%nat, ?(Sym 7 0)%nat, ?(Sym 7 1)%nat, ?(Sym 7 2)%nat, ?(Sym 7 3)%nat, ?(Sym 7 4)%nat, ?(Sym 7 5)%nat, ?(Sym 7 6)%nat, ?(Sym 8 0)%nat, ?(Sym 8 1)%nat, ?(Sym 8 2)%nat, ?(Sym 8 3)%nat, ?(Sym 8 4)%nat, ?(Sym 8 5)%nat, ?(Sym 8 6)%nat, ?(Sym 8 7)%nat in *. clear Sym.
  set (g00 := g 0%nat 0%nat) in *. clearbody g00.
  set (g01 := g 0%nat 1%nat) in *. clearbody g01.
  set (g02 := g 0%nat 2%nat) in *. clearbody g02.
  set (g03 := g 0%nat 3%nat) in *. clearbody g03.
  set (g04 := g 0%nat 4%nat) in *. clearbody g04.
  set (g05 := g 0%nat 5%nat) in *. clearbody g05.
  set (g06 := g 0%nat 6%nat) in *. clearbody g06.
  set (g07 := g 0%nat 7%nat) in *. clearbody g07.
  set (g08 := g 0%nat 8%nat) in *. clearbody g08.
  set (g11 := g 1%nat 1%nat) in *. clearbody g11.
  set (g12 := g 1%nat 2%nat) in *. clearbody g12.
  set (g13 := g 1%nat 3%nat) in *. clearbody g13.
  set (g14 := g 1%nat 4%nat) in *. clearbody g14.
  set (g15 := g 1%nat 5%nat) in *. clearbody g15.
  set (g16 := g 1%nat 6%nat) in *. clearbody g16.
  set (g17 := g 1%nat 7%nat) in *. clearbody g17.
  set (g18 := g 1%nat 8%nat) in *. clearbody g18.
  set (g22 := g 2%nat 2%nat) in *. clearbody g22.
  set (g23 := g 2%nat 3%nat) in *. clearbody g23.
  set (g24 := g 2%nat 4%nat) in *. clearbody g24.
  set (g25 := g 2%nat 5%nat) in *. clearbody g25.
  set (g26 := g 2%nat 6%nat) in *. clearbody g26.
  set (g27 := g 2%nat 7%nat) in *. clearbody g27.
  set (g28 := g 2%nat 8%nat) in *. clearbody g28.
  set (g33 := g 3%nat 3%nat) in *. clearbody g33.
  set (g34 := g 3%nat 4%nat) in *. clearbody g34.
  set (g35 := g 3%nat 5%nat) in *. clearbody g35.
  set (g36 := g 3%nat 6%nat) in *. clearbody g36.
  set (g37 := g 3%nat 7%nat) in *. clearbody g37.
  set (g38 := g 3%nat 8%nat) in *. clearbody g38.
  set (g44 := g 4%nat 4%nat) in *. clearbody g44.
  set (g45 := g 4%nat 5%nat) in *. clearbody g45.
  set (g46 := g 4%nat 6%nat) in *. clearbody g46.
  set (g47 := g 4%nat 7%nat) in *. clearbody g47.
  set (g48 := g 4%nat 8%nat) in *. clearbody g48.
  set (g55 := g 5%nat 5%nat) in *. clearbody g55.
  set (g56 := g 5%nat 6%nat) in *. clearbody g56.
  set (g57 := g 5%nat 7%nat) in *. clearbody g57.
  set (g58 := g 5%nat 8%nat) in *. clearbody g58.
  set (g66 := g 6%nat 6%nat) in *. clearbody g66.
  set (g67 := g 6%nat 7%nat) in *. clearbody g67.
  set (g68 := g 6%nat 8%nat) in *. clearbody g68.
  set (g77 := g 7%nat 7%nat) in *. clearbody g77.
  set (g78 := g 7%nat 8%nat) in *. clearbody g78.
  set (g88 := g 8%nat 8%nat) in *. clearbody g88.
  lra.
Qed.
Lemma one_step : forall g : nat -> nat -> R, (forall i j, g i j = g j i) ->
  (forall l, lsum l 0 (fun i => lsum l 0 (fun j => g i (Datatypes.S j))) <= 0) -> (forall l, 0 <= lsum l 0 (fun i => lsum l 0 (fun j => g i j))) ->
  (forall i, g (Datatypes.S i) (Datatypes.S i) <= 1 / 16 * g i i) ->
  lsum [(1); (1); (1 / 2); (1 / 6); (1 / 24)] 0 (fun i => lsum [(1); (1); (1 / 2); (1 / 6); (1 / 24)] 0 (fun j => g i j)) <= 10001 / 10000 * g 0%nat 0%nat.
Proof.
  intros g Sym D P K.
  pose proof (D [(1); (1 / 2); (1 / 6); (1 / 24)]) as D0.
  pose proof (D [(0); (1); (1 / 2); (1 / 4)]) as D1.
  pose proof (D [(0); (0); (1 / 4); (1)]) as D23.
  pose proof (low g Sym P K 0) as A0.
  pose proof (low g Sym P K 1) as A1.
  pose proof (low g Sym P K 2) as A2.
  pose proof (low g Sym P K 3) as A3.
  pose proof (K 0%nat) as K0.
  pose proof (K 1%nat) as K1.
  pose proof (K 2%nat) as K2.
  pose proof (K 3%nat) as K3.
  pose proof (diag g P 0) as A.
  pose proof (diag g P 4) as A'.
  clear D P K. cbn [lsum] in *.
  rewrite ?(Sym 1 0)%nat, ?(Sym 2 0)%nat, ?(Sym 2 1)%nat, ?(Sym 3 0)%nat, ?(Sym 3 1)%nat, ?(Sym 3 2)%nat, ?(Sym 4 0)%nat, ?(Sym 4 1)%nat, ?(Sym 4 2)%nat, ?(Sym 4 3)%nat in *. clear Sym.
  set (g00 := g 0%nat 0%nat) in *. clearbody g00.
  set (g01 := g 0%nat 1%nat) in *. clearbody g01.
  set (g02 := g 0%nat 2%nat) in *. clearbody g02.
  set (g03 := g 0%nat 3%nat) in *. clearbody g03.
  set (g04 := g 0%nat 4%nat) in *. clearbody g04.
  set (g11 := g 1%nat 1%nat) in *. clearbody g11.
  set (g12 := g 1%nat 2%nat) in *. clearbody g12.
  set (g13 := g 1%nat 3%nat) in *. clearbody g13.
  set (g14 := g 1%nat 4%nat) in *. clearbody g14.
  set (g22 := g 2%nat 2%nat) in *. clearbody g22.
  set (g23 := g 2%nat 3%nat) in *. clearbody g23.
  set (g24 := g 2%nat 4%nat) in *. clearbody g24.
  set (g33 := g 3%nat 3%nat) in *. clearbody g33.
  set (g34 := g 3%nat 4%nat) in *. clearbody g34.
  set (g44 := g 4%nat 4%nat) in *. clearbody g44.
  lra.
Qed.

(** The certificate of SDIRK33: weights and combinations. *)
Lemma sdirk33_certificate : forall p1 p2 p3 q11 q12 q13 q22 q23 q33 : R,
  (forall l1 l2 l3,
  l1 * l1 * (p1 + a33 * q11) + l1 * l2 * (p2 + a33 * q12) + l1 * l3 * (p3 + a33 * q13) +
  l2 * l1 * (p1 + (c33 - a33) * q11 + a33 * q12) + l2 * l2 * (p2 + (c33 - a33) * q12 + a33 * q22) + l2 * l3 * (p3 + (c33 - a33) * q13 + a33 * q23) +
  l3 * l1 * (p1 + b33 * q11 + (1 - a33 - b33) * q12 + a33 * q13) + l3 * l2 * (p2 + b33 * q12 + (1 - a33 - b33) * q22 + a33 * q23) + l3 * l3 * (p3 + b33 * q13 + (1 - a33 - b33) * q23 + a33 * q33) <= 0) ->
  (forall l1 l2 l3, 0 <= l1 * l1 * q11 + 2 * l1 * l2 * q12 + 2 * l1 * l3 * q13 + l2 * l2 * q22 + 2 * l2 * l3 * q23 + l3 * l3 * q33) ->
  2 * (b33 * p1 + (1 - a33 - b33) * p2 + a33 * p3) + b33 * b33 * q11 + 2 * b33 * (1 - a33 - b33) * q12 + 2 * b33 * a33 * q13 +
  (1 - a33 - b33) * (1 - a33 - b33) * q22 + 2 * (1 - a33 - b33) * a33 * q23 + a33 * a33 * q33 <= 0.
Proof.
  intros p1 p2 p3 q11 q12 q13 q22 q23 q33 D P. unfold a33, b33, c33 in *.
  pose proof (D 1 (- (366143561020744133021945617711104 / 465965326806481412189044161342557)) (121419867519733350542903107286611 / 465965326806481412189044161342557)) as D1.
  pose proof (D 0 1 (- (2810621564266720728296635551359063980891836424793587917816333465 / 9320304924756590547633231677615600794987847018207543643174780547))) as D2.
  pose proof (D 0 0 1) as D3.
  pose proof (P 1 (- (13528849616890415490601978306253426827804018752943538970995768743 / 10331874024023884293191375555371407530729629591781805129824619180)) (3196975592866531197410602750882019297074389161161733841171149563 / 10331874024023884293191375555371407530729629591781805129824619180)) as P1.
  pose proof (P 0 1 (-1)) as P2.
  pose proof (P 0 0 1) as P3. clear D P.
  apply (Rmult_le_compat_l (465965326806481412189044161342557 / 91535890255186033255486404427776)) in D1; [|lra].
  apply (Rmult_le_compat_l (9320304924756590547633231677615600794987847018207543643174780547 / 10663137754319995353141476525709564168388120016021628827880914944)) in D2; [|lra].
  apply (Rmult_le_compat_l (17882040219672758827041473102474327349814706804163894292279503310581871896996397 / 41974921786113179949515365687650125793318040932872373128845984856897739462541312)) in D3; [|lra].
  apply (Rmult_le_compat_l (677776026793623586359667134859673180866762231655 / 549654668325709913841338095015370443912567062528)) in P1; [|lra].
  apply (Rmult_le_compat_l (5449078679577767011282678108387120077350588503742995622125742943303781874598944451203290093535233103039052078237433547520804311 / 86568904494163340845870745613839344962743959640598161043778107899486833216720391910899581480135972539971865187308432185874186240)) in P2; [|lra].
  apply (Rmult_le_compat_l (1796714099383771 / 40564819207303340847894502572032)) in P3; [|lra].
  rewrite Rmult_0_r in *. lra.
Qed.

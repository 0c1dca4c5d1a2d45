(** Proofs for C41: the exact pairs of the far-field surface in space. *)
From Coq Require Import ZArith List Bool Reals Lia Lra.
From Verif Require Import Common Sub_Model Sub_Spec Sub_Proofs SubGeo_Proofs SubSide_Proofs.
Import ListNotations.
Local Open Scope Z_scope.

Lemma orientation_triple : forall m be f e1 e2 b1 b2 vs i j k v0 v1 v2, m_dim m = 3 -> beside m be f e1 e2 -> 0 <= e2 -> isBary m e1 b1 -> isBary m e2 b2 ->
  zget (m_fverts m) f = Ok vs -> cornerOf vs i j k -> zget (m_coord m) i = Ok v0 -> zget (m_coord m) j = Ok v1 -> zget (m_coord m) k = Ok v2 ->
  faceOrientation m be = Ok (triple b1 b2 v0 v1 v2).
Proof.
  intros m be f e1 e2 b1 b2 vs i j k v0 v1 v2 D [b [Hb [<- Hf]]] G B1 B2 Hv C H0 H1 H2. unfold faceOrientation. rewrite D. cbn [Z.eqb Pos.eqb].
  assert (BV : baryVector m be = Ok (psub b2 b1)).
  { unfold baryVector, faceTrans. rewrite Hb. cbn [bind]. rewrite Hf. cbn [bind]. rewrite (bary_ok _ _ _ B1). cbn [bind]. destruct (Z.leb_spec 0 e2); [|lia]. rewrite (bary_ok _ _ _ B2). reflexivity. }
  assert (NV : normal3D m be = Ok (pcross (psub v1 v0) (psub v2 v0))).
  { unfold normal3D, faceVertex. rewrite Hb. cbn [bind]. rewrite Hv. cbn [bind].
    destruct C as [->|[h ->]]; cbn [length Nat.eqb];
      [change (zget [i; j; k] 0) with (Ok i); change (zget [i; j; k] 1) with (Ok j); change (zget [i; j; k] 2) with (Ok k)
      |change (zget [i; j; h; k] 0) with (Ok i); change (zget [i; j; h; k] 1) with (Ok j); change (zget [i; j; h; k] 3) with (Ok k)];
      cbn [bind]; rewrite H0; cbn [bind]; rewrite H1; cbn [bind]; rewrite H2; reflexivity. }
  rewrite BV. cbn [bind]. rewrite NV. cbn [bind]. f_equal.
  destruct b1 as [[? ?] ?], b2 as [[? ?] ?], v0 as [[? ?] ?], v1 as [[? ?] ?], v2 as [[? ?] ?]. cbn [psub pcross pdot triple]. ring.
Qed.
Lemma F2_impl : forall {A B} (P Q : A -> B -> Prop), (forall a b, P a b -> Q a b) -> forall l r, Forall2 P l r -> Forall2 Q l r.
Proof. intros A B P Q H l r F. induction F; constructor; auto. Qed.
Lemma ntff_space : forall m marker attrs, wfMesh m -> wfGeo m -> covers m marker -> m_dim m = 3 -> length attrs = length (m_everts m) -> marked m marker <> [] ->
  exists a ps, ntffSubMesher m marker attrs = Ok (a, ps) /\ Forall2 (spacePair m) (marked m marker) ps.
Proof.
  intros m marker attrs W G C D La NE. destruct (ntff_ok m marker attrs W G C (or_intror D) La NE) as (a & ps & E & F). exists a, ps. split; [exact E|].
  revert F. apply F2_impl. intros be p [f [e1 [e2 [l1 [HB [L1 H]]]]]] f' e1' e2' HB'. destruct (beside_fun _ _ _ _ _ _ _ _ HB HB') as [<- [<- <-]]. rewrite D in H. cbn [Z.eqb Pos.eqb] in H.
  destruct H as [[G2 [l2 [L2 ->]]]|[G2 ->]]; cbn [fst snd]; (split; [intros Q; try lia; auto|intros Q; try lia]).
  split; [exact L2|]. intros b1 b2 vs i j k v0 v1 v2 B1 B2 Hv Cn H0 H1 H2.
  unfold neg. rewrite (orientation_triple m be f e1 e2 b1 b2 vs i j k v0 v1 v2 D HB G2 B1 B2 Hv Cn H0 H1 H2).
  destruct (Rle_dec 0 (triple b1 b2 v0 v1 v2)); split; intros T; try reflexivity; lra.
Qed.

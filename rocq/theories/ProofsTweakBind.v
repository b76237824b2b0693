(** Proofs of the theorems of PropertiesTweakBind.v. *)
From Coq Require Import String List.
From Verif Require Import Bytes BytesFacts Prims PrimsFacts TaggedHashes Errors SpecTags SpecBIP327
  KeyAgg SpecCtx Toy ToyData ToyFork.
Import ListNotations.
Open Scope list_scope.
Open Scope Z_scope.
From Coq Require Import Lia Bool.
From Verif Require Import CodecFacts KeyAggFacts SpecFacts.
Open Scope Z_scope.

Section TweakBind.
Context {Pr : prims} {Laws : prims_ok Pr}.
Add Ring fring_tb : (fe_ring_theory (n := @ord Pr)).
(** The point a tweak is added to. *)
Definition tweak_start (c : key_agg_ctx Pr) (xonly : bool) : pt := if xonly && pt_odd (aggregated_pubkey c) then pt_neg (aggregated_pubkey c) else aggregated_pubkey c.
Lemma tweak_key c (t : scalar Pr) xonly c' : with_tweak c t xonly = Ok c' -> pval (aggregated_pubkey c') = pt_add (tweak_start c xonly) (gmul t).
Proof.
  unfold tweak_start, with_tweak, with_xonly_tweak, with_plain_tweak, aggregated_pubkey. destruct xonly; cbn [andb]; [destruct (pt_odd (pubkey c)); cbn [negb]|];
    (destruct (not_inf _) as [Q|] eqn:N; [|discriminate]; intro H; injection H as <-; cbn [pubkey ctx_update]; apply not_inf_Some in N; symmetry); [|exact N | exact N].
  etransitivity; [|exact N]. unfold psub. apply add_comm.
Qed.
Lemma tweak_gives c (t : scalar Pr) xonly : pt_add (tweak_start c xonly) (gmul t) <> pt_O -> exists c', with_tweak c t xonly = Ok c'.
Proof.
  unfold tweak_start, with_tweak, with_xonly_tweak, with_plain_tweak, aggregated_pubkey. destruct xonly; cbn [andb]; [destruct (pt_odd (pubkey c)); cbn [negb]|]; intro H;
    (destruct (not_inf _) as [Q|] eqn:N; [eexists; reflexivity | exfalso; apply not_inf_None in N; apply H; rewrite <- N]); [|reflexivity | reflexivity].
  unfold psub. apply add_comm.
Qed.
End TweakBind.

Section C108_tweak_to_any_key.
Context {Pr : prims}.
Add Ring ring_C108_tweak_to_any_key : (fe_ring_theory (n := @ord Pr)).
Lemma C108_tweak_to_any_key_proof {Laws : prims_ok Pr} (c : key_agg_ctx Pr) (Q : point Pr) (xonly : bool) :
  let start := if xonly && pt_odd (aggregated_pubkey c) then pt_neg (aggregated_pubkey c) else aggregated_pubkey c in
  (pval Q <> start -> exists (t : scalar Pr) (c' : key_agg_ctx Pr), with_tweak c t xonly = Ok c' /\ aggregated_pubkey c' = Q /\
     (forall t' c'', with_tweak c t' xonly = Ok c'' -> aggregated_pubkey c'' = Q -> t' = t) /\
     (forall d e, start = point_mul pt_G d -> pval Q = point_mul pt_G e -> fz t = (e - d) mod n_)) /\
  (pval Q = start -> forall t c', with_tweak c t xonly = Ok c' -> aggregated_pubkey c' <> Q).
Proof.
  cbv zeta. fold (tweak_start c xonly). set (P := tweak_start c xonly).
  assert (DL : forall P0 : @pt Pr, exists k : mscalar Pr, P0 = gmul k) by (intro; apply dlog).
  split.
  - intro NE. destruct (DL P) as [d HP], (DL Q) as [e HQ]. assert (NZ : fsub e d <> fzero) by (intro Z; apply NE; rewrite HP, HQ; f_equal; replace e with (fadd (fsub e d) d) by ring; rewrite Z; ring).
    destruct (not_zero (fsub e d)) as [t|] eqn:T; [|apply not_zero_None in T; contradiction]. apply not_zero_Some in T.
    assert (E : pt_add P (gmul t) = pval Q) by (rewrite HP, <- T, HQ, <- gmul_add; f_equal; ring).
    destruct (tweak_gives c t xonly) as [c' C]; [fold P; rewrite E; apply point_fin|]. pose proof (tweak_key c t xonly c' C) as K. fold P in K.
    exists t, c'. split; [exact C|]. split; [apply point_ext; rewrite K; exact E|]. split.
    + intros t' c'' C' EQ. apply tweak_key in C'. fold P in C'. rewrite EQ, <- E in C'. apply add_cancel_l, gmul_inj in C'. apply scalar_ext. symmetry. exact C'.
    + intros d' e' HD HE. rewrite point_mul_Z in HD, HE. change (pmul (of_Z ord d') pt_G) with (@gmul Pr (of_Z ord d')) in HD. change (pmul (of_Z ord e') pt_G) with (@gmul Pr (of_Z ord e')) in HE.
      rewrite HP in HD. rewrite HQ in HE. apply gmul_inj in HD, HE. rewrite <- T, HD, HE. rewrite <- of_Z_sub. apply fz_of_Z.
  - intros EQ t c' C H. apply tweak_key in C. fold P in C. rewrite H, EQ in C. rewrite <- (add_O_r P) in C at 1. apply add_cancel_l in C. rewrite <- gmul_0 in C. apply gmul_inj in C. apply (scalar_nz t). symmetry. exact C.
Qed.
End C108_tweak_to_any_key.

Lemma C108_bound_to_tweak_refuted_proof :
  exists (pks pks' : list (point Toy)) (t t' : scalar Toy) (c0 c0' c c' : key_agg_ctx Toy),
    key_agg_new pks = Ok c0 /\ key_agg_new pks' = Ok c0' /\ with_tweak c0 t false = Ok c /\ with_tweak c0' t' false = Ok c' /\
    pks <> pks' /\ t <> t' /\ aggregated_pubkey c = aggregated_pubkey c'.
Proof.
  exists [tpt 3; tpt 5], [tpt 4; tpt 3], (tsc 2), (tsc 30).
  assert (X : match key_agg_new [tpt 3; tpt 5] with Ok c => pt_eqb (aggregated_pubkey c) (pval (tpt 30)) | _ => false end = true) by (vm_compute; reflexivity).
  assert (X' : match key_agg_new [tpt 4; tpt 3] with Ok c => pt_eqb (aggregated_pubkey c) (pval (tpt 2)) | _ => false end = true) by (vm_compute; reflexivity).
  destruct (key_agg_new [tpt 3; tpt 5]) as [c0| |]; [|discriminate X | discriminate X]. destruct (key_agg_new [tpt 4; tpt 3]) as [c0'| |]; [|discriminate X' | discriminate X']. apply pt_eqb_eq in X as K. apply pt_eqb_eq in X' as K'. clear X X'.
  assert (A : pt_add (pval (tpt 30)) (gmul (tsc 2)) = pval (tpt 1)) by (apply pt_eqb_eq; vm_compute; reflexivity).
  assert (A' : pt_add (pval (tpt 2)) (gmul (tsc 30)) = pval (tpt 1)) by (apply pt_eqb_eq; vm_compute; reflexivity).
  destruct (tweak_gives c0 (tsc 2) false) as [c C]; [unfold tweak_start; cbn [andb]; rewrite K, A; apply point_fin|].
  destruct (tweak_gives c0' (tsc 30) false) as [c' C']; [unfold tweak_start; cbn [andb]; rewrite K', A'; apply point_fin|].
  exists c0, c0', c, c'. split; [reflexivity|]. split; [reflexivity|]. split; [exact C|]. split; [exact C'|]. split; [|split].
  - intro H. assert (X : pt_eqb (pval (tpt 3)) (pval (tpt 4)) = false) by (vm_compute; reflexivity). injection H as H1 _. rewrite H1, (proj2 (pt_eqb_eq _ _) eq_refl) in X. discriminate X.
  - intro H. assert (X : Z.eqb (fz (sval (tsc 2))) (fz (sval (tsc 30))) = false) by (vm_compute; reflexivity). rewrite H, Z.eqb_refl in X. discriminate X.
  - apply point_ext. rewrite (tweak_key _ _ _ _ C), (tweak_key _ _ _ _ C'). unfold tweak_start. cbn [andb]. rewrite K, K', A, A'. reflexivity.
Qed.

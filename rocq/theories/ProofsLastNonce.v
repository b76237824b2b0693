(** Proofs of the theorems of PropertiesLastNonce.v. *)
From Coq Require Import String List.
From Verif Require Import Bytes BytesFacts Prims PrimsFacts TaggedHashes Errors SpecTags SpecBIP327
  KeyAgg Nonces Toy ToyData ToyFork.
Import ListNotations.
Open Scope list_scope.
Open Scope Z_scope.
From Coq Require Import Lia Bool Permutation.
From Verif Require Import CodecFacts KeyAggFacts SpecFacts NoncesFacts.
Open Scope Z_scope.

Section LastNonce.
Context {Pr : prims} {Laws : prims_ok Pr}.
Lemma fill_gap (P s : @pt Pr) : P <> s -> exists D : point Pr, pt_add s D = P.
Proof.
  intro NE. destruct (not_inf (psub P s)) as [D|] eqn:N.
  - apply not_inf_Some in N. exists D. rewrite <- N. unfold psub. rewrite (add_comm P), <- add_assoc, add_neg_r, add_O_l. reflexivity.
  - apply not_inf_None in N. exfalso. apply NE. apply (add_cancel_l (pt_neg s)). unfold psub in N. rewrite (add_comm _ P), N, (add_comm _ s), add_neg_r. reflexivity.
Qed.
Lemma agg_sum_last (l : list (pub_nonce Pr)) pn : agg_sum (l ++ [pn]) = AggNonce (pt_add (aR1 (agg_sum l)) (pR1 pn)) (pt_add (aR2 (agg_sum l)) (pR2 pn)).
Proof. unfold agg_sum. cbn [aR1 aR2]. rewrite !map_app, !psum_app. unfold psum at 2 4. cbn [map fold_left fold_right]. rewrite ?add_O_l, ?add_O_r. reflexivity. Qed.
Lemma agg_sum_perm (l l' : list (pub_nonce Pr)) : Permutation l l' -> agg_sum l = agg_sum l'.
Proof. intro H. unfold agg_sum. f_equal; apply psum_perm, Permutation_map, H. Qed.
End LastNonce.

Section C109_last_chooses.
Context {Pr : prims}.
Add Ring ring_C109_last_chooses : (fe_ring_theory (n := @ord Pr)).
Lemma C109_last_chooses_proof {Laws : prims_ok Pr} (others : list (pub_nonce Pr)) (an : agg_nonce Pr) :
  (aR1 an <> aR1 (agg_sum others) -> aR2 an <> aR2 (agg_sum others) ->
     exists pn : pub_nonce Pr, (forall before after, others = before ++ after -> agg_sum (before ++ pn :: after) = an) /\
       (forall pn', agg_sum (others ++ [pn']) = an -> pn' = pn)) /\
  (aR1 an = aR1 (agg_sum others) \/ aR2 an = aR2 (agg_sum others) -> forall pn, agg_sum (others ++ [pn]) <> an).
Proof.
  destruct an as [A B]. cbn [aR1 aR2]. split.
  - intros H1 H2. destruct (fill_gap _ _ H1) as [D1 E1], (fill_gap _ _ H2) as [D2 E2]. exists (PubNonce D1 D2). split.
    + intros b a ->. rewrite (agg_sum_perm (b ++ PubNonce D1 D2 :: a) ((b ++ a) ++ [PubNonce D1 D2])), agg_sum_last by (rewrite <- app_assoc; apply Permutation_app_head, Permutation_cons_append).
      cbn [pR1 pR2]. rewrite E1, E2. reflexivity.
    + intros [D1' D2'] H. rewrite agg_sum_last in H. cbn [pR1 pR2] in H. injection H as F1 F2. rewrite <- E1 in F1. rewrite <- E2 in F2. apply add_cancel_l in F1, F2. apply point_ext in F1, F2. rewrite F1, F2. reflexivity.
  - intros O [D1 D2] H. rewrite agg_sum_last in H. cbn [pR1 pR2] in H. injection H as F1 F2.
    destruct O as [O|O]; [rewrite O in F1; rename F1 into F; apply (point_fin D1) | rewrite O in F2; rename F2 into F; apply (point_fin D2)];
      (eapply add_cancel_l; rewrite add_O_r; exact F).
Qed.
End C109_last_chooses.

Section C109_last_fixes_nonce.
Context {Pr : prims}.
Add Ring ring_C109_last_fixes_nonce : (fe_ring_theory (n := @ord Pr)).
Lemma C109_last_fixes_nonce_proof {Laws : prims_ok Pr} (others : list (pub_nonce Pr)) (R : point Pr)
  (H1 : pval R <> aR1 (agg_sum others)) (H2 : aR2 (agg_sum others) <> pt_O) :
  exists pn : pub_nonce Pr, forall (Q : point Pr) (msg : bytes),
    let an := agg_sum (others ++ [pn]) in final_nonce an (nonce_coefficient an Q msg) = R.
Proof.
  destruct (C109_last_chooses_proof others (AggNonce (pval R) pt_O)) as [E _]. destruct E as (pn & E & _); [exact H1 | intro X; apply H2; symmetry; exact X|].
  exists pn. intros Q msg. cbv zeta. rewrite (E others []) by (symmetry; apply app_nil_r). unfold final_nonce. cbn [aR1 aR2]. rewrite pmul_O, add_O_r.
  rewrite not_inf_point. reflexivity.
Qed.
End C109_last_fixes_nonce.

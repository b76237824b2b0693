(** Proofs of the theorems of PropertiesAgreement.v. *)
From Coq Require Import String List.
From Verif Require Import Bytes BytesFacts Prims PrimsFacts TaggedHashes Errors SpecTags SpecBIP327
  KeyAgg Nonces Signature Signing SigAgg Bip340 Rounds SpecCtx SpecView SpecSession SpecRounds
  Toy ToyData ToyRounds.
Import ListNotations.
Open Scope list_scope.
Open Scope nat_scope.
From Coq Require Import Arith Lia.
From Verif Require Import CodecFacts KeyAggFacts SigningFacts SignatureFacts SpecFacts SpecSigning SessionFacts Bip340Facts RoundsFacts
  ProofsSigning ProofsRounds.
Open Scope list_scope.
Open Scope nat_scope.

Section C67_one_signature_per_session.
Context {Pr : prims}.
Add Ring ring_C67_one_signature_per_session : (fe_ring_theory (n := @ord Pr)).
Lemma C67_one_signature_per_session_proof {Laws : prims_ok Pr} {Tags : tags_ok Pr} (c c' : key_agg_ctx Pr) (an : agg_nonce Pr) (T : pt) (sigs sigs' : list (mscalar Pr)) (msg : bytes) (Hkey : aggregated_pubkey c' = aggregated_pubkey c) :
  (forall g g', aggregate_partial_adaptor_signatures c an T sigs msg = Ok g ->
     aggregate_partial_adaptor_signatures c' an T sigs' msg = Ok g' -> g' = g) /\
  (forall l l', aggregate_partial_signatures c an sigs msg = Ok l ->
     aggregate_partial_signatures c' an sigs' msg = Ok l' -> l' = l).
Proof.
  assert (K : forall T g g', aggregate_partial_adaptor_signatures c an T sigs msg = Ok g ->
     aggregate_partial_adaptor_signatures c' an T sigs' msg = Ok g' -> g' = g).
  { clear T. intros T g g' H H'. apply aggregate_Ok_iff in H as [-> E], H' as [-> E']. unfold aggregated_pubkey in Hkey.
    assert (ER : sess_R c' an msg = sess_R c an msg) by (unfold sess_R, sess_b; rewrite Hkey; reflexivity).
    assert (EA : sess_A c' an T msg = sess_A c an T msg) by (unfold sess_A; rewrite ER; reflexivity).
    assert (Ee : sess_e c' an T msg = sess_e c an T msg) by (unfold sess_e; rewrite EA, Hkey; reflexivity).
    rewrite ER, EA, Ee, Hkey in E'. rewrite <- E in E'. apply gmul_inj in E'. rewrite ER, E'. reflexivity. }
  split; [apply K|]. intros l l' H H'. unfold aggregate_partial_signatures in H, H'.
  destruct (aggregate_partial_adaptor_signatures c an pt_O sigs msg) as [g| |] eqn:E; try discriminate.
  destruct (aggregate_partial_adaptor_signatures c' an pt_O sigs' msg) as [g'| |] eqn:E'; try discriminate.
  rewrite (K _ _ _ E E') in H'. cbn [bind] in H, H'. congruence.
Qed.
End C67_one_signature_per_session.

Section C67_signers_agree.
Context {Pr : prims}.
Add Ring ring_C67_signers_agree : (fe_ring_theory (n := @ord Pr)).
Lemma C67_signers_agree_proof {Laws : prims_ok Pr} {Tags : tags_ok Pr} (r0 r0' : second_round Pr) (calls calls' : list (nat * mscalar Pr)) (Hr : sr_started r0) (Hr' : sr_started r0') (Hkey : aggregated_pubkey (sr_ctx r0') = aggregated_pubkey (sr_ctx r0)) (Han : aggregated_nonce r0' = aggregated_nonce r0) (HT : sr_adaptor r0' = sr_adaptor r0) (Hm : sr_message r0' = sr_message r0) :
  let r := fst (sr_run r0 calls) in
  let r' := fst (sr_run r0' calls') in
  (forall g g', sr_finalize_adaptor r = Ok g -> sr_finalize_adaptor r' = Ok g' -> g' = g) /\
  (forall l l', sr_finalize r = Ok l -> sr_finalize r' = Ok l' -> l' = l) /\
  (sr_holdouts r = [] -> sr_holdouts r' = [] ->
     (forall ours, our_signature r0 = Ok ours -> sr_valid r0 (sr_index r0) ours) ->
     (forall ours, our_signature r0' = Ok ours -> sr_valid r0' (sr_index r0') ours) ->
     sr_finalize_adaptor r' = sr_finalize_adaptor r /\ sr_finalize r' = sr_finalize r).
Proof.
  intros r r'.
  destruct (@C30_second_finalize_proof Pr Laws Tags r0 calls Hr) as (_ & _ & F & _).
  destruct (@C30_second_finalize_proof Pr Laws Tags r0' calls' Hr') as (_ & _ & F' & _). fold r in F. fold r' in F'.
  apply started_sr in Hr as (Hwf & sk & sn & _ & _ & Hok & _). apply started_sr in Hr' as (Hwf' & sk' & sn' & _ & _ & Hok' & _).
  set (ours := psig_value _ _ _ _ _ _) in Hok. set (ours' := psig_value _ _ _ _ _ _) in Hok'.
  assert (A : agg_sum (sr_pubnonces r0') = agg_sum (sr_pubnonces r0)).
  { destruct Hok as (_ & _ & E & _), Hok' as (_ & _ & E' & _). unfold aggregated_nonce in Han. congruence. }
  destruct (sr_aggregates r0 ours calls Hwf Hok) as [HI HC]. destruct (sr_aggregates r0' ours' calls' Hwf' Hok') as [HI' HC'].
  fold r in HI, HC. fold r' in HI', HC'.
  assert (K : forall g g', sr_finalize_adaptor r = Ok g -> sr_finalize_adaptor r' = Ok g' -> g' = g).
  { intros g g' H H'.
    destruct (sr_holdouts r) as [|h hs]; [|rewrite HI in H by discriminate; discriminate].
    destruct (sr_holdouts r') as [|h hs]; [|rewrite HI' in H' by discriminate; discriminate].
    destruct (HC eq_refl) as (sigs & E & _). destruct (HC' eq_refl) as (sigs' & E' & _). rewrite E in H. rewrite E', A, HT, Hm in H'.
    destruct (aggregate_partial_adaptor_signatures (sr_ctx r0) _ _ sigs _) as [g1| |] eqn:G; try discriminate.
    destruct (aggregate_partial_adaptor_signatures (sr_ctx r0') _ _ sigs' _) as [g2| |] eqn:G'; try discriminate.
    cbn [map_err] in H, H'. assert (g1 = g) by congruence. assert (g2 = g') by congruence. subst g1 g2.
    exact (proj1 (@C67_one_signature_per_session_proof Pr Laws Tags _ _ _ _ _ _ _ Hkey) g g' G G'). }
  split; [exact K|]. split.
  - intros l l' H H'. unfold sr_finalize in H, H'.
    destruct (sr_finalize_adaptor r) as [g| |]; try discriminate. destruct (sr_finalize_adaptor r') as [g'| |]; try discriminate.
    rewrite (K g g' eq_refl eq_refl) in H'. congruence.
  - intros Hh Hh' O O'. specialize (F Hh O). specialize (F' Hh' O'). destruct F as [F1 F2], F' as [F1' F2'].
    assert (ER : spec_R_raw (sr_ctx r0') (agg_sum (sr_pubnonces r0')) (sr_message r0') = spec_R_raw (sr_ctx r0) (agg_sum (sr_pubnonces r0)) (sr_message r0)).
    { rewrite !spec_R_raw_eq, A, Hm. unfold raw_nonce, sess_b, aggregated_pubkey in *. rewrite Hkey. reflexivity. }
    rewrite ER in F1', F2'. set (R := spec_R_raw _ _ _) in *.
    assert (E : sr_finalize_adaptor r' = sr_finalize_adaptor r).
    { destruct (pt_eqb R pt_O) eqn:EO.
      - apply pt_eqb_eq in EO. rewrite F2, F2' by exact EO. reflexivity.
      - assert (HO : R <> pt_O) by (intro EE; rewrite EE in EO; assert (pt_eqb pt_O pt_O = true) by (apply pt_eqb_eq; reflexivity); congruence).
        destruct (F1 HO) as (g & G & _), (F1' HO) as (g' & G' & _). rewrite G, G', (K g g' G G'). reflexivity. }
    split; [exact E|]. unfold sr_finalize. rewrite E. reflexivity.
Qed.
End C67_signers_agree.

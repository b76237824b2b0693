(** Proofs of the theorems of PropertiesSecp.v. *)
From Coq Require Import String List Znumtheory.
From Verif Require Import Bytes BytesFacts Prims PrimsFacts Errors TaggedHashes Sha256 SpecTags SpecBIP327
  KeyAgg Nonces Signature Signing SigAgg Bip340 Rounds SpecCtx SpecSecp SpecSession SpecRounds Secp256k1 SecpFacts ProofsKeyAgg.
Import ListNotations.
Open Scope list_scope.
Open Scope Z_scope.
From Coq Require Import Lia.
From Verif Require Import Cyclic ProofsSigning ProofsBip340 ProofsRounds.
Open Scope Z_scope.

Lemma digests_distinct : NoDup [KEYAGG_LIST_TAG_DIGEST; KEYAGG_COEFF_TAG_DIGEST; MUSIG_AUX_TAG_DIGEST; MUSIG_NONCE_TAG_DIGEST;
  MUSIG_NONCECOEF_TAG_DIGEST; BIP0340_AUX_TAG_DIGEST; BIP0340_NONCE_TAG_DIGEST; BIP0340_CHALLENGE_TAG_DIGEST;
  BIP0340_BATCH_TAG_DIGEST; TAPROOT_TWEAK_TAG_DIGEST].
Proof.
  repeat constructor; cbn [In]; intro H; repeat destruct H as [H|H]; try exact H; apply (f_equal (firstn 2)) in H; vm_compute in H; discriminate.
Qed.
Lemma tagged_py r D tag m : @sha256 (Secp r) (ascii_bytes tag) = D -> @tagged (Secp r) D m = py_tagged_hash tag m.
Proof. intros <-. reflexivity. Qed.

Lemma py_mul_enc P k : 0 <= k < py_n -> py_point_mul (enc P) k = enc (szmul k P).
Proof. intro H. apply enc_mul. pose proof py_n_small. lia. Qed.
Lemma szmul_n P : szmul py_n P = spt_O.
Proof.
  destruct (secp_gen P) as [k ->]. rewrite <- (zm zmul_mul), Z.mul_comm, (zm zmul_mul), py_n_pos, secp_G_ord. apply (zm zmul_e).
Qed.
Lemma szmul_mod k P : szmul (k mod py_n) P = szmul k P.
Proof.
  rewrite (Z.div_mod k py_n) at 2 by discriminate. rewrite (zm zmul_add), Z.mul_comm, (zm zmul_mul), szmul_n, (zm zmul_e), spt_add_O. reflexivity.
Qed.

(** A context for the single key G. *)
Lemma one_key_coeff r : negb (fz (compute_key_aggregation_coefficient (Pr := Secp r) (hash_pubkeys (Pr := Secp r) [gen_point]) gen_point None) =? 0) = true.
Proof. vm_compute. reflexivity. Qed.
Lemma one_key_gen {Pr : prims} {Laws : prims_ok Pr} (P : point Pr) :
  negb (fz (compute_key_aggregation_coefficient (hash_pubkeys [P]) P None) =? 0) = true ->
  exists c : key_agg_ctx Pr, key_agg_new [P] = Ok c.
Proof.
  intro Hz. apply negb_true_iff, Z.eqb_neq in Hz. unfold key_agg_new. cbv zeta.
  match goal with |- context [u32_max <? ?x] => change (u32_max <? x) with false end. cbv iota.
  change (second_pubkey [P]) with (@None (point Pr)). cbn [map].
  destruct (not_inf _) as [Q|] eqn:E; [eexists; reflexivity|]. exfalso.
  apply not_inf_None in E. unfold psum in E. cbn [fold_left] in E. rewrite add_O_l in E.
  apply pmul_eq_O in E as [E|E]; [|exact (point_fin P E)]. apply Hz. rewrite E. reflexivity.
Qed.
Lemma one_key r : exists c : key_agg_ctx (Secp r), key_agg_new [gen_point] = Ok c.
Proof. exact (@one_key_gen (Secp r) (Secp_ok r) gen_point (one_key_coeff r)). Qed.

(** One signer with secret key 1: the hypotheses of a session, for every law-abiding curve. *)
Lemma one_signer {Pr : prims} {Laws : prims_ok Pr} {Tags : tags_ok Pr} (c : key_agg_ctx Pr) (seed : bytes) :
  pubkeys c = [gen_point] ->
  exists r0 : first_round Pr, first_round_new c seed 0 spices_new = Ok r0 /\
  (forall j, (j < length (pubkeys c))%nat -> first_round_new c seed j spices_new = Ok r0) /\
  (forall j pk, nth_error (pubkeys c) j = Some pk -> base_mul scalar_one = pk) /\
  (forall j i, (j < length (pubkeys c))%nat -> (i < length (pubkeys c))%nat ->
     on_file ((j, our_public_nonce r0) :: []) i = Some (our_public_nonce r0)).
Proof.
  intro Hp. destruct (C26_new_proof c seed 0 spices_new) as (_ & H & _).
  destruct H as (r0 & H & _); [rewrite Hp; cbn [length]; lia | reflexivity |].
  exists r0. rewrite Hp. cbn [length]. split; [exact H|]. split; [|split].
  - intros j Hj. assert (j = 0%nat) as -> by lia. exact H.
  - intros j pk Hn. destruct j as [|j]; [|destruct j; discriminate]. injection Hn as <-.
    apply point_ext. rewrite base_mul_val. apply gmul_1.
  - intros j i Hj Hi. assert (j = 0%nat) as -> by lia. assert (i = 0%nat) as -> by lia. reflexivity.
Qed.

Lemma C50_tag_digests_proof (r : bytes -> nat -> positive) (m : bytes) :
  let H := fun D => @tagged (Secp r) D m in
  H KEYAGG_LIST_TAG_DIGEST = py_tagged_hash "KeyAgg list" m /\
  H KEYAGG_COEFF_TAG_DIGEST = py_tagged_hash "KeyAgg coefficient" m /\
  H MUSIG_AUX_TAG_DIGEST = py_tagged_hash "MuSig/aux" m /\
  H MUSIG_NONCE_TAG_DIGEST = py_tagged_hash "MuSig/nonce" m /\
  H MUSIG_NONCECOEF_TAG_DIGEST = py_tagged_hash "MuSig/noncecoef" m /\
  H BIP0340_AUX_TAG_DIGEST = py_tagged_hash "BIP0340/aux" m /\
  H BIP0340_NONCE_TAG_DIGEST = py_tagged_hash "BIP0340/nonce" m /\
  H BIP0340_CHALLENGE_TAG_DIGEST = py_tagged_hash "BIP0340/challenge" m /\
  H BIP0340_BATCH_TAG_DIGEST = py_tagged_hash "BIP0340/batch" m /\
  H TAPROOT_TWEAK_TAG_DIGEST = py_tagged_hash "TapTweak" m /\
  NoDup [KEYAGG_LIST_TAG_DIGEST; KEYAGG_COEFF_TAG_DIGEST; MUSIG_AUX_TAG_DIGEST; MUSIG_NONCE_TAG_DIGEST;
    MUSIG_NONCECOEF_TAG_DIGEST; BIP0340_AUX_TAG_DIGEST; BIP0340_NONCE_TAG_DIGEST; BIP0340_CHALLENGE_TAG_DIGEST;
    BIP0340_BATCH_TAG_DIGEST; TAPROOT_TWEAK_TAG_DIGEST].
Proof.
  intro H. unfold H. clear H. destruct (Secp_tags r) as [H1 H2 H3 H4 H5 H6 H7 H8 H9 H10].
  split; [exact (tagged_py r _ _ m H1)|]. split; [exact (tagged_py r _ _ m H2)|]. split; [exact (tagged_py r _ _ m H3)|].
  split; [exact (tagged_py r _ _ m H4)|]. split; [exact (tagged_py r _ _ m H5)|]. split; [exact (tagged_py r _ _ m H6)|].
  split; [exact (tagged_py r _ _ m H7)|]. split; [exact (tagged_py r _ _ m H8)|]. split; [exact (tagged_py r _ _ m H9)|].
  split; [exact (tagged_py r _ _ m H10)|]. exact digests_distinct.
Qed.

Lemma C51_reference_curve_group_proof :
  prime py_p /\ prime py_n /\ py_on py_G /\
  (forall P Q, py_on P -> py_on Q -> py_on (py_point_add P Q)) /\
  (forall P Q R, py_on P -> py_on Q -> py_on R ->
     py_point_add (py_point_add P Q) R = py_point_add P (py_point_add Q R)) /\
  (forall P Q, py_on P -> py_on Q -> py_point_add P Q = py_point_add Q P) /\
  (forall P, py_point_add None P = P) /\
  (forall P, py_on P -> py_on (py_neg P) /\ py_point_add P (py_neg P) = None) /\
  (forall P, py_on P -> py_point_mul P 0 = None /\ py_point_mul P 1 = P /\ py_point_mul P py_n = None) /\
  (forall P j k, py_on P -> 0 <= j < py_n -> 0 <= k < py_n ->
     py_point_add (py_point_mul P j) (py_point_mul P k) = py_point_mul P ((j + k) mod py_n)) /\
  (forall P, py_on P -> exists k, 0 <= k < py_n /\ P = py_point_mul py_G k /\
     forall k', 0 <= k' < py_n -> P = py_point_mul py_G k' -> k' = k) /\
  (forall b, length b = 32%nat -> forall P, P <> None ->
     (py_lift_x b = P <-> py_on P /\ exists x y, P = Some (x, y) /\ be_enc 32 x = b /\ Z.even y = true)).
Proof.
  split; [exact p_prime|]. split; [exact secp_n_prime|]. split; [rewrite <- enc_G; apply enc_on|].
  split. { intros P Q HP HQ. apply enc_surj in HP as [P' <-], HQ as [Q' <-]. rewrite <- enc_add. apply enc_on. }
  split. { intros P Q R HP HQ HR. apply enc_surj in HP as [P' <-], HQ as [Q' <-], HR as [R' <-]. rewrite <- !enc_add. now rewrite spt_assoc. }
  split. { intros P Q HP HQ. apply enc_surj in HP as [P' <-], HQ as [Q' <-]. rewrite <- !enc_add. now rewrite spt_comm. }
  split. { intros P. reflexivity. }
  split. { intros P HP. apply enc_surj in HP as [P' <-]. rewrite <- enc_neg, <- enc_add, spt_add_neg. split; [apply enc_on | reflexivity]. }
  split. { intros P HP. apply enc_surj in HP as [P' <-]. pose proof py_n_small. rewrite !enc_mul by (split; [discriminate | reflexivity]).
    split; [reflexivity|]. split; [reflexivity|]. now rewrite szmul_n. }
  split. { intros P j k HP Hj Hk. apply enc_surj in HP as [P' <-].
    rewrite !py_mul_enc, <- enc_add, szmul_mod, (zm zmul_add) by (try assumption; apply Z.mod_pos_bound; reflexivity). reflexivity. }
  split. { intros P HP. apply enc_surj in HP as [P' <-]. destruct (secp_gen P') as [k ->]. exists (k mod py_n).
    assert (Hk : 0 <= k mod py_n < py_n) by (apply Z.mod_pos_bound; reflexivity).
    rewrite <- enc_G. split; [exact Hk|]. split; [rewrite py_mul_enc, szmul_mod by exact Hk; reflexivity|].
    intros k' Hk' E. rewrite py_mul_enc in E by exact Hk'. apply enc_inj in E. rewrite <- szmul_mod in E.
    symmetry. apply (zmul_g_inj spt_O spt_add spt_neg spt_assoc spt_comm spt_add_O spt_add_neg spt_G py_n secp_n_prime secp_G_ord) in E; [exact E| | |]; auto. discriminate. }
  intros b Hb P HP. rewrite (enc_lift b Hb). split.
  - destruct (spt_lift b) as [Q|] eqn:E; [|congruence]. intros <-. split; [apply enc_on|].
    apply secp_lift_spec in E as (HO & Ho & Hx). destruct Q as [[|x y] HQ]; [exfalso; apply HP; reflexivity|].
    exists (fz x), (fz y). split; [reflexivity|]. split; [exact Hx|]. unfold spt_odd in Ho. cbn [sp] in Ho. now rewrite <- Z.negb_odd, Ho.
  - intros (Hon & x & y & -> & Hx & Hy). apply enc_surj in Hon as [Q HQ].
    assert (E : spt_lift b = Some Q); [|rewrite E; exact HQ].
    apply secp_lift_spec. destruct Q as [[|x' y'] HQ']; [discriminate|]. unfold enc in HQ. cbn [sp encr] in HQ.
    assert (E1 : fz x' = x) by congruence. assert (E2 : fz y' = y) by congruence.
    split; [discriminate|]. unfold spt_odd, spt_x. cbn [sp]. rewrite E1, E2. split; [|exact Hx].
    rewrite <- Z.negb_even, Hy. reflexivity.
Qed.

Lemma C51_model_is_reference_curve_proof (r : bytes -> nat -> positive) :
  (forall P Q : @pt (Secp r), enc P = enc Q -> P = Q) /\
  (forall P, py_on P <-> exists Q : @pt (Secp r), enc Q = P) /\
  enc (@pt_O (Secp r)) = None /\ enc (@pt_G (Secp r)) = py_G /\ Zpos (@ord (Secp r)) = py_n /\
  (forall P Q, enc (@pt_add (Secp r) P Q) = py_point_add (enc P) (enc Q)) /\
  (forall P, enc (@pt_neg (Secp r) P) = py_neg (enc P)) /\
  (forall P k, 0 <= k < 2 ^ 256 -> enc (@smul (Secp r) k P) = py_point_mul (enc P) k) /\
  (forall P x y, enc P = Some (x, y) -> @pt_x (Secp r) P = be_enc 32 x /\ @pt_odd (Secp r) P = Z.odd y) /\
  (forall b, @pt_lift (Secp r) b = None <-> length b <> 32%nat \/ py_lift_x b = None) /\
  (forall b P, @pt_lift (Secp r) b = Some P -> py_lift_x b = enc P) /\
  @sha256 (Secp r) = sha256_fips.
Proof.
  split; [exact enc_inj|]. split. { intro P. split; [apply enc_surj | intros [Q <-]; apply enc_on]. }
  split; [reflexivity|]. split; [exact enc_G|]. split; [reflexivity|]. split; [exact enc_add|]. split; [exact enc_neg|].
  split. { intros P k Hk. rewrite secp_smul. symmetry. now apply enc_mul. }
  split. { intros [[|x' y'] HP] x y E; [discriminate|]. unfold enc in E. cbn [sp encr] in E.
    assert (E1 : fz x' = x) by congruence. assert (E2 : fz y' = y) by congruence. subst x y. split; reflexivity. }
  split. { intro b. change (@pt_lift (Secp r) b) with (spt_lift b). destruct (Nat.eq_dec (length b) 32) as [Hb|Hb].
    - rewrite (enc_lift b Hb). destruct (spt_lift b) as [P|] eqn:E.
      + apply secp_lift_spec in E as (HO & _). destruct P as [[|x y] HP]; [exfalso; apply HO, spt_ext; reflexivity|].
        split; [discriminate|]. intros [H|H]; [contradiction | discriminate].
      + split; [intros _; now right | reflexivity].
    - split; [intros _; now left|]. intros _. unfold spt_lift. apply Nat.eqb_neq in Hb. rewrite Hb. reflexivity. }
  split. { intros b P E. change (@pt_lift (Secp r) b) with (spt_lift b) in E.
    assert (Hb : length b = 32%nat).
    { unfold spt_lift in E. destruct (length b =? 32)%nat eqn:Hb; [now apply Nat.eqb_eq | discriminate]. }
    rewrite (enc_lift b Hb), E. reflexivity. }
  reflexivity.
Qed.

Lemma C51_laws_hold_proof (r : bytes -> nat -> positive) :
  prims_ok (Secp r) /\ tags_ok (Secp r).
Proof.
  exact (conj (Secp_ok r) (Secp_tags r)).
Qed.

Lemma C52_secp256k1_signatures_proof (r : bytes -> nat -> positive) :
  (forall (pk : point (Secp r)) sig msg,
     verify_single_bytes pk sig msg = Ok tt <-> py_schnorr_verify msg (pt_x pk) sig = true) /\
  (forall (c : key_agg_ctx (Secp r)) an sigs msg sg,
     aggregate_partial_signatures c an sigs msg = Ok sg ->
     py_schnorr_verify msg (pt_x (aggregated_pubkey c)) (lifted_to_bytes sg) = true) /\
  (forall (c : key_agg_ctx (Secp r)) an t sigs msg sg l,
     aggregate_partial_adaptor_signatures c an (gmul t) sigs msg = Ok sg -> adapt sg t = Some l ->
     py_schnorr_verify msg (pt_x (aggregated_pubkey c)) (lifted_to_bytes l) = true) /\
  (forall (sk : scalar (Secp r)) msg seed,
     exists sg, sign_solo sk msg seed = Ok sg /\
       py_schnorr_verify msg (pt_x (base_mul sk)) (lifted_to_bytes sg) = true).
Proof.
  pose proof (Secp_ok r) as Laws. pose proof (Secp_tags r) as Tags.
  split. { intros pk sig msg. rewrite (secp_schnorr r). exact (proj1 (@C22_verify_single_is_bip340_proof (Secp r) Laws Tags pk sig msg)). }
  split. { intros c an sigs msg sg H. apply (secp_schnorr r).
    destruct (@C14_aggregate_valid_proof (Secp r) Laws Tags c an sigs msg) as (H1 & _). destruct (H1 sg H) as (_ & _ & H2 & _). exact H2. }
  split. { intros c an t sigs msg sg l H Hl. apply (secp_schnorr r).
    destruct (@C15_adaptor_aggregate_valid_proof (Secp r) Laws Tags c an t sigs msg sg H) as (_ & _ & H1 & _). exact (proj2 (H1 l Hl)). }
  intros sk msg seed. destruct (@C20_sign_solo_is_bip340_proof (Secp r) Laws Tags sk msg seed) as (sg & H1 & _ & H2 & _).
  exists sg. split; [exact H1|]. apply (secp_schnorr r). exact H2.
Qed.

Lemma C52_secp256k1_sessions_proof (r : bytes -> nat -> positive) (c : key_agg_ctx (Secp r)) (r0 : nat -> first_round (Secp r)) (seed : nat -> bytes) (sp : nat -> spices (Secp r)) (sk : nat -> scalar (Secp r)) (calls1 : nat -> list (nat * pub_nonce (Secp r))) (msg : bytes) (Hc : ctx_reachable c) (Hnew : forall j, (j < length (pubkeys c))%nat -> first_round_new c (seed j) j (sp j) = Ok (r0 j)) (Hsk : forall j pk, nth_error (pubkeys c) j = Some pk -> base_mul (sk j) = pk) (Hfirst : forall j i, (j < length (pubkeys c))%nat -> (i < length (pubkeys c))%nat -> on_file ((j, our_public_nonce (r0 j)) :: calls1 j) i = Some (our_public_nonce (r0 i))) (HR : spec_R_raw c (agg_sum (map (fun j => our_public_nonce (r0 j)) (seq 0 (length (pubkeys c))))) msg <> pt_O) :
  exists l : lifted_sig (Secp r),
    py_schnorr_verify msg (pt_x (aggregated_pubkey c)) (lifted_to_bytes l) = true /\
    forall j, (j < length (pubkeys c))%nat ->
      exists sr, fr_finalize (fst (fr_run (r0 j) (calls1 j))) (sk j) msg = Ok sr /\
        forall calls2, sr_is_complete (fst (sr_run sr calls2)) = true ->
          sr_finalize (fst (sr_run sr calls2)) = Ok l.
Proof.
  pose proof (Secp_ok r) as Laws. pose proof (Secp_tags r) as Tags.
  destruct (@C31_honest_sessions_agree_proof (Secp r) Laws Tags c r0 seed sp sk calls1 pt_O msg Hc Hnew Hsk Hfirst) as (H1 & _ & H3 & _).
  destruct (H3 HR) as (sg & l & _ & _ & _ & _ & H4 & H5). exists l. split.
  - apply (secp_schnorr r). exact (proj2 (H4 eq_refl)).
  - intros j Hj. destruct (H1 j Hj) as (sr & s & Hs & _). exists sr. split; [exact Hs|].
    intros calls2 Hcomp. exact (proj2 (H5 j sr calls2 Hj Hs Hcomp)).
Qed.

(** Proofs of the theorems of PropertiesSecpLimits.v. *)
From Coq Require Import String List.
From Verif Require Import Bytes BytesFacts Prims PrimsFacts Errors TaggedHashes Sha256 SpecTags SpecBIP327
  KeyAgg Nonces Signature Signing SigAgg Bip340 SpecCtx SpecSecp SpecNonces Secp256k1.
Import ListNotations.
Open Scope list_scope.
Open Scope Z_scope.
From Coq Require Import Lia.
From Verif Require Import CodecFacts KeyAggFacts NoncesFacts SpecFacts ProofsKeyAgg ProofsLimits.
Open Scope Z_scope.

(** A context for the key list G, G. *)
Lemma two_key_coeff r : negb (fz (compute_key_aggregation_coefficient (Pr := Secp r) (hash_pubkeys (Pr := Secp r) [gen_point; gen_point]) gen_point None) =? 0) = true.
Proof. vm_compute. reflexivity. Qed.
Lemma second_same {Pr : prims} {Laws : prims_ok Pr} (P : point Pr) : second_pubkey [P; P] = None.
Proof. unfold second_pubkey. cbn [find]. rewrite (proj2 (point_eqb_eq P P) eq_refl). reflexivity. Qed.
Lemma two_key_gen {Pr : prims} {Laws : prims_ok Pr} (P : point Pr) :
  negb (fz (compute_key_aggregation_coefficient (hash_pubkeys [P; P]) P None) =? 0) = true ->
  exists c : key_agg_ctx Pr, key_agg_new [P; P] = Ok c.
Proof.
  intro Hz. apply negb_true_iff, Z.eqb_neq in Hz. unfold key_agg_new. cbv zeta.
  match goal with |- context [u32_max <? ?x] => change (u32_max <? x) with false end. cbv iota.
  rewrite second_same. cbn [map].
  destruct (not_inf _) as [Q|] eqn:E; [eexists; reflexivity|]. exfalso.
  apply not_inf_None in E. unfold psum in E. cbn [fold_left] in E. rewrite add_O_l, <- pmul_add in E.
  apply pmul_eq_O in E as [E|E]; [|exact (point_fin P E)].
  destruct (not_zero (compute_key_aggregation_coefficient (hash_pubkeys [P; P]) P None)) as [a|] eqn:Ea.
  - apply not_zero_Some in Ea. rewrite Ea in E. exact (SignatureFacts.double_nz a E).
  - apply not_zero_None in Ea. apply Hz. rewrite Ea. reflexivity.
Qed.
Lemma two_keys r : exists c : key_agg_ctx (Secp r), key_agg_new [gen_point; gen_point] = Ok c.
Proof. exact (@two_key_gen (Secp r) (Secp_ok r) gen_point (two_key_coeff r)). Qed.
Lemma two_keys_ctx r : exists c : key_agg_ctx (Secp r), ctx_reachable c /\ pubkeys c = [gen_point; gen_point].
Proof.
  destruct (two_keys r) as [c Hc]. exists c. split; [exact (reach_new _ _ Hc)|].
  exact (proj1 (proj2 (proj1 (@C01_new_is_bip327_keyagg_proof (Secp r) (Secp_ok _) (Secp_tags _) [gen_point; gen_point]) c Hc))).
Qed.
Lemma n_big r : 3 < @n_ (Secp r).
Proof. reflexivity. Qed.
Lemma gen_is_base {Pr : prims} {Laws : prims_ok Pr} : base_mul scalar_one = (gen_point : point Pr).
Proof. apply point_ext. rewrite base_mul_val. exact (pmul_1 pt_G). Qed.

(** Nonces that differ from BIP327's. *)
Lemma gen_differs {Pr : prims} {Laws : prims_ok Pr} {Tags : tags_ok Pr} (b : builder Pr) pk :
  (let h i := nonce_int (Pr := Pr) (bip327_input_of b pk i) in
   negb (h 0 =? 0) && negb (h 1 =? 0) && negb (bytes_eqb (bytes_from_int (h 0)) (ser_scalar (k1 (build b)))) = true) ->
  exists sn pn, bip327_gen_of b pk = Ret (sn, pn) /\ sn <> secnonce_to_bytes (build b) ++ cbytes pk.
Proof.
  cbv zeta. intro H. apply andb_true_iff in H as [H H3]. apply andb_true_iff in H as [H1 H2].
  apply negb_true_iff in H1, H2, H3.
  unfold bip327_gen_of. rewrite gen_internal_cases. cbv zeta. fold (bip327_input_of b pk 0) (bip327_input_of b pk 1).
  rewrite H1, H2. cbn [orb]. eexists. eexists. split; [reflexivity|]. intro E.
  unfold secnonce_to_bytes in E. rewrite <- app_assoc in E. apply app_inj_len in E as [E _].
  - rewrite E, (proj2 (bytes_eqb_eq _ _) eq_refl) in H3. discriminate.
  - unfold bytes_from_int. rewrite be_enc_length, ser_scalar_len. reflexivity.
Qed.
(** A seed for the witnesses below. *)
Definition secp_seed : bytes := repeat x0f 32.
(** A builder with this seed. *)
Definition secp_builder r (sk : option (scalar (Secp r))) (extra : list bytes) : builder (Secp r) :=
  {| nonce_seed_bytes := secp_seed; b_seckey := sk; b_pubkey := Some gen_point;
     b_aggregated_pubkey := None; b_message := None; b_extra_inputs := extra |}.
Lemma secp_differs1 r :
  (let b := secp_builder r None [[x01]] in
   let h i := nonce_int (Pr := Secp r) (bip327_input_of b gen_point i) in
   negb (h 0 =? 0) && negb (h 1 =? 0) && negb (bytes_eqb (bytes_from_int (h 0)) (ser_scalar (k1 (build b)))) = true).
Proof. vm_compute. reflexivity. Qed.
Lemma secp_differs2 r :
  (let b := secp_builder r (Some scalar_one) [] in
   let h i := nonce_int (Pr := Secp r) (bip327_input_of b gen_point i) in
   negb (h 0 =? 0) && negb (h 1 =? 0) && negb (bytes_eqb (bytes_from_int (h 0)) (ser_scalar (k1 (build b)))) = true).
Proof. vm_compute. reflexivity. Qed.

Lemma C06_misaligned_rejected_secp256k1_refuted_proof (r : bytes -> nat -> positive) :
  exists (c : key_agg_ctx (Secp r)) (sks : list (scalar (Secp r))) (x : scalar (Secp r)),
    ctx_reachable c /\ map base_mul sks <> pubkeys c /\ aggregated_seckey c sks = Ok x.
Proof.
  destruct (two_keys_ctx r) as (c & Hc & Hp).
  destruct (@C06_every_context_accepts_misaligned_proof (Secp r) (Secp_ok r) (Secp_tags r) c (n_big r) Hc) as (sks & x & _ & H1 & H2 & _).
  { rewrite Hp. cbn [length]. lia. }
  exists c, sks, x. auto.
Qed.

Lemma C08_canonical_secp256k1_refuted_proof (r : bytes -> nat -> positive) :
  exists (b : bytes) (c : key_agg_ctx (Secp r)), ctx_from_bytes target64 b = Ok c /\ ctx_to_bytes c <> b.
Proof.
  destruct (two_keys_ctx r) as (c & Hc & _).
  destruct (@C08_every_context_has_other_encodings_proof (Secp r) (Secp_ok r) c target64 1 Hc) as (h0 & rest & _ & H1 & H2).
  { cbn; lia. } { lia. }
  eexists. exists c. split; [exact H2|]. intro E. apply H1. symmetry. exact E.
Qed.

Lemma C09_wrong_count_secp256k1_refuted_proof (r : bytes -> nat -> positive) :
  exists (b : bytes) (c : key_agg_ctx (Secp r)),
    ctx_from_bytes (Target 32 false) b = Ok c /\ ctx_from_bytes (Pr := Secp r) target64 b = Err (BadLength (length b)).
Proof.
  destruct (two_keys_ctx r) as (c & Hc & Hp).
  destruct (@C09_every_context_wrong_count_proof (Secp r) (Secp_ok r) c [xff] target64 Hc) as (h & rest & cnt & _ & _ & _ & H1 & H2).
  { rewrite Hp. reflexivity. } { cbn [length]. lia. } { cbn; lia. }
  eexists. exists c. split; [exact H1 | exact H2].
Qed.

Lemma C13_guarantee_secp256k1_refuted_proof (r : bytes -> nat -> positive) (msg : bytes) :
  exists (c : key_agg_ctx (Secp r)) (sks : list (scalar (Secp r))) (sns : list (sec_nonce (Secp r))) (sigs : list (mscalar (Secp r))),
    ctx_reachable c /\ map base_mul sks = pubkeys c /\
    length sns = length (pubkeys c) /\ length sigs = length (pubkeys c) /\
    (forall i sk sn s, nth_error sks i = Some sk -> nth_error sns i = Some sn -> nth_error sigs i = Some s ->
       sign_partial c sk sn (agg_sum (map public_nonce sns)) msg = Ok s /\
       verify_partial c s (agg_sum (map public_nonce sns)) (base_mul sk) (public_nonce sn) msg = Ok tt) /\
    aggregate_partial_adaptor_signatures c (agg_sum (map public_nonce sns)) pt_O sigs msg = Err VE_BadSignature.
Proof.
  destruct (two_keys_ctx r) as (c & Hc & Hp).
  assert (Hs : map base_mul [scalar_one; scalar_one] = pubkeys c).
  { rewrite Hp. cbn [map]. rewrite (@gen_is_base (Secp r) (Secp_ok r)). reflexivity. }
  destruct (@C13_every_context_can_fail_proof (Secp r) (Secp_ok r) (Secp_tags r) c [scalar_one; scalar_one] pt_O msg Hc Hs) as (sns & sigs & H).
  { rewrite Hp. cbn [length]. lia. }
  exists c, [scalar_one; scalar_one], sns, sigs. split; [exact Hc|]. split; [exact Hs|]. exact H.
Qed.

Lemma C17_infinite_nonce_secp256k1_refuted_proof (r : bytes -> nat -> positive) :
  exists (sg : adaptor_sig (Secp r)) (t : scalar (Secp r)) (final : lifted_sig (Secp r)),
    a_R sg = pt_O /\ adapt sg t = Some final /\ has_even_y (l_R final) = true /\
    reveal_secret sg final <> Some (sval t).
Proof.
  destruct (@C17_every_secret_or_its_negation_proof (Secp r) (Secp_ok r) fzero scalar_one) as (u & l & _ & H1 & H2 & _ & H4).
  eexists. exists u, l. split; [|split; [exact H1|]]; auto.
Qed.

Lemma C19_reencryption_secp256k1_refuted_proof (r : bytes -> nat -> positive) (sk : scalar (Secp r)) (msg : bytes) (seed : bytes) (u : scalar (Secp r)) :
  exists (t : scalar (Secp r)) (l' : lifted_sig (Secp r)),
    let sg := sign_solo_adaptor sk msg seed (gmul t) in
    verify_single_adaptor (base_mul sk) sg msg (gmul t) = Ok tt /\
    adapt (adaptor_encrypt sg u) (fadd (sval t) u) = Some l' /\
    verify_single_lifted (base_mul sk) l' msg = Err VE_BadSignature.
Proof.
  exact (@C19_every_solo_adaptor_can_fail_proof (Secp r) (Secp_ok r) (Secp_tags r) sk msg seed u (n_big r)).
Qed.

Lemma C36_documented_match_secp256k1_refuted_proof (r : bytes -> nat -> positive) :
  exists b1 b2 : builder (Secp r), exists pk,
  b_pubkey b1 = Some pk /\ b_seckey b1 = None /\ b_extra_inputs b1 <> [] /\
  b_pubkey b2 = Some pk /\ b_seckey b2 <> None /\ b_extra_inputs b2 = [] /\
  (exists sn pn, bip327_gen_of b1 pk = Ret (sn, pn) /\ sn <> secnonce_to_bytes (build b1) ++ cbytes pk) /\
  (exists sn pn, bip327_gen_of b2 pk = Ret (sn, pn) /\ sn <> secnonce_to_bytes (build b2) ++ cbytes pk).
Proof.
  exists (secp_builder r None [[x01]]), (secp_builder r (Some scalar_one) []), gen_point.
  do 2 (split; [reflexivity|]). split; [discriminate|]. split; [reflexivity|]. split; [discriminate|].
  split; [reflexivity|]. split.
  - exact (@gen_differs (Secp r) (Secp_ok r) (Secp_tags r) _ _ (secp_differs1 r)).
  - exact (@gen_differs (Secp r) (Secp_ok r) (Secp_tags r) _ _ (secp_differs2 r)).
Qed.

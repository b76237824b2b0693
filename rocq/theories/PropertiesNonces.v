(** Properties of nonce generation and aggregation: C35 - C39, C43, C48. *)
From Coq Require Import String List Permutation.
From Verif Require Import Bytes BytesFacts Prims PrimsFacts TaggedHashes Errors SpecTags SpecBIP327
  KeyAgg Nonces Signature Signing SigAgg Bip340 Rounds SpecCtx SpecNonces Toy ToyData ToyRounds ToyNonces.
Import ListNotations.
Open Scope list_scope.
Open Scope Z_scope.
From Verif Require Import ProofsNonces.

(** C35.  [SecNonce::generate] is BIP327's [NonceGen], with rand' the seed and pk the
    signer's public key: the same secret nonce bytes (the reference appends pk) and the same
    public nonce bytes.  Where the reference fails its assertion because a hash is 0 modulo n,
    the crate uses the scalar 1.  It panics exactly when the extra input is longer than
    [u32::MAX] bytes. *)
Theorem C35_generate_is_bip327 {Pr : prims} {Laws : prims_ok Pr} {Tags : tags_ok Pr} (seed : bytes) (sk : scalar Pr) (aggpk : point Pr) (msg extra : bytes) (HL : length seed = 32%nat) :
  let skb := bytes_from_int (fz (sval sk)) in
  let pk := cbytes (point_mul pt_G (fz (sval sk))) in
  let h i := nonce_int (Pr := Pr) (bip327_nonce_input seed (Some skb) pk (Some (xbytes aggpk)) (Some msg) (Some extra) i) in
  (zlen extra <= 4294967295 -> exists sn, generate seed sk aggpk msg extra = Ok sn /\
     fz (sval (k1 sn)) = (if h 0 =? 0 then 1 else h 0) /\
     fz (sval (k2 sn)) = (if h 1 =? 0 then 1 else h 1) /\
     nonce_gen_internal seed (Some skb) pk (Some (xbytes aggpk)) (Some msg) (Some extra) =
       if (h 0 =? 0) || (h 1 =? 0) then AssertFailed
       else Ret (secnonce_to_bytes sn ++ pk, pubnonce_to_bytes (public_nonce sn))) /\
  (zlen extra > 4294967295 -> generate seed sk aggpk msg extra = Panic).
Proof. exact (@C35_generate_is_bip327_proof Pr Laws Tags seed sk aggpk msg extra HL). Qed.
Print Assumptions C35_generate_is_bip327.

(** On the toy curve: the reference returns a nonce for the message "msg" and fails its
    assertion for the message 08, where one of the hashes is 0 modulo the group order. *)
Example C35_case : length toy_seed = 32%nat /\
  (match nonce_gen_internal (Pr := Toy) toy_seed (Some (ser_scalar sk_a)) (ser_point (base_mul sk_a))
     (Some (pt_x (tpt 5))) (Some toy_msg) (Some [x01; x02]) with Ret _ => true | _ => false end) = true /\
  (match nonce_gen_internal (Pr := Toy) toy_seed (Some (ser_scalar sk_a)) (ser_point (base_mul sk_a))
     (Some (pt_x (tpt 5))) (Some [zero_msg]) (Some [x01; x02]) with AssertFailed => true | _ => false end) = true.
Proof. split; [reflexivity|]. split; vm_compute; reflexivity. Qed.

(** C36.  What [build] hashes for nonce number [i] is what BIP327's [NonceGen] hashes on the
    same arguments exactly when some extra input was given and a secret key was given (or the
    seed happens to be a fixed point of the MuSig/aux hash).  A builder without public key
    never hashes what BIP327 hashes for any public key. *)
Theorem C36_input_matches_exactly_when {Pr : prims} {Laws : prims_ok Pr} {Tags : tags_ok Pr} (b : builder Pr) (i : Z) (HL : length (nonce_seed_bytes b) = 32%nat) :
  (forall pk, b_pubkey b = Some pk ->
    (nonce_preimage b ++ [z2b i] = bip327_input_of b pk i <->
     b_extra_inputs b <> [] /\
     (b_seckey b <> None \/ tagged_hash "MuSig/aux" (nonce_seed_bytes b) = nonce_seed_bytes b))) /\
  (b_pubkey b = None -> forall pk, nonce_preimage b ++ [z2b i] <> bip327_input_of b pk i).
Proof. exact (@C36_input_matches_exactly_when_proof Pr Laws Tags b i HL). Qed.
Print Assumptions C36_input_matches_exactly_when.

(** Both sides of the equivalence occur. *)
Example C36_case : length (nonce_seed_bytes (toy_builder (Some sk_a) [[x01]])) = 32%nat /\
  b_pubkey (toy_builder (Some sk_a) [[x01]]) = Some (base_mul sk_a) /\
  bytes_eqb (nonce_preimage (toy_builder (Some sk_a) [[x01]; []]) ++ [z2b 0])
    (bip327_input_of (toy_builder (Some sk_a) [[x01]; []]) (base_mul sk_a) 0) = true /\
  bytes_eqb (nonce_preimage (toy_builder (Some sk_a) []) ++ [z2b 0])
    (bip327_input_of (toy_builder (Some sk_a) []) (base_mul sk_a) 0) = false.
Proof. split; [reflexivity|]. split; [reflexivity|]. split; vm_compute; reflexivity. Qed.

(** C36.  In the matching case [build] returns BIP327's nonces, a zero hash being replaced
    by one. *)
Theorem C36_build_is_bip327 {Pr : prims} {Laws : prims_ok Pr} {Tags : tags_ok Pr} (b : builder Pr) (pk : point Pr) (sk : scalar Pr) (HL : length (nonce_seed_bytes b) = 32%nat) (Hp : b_pubkey b = Some pk) (Hs : b_seckey b = Some sk) (He : b_extra_inputs b <> []) :
  let h i := nonce_int (Pr := Pr) (bip327_input_of b pk i) in
  fz (sval (k1 (build b))) = (if h 0 =? 0 then 1 else h 0) /\
  fz (sval (k2 (build b))) = (if h 1 =? 0 then 1 else h 1) /\
  bip327_gen_of b pk =
    if (h 0 =? 0) || (h 1 =? 0) then AssertFailed
    else Ret (secnonce_to_bytes (build b) ++ cbytes pk, pubnonce_to_bytes (public_nonce (build b))).
Proof. exact (@C36_build_is_bip327_proof Pr Laws Tags b pk sk HL Hp Hs He). Qed.
Print Assumptions C36_build_is_bip327.

Example C36_build_case : b_seckey (toy_builder (Some sk_b) [[x01]]) = Some sk_b /\
  b_extra_inputs (toy_builder (Some sk_b) [[x01]]) <> [] /\
  (match bip327_gen_of (toy_builder (Some sk_b) [[x01]]) (base_mul sk_a) with Ret _ => true | _ => false end) = true.
Proof. split; [reflexivity|]. split; [discriminate|]. vm_compute. reflexivity. Qed.

(** C36.  The documentation of [build] ("This method matches the standard nonce generation
    algorithm specified in BIP327, except in the extremely unlikely case of a hash reducing to
    zero", src/nonces.rs:330-332) does not hold: with all other inputs present, the nonces
    differ from BIP327's when no secret key is given, and when no extra input is given. *)
Theorem C36_documented_match_refuted :
  exists b1 b2 : builder Toy, exists pk,
  b_pubkey b1 = Some pk /\ b_seckey b1 = None /\ b_extra_inputs b1 <> [] /\
  b_pubkey b2 = Some pk /\ b_seckey b2 <> None /\ b_extra_inputs b2 = [] /\
  (exists sn pn, bip327_gen_of b1 pk = Ret (sn, pn) /\ sn <> secnonce_to_bytes (build b1) ++ cbytes pk) /\
  (exists sn pn, bip327_gen_of b2 pk = Ret (sn, pn) /\ sn <> secnonce_to_bytes (build b2) ++ cbytes pk).
Proof. exact C36_documented_match_refuted_proof. Qed.
Print Assumptions C36_documented_match_refuted.

(** C37.  Two builders hash the same string for a nonce only if they agree on every input:
    the counter, the masked seed, presence and value of the public key, the x-only aggregated
    key and the message, and presence and concatenation of the extra inputs.  With the same
    seed the secret keys agree too.  In particular the two nonces of a builder come from
    different strings. *)
Theorem C37_hash_input_injective {Pr : prims} {Laws : prims_ok Pr} {Tags : tags_ok Pr} (b1 b2 : builder Pr) (i1 i2 : byte) (H1 : forall m, b_message b1 = Some m -> zlen m < 2 ^ 64) (H2 : forall m, b_message b2 = Some m -> zlen m < 2 ^ 64) :
  (nonce_preimage b1 ++ [i1] = nonce_preimage b2 ++ [i2] <-> i1 = i2 /\ request_of b1 = request_of b2) /\
  (request_of b1 = request_of b2 -> nonce_seed_bytes b1 = nonce_seed_bytes b2 -> b_seckey b1 = b_seckey b2) /\
  (request_of b1 = request_of b2 -> b_pubkey b1 = b_pubkey b2).
Proof. exact (@C37_hash_input_injective_proof Pr Laws Tags b1 b2 i1 i2 H1 H2). Qed.
Print Assumptions C37_hash_input_injective.

Example C37_case : (forall m, b_message (toy_builder (Some sk_a) [[x01]]) = Some m -> zlen m < 2 ^ 64) /\
  request_of (toy_builder (Some sk_a) [[x01]; [x02; x03]]) = request_of (toy_builder (Some sk_a) [[x01; x02]; []; [x03]]) /\
  bytes_eqb (nonce_preimage (toy_builder (Some sk_a) [])) (nonce_preimage (toy_builder (Some sk_a) [[]])) = false.
Proof.
  split; [intros m E; injection E as <-; reflexivity|]. split; [reflexivity|]. vm_compute. reflexivity.
Qed.

(** C37.  The nonces are a function of those inputs: in particular splitting the extra input
    into chunks differently does not change them. *)
Theorem C37_build_depends_on_request_only {Pr : prims} {Laws : prims_ok Pr} {Tags : tags_ok Pr} (b1 b2 : builder Pr) :
  (request_of b1 = request_of b2 -> build b1 = build b2) /\
  (forall l1 l2, l1 <> [] -> l2 <> [] -> concat l1 = concat l2 ->
     build (set_extra_inputs b1 l1) = build (set_extra_inputs b1 l2)).
Proof. exact (@C37_build_depends_on_request_only_proof Pr Laws Tags b1 b2). Qed.
Print Assumptions C37_build_depends_on_request_only.

Example C37_build_case : concat [[x01]; [x02; x03]] = concat [[x01; x02]; []; [x03]] /\
  feqb (k1 (build (toy_builder (Some sk_a) [[x01]; [x02; x03]]))) (k1 (build (toy_builder (Some sk_a) [[x03]; [x01]]))) = false.
Proof. split; [reflexivity|]. vm_compute. reflexivity. Qed.

(** C38.  The nonces of a [FirstRound] are the hashes of the masked seed, the signer's key,
    the x-only aggregated key, the message of the spices, the signer index and the extra
    inputs, so written. *)
Theorem C38_round_nonce_source {Pr : prims} {Laws : prims_ok Pr} {Tags : tags_ok Pr} (c : key_agg_ctx Pr) (seed : bytes) (i : nat) (sp : spices Pr) (r : first_round Pr) (Hr : first_round_new c seed i sp = Ok r) :
  exists pk, get_pubkey c i = Some pk /\
  (let h := nonce_int (Pr := Pr) (round_nonce_input seed i pk (aggregated_pubkey c) sp x00) in
   fz (sval (k1 (fr_secnonce r))) = if h =? 0 then 1 else h) /\
  (let h := nonce_int (Pr := Pr) (round_nonce_input seed i pk (aggregated_pubkey c) sp x01) in
   fz (sval (k2 (fr_secnonce r))) = if h =? 0 then 1 else h).
Proof. exact (@C38_round_nonce_source_proof Pr Laws Tags c seed i sp r Hr). Qed.
Print Assumptions C38_round_nonce_source.

Example C38_case : first_round_new toy_c toy_seed 1 spices_new = Ok (toy_r0 1).
Proof. apply toy_r0_eq. auto. Qed.

(** C38.  Two rounds hash the same string only if they agree on the counter, the signer index
    (as the 32-bit integer written), the signer's key, the x-only aggregated key, the message
    and the extra inputs of the spices and the masked seed; and every member of a context has
    an index below 2^32 unless there are more signers than that. *)
Theorem C38_rounds_separate {Pr : prims} {Laws : prims_ok Pr} {Tags : tags_ok Pr} (seed1 seed2 : bytes) (i1 i2 : nat) (pk1 pk2 Q1 Q2 : point Pr) (sp1 sp2 : spices Pr) (n1 n2 : byte) (H1 : forall m, sp_message sp1 = Some m -> zlen m < 2 ^ 64) (H2 : forall m, sp_message sp2 = Some m -> zlen m < 2 ^ 64) :
  round_nonce_input seed1 i1 pk1 Q1 sp1 n1 = round_nonce_input seed2 i2 pk2 Q2 sp2 n2 ->
  n1 = n2 /\ Z.of_nat i1 mod 2 ^ 32 = Z.of_nat i2 mod 2 ^ 32 /\
  (Z.of_nat i1 < 2 ^ 32 -> Z.of_nat i2 < 2 ^ 32 -> i1 = i2) /\
  pk1 = pk2 /\ xbytes Q1 = xbytes Q2 /\ sp_message sp1 = sp_message sp2 /\
  concat (sp_extra_inputs sp1) = concat (sp_extra_inputs sp2) /\
  masked_seed seed1 (sp_seckey sp1) = masked_seed seed2 (sp_seckey sp2) /\
  (seed1 = seed2 -> sp_seckey sp1 = sp_seckey sp2).
Proof. exact (@C38_rounds_separate_proof Pr Laws Tags seed1 seed2 i1 i2 pk1 pk2 Q1 Q2 sp1 sp2 n1 n2 H1 H2). Qed.
Print Assumptions C38_rounds_separate.

(** Two rounds of the same seed and spices. *)
Example C38_separate_case :
  (forall m, sp_message (Pr := Toy) (sp_with_message spices_new toy_msg) = Some m -> zlen m < 2 ^ 64) /\
  bytes_eqb (round_nonce_input toy_seed 0 (base_mul sk_a) (tpt 5) (sp_with_message spices_new toy_msg) x00)
            (round_nonce_input toy_seed 2 (base_mul sk_a) (tpt 5) (sp_with_message spices_new toy_msg) x00) = false.
Proof. split; [intros m E; injection E as <-; reflexivity|]. vm_compute. reflexivity. Qed.

(** C39.  Both scalars of every built or decoded [SecNonce] lie in [1, n), and the public
    nonce consists of the two finite multiples of the generator. *)
Theorem C39_secret_nonces_in_range {Pr : prims} {Laws : prims_ok Pr} {Tags : tags_ok Pr} (sn : sec_nonce Pr) (Hsn : (exists b, sn = build b) \/ (exists bs, secnonce_from_bytes bs = Ok sn)) :
  1 <= fz (sval (k1 sn)) < n_ /\ 1 <= fz (sval (k2 sn)) < n_ /\
  is_infinite (pR1 (public_nonce sn)) = false /\ is_infinite (pR2 (public_nonce sn)) = false /\
  pval (pR1 (public_nonce sn)) = point_mul pt_G (fz (sval (k1 sn))) /\
  pval (pR2 (public_nonce sn)) = point_mul pt_G (fz (sval (k2 sn))).
Proof. exact (@C39_secret_nonces_in_range_proof Pr Laws Tags sn Hsn). Qed.
Print Assumptions C39_secret_nonces_in_range.

Example C39_case : is_ok (secnonce_from_bytes (Pr := Toy) (secnonce_to_bytes (mk_sn 7 30))) = true /\
  is_ok (secnonce_from_bytes (Pr := Toy) (ser_scalar (tsc 7) ++ zeros 32)) = false.
Proof. split; vm_compute; reflexivity. Qed.

(** C39.  A nonce hash that is 0 modulo n gives the scalar 1, any other hash its residue. *)
Theorem C39_degenerate_hash {Pr : prims} {Laws : prims_ok Pr} {Tags : tags_ok Pr} (b : builder Pr) :
  (forall h, h = int_from_bytes (tagged_hash "MuSig/nonce" (nonce_preimage b ++ [x00])) mod n_ ->
     fz (sval (k1 (build b))) = (if h =? 0 then 1 else h)) /\
  (forall h, h = int_from_bytes (tagged_hash "MuSig/nonce" (nonce_preimage b ++ [x01])) mod n_ ->
     fz (sval (k2 (build b))) = (if h =? 0 then 1 else h)).
Proof. exact (@C39_degenerate_hash_proof Pr Laws Tags b). Qed.
Print Assumptions C39_degenerate_hash.

(** A builder one of whose hashes is 0 modulo the group order. *)
Example C39_degenerate_case :
  existsb (fun k => nonce_int (Pr := Toy) (nonce_preimage (with_message (toy_builder (Some sk_a) [[x01; x02]]) [zero_msg]) ++ [k]) =? 0)
          [x00; x01] = true.
Proof. vm_compute. reflexivity. Qed.

(** C39.  The final nonce is R1 + b*R2, or the generator when that is the point at infinity. *)
Theorem C39_final_nonce {Pr : prims} {Laws : prims_ok Pr} (an : agg_nonce Pr) (b : mscalar Pr) :
  let R := pt_add (aR1 an) (point_mul (aR2 an) (fz b)) in
  is_infinite (final_nonce an b) = false /\
  (is_infinite R = false -> pval (final_nonce an b) = R) /\
  (is_infinite R = true -> pval (final_nonce an b) = pt_G).
Proof. exact (@C39_final_nonce_proof Pr Laws an b). Qed.
Print Assumptions C39_final_nonce.

Example C39_final_case : is_infinite (Pr := Toy) (pt_add (aR1 toy_an) (point_mul (aR2 toy_an) 3)) = false /\
  is_infinite (Pr := Toy) (pt_add pt_G (point_mul (gmul (tsc 3 : mscalar Toy)) 10)) = true.
Proof. split; vm_compute; reflexivity. Qed.

(** C43.  [AggNonce::sum] is BIP327's [NonceAgg] on the encodings, byte for byte, does not
    depend on the order, and is the component-wise sum of the aggregates of any partition. *)
Theorem C43_sum_is_nonce_agg {Pr : prims} {Laws : prims_ok Pr} (pns : list (pub_nonce Pr)) :
  nonce_agg (map pubnonce_to_bytes pns) = Ret (aggnonce_to_bytes (agg_sum pns)) /\
  (forall pns', Permutation pns pns' -> agg_sum pns = agg_sum pns') /\
  (forall groups, Permutation pns (concat groups) ->
     aR1 (agg_sum pns) = fold_right pt_add pt_O (map (fun g => aR1 (agg_sum g)) groups) /\
     aR2 (agg_sum pns) = fold_right pt_add pt_O (map (fun g => aR2 (agg_sum g)) groups)).
Proof. exact (@C43_sum_is_nonce_agg_proof Pr Laws pns). Qed.
Print Assumptions C43_sum_is_nonce_agg.

Example C43_case : Permutation toy_pns (concat [[nth 2 toy_pns (toy_pn 0)]; [nth 0 toy_pns (toy_pn 0); nth 1 toy_pns (toy_pn 0)]]) /\
  bytes_eqb (aggnonce_to_bytes toy_an) (zeros 66) = false.
Proof.
  split; [|vm_compute; reflexivity]. unfold toy_pns, toy_sns. cbn [map nth concat app].
  apply (Permutation_app_comm [_; _] [_]).
Qed.

(** C43.  On 66-byte strings received from others: either all of them decode as [PubNonce]s
    and the reference aggregates them to the encoding of their sum, or the reference blames a
    signer whose string the crate refuses to decode. *)
Theorem C43_received_nonces {Pr : prims} {Laws : prims_ok Pr} (bs : list bytes) (HL : Forall (fun b => length b = 66%nat) bs) :
  (exists pns : list (pub_nonce Pr), Forall2 (fun b pn => pubnonce_from_bytes b = Ok pn) bs pns /\
     nonce_agg bs = Ret (aggnonce_to_bytes (agg_sum pns))) \/
  (exists i b, nth_error bs i = Some b /\ pubnonce_from_bytes (Pr := Pr) b = Err InvalidPoint /\
     nonce_agg bs = InvalidContribution (Some i) CPubnonce).
Proof. exact (@C43_received_nonces_proof Pr Laws bs HL). Qed.
Print Assumptions C43_received_nonces.

(** Three valid strings, and three of which the second is invalid. *)
Example C43_received_case : Forall (fun b => length b = 66%nat) (map pubnonce_to_bytes toy_pns) /\
  (match nonce_agg (Pr := Toy) [pubnonce_to_bytes (toy_pn 0); zeros 66; pubnonce_to_bytes (toy_pn 1)] with
   | InvalidContribution (Some 1%nat) CPubnonce => true | _ => false end) = true.
Proof. split; [|vm_compute; reflexivity]. repeat constructor. Qed.

(** C48.  After any sequence of calls on a new [SecNonceBuilder], secret key, public key,
    aggregated key and message are what the last call setting them set ([with_seckey] sets the
    public key too; spices set the secret key and the message only where present and never the
    public key); the extra inputs are those of all calls in order.  The sequence panics exactly
    when their total length exceeds [u32::MAX]. *)
Theorem C48_builder_calls {Pr : prims} (seed : bytes) (l : list (bcall Pr)) :
  let extra := concat (map adds_extra l) in
  (zlen (concat extra) <= 4294967295 -> exists b, brun (builder_new seed) l = Ok b /\
     nonce_seed_bytes b = seed /\ b_extra_inputs b = extra /\
     (forall o, b_seckey b = o <-> last_set sets_seckey l o) /\
     (forall o, b_pubkey b = o <-> last_set sets_pubkey l o) /\
     (forall o, b_aggregated_pubkey b = o <-> last_set sets_aggregated l o) /\
     (forall o, b_message b = o <-> last_set sets_message l o)) /\
  (zlen (concat extra) > 4294967295 -> brun (builder_new seed) l = Panic).
Proof. exact (@C48_builder_calls_proof Pr seed l). Qed.
Print Assumptions C48_builder_calls.

(** Spices after a key keep the key's public key; a later [with_pubkey] replaces it. *)
Example C48_case :
  let l := [BSeckey sk_a; BExtra [x01]; BSpices (sp_with_seckey spices_new sk_b); BMessage toy_msg; BPubkey (tpt 9); BExtra []] in
  zlen (concat (concat (map (adds_extra (Pr := Toy)) l))) <= 4294967295 /\
  last_set sets_seckey l (Some sk_b) /\ last_set sets_pubkey l (Some (tpt 9)) /\ last_set sets_aggregated l None.
Proof.
  intro l. split; [vm_compute; discriminate|].
  split; [apply (last_at _ [BSeckey sk_a; BExtra [x01]]); [reflexivity|]; intros c [<-|[<-|[<-|[]]]]; reflexivity|].
  split; [apply (last_at _ [BSeckey sk_a; BExtra [x01]; BSpices (sp_with_seckey spices_new sk_b); BMessage toy_msg]);
          [reflexivity|]; intros c [<-|[]]; reflexivity|].
  apply last_never. intros c [<-|[<-|[<-|[<-|[<-|[<-|[]]]]]]]; reflexivity.
Qed.

(** C48.  The same for the calls on [SecNonceSpices]. *)
Theorem C48_spices_calls {Pr : prims} (l : list (scall Pr)) :
  let extra := concat (map sadds_extra l) in
  (zlen (concat extra) <= 4294967295 -> exists s, srun spices_new l = Ok s /\
     sp_extra_inputs s = extra /\
     (forall o, sp_seckey s = o <-> last_set ssets_seckey l o) /\
     (forall o, sp_message s = o <-> last_set ssets_message l o)) /\
  (zlen (concat extra) > 4294967295 -> srun (Pr := Pr) spices_new l = Panic).
Proof. exact (@C48_spices_calls_proof Pr l). Qed.
Print Assumptions C48_spices_calls.

Example C48_spices_case :
  let l := [SSeckey sk_a; SExtra [x01]; SMessage toy_msg; SSeckey sk_b] in
  zlen (concat (concat (map (sadds_extra (Pr := Toy)) l))) <= 4294967295 /\ last_set ssets_seckey l (Some sk_b).
Proof.
  intro l. split; [vm_compute; discriminate|].
  apply (last_at _ [SSeckey sk_a; SExtra [x01]; SMessage toy_msg]); [reflexivity|]. intros c [].
Qed.

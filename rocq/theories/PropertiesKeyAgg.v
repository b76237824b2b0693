(** Properties of key aggregation contexts: C01 - C10, C69. *)
From Coq Require Import String List Permutation.
From Verif Require Import Bytes BytesFacts Prims PrimsFacts TaggedHashes Errors SpecTags SpecBIP327
  KeyAgg Nonces SpecCtx SpecView Toy ToyData.
Import ListNotations.
Open Scope list_scope.
Open Scope Z_scope.
From Verif Require Import ProofsKeyAgg.

(** C01.  [KeyAggContext::new] against BIP327 KeyAgg: success with the reference key,
    the given list in the given order, no negation and no tweak; [KeyAggError] exactly
    when the reference sum is infinite; a panic exactly for an empty list or one
    longer than [u32::MAX]. *)
Theorem C01_new_is_bip327_keyagg {Pr : prims} {Laws : prims_ok Pr} {Tags : tags_ok Pr} (pks : list (point Pr)) :
  (forall c, key_agg_new pks = Ok c ->
     key_agg (map ser_point pks) = Ret (KeyAggCtx (aggregated_pubkey c) 1 0) /\
     pubkeys c = pks /\ parity_acc c = false /\ tweak_acc c = fzero) /\
  ((exists c, key_agg_new pks = Ok c) <->
     pks <> [] /\ zlen pks <= 4294967295%Z /\ exists k, key_agg (map ser_point pks) = Ret k) /\
  (key_agg_new pks = Err KeyAggError <->
     pks <> [] /\ zlen pks <= 4294967295%Z /\ key_agg (map ser_point pks) = AssertFailed) /\
  (key_agg_new pks = Panic <-> pks = [] \/ 4294967295%Z < zlen pks).
Proof. exact (@C01_new_is_bip327_keyagg_proof Pr Laws Tags pks). Qed.
Print Assumptions C01_new_is_bip327_keyagg.

(** Three keys with a repetition aggregate; two particular keys sum to infinity. *)
Example C01_ok_case : key_agg_new toy_keys = Ok toy_c0 /\ length toy_keys = 3%nat.
Proof. split; [exact toy_c0_eq | reflexivity]. Qed.
Example C01_err_case : key_agg_new [tpt 3; tpt 18] = Err KeyAggError.
Proof. apply err_of_eq; vm_compute. reflexivity. Qed.

(** C02.  Lookups in any reachable context: the index is the last position of the key;
    the coefficient is the BIP327 one; the effective key is key times coefficient; no
    lookup panics. *)
Theorem C02_member_lookup {Pr : prims} {Laws : prims_ok Pr} {Tags : tags_ok Pr} (c : key_agg_ctx Pr) (pk : point Pr) (Hc : ctx_reachable c) :
  (pubkey_index c pk = None <-> ~ In pk (pubkeys c)) /\
  (forall i, pubkey_index c pk = Some i <->
     nth_error (pubkeys c) i = Some pk /\ forall j, (i < j)%nat -> nth_error (pubkeys c) j <> Some pk) /\
  (forall i, get_pubkey c i = nth_error (pubkeys c) i) /\
  (In pk (pubkeys c) -> exists a : mscalar Pr,
     fz a = key_agg_coeff (map ser_point (pubkeys c)) (ser_point pk) /\
     key_coefficient c pk = Ok (Some a) /\
     effective_pubkey c pk = Ok (Some (point_mul pk (fz a)))) /\
  (~ In pk (pubkeys c) -> key_coefficient c pk = Ok None /\ effective_pubkey c pk = Ok None).
Proof. exact (@C02_member_lookup_proof Pr Laws Tags c pk Hc). Qed.
Print Assumptions C02_member_lookup.

(** The repeated key of [toy_c] is found at its last position, with coefficient 3. *)
Example C02_case :
  ctx_reachable toy_c /\ pubkey_index toy_c (tpt 3) = Some 2%nat /\ pubkey_index toy_c (tpt 4) = None /\
  match key_coefficient toy_c (tpt 3) with Ok (Some a) => fz a | _ => 0 end = 3.
Proof. split; [exact toy_c_reach|]. vm_compute. auto. Qed.

(** C03.  One tweak, or any list of plain and x-only tweaks, on any context does what
    the reference's ApplyTweak does to (Q, gacc, tacc), with [TweakError] exactly where
    the reference raises; the key list is unchanged and nothing panics. *)
Theorem C03_tweaks_are_apply_tweak {Pr : prims} {Laws : prims_ok Pr} {Tags : tags_ok Pr} (c : key_agg_ctx Pr) (Hc : ctx_reachable c) :
  (forall (t : scalar Pr) (x : bool),
     (if x then with_xonly_tweak c t else with_plain_tweak c t) = with_tweak c t x /\
     match with_tweak c t x with
     | Ok c' => apply_tweak (ref_ctx c) (ser_scalar t) x = Ret (ref_ctx c') /\ pubkeys c' = pubkeys c
     | Err TweakError => apply_tweak (ref_ctx c) (ser_scalar t) x = ValueError
     | Panic => False
     end) /\
  (forall ts : list (scalar Pr * bool),
     match with_tweaks c ts with
     | Ok c' => apply_tweaks (ref_ctx c) (ref_tweaks ts) = Ret (ref_ctx c') /\ pubkeys c' = pubkeys c
     | Err TweakError => apply_tweaks (ref_ctx c) (ref_tweaks ts) = ValueError
     | Panic => False
     end).
Proof. exact (@C03_tweaks_are_apply_tweak_proof Pr Laws Tags c Hc). Qed.
Print Assumptions C03_tweaks_are_apply_tweak.

(** A mixed list of three tweaks ends with gacc = -1; a tweak can also reach infinity. *)
Example C03_case : with_tweaks toy_c0 toy_tweaks = Ok toy_c /\ parity_acc toy_c = true /\ fz (tweak_acc toy_c) = 11.
Proof. split; [exact toy_c_eq|]. vm_compute. auto. Qed.
Example C03_err_case : with_plain_tweak toy_c0 (tsc 8) = Err TweakError.
Proof. apply err_of_eq; vm_compute. reflexivity. Qed.

(** C04.  Every reachable context satisfies Q = (+-)Q0 + tacc*G with Q0 the key of
    [KeyAggContext::new] on the same list; [aggregated_pubkey_untweaked] returns Q0 and
    never panics; [tweak_sum] is [None] exactly for a zero accumulator, and then Q is Q0
    or -Q0. *)
Theorem C04_untweaked_key {Pr : prims} {Laws : prims_ok Pr} (c : key_agg_ctx Pr) (Hc : ctx_reachable c) :
  exists c0, key_agg_new (pubkeys c) = Ok c0 /\
    aggregated_pubkey_untweaked c = Ok (aggregated_pubkey c0) /\
    pval (aggregated_pubkey c) =
      pt_add (if parity_acc c then pt_neg (aggregated_pubkey c0) else aggregated_pubkey c0)
             (gmul (tweak_acc c)) /\
    (forall t, tweak_sum c = Some t <-> sval t = tweak_acc c) /\
    (tweak_sum c = None <-> tweak_acc c = fzero) /\
    (tweak_sum c = None ->
       pval (aggregated_pubkey c) = aggregated_pubkey c0 \/
       pval (aggregated_pubkey c) = pt_neg (aggregated_pubkey c0)).
Proof. exact (@C04_untweaked_key_proof Pr Laws c Hc). Qed.
Print Assumptions C04_untweaked_key.

Example C04_case :
  ctx_reachable toy_c /\
  match aggregated_pubkey_untweaked toy_c with Ok Q => point_eqb Q (aggregated_pubkey toy_c0) | _ => false end = true /\
  point_eqb (aggregated_pubkey toy_c) (aggregated_pubkey toy_c0) = false.
Proof. split; [exact toy_c_reach|]. vm_compute. auto. Qed.

(** C05.  [with_taproot_tweak] against BIP341: with t = H_TapTweak(x(Q) || root), the call
    succeeds exactly when t is in [1,n) and lift_x(x(Q)) + t*G is finite; the new key is
    the BIP341 output key, the tweak accumulated is t and the context is an x-only tweak
    of the old one.  The unspendable variant is the same with an empty root.  BIP341
    itself also allows t = 0, which the code rejects. *)
Theorem C05_taproot_tweak_is_bip341 {Pr : prims} {Laws : prims_ok Pr} {Tags : tags_ok Pr} (c : key_agg_ctx Pr) (root : bytes) :
  let t := int_from_bytes (tagged_hash "TapTweak"%string (pt_x (aggregated_pubkey c) ++ root)) in
  (forall c', with_taproot_tweak c root = Ok c' ->
     taproot_tweak_pubkey (pt_x (aggregated_pubkey c)) root = Ret (pval (aggregated_pubkey c')) /\
     1 <= t < n_ /\ exists ts : scalar Pr, fz ts = t /\ with_xonly_tweak c ts = Ok c') /\
  (with_taproot_tweak c root = Err TweakError <->
     t = 0 \/ forall Q, taproot_tweak_pubkey (pt_x (aggregated_pubkey c)) root <> Ret Q) /\
  with_taproot_tweak c root <> Panic /\
  with_unspendable_taproot_tweak c = with_taproot_tweak c [].
Proof. exact (@C05_taproot_tweak_is_bip341_proof Pr Laws Tags c root). Qed.
Print Assumptions C05_taproot_tweak_is_bip341.

(** The toy order is 31, so a SHA-256 value is almost always out of range; on [ToyLow],
    where tagged hashes are small, tweaking succeeds. *)
Example C05_reject : with_taproot_tweak toy_c [x00] = Err TweakError.
Proof. apply err_of_eq; vm_compute. reflexivity. Qed.
Example C05_accept :
  is_ok (with_taproot_tweak low_c0 [x00]) = true /\ is_ok (bind (with_plain_tweak low_c0 (lsc 3)) with_unspendable_taproot_tweak) = true.
Proof. vm_compute. auto. Qed.

(** C06.  [aggregated_seckey] returns exactly the integer (gacc * sum a_i d_i + tacc) mod n,
    provided there are no more secret keys than public keys and that integer is the
    discrete logarithm of the aggregated key; otherwise it returns the error.  The secret
    keys of [pubkeys()] in order always succeed.  It never panics. *)
Theorem C06_aggregated_seckey {Pr : prims} {Laws : prims_ok Pr} {Tags : tags_ok Pr} (c : key_agg_ctx Pr) (sks : list (scalar Pr)) (Hc : ctx_reachable c) :
  (forall x, aggregated_seckey c sks = Ok x <->
     (length sks <= length (pubkeys c))%nat /\
     fz x = (gacc_of (parity_acc c) * ref_seckey_sum (pubkeys c) sks + fz (tweak_acc c)) mod n_ /\
     base_mul x = aggregated_pubkey c) /\
  (map base_mul sks = pubkeys c -> exists x, aggregated_seckey c sks = Ok x) /\
  (aggregated_seckey c sks = Err InvalidSecretKeysError <-> forall x, aggregated_seckey c sks <> Ok x) /\
  aggregated_seckey c sks <> Panic.
Proof. exact (@C06_aggregated_seckey_proof Pr Laws Tags c sks Hc). Qed.
Print Assumptions C06_aggregated_seckey.

Example C06_case : ctx_reachable toy_c /\ map base_mul [sk_a; sk_b; sk_a] = pubkeys toy_c /\
  match aggregated_seckey toy_c [sk_a; sk_b; sk_a] with Ok x => fz x | _ => 0 end = 19.
Proof. split; [exact toy_c_reach|]. split; [reflexivity | vm_compute; reflexivity]. Qed.

(** The documentation of [aggregated_seckey] says that an error is returned "if the secret
    keys do not align with the ordered set of pubkeys".  Only the weighted sum is checked, so other
    lists are accepted. *)
Theorem C06_misaligned_rejected_refuted :
  exists (c : key_agg_ctx Toy) (sks : list (scalar Toy)) (x : scalar Toy),
    ctx_reachable c /\ map base_mul sks <> pubkeys c /\ aggregated_seckey c sks = Ok x.
Proof. exact C06_misaligned_rejected_refuted_proof. Qed.
Print Assumptions C06_misaligned_rejected_refuted.

(** C07.  Decoding the encoding of a context gives the same context, in every component. *)
Theorem C07_context_roundtrip {Pr : prims} {Laws : prims_ok Pr} (c : key_agg_ctx Pr) (tg : target) (Hc : ctx_reachable c) (Htg : 64 <= usize_bits tg) :
  ctx_from_bytes tg (ctx_to_bytes c) = Ok c.
Proof. exact (@C07_context_roundtrip_proof Pr Laws c tg Hc Htg). Qed.
Print Assumptions C07_context_roundtrip.

Example C07_case : ctx_reachable toy_c /\ length (ctx_to_bytes toy_c) = 136%nat /\ ctx_from_bytes target64 (ctx_to_bytes toy_c) = Ok toy_c.
Proof. split; [exact toy_c_reach|]. split; [vm_compute; reflexivity|]. apply C07_context_roundtrip; [exact toy_c_reach | cbn; lia]. Qed.

(** The encoding has the documented layout, read field by field: a header byte with the
    parity in bit 0 and the presence of a tweak in bit 1; the tweak in 32 bytes, present
    exactly when it is not zero; the number of keys in 4 bytes; the keys in the order in
    which they were given, 33 bytes each; nothing else. *)
Theorem C07_documented_layout {Pr : prims} {Laws : prims_ok Pr} (c : key_agg_ctx Pr) (Hc : ctx_reachable c) :
  let b := ctx_to_bytes c in
  let tacc := fz (tweak_acc c) in
  let o := if tacc =? 0 then 1%nat else 33%nat in
  length b = (o + 4 + 33 * length (pubkeys c))%nat /\
  int_from_bytes (firstn 1 b) = (if parity_acc c then 1 else 0) + (if tacc =? 0 then 0 else 2) /\
  (tacc <> 0 -> int_from_bytes (firstn 32 (skipn 1 b)) = tacc) /\
  int_from_bytes (firstn 4 (skipn o b)) = Z.of_nat (length (pubkeys c)) /\
  (forall i pk, nth_error (pubkeys c) i = Some pk -> firstn 33 (skipn (o + 4 + 33 * i) b) = cbytes pk).
Proof. exact (@C07_documented_layout_proof Pr Laws c Hc). Qed.
Print Assumptions C07_documented_layout.

(** [toy_c] has both header bits set, a tweak of 11 and three keys. *)
Example C07_layout_case : ctx_reachable toy_c /\ int_from_bytes (firstn 1 (ctx_to_bytes toy_c)) = 3 /\
  int_from_bytes (firstn 32 (skipn 1 (ctx_to_bytes toy_c))) = 11 /\
  int_from_bytes (firstn 4 (skipn 33 (ctx_to_bytes toy_c))) = 3 /\
  firstn 33 (skipn 70 (ctx_to_bytes toy_c)) = cbytes (Pr := Toy) (nth 1 toy_keys (tpt 1)).
Proof. split; [exact toy_c_reach|]. vm_compute. auto. Qed.

(** C08.  On 64-bit targets decoding never panics; the accepted strings are exactly the
    encodings of contexts with the six high bits of the first byte arbitrary. *)
Theorem C08_decoding_total_and_almost_canonical {Pr : prims} {Laws : prims_ok Pr} (tg : target) (b : bytes) (Htg : 64 <= usize_bits tg) :
  ctx_from_bytes (Pr := Pr) tg b <> Panic /\
  (forall c, ctx_from_bytes tg b = Ok c <->
     ctx_reachable c /\
     exists h h0 rest, b = h :: rest /\ ctx_to_bytes c = h0 :: rest /\ b2z h mod 4 = b2z h0).
Proof. exact (@C08_decoding_total_and_almost_canonical_proof Pr Laws tg b Htg). Qed.
Print Assumptions C08_decoding_total_and_almost_canonical.

(** The encoding of [toy_c] with a high bit of its first byte set. *)
Example C08_decoding_case : 64 <= usize_bits target64 /\ ctx_reachable toy_c /\
  b2z (hd x00 (ctx_to_bytes toy_c)) = 3 /\
  is_ok (ctx_from_bytes (Pr := Toy) target64 (x83 :: tl (ctx_to_bytes toy_c))) = true /\
  is_ok (ctx_from_bytes (Pr := Toy) target64 (x82 :: ctx_to_bytes toy_c)) = false.
Proof. split; [vm_compute; discriminate|]. split; [exact toy_c_reach|]. vm_compute. auto. Qed.

(** Decoding is not canonical: a string with an unused header bit set is accepted although
    it is not the encoding of the context it decodes to. *)
Theorem C08_canonical_refuted :
  exists (b : bytes) (c : key_agg_ctx Toy), ctx_from_bytes target64 b = Ok c /\ ctx_to_bytes c <> b.
Proof. exact C08_canonical_refuted_proof. Qed.
Print Assumptions C08_canonical_refuted.

(** C09.  On a 32-bit target with overflow checks, an attacker-chosen 38-byte string makes
    the decoder panic, whatever the curve and the hash. *)
Theorem C09_overflow_check_panics {Pr : prims} :
  exists b, length b = 38%nat /\ ctx_from_bytes (Pr := Pr) (Target 32 true) b = Panic.
Proof. exact (@C09_overflow_check_panics_proof Pr). Qed.
Print Assumptions C09_overflow_check_panics.

(** Without overflow checks a 66-byte string still makes it panic: the product wraps to
    29, no key is parsed and [KeyAggContext::new] is called with an empty list. *)
Theorem C09_wrapping_panics {Pr : prims} {Laws : prims_ok Pr} :
  exists b, length b = 66%nat /\ ctx_from_bytes (Pr := Pr) (Target 32 false) b = Panic.
Proof. exact (@C09_wrapping_panics_proof Pr Laws). Qed.
Print Assumptions C09_wrapping_panics.

(** Without overflow checks a string declaring 1041204195 keys, containing two keys
    and one garbage byte, is accepted; a 64-bit target rejects it. *)
Theorem C09_wrapping_accepts_wrong_count :
  exists (b : bytes) (c : key_agg_ctx Toy),
    ctx_from_bytes (Target 32 false) b = Ok c /\
    be_dec (firstn 4 (skipn 1 b)) <> zlen (pubkeys c) /\
    ctx_from_bytes (Pr := Toy) target64 b = Err (BadLength (length b)).
Proof. exact C09_wrapping_accepts_wrong_count_proof. Qed.
Print Assumptions C09_wrapping_accepts_wrong_count.

(** C10.  Contexts that compare equal are equal in every component (aggregated key, index
    map, coefficients and effective keys included), and conversely. *)
Theorem C10_equality_is_identity {Pr : prims} {Laws : prims_ok Pr} (c : key_agg_ctx Pr) (d : key_agg_ctx Pr) (Hc : ctx_reachable c) (Hd : ctx_reachable d) :
  ctx_eqb c d = true <-> c = d.
Proof. exact (@C10_equality_is_identity_proof Pr Laws c d Hc Hd). Qed.
Print Assumptions C10_equality_is_identity.

Example C10_case : ctx_reachable toy_c0 /\ ctx_reachable toy_c /\ ctx_eqb toy_c0 toy_c = false /\ ctx_eqb toy_c toy_c = true.
Proof. split; [exact toy_c0_reach|]. split; [exact toy_c_reach|]. vm_compute. auto. Qed.

(** C69.  The documentation of [KeyAggContext::new] says that the same keys in a different order
    give a different aggregated key.  They do exactly when the differences of the coefficients,
    applied to the keys, do not sum to infinity. *)
Theorem C69_same_keys_in_another_order {Pr : prims} {Laws : prims_ok Pr} {Tags : tags_ok Pr} (pks pks' : list (point Pr)) (c c' : key_agg_ctx Pr) (Hperm : Permutation pks pks') (Hc : key_agg_new pks = Ok c) (Hc' : key_agg_new pks' = Ok c') :
  let a := fun L (P : point Pr) => key_agg_coeff (map ser_point L) (ser_point P) in
  aggregated_pubkey c = aggregated_pubkey c' <->
  fold_right pt_add pt_O (map (fun P : point Pr => point_mul P ((a pks P - a pks' P) mod n_)) pks) = pt_O.
Proof. exact (@C69_same_keys_in_another_order_proof Pr Laws Tags pks pks' c c' Hperm Hc Hc'). Qed.
Print Assumptions C69_same_keys_in_another_order.

(** Two orders with different and two with equal aggregated keys. *)
Example C69_case :
  let agg := fun l => match key_agg_new (map tpt l) with Ok c => pt_x (aggregated_pubkey c) | _ => [] end in
  bytes_eqb (agg [3; 5; 3]%positive) (agg [5; 3; 3]%positive) = false /\ bytes_eqb (agg [4; 7]%positive) (agg [7; 4]%positive) = true.
Proof. vm_compute. auto. Qed.

(** So the claim depends on the hash values; on the toy curve it fails. *)

Theorem C69_order_matters_refuted :
  exists (pks pks' : list (point Toy)) (c c' : key_agg_ctx Toy), Permutation pks pks' /\ pks <> pks' /\
    key_agg_new pks = Ok c /\ key_agg_new pks' = Ok c' /\ aggregated_pubkey c = aggregated_pubkey c'.
Proof. exact C69_order_matters_refuted_proof. Qed.
Print Assumptions C69_order_matters_refuted.

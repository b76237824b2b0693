(** src/nonces.rs: secret, public and aggregated nonces. *)
From Verif Require Import Bytes Prims TaggedHashes Errors.
Open Scope Z_scope.

Section Nonces.
Context {Pr : prims}.

(** src/nonces.rs:55-64 [extra_input_length_check]: panics when the total length
    exceeds [u32::MAX].  Simplification: the sum itself does not overflow [usize]
    (64-bit targets). *)
Definition extra_total (l : list bytes) : Z := zlen (concat l).
(** The condition asserted at src/nonces.rs:60-63. *)
Definition extra_input_ok (l : list bytes) : bool := extra_total l <=? u32_max.

(** src/nonces.rs:79-83 [SecNonceSpices]. *)
Record spices : Type := SecNonceSpices {
  sp_seckey : option (scalar Pr);
  sp_message : option bytes;
  sp_extra_inputs : list bytes
}.

(** src/nonces.rs:87-89 [SecNonceSpices::new]. *)
Definition spices_new : spices :=
  {| sp_seckey := None; sp_message := None; sp_extra_inputs := [] |}.
(** src/nonces.rs:94-99 [SecNonceSpices::with_seckey]. *)
Definition sp_with_seckey (s : spices) (sk : scalar Pr) : spices :=
  {| sp_seckey := Some sk; sp_message := sp_message s; sp_extra_inputs := sp_extra_inputs s |}.
(** src/nonces.rs:104-109 [SecNonceSpices::with_message]. *)
Definition sp_with_message (s : spices) (m : bytes) : spices :=
  {| sp_seckey := sp_seckey s; sp_message := Some m; sp_extra_inputs := sp_extra_inputs s |}.
(** src/nonces.rs:124-128 [SecNonceSpices::with_extra_input]. *)
Definition sp_with_extra_input (s : spices) (e : bytes) : res Empty_set spices :=
  let l := sp_extra_inputs s ++ [e] in
  if extra_input_ok l then
    Ok {| sp_seckey := sp_seckey s; sp_message := sp_message s; sp_extra_inputs := l |}
  else Panic.

(** src/nonces.rs:179-186 [SecNonceBuilder]. *)
Record builder : Type := SecNonceBuilder {
  nonce_seed_bytes : bytes;
  b_seckey : option (scalar Pr);
  b_pubkey : option (point Pr);
  b_aggregated_pubkey : option (point Pr);
  b_message : option bytes;
  b_extra_inputs : list bytes
}.

(** src/nonces.rs:220-230 [SecNonceBuilder::new] (the seed has 32 bytes). *)
Definition builder_new (seed : bytes) : builder :=
  {| nonce_seed_bytes := seed; b_seckey := None; b_pubkey := None;
     b_aggregated_pubkey := None; b_message := None; b_extra_inputs := [] |}.

(** src/nonces.rs:237-242 [with_pubkey]. *)
Definition with_pubkey (b : builder) (pk : point Pr) : builder :=
  {| nonce_seed_bytes := nonce_seed_bytes b; b_seckey := b_seckey b; b_pubkey := Some pk;
     b_aggregated_pubkey := b_aggregated_pubkey b; b_message := b_message b;
     b_extra_inputs := b_extra_inputs b |}.

(** src/nonces.rs:250-257 [with_seckey]. *)
Definition with_seckey (b : builder) (sk : scalar Pr) : builder :=
  {| nonce_seed_bytes := nonce_seed_bytes b; b_seckey := Some sk;
     b_pubkey := Some (base_mul sk);
     b_aggregated_pubkey := b_aggregated_pubkey b; b_message := b_message b;
     b_extra_inputs := b_extra_inputs b |}.

(** src/nonces.rs:261-266 [with_message]. *)
Definition with_message (b : builder) (m : bytes) : builder :=
  {| nonce_seed_bytes := nonce_seed_bytes b; b_seckey := b_seckey b; b_pubkey := b_pubkey b;
     b_aggregated_pubkey := b_aggregated_pubkey b; b_message := Some m;
     b_extra_inputs := b_extra_inputs b |}.

(** src/nonces.rs:270-278 [with_aggregated_pubkey]. *)
Definition with_aggregated_pubkey (b : builder) (Q : point Pr) : builder :=
  {| nonce_seed_bytes := nonce_seed_bytes b; b_seckey := b_seckey b; b_pubkey := b_pubkey b;
     b_aggregated_pubkey := Some Q; b_message := b_message b;
     b_extra_inputs := b_extra_inputs b |}.

(** [self.extra_inputs.push(..)] at src/nonces.rs:303, seen as a new value. *)
Definition set_extra_inputs (b : builder) (l : list bytes) : builder :=
  {| nonce_seed_bytes := nonce_seed_bytes b; b_seckey := b_seckey b; b_pubkey := b_pubkey b;
     b_aggregated_pubkey := b_aggregated_pubkey b; b_message := b_message b;
     b_extra_inputs := l |}.

(** src/nonces.rs:299-306 [with_extra_input]. *)
Definition with_extra_input (b : builder) (e : bytes) : res Empty_set builder :=
  let l := b_extra_inputs b ++ [e] in
  if extra_input_ok l then Ok (set_extra_inputs b l) else Panic.

(** [Option::or]. (src/nonces.rs:313-314.) *)
Definition opt_or {A} (a b : option A) : option A :=
  match a with Some _ => a | None => b end.

(** src/nonces.rs:312-321 [with_spices]. *)
Definition with_spices (b : builder) (s : spices) : res Empty_set builder :=
  let l := b_extra_inputs b ++ sp_extra_inputs s in
  if extra_input_ok l then
    Ok {| nonce_seed_bytes := nonce_seed_bytes b;
          b_seckey := opt_or (sp_seckey s) (b_seckey b);
          b_pubkey := b_pubkey b;
          b_aggregated_pubkey := b_aggregated_pubkey b;
          b_message := opt_or (sp_message s) (b_message b);
          b_extra_inputs := l |}
  else Panic.

(** src/nonces.rs:424-427 [SecNonce]. *)
Record sec_nonce : Type := SecNonce { k1 : scalar Pr; k2 : scalar Pr }.

(** src/nonces.rs:334-337: [seckey_bytes]. *)
Definition seckey_bytes (b : builder) : bytes :=
  match b_seckey b with Some sk => ser_scalar sk | None => zeros 32 end.

(** src/nonces.rs:339-389: everything fed to the MuSig/nonce hash engine before
    the final counter byte.  Lengths written in one byte: 33, 32, 1 and 0. *)
Definition nonce_preimage (b : builder) : bytes :=
  xor_bytes (seckey_bytes b) (tagged MUSIG_AUX_TAG_DIGEST (nonce_seed_bytes b))
  ++ (match b_pubkey b with None => [x00] | Some pk => x21 :: ser_point pk end)
  ++ (match b_aggregated_pubkey b with None => [x00] | Some Q => x20 :: pt_x Q end)
  ++ (match b_message b with
      | None => [x00]
      | Some m => x01 :: be_enc 8 (zlen m) ++ m end)
  ++ (match b_extra_inputs b with
      | [] => []
      | l => be_enc 4 (extra_total l) ++ concat l end).

(** src/nonces.rs:395-402: a hash reducing to zero is replaced by one. *)
Definition nonce_scalar (h : bytes) : scalar Pr :=
  match not_zero (reduce_from h) with Some k => k | None => scalar_one end.

(** src/nonces.rs:333-405 [build]. *)
Definition build (b : builder) : sec_nonce :=
  let pre := nonce_preimage b in
  {| k1 := nonce_scalar (tagged MUSIG_NONCE_TAG_DIGEST (pre ++ [x00]));
     k2 := nonce_scalar (tagged MUSIG_NONCE_TAG_DIGEST (pre ++ [x01])) |}.

(** src/nonces.rs:461-475 [SecNonce::generate]. *)
Definition generate (seed : bytes) (sk : scalar Pr) (aggpk : point Pr) (msg extra : bytes)
  : res Empty_set sec_nonce :=
  bind (with_extra_input
          (with_message (with_aggregated_pubkey (with_seckey (builder_new seed) sk) aggpk) msg)
          extra)
       (fun b => Ok (build b)).

(** src/nonces.rs:514-519 [PubNonce]. *)
Record pub_nonce : Type := PubNonce { pR1 : point Pr; pR2 : point Pr }.

(** src/nonces.rs:499-504 [public_nonce]. *)
Definition public_nonce (n : sec_nonce) : pub_nonce :=
  {| pR1 := base_mul (k1 n); pR2 := base_mul (k2 n) |}.

(** src/nonces.rs:544-549 [AggNonce]. *)
Record agg_nonce : Type := AggNonce { aR1 : pt; aR2 : pt }.

(** src/nonces.rs:585-600 [AggNonce::sum] (and [std::iter::Sum], lines 737-772,
    which calls it). *)
Definition agg_sum (ns : list pub_nonce) : agg_nonce :=
  {| aR1 := psum (map (fun n => pval (pR1 n)) ns);
     aR2 := psum (map (fun n => pval (pR2 n)) ns) |}.

(** src/nonces.rs:606-624 [nonce_coefficient]. *)
Definition nonce_coefficient (n : agg_nonce) (Q : point Pr) (msg : bytes) : mscalar Pr :=
  reduce_from (tagged MUSIG_NONCECOEF_TAG_DIGEST
    (ser_mpoint (aR1 n) ++ ser_mpoint (aR2 n) ++ pt_x Q ++ msg)).

(** src/nonces.rs:633-643 [final_nonce]. *)
Definition final_nonce (n : agg_nonce) (b : mscalar Pr) : point Pr :=
  match not_inf (pt_add (aR1 n) (pmul b (aR2 n))) with
  | None => gen_point
  | Some P => P
  end.

(** *** Encodings *)

(** src/nonces.rs:657-662 [SecNonce::to_bytes]. *)
Definition secnonce_to_bytes (n : sec_nonce) : bytes :=
  ser_scalar (k1 n) ++ ser_scalar (k2 n).

(** src/nonces.rs:670-677 [SecNonce::from_bytes]; the slices are in range because
    of the length check. *)
Definition secnonce_from_bytes (b : bytes) : res decode_error sec_nonce :=
  if negb (length b =? 64)%nat && negb (length b =? 97)%nat then Err (BadLength (length b)) else
  match parse_scalar (firstn 32 b) with
  | None => Err InvalidScalar
  | Some a =>
      match parse_scalar (firstn 32 (skipn 32 b)) with
      | None => Err InvalidScalar
      | Some c => Ok {| k1 := a; k2 := c |}
      end
  end.

(** src/nonces.rs:685-690 [PubNonce::to_bytes]. *)
Definition pubnonce_to_bytes (n : pub_nonce) : bytes := ser_point (pR1 n) ++ ser_point (pR2 n).

(** src/nonces.rs:694-701 [PubNonce::from_bytes]. *)
Definition pubnonce_from_bytes (b : bytes) : res decode_error pub_nonce :=
  if negb (length b =? 66)%nat then Err (BadLength (length b)) else
  match parse_point (firstn 33 b) with
  | None => Err InvalidPoint
  | Some P =>
      match parse_point (skipn 33 b) with
      | None => Err InvalidPoint
      | Some Q => Ok {| pR1 := P; pR2 := Q |}
      end
  end.

(** src/nonces.rs:709-714 [AggNonce::to_bytes]. *)
Definition aggnonce_to_bytes (n : agg_nonce) : bytes := ser_mpoint (aR1 n) ++ ser_mpoint (aR2 n).

(** src/nonces.rs:718-725 [AggNonce::from_bytes]. *)
Definition aggnonce_from_bytes (b : bytes) : res decode_error agg_nonce :=
  if negb (length b =? 66)%nat then Err (BadLength (length b)) else
  match parse_mpoint (firstn 33 b) with
  | None => Err InvalidPoint
  | Some P =>
      match parse_mpoint (skipn 33 b) with
      | None => Err InvalidPoint
      | Some Q => Ok {| aR1 := P; aR2 := Q |}
      end
  end.

End Nonces.
Arguments spices Pr : clear implicits.
Arguments builder Pr : clear implicits.
Arguments sec_nonce Pr : clear implicits.
Arguments pub_nonce Pr : clear implicits.
Arguments agg_nonce Pr : clear implicits.

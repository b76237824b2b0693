(** Properties of the fixed-size encodings and of hexadecimal text: C40 - C42. *)
From Coq Require Import String List.
From Verif Require Import Bytes BytesFacts Prims PrimsFacts Errors SpecBIP327
  KeyAgg Nonces Signature Encoding SpecHex SpecCtx Toy ToyData ToyRounds.
Import ListNotations.
Open Scope list_scope.
Open Scope Z_scope.
From Verif Require Import ProofsCodecs.

(** C40.  Decoding an encoding gives the value back, and the encodings have 64, 66, 66, 64,
    64 and 65 bytes.  A [CompactSignature] stores a 32-byte array; a [LiftedSignature] round
    trips when its nonce point has an even y-coordinate (the encoding holds only x). *)
Theorem C40_round_trips {Pr : prims} {Laws : prims_ok Pr} (sn : sec_nonce Pr) (pn : pub_nonce Pr) (an : agg_nonce Pr) (cs : compact_sig Pr) (ls : lifted_sig Pr) (ads : adaptor_sig Pr) (Hc : length (c_rx cs) = 32%nat) (Hl : has_even_y (l_R ls) = true) :
  (secnonce_from_bytes (secnonce_to_bytes sn) = Ok sn /\ length (secnonce_to_bytes sn) = 64%nat) /\
  (pubnonce_from_bytes (pubnonce_to_bytes pn) = Ok pn /\ length (pubnonce_to_bytes pn) = 66%nat) /\
  (aggnonce_from_bytes (aggnonce_to_bytes an) = Ok an /\ length (aggnonce_to_bytes an) = 66%nat) /\
  (compact_from_bytes (compact_to_bytes cs) = Ok cs /\ length (compact_to_bytes cs) = 64%nat) /\
  (lifted_from_bytes (lifted_to_bytes ls) = Ok ls /\ length (lifted_to_bytes ls) = 64%nat) /\
  (adaptor_from_bytes (adaptor_to_bytes ads) = Ok ads /\ length (adaptor_to_bytes ads) = 65%nat).
Proof. exact (@C40_round_trips_proof Pr Laws sn pn an cs ls ads Hc Hl). Qed.
Print Assumptions C40_round_trips.

Example C40_case :
  length (c_rx (compact {| l_R := even_point (tpt 8); l_s := tsc 20 |})) = 32%nat /\
  has_even_y (Pr := Toy) (even_point (tpt 8)) = true /\
  ok_and (aggnonce_from_bytes (Pr := Toy) (zeros 33 ++ ser_point (tpt 4))) (fun n => pt_eqb (aR1 n) pt_O) = true.
Proof. vm_compute. auto. Qed.

(** C41.  Decoding a [SecNonce]: 64 bytes, or 97 bytes of which the last 33 are ignored, and
    two integers in [1, n).  Nothing else is accepted, the reason is right, nothing panics. *)
Theorem C41_secnonce_decoding {Pr : prims} {Laws : prims_ok Pr} (b : bytes) :
  let i1 := int_from_bytes (firstn 32 b) in
  let i2 := int_from_bytes (firstn 32 (skipn 32 b)) in
  match secnonce_from_bytes (Pr := Pr) b with
  | Ok sn => (length b = 64 \/ length b = 97)%nat /\ 1 <= i1 < n_ /\ 1 <= i2 < n_ /\
      fz (sval (k1 sn)) = i1 /\ fz (sval (k2 sn)) = i2 /\ secnonce_to_bytes sn = firstn 64 b
  | Err (BadLength n) => n = length b /\ n <> 64%nat /\ n <> 97%nat
  | Err InvalidScalar => (length b = 64 \/ length b = 97)%nat /\ ~ (1 <= i1 < n_ /\ 1 <= i2 < n_)
  | _ => False
  end.
Proof. exact (@C41_secnonce_decoding_proof Pr Laws b). Qed.
Print Assumptions C41_secnonce_decoding.

(** Zero is refused, 97 bytes are accepted whatever the tail. *)
Example C41_secnonce_case :
  err_of (secnonce_from_bytes (Pr := Toy) (zeros 31 ++ [x07] ++ zeros 32)) = Some InvalidScalar /\
  err_of (secnonce_from_bytes (Pr := Toy) (zeros 65)) = Some (BadLength 65) /\
  is_ok (secnonce_from_bytes (Pr := Toy) (secnonce_to_bytes (mk_sn 7 30) ++ repeat xff 33)) = true.
Proof. vm_compute. auto. Qed.

(** C41.  Decoding a [PubNonce]: 66 bytes, two points accepted by the reference's [cpoint]. *)
Theorem C41_pubnonce_decoding {Pr : prims} {Laws : prims_ok Pr} (b : bytes) :
  match pubnonce_from_bytes (Pr := Pr) b with
  | Ok pn => length b = 66%nat /\ cpoint (firstn 33 b) = Ret (pval (pR1 pn)) /\
      cpoint (skipn 33 b) = Ret (pval (pR2 pn)) /\ pubnonce_to_bytes pn = b
  | Err (BadLength n) => n = length b /\ n <> 66%nat
  | Err InvalidPoint => length b = 66%nat /\
      (cpoint (Pr := Pr) (firstn 33 b) = ValueError \/ cpoint (Pr := Pr) (skipn 33 b) = ValueError)
  | _ => False
  end.
Proof. exact (@C41_pubnonce_decoding_proof Pr Laws b). Qed.
Print Assumptions C41_pubnonce_decoding.

(** The point at infinity is refused in a public nonce. *)
Example C41_pubnonce_case :
  err_of (pubnonce_from_bytes (Pr := Toy) (zeros 33 ++ ser_point (tpt 4))) = Some InvalidPoint /\
  is_ok (pubnonce_from_bytes (Pr := Toy) (ser_point (tpt 5) ++ ser_point (tpt 4))) = true.
Proof. vm_compute. auto. Qed.

(** C41.  Decoding an [AggNonce]: 66 bytes, two points accepted by the reference's
    [cpoint_ext], which reads 33 zero bytes as infinity. *)
Theorem C41_aggnonce_decoding {Pr : prims} {Laws : prims_ok Pr} (b : bytes) :
  match aggnonce_from_bytes (Pr := Pr) b with
  | Ok an => length b = 66%nat /\ cpoint_ext (firstn 33 b) = Ret (aR1 an) /\
      cpoint_ext (skipn 33 b) = Ret (aR2 an) /\ aggnonce_to_bytes an = b
  | Err (BadLength n) => n = length b /\ n <> 66%nat
  | Err InvalidPoint => length b = 66%nat /\
      (cpoint_ext (Pr := Pr) (firstn 33 b) = ValueError \/ cpoint_ext (Pr := Pr) (skipn 33 b) = ValueError)
  | _ => False
  end.
Proof. exact (@C41_aggnonce_decoding_proof Pr Laws b). Qed.
Print Assumptions C41_aggnonce_decoding.

Example C41_aggnonce_case :
  err_of (aggnonce_from_bytes (Pr := Toy) (zeros 65 ++ [x01])) = Some InvalidPoint /\
  is_ok (aggnonce_from_bytes (Pr := Toy) (zeros 66)) = true.
Proof. vm_compute. auto. Qed.

(** C41.  Decoding a [CompactSignature]: 64 bytes, the last 32 an integer below n; the first
    32 are kept as they are. *)
Theorem C41_compact_decoding {Pr : prims} {Laws : prims_ok Pr} (b : bytes) :
  match compact_from_bytes (Pr := Pr) b with
  | Ok sg => length b = 64%nat /\ int_from_bytes (skipn 32 b) < n_ /\ c_rx sg = firstn 32 b /\
      fz (c_s sg) = int_from_bytes (skipn 32 b) /\ compact_to_bytes sg = b
  | Err (BadLength n) => n = length b /\ n <> 64%nat
  | Err InvalidScalar => length b = 64%nat /\ n_ <= int_from_bytes (skipn 32 b)
  | _ => False
  end.
Proof. exact (@C41_compact_decoding_proof Pr Laws b). Qed.
Print Assumptions C41_compact_decoding.

Example C41_compact_case :
  err_of (compact_from_bytes (Pr := Toy) (zeros 63 ++ [x1f])) = Some InvalidScalar /\
  is_ok (compact_from_bytes (Pr := Toy) (repeat xff 32 ++ zeros 31 ++ [x1e])) = true.
Proof. vm_compute. auto. Qed.

(** C41.  Decoding a [LiftedSignature]: in addition the first 32 bytes must be the
    x-coordinate of a curve point, and the even one is taken. *)
Theorem C41_lifted_decoding {Pr : prims} {Laws : prims_ok Pr} (b : bytes) :
  match lifted_from_bytes (Pr := Pr) b with
  | Ok sg => length b = 64%nat /\ int_from_bytes (skipn 32 b) < n_ /\ xbytes (l_R sg) = firstn 32 b /\
      has_even_y (l_R sg) = true /\ fz (l_s sg) = int_from_bytes (skipn 32 b) /\ lifted_to_bytes sg = b
  | Err (BadLength n) => n = length b /\ n <> 64%nat
  | Err InvalidScalar => length b = 64%nat /\ n_ <= int_from_bytes (skipn 32 b)
  | Err InvalidPoint => length b = 64%nat /\ int_from_bytes (skipn 32 b) < n_ /\
      forall P : pt, P <> pt_O -> xbytes P <> firstn 32 b
  | _ => False
  end.
Proof. exact (@C41_lifted_decoding_proof Pr Laws b). Qed.
Print Assumptions C41_lifted_decoding.

Example C41_lifted_case :
  err_of (lifted_from_bytes (Pr := Toy) (repeat xff 32 ++ zeros 32)) = Some InvalidPoint /\
  is_ok (lifted_from_bytes (Pr := Toy) (pt_x (tpt 3) ++ zeros 32)) = true.
Proof. vm_compute. auto. Qed.

(** C41.  Decoding an [AdaptorSignature]: 65 bytes, a point accepted by [cpoint_ext] and an
    integer below n; the point is checked first. *)
Theorem C41_adaptor_decoding {Pr : prims} {Laws : prims_ok Pr} (b : bytes) :
  match adaptor_from_bytes (Pr := Pr) b with
  | Ok sg => length b = 65%nat /\ cpoint_ext (firstn 33 b) = Ret (a_R sg) /\
      int_from_bytes (skipn 33 b) < n_ /\ fz (a_s sg) = int_from_bytes (skipn 33 b) /\ adaptor_to_bytes sg = b
  | Err (BadLength n) => n = length b /\ n <> 65%nat
  | Err InvalidPoint => length b = 65%nat /\ cpoint_ext (Pr := Pr) (firstn 33 b) = ValueError
  | Err InvalidScalar => length b = 65%nat /\ (exists P, cpoint_ext (Pr := Pr) (firstn 33 b) = Ret P) /\
      n_ <= int_from_bytes (skipn 33 b)
  | _ => False
  end.
Proof. exact (@C41_adaptor_decoding_proof Pr Laws b). Qed.
Print Assumptions C41_adaptor_decoding.

Example C41_adaptor_case :
  err_of (adaptor_from_bytes (Pr := Toy) (x02 :: zeros 31 ++ [x2b] ++ zeros 31 ++ [x1f])) = Some InvalidPoint /\
  err_of (adaptor_from_bytes (Pr := Toy) (zeros 64 ++ [x1f])) = Some InvalidScalar /\
  is_ok (adaptor_from_bytes (Pr := Toy) (zeros 65)) = true.
Proof. vm_compute. auto. Qed.

(** C42.  A text parses to a value exactly when it spells, in digits of either case, the
    encoding of that value.  ([LiftedSignature]s parse with an even nonce point; a context
    parses when the spelled bytes decode.)  For secret nonces this excludes the 97-byte form. *)
Theorem C42_hex_parsing {Pr : prims} {Laws : prims_ok Pr} (s : bytes) :
  (forall x, secnonce_from_hex (Pr := Pr) s = Ok x <-> spells s (secnonce_to_bytes x)) /\
  (forall x, pubnonce_from_hex (Pr := Pr) s = Ok x <-> spells s (pubnonce_to_bytes x)) /\
  (forall x, aggnonce_from_hex (Pr := Pr) s = Ok x <-> spells s (aggnonce_to_bytes x)) /\
  (forall x, compact_from_hex (Pr := Pr) s = Ok x <-> spells s (compact_to_bytes x) /\ length (c_rx x) = 32%nat) /\
  (forall x, lifted_from_hex (Pr := Pr) s = Ok x <-> spells s (lifted_to_bytes x) /\ has_even_y (l_R x) = true) /\
  (forall x, adaptor_from_hex (Pr := Pr) s = Ok x <-> spells s (adaptor_to_bytes x)) /\
  (forall tg x, ctx_from_hex (Pr := Pr) tg s = Ok x <-> exists b, spells s b /\ ctx_from_bytes tg b = Ok x).
Proof. exact (@C42_hex_parsing_proof Pr Laws s). Qed.
Print Assumptions C42_hex_parsing.

(** Upper, lower and mixed case of the same byte. *)
Example C42_case : spells [x61; x42] [xab] /\ spells [x41; x62] [xab] /\
  is_ok (pubnonce_from_hex (Pr := Toy) (hex_encode true (pubnonce_to_bytes (toy_pn 0)))) = true /\
  is_ok (ctx_from_hex (Pr := Toy) target64 (hex_encode false (ctx_to_bytes toy_c))) = true.
Proof.
  split; [apply EncodingFacts.decode_spells; reflexivity|]. split; [apply EncodingFacts.decode_spells; reflexivity|].
  split; vm_compute; reflexivity.
Qed.

(** C42.  Why a text is refused, for each fixed-size type with [n] bytes and its decoder, and
    for contexts: an odd number of characters or more than 2n of them is [InvalidLength], else
    a character that is no digit is [InvalidEncoding], else the decoder's own error. *)
Theorem C42_hex_errors {A : Type} (n : nat) (decode : bytes -> res decode_error A) (s : bytes) :
  ((Nat.odd (length s) = true \/ (2 * n < length s)%nat) ->
     from_hex_fixed n decode s = Err (BadHexFormat InvalidLength)) /\
  (Nat.odd (length s) = false -> (length s <= 2 * n)%nat -> has_bad_char s ->
     from_hex_fixed n decode s = Err (BadHexFormat InvalidEncoding)) /\
  (forall b, spells s b -> (length b <= n)%nat -> from_hex_fixed n decode s = decode b) /\
  (Nat.odd (length s) = true -> from_hex_var decode s = Err (BadHexFormat InvalidLength)) /\
  (Nat.odd (length s) = false -> has_bad_char s ->
     from_hex_var decode s = Err (BadHexFormat InvalidEncoding)) /\
  (forall b, spells s b -> from_hex_var decode s = decode b) /\
  (Nat.odd (length s) = true \/ has_bad_char s \/ exists b, spells s b).
Proof. exact (@C42_hex_errors_proof A n decode s). Qed.
Print Assumptions C42_hex_errors.

Example C42_errors_case : has_bad_char [x30; x67] /\
  err_of (secnonce_from_hex (Pr := Toy) (hex_encode false (secnonce_to_bytes (mk_sn 7 30) ++ zeros 33))) = Some (BadHexFormat InvalidLength) /\
  err_of (secnonce_from_hex (Pr := Toy) [x30; x67]) = Some (BadHexFormat InvalidEncoding) /\
  err_of (secnonce_from_hex (Pr := Toy) [x30; x30]) = Some (BadLength 1).
Proof.
  split; [exists x67; split; [right; left; reflexivity|apply EncodingFacts.hex_value_None; reflexivity]|]. vm_compute. auto.
Qed.

(** C42.  [LowerHex] (also [Display]) and [UpperHex] spell the encoding in one case, two
    characters per byte.  Two texts that parse to the same value with the same decoder differ
    in letter case only; and any case change of the letters leaves the result unchanged. *)
Theorem C42_hex_formatting (b s s' : bytes) :
  (forall upper, spells (hex_encode upper b) b /\ length (hex_encode upper b) = (2 * length b)%nat /\
     forall c, In c (hex_encode upper b) -> In c (if upper then upper_digits else lower_digits)) /\
  (spells s b -> spells s' b -> map lower_char s = map lower_char s') /\
  (spells s b -> map lower_char s = map lower_char s' -> (forall c, In c s' -> exists z, is_digit c z) -> spells s' b) /\
  (forall b', spells s b -> spells s b' -> b = b').
Proof. exact (@C42_hex_formatting_proof b s s'). Qed.
Print Assumptions C42_hex_formatting.

Example C42_formatting_case : hex_encode false [x0f; xa9] = [x30; x66; x61; x39] /\ hex_encode true [x0f; xa9] = [x30; x46; x41; x39].
Proof. split; reflexivity. Qed.

(** C42.  A 97-byte secret nonce is accepted as bytes and, through serde, as hex text or bytes,
    but not by [from_hex] / [FromStr]. *)
Theorem C42_long_secnonce {Pr : prims} {Laws : prims_ok Pr} (sn : sec_nonce Pr) (tail s : bytes) (Ht : length tail = 33%nat) (Hs : spells s (secnonce_to_bytes sn ++ tail)) :
  secnonce_from_bytes (secnonce_to_bytes sn ++ tail) = Ok sn /\
  serde_bin_fixed 97 (secnonce_from_bytes (Pr := Pr)) (secnonce_to_bytes sn ++ tail) = Ok sn /\
  serde_hex_fixed 97 (secnonce_from_bytes (Pr := Pr)) s = Ok sn /\
  secnonce_from_hex (Pr := Pr) s = Err (BadHexFormat InvalidLength).
Proof. exact (@C42_long_secnonce_proof Pr Laws sn tail s Ht Hs). Qed.
Print Assumptions C42_long_secnonce.

Example C42_long_case : spells (hex_encode true (secnonce_to_bytes (mk_sn 7 30) ++ repeat x05 33)) (secnonce_to_bytes (mk_sn 7 30) ++ repeat x05 33).
Proof. apply EncodingFacts.hex_encode_spells. Qed.

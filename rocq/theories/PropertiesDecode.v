(** Decoding of key aggregation contexts against the reference, and confusion between types: C85. *)
From Coq Require Import String List.
From Verif Require Import Bytes BytesFacts Prims PrimsFacts TaggedHashes Errors SpecTags SpecBIP327
  KeyAgg Nonces Signature Encoding SpecHex SpecCtx SpecView SpecDecode Toy ToyData ToyRounds.
Import ListNotations.
Open Scope string_scope.
Open Scope list_scope.
Open Scope Z_scope.
From Verif Require Import ProofsDecode.

(** C85.  src/key_agg.rs:584-629, 64-bit targets.  Decoding any byte string gives what a reader of the
    documented layout gives with the reference's functions: the same keys and the same
    (Q, gacc, tacc), or the same error.  Nothing panics. *)
Theorem C85_context_decoding {Pr : prims} {Laws : prims_ok Pr} {Tags : tags_ok Pr} (tg : target) (b : bytes) (Htg : 64 <= usize_bits tg) :
  match ctx_from_bytes (Pr := Pr) tg b with
  | Ok c => read_context b = Ok (map ser_point (pubkeys c), ref_ctx c)
  | Err e => read_context (Pr := Pr) b = Err e
  | Panic => False
  end.
Proof. exact (@C85_context_decoding_proof Pr Laws Tags tg b Htg). Qed.
Print Assumptions C85_context_decoding.

(** [toy_c] and the ways its encoding can be spoilt: too short, a zero tweak, a missing byte, a key off the curve,
    keys that sum to infinity, and a tweak that leads to infinity. *)
Example C85_context_case :
  let b := ctx_to_bytes toy_c in
  let two := be_enc 4 2 ++ ser_point (tpt 3) ++ ser_point (tpt 18) in
  64 <= usize_bits target64 /\
  is_ok (read_context (Pr := Toy) b) = true /\
  err_of (ctx_from_bytes (Pr := Toy) target64 (firstn 37 b)) = Some (BadLength 37) /\
  err_of (ctx_from_bytes (Pr := Toy) target64 (x02 :: zeros 32 ++ skipn 33 b)) = Some InvalidScalar /\
  err_of (ctx_from_bytes (Pr := Toy) target64 (removelast b)) = Some (BadLength 135) /\
  err_of (ctx_from_bytes (Pr := Toy) target64 (removelast b ++ [xff])) = Some InvalidPoint /\
  err_of (ctx_from_bytes (Pr := Toy) target64 (x00 :: two)) =
    Some (Custom "computed an invalid aggregated key from a collection of public keys") /\
  err_of (ctx_from_bytes (Pr := Toy) target64 (x02 :: be_enc 32 8 ++ skipn 33 b)) =
    Some (Custom "serialized KeyAggContext contains an invalid tweak").
Proof. split; [vm_compute; discriminate|]. vm_compute. repeat split. Qed.

(** C85.  Bytes, or a text, taken by the decoders of two types: the types are a secret nonce and the two
    forms of a signature, or the two kinds of nonces.  A public nonce is always taken as an aggregated
    one; the other way exactly when both points are finite.  A compact signature is taken as a lifted one exactly
    when a point has that x, and 64 bytes of a secret nonce are always taken as a compact signature. *)
Theorem C85_types_confused {Pr : prims} {Laws : prims_ok Pr} :
  (forall k k' b, takes (Pr := Pr) k b -> takes (Pr := Pr) k' b -> family k = family k') /\
  (forall k k' s, takes_hex (Pr := Pr) k s -> takes_hex (Pr := Pr) k' s -> family k = family k') /\
  (forall b (pn : pub_nonce Pr), pubnonce_from_bytes b = Ok pn ->
     aggnonce_from_bytes b = Ok {| aR1 := pval (pR1 pn); aR2 := pval (pR2 pn) |}) /\
  (forall b (an : agg_nonce Pr), aggnonce_from_bytes b = Ok an ->
     (takes (Pr := Pr) PublicNonce b <-> aR1 an <> pt_O /\ aR2 an <> pt_O)) /\
  (forall b (sg : lifted_sig Pr), lifted_from_bytes b = Ok sg -> compact_from_bytes b = Ok (compact sg)) /\
  (forall b (sg : compact_sig Pr), compact_from_bytes b = Ok sg ->
     (takes (Pr := Pr) Lifted b <-> exists P : pt, P <> pt_O /\ xbytes P = c_rx sg) /\
     (takes (Pr := Pr) SecretNonce b <-> 1 <= int_from_bytes (c_rx sg) < n_ /\ c_s sg <> fzero)) /\
  (forall b (sn : sec_nonce Pr), secnonce_from_bytes b = Ok sn -> List.length b = 64%nat ->
     compact_from_bytes b = Ok {| c_rx := ser_scalar (k1 sn); c_s := k2 sn |}) /\
  (forall b k, List.length b = 97%nat -> takes (Pr := Pr) k b -> k = SecretNonce).
Proof. exact (@C85_types_confused_proof Pr Laws). Qed.
Print Assumptions C85_types_confused.

(** One string for each overlap. *)
Example C85_confused_case :
  let nn := pubnonce_to_bytes (toy_pn 0) in
  is_ok (aggnonce_from_bytes (Pr := Toy) nn) = true /\
  is_ok (aggnonce_from_bytes (Pr := Toy) (zeros 66)) = true /\ is_ok (pubnonce_from_bytes (Pr := Toy) (zeros 66)) = false /\
  is_ok (secnonce_from_bytes (Pr := Toy) (be_enc 32 3 ++ be_enc 32 5)) = true /\
  is_ok (compact_from_bytes (Pr := Toy) (be_enc 32 3 ++ be_enc 32 5)) = true /\
  is_ok (compact_from_bytes (Pr := Toy) (repeat xff 32 ++ be_enc 32 5)) = true /\
  is_ok (lifted_from_bytes (Pr := Toy) (repeat xff 32 ++ be_enc 32 5)) = false.
Proof. vm_compute. auto 10. Qed.

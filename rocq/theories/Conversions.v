(** Conversions of signatures (src/signature.rs:131-138, 330-432) and the serde impls of
    all encodable types (src/binary_encoding.rs:144-175, 257-281). *)
From Coq Require Import List.
From Verif Require Import Bytes Prims Errors KeyAgg Nonces Signature Encoding.
Import ListNotations.
Open Scope Z_scope.

Section Forms.
Context {Pr : prims}.

(** The types a signature can be asked for ([T: From<LiftedSignature>]) and be converted
    from.  [secp256k1::schnorr::Signature], [k256::WideBytes], [[u8; 64]] and [Vec<u8>] hold
    64 bytes and are converted by moving them; [k256::PublicKey] is a finite point and
    [k256::Scalar] an integer below n, as [Point] and [MaybeScalar] are.
    (Conversions at src/signature.rs:330-433.) *)
Inductive sig_form : Type :=
| FLifted (sg : lifted_sig Pr)
| FCompact (sg : compact_sig Pr)
| FArray (b : bytes)        (* [u8; 64], Vec<u8>, &[u8] *)
| FSchnorr (b : bytes)      (* secp256k1::schnorr::Signature *)
| FWide (b : bytes)         (* k256::WideBytes *)
| FPair (R : point Pr) (s : mscalar Pr).  (* (k256::PublicKey, k256::Scalar) *)

(** src/signature.rs:131-138 [LiftedSignature::unzip]. *)
Definition unzip (sg : lifted_sig Pr) : point Pr * mscalar Pr := (l_R sg, l_s sg).

(** src/signature.rs:345-350 [From<LiftedSignature> for CompactSignature];
    src/binary_encoding.rs:111-123 [From] for [[u8; 64]] and [Vec<u8>];
    src/signature.rs:377-381 for [schnorr::Signature], 407-417 for pairs, 427-431 for
    [WideBytes]. *)
Definition forms_of_lifted (sg : lifted_sig Pr) : list sig_form :=
  [ FLifted sg; FCompact (compact sg); FArray (lifted_to_bytes sg); FSchnorr (lifted_to_bytes sg);
    FWide (lifted_to_bytes sg); FPair (fst (unzip sg)) (snd (unzip sg)) ].

(** src/binary_encoding.rs:111-123, src/signature.rs:371-375, 420-424: what a
    [CompactSignature] converts into without failing. *)
Definition forms_of_compact (sg : compact_sig Pr) : list sig_form :=
  [ FCompact sg; FArray (compact_to_bytes sg); FSchnorr (compact_to_bytes sg); FWide (compact_to_bytes sg) ].

(** src/signature.rs:400-405 [TryFrom<CompactSignature>] for a pair. *)
Definition pair_of_compact (sg : compact_sig Pr) : option (point Pr * mscalar Pr) :=
  match lift_nonce sg with Some l => Some (unzip l) | None => None end.

(** To [LiftedSignature]: src/signature.rs:334-343 from [CompactSignature], 364-369 from
    [schnorr::Signature], 394-398 from a pair; src/binary_encoding.rs:66-94 from bytes
    ([WideBytes] as a slice). *)
Definition lifted_of_form (f : sig_form) : res decode_error (lifted_sig Pr) :=
  match f with
  | FLifted sg => Ok sg
  | FCompact sg => ok_or (lift_nonce sg) InvalidPoint
  | FArray b | FSchnorr b | FWide b => lifted_from_bytes b
  | FPair R s => Ok (lifted_new R s)
  end.

(** To [CompactSignature]: src/signature.rs:345-350, 357-362, 388-392;
    src/binary_encoding.rs:66-94. *)
Definition compact_of_form (f : sig_form) : res decode_error (compact_sig Pr) :=
  match f with
  | FLifted sg => Ok (compact sg)
  | FCompact sg => Ok sg
  | FArray b | FSchnorr b | FWide b => compact_from_bytes b
  | FPair R s => Ok (compact_new R s)
  end.

End Forms.
Arguments sig_form Pr : clear implicits.

(** What an impl hands to, or gets from, a serde data format: a string, a byte string, or
    a tuple of bytes. (src/binary_encoding.rs:147-174, 260-281.) *)
Inductive wire : Type :=
| WStr (text : bytes)
| WBytes (b : bytes)
| WTuple (l : bytes).

(** src/binary_encoding.rs:145-150 [Serialize] of the fixed-size types: in human-readable
    formats lower-case hex, otherwise the array.  Whether [serdect::array] writes an array
    as a byte string or as a tuple is up to the version of [serdect], which is not part of
    the repository: a parameter. *)
Definition serialize_fixed (array_is_tuple human : bool) (b : bytes) : wire :=
  if human then WStr (hex_encode false b) else if array_is_tuple then WTuple b else WBytes b.

(** src/binary_encoding.rs:257-263 [Serialize] of the variable-size type. *)
Definition serialize_var (human : bool) (b : bytes) : wire :=
  if human then WStr (hex_encode false b) else WBytes b.

(** src/binary_encoding.rs:152-174 [Deserialize] of the fixed-size types, which goes through
    [serdect::slice]: a string in human-readable formats and a byte string in others. *)
Definition deserialize_fixed {A} (max : nat) (from_bytes : bytes -> res decode_error A) (human : bool) (w : wire)
  : res unit A :=
  match human, w with
  | true, WStr s => serde_hex_fixed max from_bytes s
  | false, WBytes b => serde_bin_fixed max from_bytes b
  | _, _ => Err tt
  end.

(** src/binary_encoding.rs:265-280 [Deserialize] of the variable-size type. *)
Definition deserialize_var {A} (from_bytes : bytes -> res decode_error A) (human : bool) (w : wire) : res unit A :=
  match human, w with
  | true, WStr s => map_err (fun _ => tt) (from_hex_var from_bytes s)
  | false, WBytes b => map_err (fun _ => tt) (from_bytes b)
  | _, _ => Err tt
  end.

Section SerdeInstances.
Context {Pr : prims}.
(** src/nonces.rs:728-730, src/signature.rs:322-324, src/key_agg.rs:632: the macro
    invocations; a [SecNonce] is read into a buffer of 97 bytes. *)
Definition secnonce_deserialize := deserialize_fixed 97 (@secnonce_from_bytes Pr).
(** src/nonces.rs:729. *)
Definition pubnonce_deserialize := deserialize_fixed 66 (@pubnonce_from_bytes Pr).
(** src/nonces.rs:730. *)
Definition aggnonce_deserialize := deserialize_fixed 66 (@aggnonce_from_bytes Pr).
(** src/signature.rs:322. *)
Definition compact_deserialize := deserialize_fixed 64 (@compact_from_bytes Pr).
(** src/signature.rs:323. *)
Definition lifted_deserialize := deserialize_fixed 64 (@lifted_from_bytes Pr).
(** src/signature.rs:324. *)
Definition adaptor_deserialize := deserialize_fixed 65 (@adaptor_from_bytes Pr).
(** src/key_agg.rs:632. *)
Definition ctx_deserialize (tg : target) := deserialize_var (@ctx_from_bytes Pr tg).
End SerdeInstances.

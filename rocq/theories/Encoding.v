(** src/binary_encoding.rs: hexadecimal forms shared by all encodable types. *)
From Coq Require Import String Ascii.
From Verif Require Import Bytes Prims Errors KeyAgg Nonces Signature.
Open Scope Z_scope.

(** Characters of a string are ASCII codes 0-255 here; a Rust [&str] is UTF-8, and
    [base16ct] works on its bytes, so a string is a byte list. *)

(** base16ct lower/upper nibble to character. (src/binary_encoding.rs:38, 46.) *)
Definition hex_digit (upper : bool) (n : Z) : byte :=
  if n <? 10 then z2b (48 + n)                        (* '0'.. *)
  else if upper then z2b (55 + n)                     (* 'A'.. *)
  else z2b (87 + n).                                  (* 'a'.. *)

(** base16ct mixed-case nibble decoding. (src/binary_encoding.rs:59-63.) *)
Definition hex_value (c : byte) : option Z :=
  let z := b2z c in
  if (48 <=? z) && (z <=? 57) then Some (z - 48)
  else if (65 <=? z) && (z <=? 70) then Some (z - 55)
  else if (97 <=? z) && (z <=? 102) then Some (z - 87)
  else None.

(** src/binary_encoding.rs:35-49, 188-204 [LowerHex]/[UpperHex] via
    [base16ct::lower::encode_str]/[upper::encode_str]. *)
Definition hex_encode (upper : bool) (b : bytes) : bytes :=
  flat_map (fun x => [hex_digit upper (b2z x / 16); hex_digit upper (b2z x mod 16)]) b.

(** [base16ct::mixed::decode_vec]: odd length is [InvalidLength]; a bad character
    anywhere is [InvalidEncoding]. (src/binary_encoding.rs:214-217.) *)
Fixpoint hex_decode_pairs (s : bytes) : option bytes :=
  match s with
  | [] => Some []
  | a :: c :: s' =>
      match hex_value a, hex_value c, hex_decode_pairs s' with
      | Some h, Some l, Some r => Some (z2b (16 * h + l) :: r)
      | _, _, _ => None
      end
  | [_] => None
  end.
(** [base16ct::mixed::decode_vec], called at src/binary_encoding.rs:215. *)
Definition hex_decode_vec (s : bytes) : res hex_error bytes :=
  if Nat.odd (length s) then Err InvalidLength
  else match hex_decode_pairs s with Some b => Ok b | None => Err InvalidEncoding end.

(** [base16ct::mixed::decode(hex, &mut [0; n])]: additionally fails with
    [InvalidLength] when the decoded data does not fit the buffer; shorter data is
    returned as a shorter slice. (src/binary_encoding.rs:59-63.) *)
Definition hex_decode_buf (n : nat) (s : bytes) : res hex_error bytes :=
  if Nat.odd (length s) then Err InvalidLength
  else if (n <? length s / 2)%nat then Err InvalidLength
  else match hex_decode_pairs s with Some b => Ok b | None => Err InvalidEncoding end.

(** src/binary_encoding.rs:59-63 [FromStr] for fixed-size types with [byte_len = n]. *)
Definition from_hex_fixed {A} (n : nat) (from_bytes : bytes -> res decode_error A) (s : bytes)
  : res decode_error A :=
  bind (map_err BadHexFormat (hex_decode_buf n s)) from_bytes.

(** src/binary_encoding.rs:214-217 [FromStr] for variable-size types. *)
Definition from_hex_var {A} (from_bytes : bytes -> res decode_error A) (s : bytes)
  : res decode_error A :=
  bind (map_err BadHexFormat (hex_decode_vec s)) from_bytes.

(** src/binary_encoding.rs:154-174 [Deserialize] in a human-readable format: hex into
    a buffer of [max_byte_len] bytes; every failure is one serde error ([None]). *)
Definition serde_hex_fixed {A} (max : nat) (from_bytes : bytes -> res decode_error A) (s : bytes)
  : res unit A :=
  map_err (fun _ => tt) (from_hex_fixed max from_bytes s).

(** src/binary_encoding.rs:154-174 in a binary format: data longer than the buffer is
    an error. *)
Definition serde_bin_fixed {A} (max : nat) (from_bytes : bytes -> res decode_error A) (b : bytes)
  : res unit A :=
  if (max <? length b)%nat then Err tt else map_err (fun _ => tt) (from_bytes b).

Section Instances.
Context {Pr : prims}.
(** src/nonces.rs:728-730, src/signature.rs:322-324, src/key_agg.rs:632:
    the macro invocations. *)
Definition secnonce_from_hex := from_hex_fixed 64 (@secnonce_from_bytes Pr).
(** src/nonces.rs:729. *)
Definition pubnonce_from_hex := from_hex_fixed 66 (@pubnonce_from_bytes Pr).
(** src/nonces.rs:730. *)
Definition aggnonce_from_hex := from_hex_fixed 66 (@aggnonce_from_bytes Pr).
(** src/signature.rs:322. *)
Definition compact_from_hex := from_hex_fixed 64 (@compact_from_bytes Pr).
(** src/signature.rs:323. *)
Definition lifted_from_hex := from_hex_fixed 64 (@lifted_from_bytes Pr).
(** src/signature.rs:324. *)
Definition adaptor_from_hex := from_hex_fixed 65 (@adaptor_from_bytes Pr).
(** src/key_agg.rs:632. *)
Definition ctx_from_hex (tg : target) := from_hex_var (@ctx_from_bytes Pr tg).
End Instances.

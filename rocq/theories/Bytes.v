(** Byte strings.

    A Rust [u8] is a [byte] (Coq's type with exactly 256 values), a [&[u8]],
    [Vec<u8>] or [[u8; N]] is a list of bytes.  Array lengths are tracked by
    lemmas, not by types. *)
From Coq Require Export List ZArith Lia Bool.
From Coq Require Import Strings.Byte.
Export ListNotations.
Export Coq.Strings.Byte.

Notation byte := Coq.Init.Byte.byte.
(** [Vec<u8>], [&[u8]] and [[u8; N]], as at src/binary_encoding.rs:8-14. *)
Definition bytes := list byte.

(** Results: [Ok] and [Err] are Rust's [Result]; [Panic] stands for every
    panicking path (failed [assert!], [unwrap], [expect], out-of-range
    indexing, arithmetic overflow with overflow checks on). src/errors.rs gives the error types. *)
Inductive res (E A : Type) : Type :=
| Ok (a : A)
| Err (e : E)
| Panic.
Arguments Ok {E A} a.
Arguments Err {E A} e.
Arguments Panic {E A}.

(** The [?] operator: propagate errors and panics. (Everywhere, e.g. src/signing.rs:63-65.) *)
Definition bind {E A B} (r : res E A) (f : A -> res E B) : res E B :=
  match r with Ok a => f a | Err e => Err e | Panic => Panic end.
(** [map_err] / [From] conversion of the error. (E.g. src/bip340.rs:169.) *)
Definition map_err {E E' A} (g : E -> E') (r : res E A) : res E' A :=
  match r with Ok a => Ok a | Err e => Err (g e) | Panic => Panic end.
(** [Option::ok_or]. (E.g. src/signing.rs:63-65.) *)
Definition ok_or {E A} (o : option A) (e : E) : res E A :=
  match o with Some a => Ok a | None => Err e end.
(** [Option::unwrap] / [expect]. (E.g. src/rounds.rs:48, src/bip340.rs:103.) *)
Definition unwrap {E A} (o : option A) : res E A :=
  match o with Some a => Ok a | None => Panic end.

(** [Result::is_ok]; used in statements only, not in the model of a file in src/. *)
Definition is_ok {E A} (r : res E A) : bool :=
  match r with Ok _ => true | _ => false end.

(** Value of a byte as an integer and back (the integer is taken mod 256,
    as Rust's [as u8] does). (Header byte, src/key_agg.rs:566.) *)
Definition b2z (b : byte) : Z := Z.of_N (Byte.to_N b).
(** The byte of an integer modulo 256, as [as u8] (src/key_agg.rs:566). *)
Definition z2b (z : Z) : byte :=
  match Byte.of_N (Z.to_N (z mod 256)) with Some b => b | None => x00 end.

(** Big-endian fixed-width encoding of an integer taken modulo [256^k]
    ([u32::to_be_bytes], [u64::to_be_bytes], 32-byte scalars).
    (src/key_agg.rs:573, src/nonces.rs:373, 386.) *)
Fixpoint be_enc_acc (k : nat) (z : Z) (acc : bytes) : bytes :=
  match k with
  | O => acc
  | S k' => be_enc_acc k' (z / 256) (z2b z :: acc)
  end.
(** The encoding itself; see [be_enc_acc] (src/key_agg.rs:573, src/nonces.rs:373, 386). *)
Definition be_enc (k : nat) (z : Z) : bytes := be_enc_acc k z [].

(** Big-endian decoding. ([u32::from_be_bytes], src/key_agg.rs:605.) *)
Definition be_dec (b : bytes) : Z :=
  fold_left (fun a x => (a * 256 + b2z x)%Z) b 0%Z.

(** Equality of byte strings. ([ct_eq] on arrays, src/bip340.rs:174.) *)
Fixpoint bytes_eqb (a b : bytes) : bool :=
  match a, b with
  | [], [] => true
  | x :: a', y :: b' => Byte.eqb x y && bytes_eqb a' b'
  | _, _ => false
  end.

(** [a ^ b] on one byte. (src/nonces.rs:50.) *)
Definition xor_byte (a b : byte) : byte :=
  match Byte.of_N (N.lxor (Byte.to_N a) (Byte.to_N b)) with
  | Some c => c | None => x00 end.

(** src/nonces.rs:47-53 [xor_bytes]: pointwise xor of two arrays of the same
    length. *)
Fixpoint xor_bytes (a b : bytes) : bytes :=
  match a, b with
  | x :: a', y :: b' => xor_byte x y :: xor_bytes a' b'
  | _, _ => []
  end.

(** [n] zero bytes: [[0u8; n]]. (src/nonces.rs:336.) *)
Definition zeros (n : nat) : bytes := repeat x00 n.

(** Length of a byte string as an integer. ([len()], e.g. src/key_agg.rs:101.) *)
Definition zlen {A} (b : list A) : Z := Z.of_nat (length b).

(** [u32::MAX]. (src/key_agg.rs:101, src/nonces.rs:61.) *)
Definition u32_max : Z := 4294967295%Z.

(** Hexadecimal text, specified from the two digit alphabets. *)
From Coq Require Import String List ZArith.
From Verif Require Import Bytes.
Import ListNotations.
Open Scope Z_scope.

(** The digits in order of value. *)
Definition lower_digits : bytes := list_byte_of_string "0123456789abcdef".
(** The upper-case digits in order of value. *)
Definition upper_digits : bytes := list_byte_of_string "0123456789ABCDEF".

(** Character [c] is a digit of value [z]. *)
Definition is_digit (c : byte) (z : Z) : Prop :=
  0 <= z /\ (nth_error lower_digits (Z.to_nat z) = Some c \/ nth_error upper_digits (Z.to_nat z) = Some c).

(** Text [s] spells the bytes [b]: two digits per byte, the more significant one first. *)
Inductive spells : bytes -> bytes -> Prop :=
| spells_nil : spells [] []
| spells_cons c1 c2 s x b :
    is_digit c1 (b2z x / 16) -> is_digit c2 (b2z x mod 16) -> spells s b ->
    spells (c1 :: c2 :: s) (x :: b).

(** Some character is no digit at all. *)
Definition has_bad_char (s : bytes) : Prop := exists c, In c s /\ forall z, ~ is_digit c z.

(** ASCII lower case. *)
Definition lower_char (c : byte) : byte :=
  if (65 <=? b2z c) && (b2z c <=? 90) then z2b (b2z c + 32) else c.

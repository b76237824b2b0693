(** A reader of encoded key aggregation contexts in terms of the reference functions, and the types that
    may be confused when one is given the bytes of another. *)
From Coq Require Import String List.
From Verif Require Import Bytes Prims Errors SpecTags SpecBIP327 KeyAgg Nonces Signature Encoding.
Import ListNotations.
Local Open Scope string_scope.
Local Open Scope list_scope.
Local Open Scope Z_scope.

Section Decode.
Context {Pr : prims}.

(** The layout documented at src/key_agg.rs:532-556: a header byte (bit 0: negate the key, bit 1: a tweak
    follows), the tweak, a 4-byte count and the keys.  The result is the list of encoded keys and the
    reference's (Q, gacc, tacc). *)
Definition read_context (b : bytes) : res decode_error (list bytes * keyagg) :=
  let size := Z.of_nat (length b) in
  let header := int_from_bytes (firstn 1 b) in
  let negated := header mod 2 =? 1 in
  let tweaked := (header / 2) mod 2 =? 1 in
  let tweak := firstn 32 (skipn 1 b) in
  let start := if tweaked then 33%nat else 1%nat in
  let count := int_from_bytes (firstn 4 (skipn start b)) in
  if size <? 38 then Err (BadLength (length b))
  else if tweaked && negb ((1 <=? int_from_bytes tweak) && (int_from_bytes tweak <? n_)) then Err InvalidScalar
  else if negb (size =? Z.of_nat start + 4 + 33 * count) then Err (BadLength (length b))
  else
    let keys := map (fun j => firstn 33 (skipn (start + 4 + 33 * j) b)) (seq 0 (Z.to_nat count)) in
    match key_agg keys with
    | Ret k =>
        let k := if negated then KeyAggCtx (point_mul (Q_ k) (n_ - 1)) (n_ - 1) 0 else k in
        if tweaked then
          match apply_tweak k tweak false with
          | Ret k' => Ok (keys, k')
          | _ => Err (Custom "serialized KeyAggContext contains an invalid tweak")
          end
        else Ok (keys, k)
    | AssertFailed => Err (Custom "computed an invalid aggregated key from a collection of public keys")
    | _ => Err InvalidPoint
    end.

(** The types with an encoding. *)
Inductive kind : Type := SecretNonce | PublicNonce | AggregatedNonce | Compact | Lifted | Adaptor | Context.

(** The decoder of the type takes the bytes. *)
Definition takes (k : kind) (b : bytes) : Prop :=
  match k with
  | SecretNonce => exists x, secnonce_from_bytes (Pr := Pr) b = Ok x
  | PublicNonce => exists x, pubnonce_from_bytes (Pr := Pr) b = Ok x
  | AggregatedNonce => exists x, aggnonce_from_bytes (Pr := Pr) b = Ok x
  | Compact => exists x, compact_from_bytes (Pr := Pr) b = Ok x
  | Lifted => exists x, lifted_from_bytes (Pr := Pr) b = Ok x
  | Adaptor => exists x, adaptor_from_bytes (Pr := Pr) b = Ok x
  | Context => exists x, ctx_from_bytes (Pr := Pr) target64 b = Ok x
  end.
(** The decoder of the type takes the text. *)
Definition takes_hex (k : kind) (s : bytes) : Prop :=
  match k with
  | SecretNonce => exists x, secnonce_from_hex (Pr := Pr) s = Ok x
  | PublicNonce => exists x, pubnonce_from_hex (Pr := Pr) s = Ok x
  | AggregatedNonce => exists x, aggnonce_from_hex (Pr := Pr) s = Ok x
  | Compact => exists x, compact_from_hex (Pr := Pr) s = Ok x
  | Lifted => exists x, lifted_from_hex (Pr := Pr) s = Ok x
  | Adaptor => exists x, adaptor_from_hex (Pr := Pr) s = Ok x
  | Context => exists x, ctx_from_hex (Pr := Pr) target64 s = Ok x
  end.
(** The types that are not told apart by the length. *)
Definition family (k : kind) : nat :=
  match k with
  | SecretNonce | Compact | Lifted => 0
  | PublicNonce | AggregatedNonce => 1
  | Adaptor => 2
  | Context => 3
  end.

End Decode.

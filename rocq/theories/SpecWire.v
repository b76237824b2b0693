(** Sessions in which everything that travels is a byte string. *)
From Coq Require Import List Arith.
From Verif Require Import Bytes Prims Errors KeyAgg Nonces Signature Signing SigAgg Rounds.
Import ListNotations.
Local Open Scope nat_scope.

Section Wire.
Context {Pr : prims}.

(** A program that decodes what arrives as signer [fst x]'s nonce (src/nonces.rs:694-701) and hands it to [receive_nonce];
    what cannot be decoded is dropped. *)
Definition nonce_arrives (r : first_round Pr) (x : nat * bytes) : first_round Pr :=
  match pubnonce_from_bytes (snd x) with
  | Ok n => fst (receive_nonce r (fst x) n)
  | _ => r
  end.
(** The same for partial signatures, which are 32-byte scalars. *)
Definition signature_arrives (r : second_round Pr) (x : nat * bytes) : second_round Pr :=
  match parse_mscalar (snd x) with
  | Some s => fst (receive_signature r (fst x) s)
  | None => r
  end.

(** The bytes are a nonce. *)
Definition readable (b : bytes) : bool := match pubnonce_from_bytes (Pr := Pr) b with Ok _ => true | _ => false end.
(** The first nonce that arrived under the name of signer [i]. *)
Definition first_readable (arrived : list (nat * bytes)) (i : nat) : option bytes :=
  option_map snd (find (fun x => (fst x =? i) && readable (snd x)) arrived).

(** The signer finalized its first round and sends these bytes. *)
Definition sends (r : res finalize_error (second_round Pr)) (b : bytes) : Prop :=
  exists sr s, r = Ok sr /\ our_signature sr = Ok s /\ b = ser_scalar s.

End Wire.

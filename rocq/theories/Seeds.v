(** The functions that draw from a random number generator: the conversions into [NonceSeed],
    the functions taking [impl Into<NonceSeed>] when given [&mut rng], and [SecNonce::random]. *)
From Verif Require Import Bytes Prims Errors KeyAgg Nonces Signature Bip340 Rounds.
Open Scope nat_scope.

(** src/nonces.rs:35-36: a type with [rand::RngCore + rand::CryptoRng].  [fill_bytes st n] is
    [fill_bytes] on an n-byte slice in the state [st]: the bytes written and the new state, or
    [None] if the generator panics.  Only [fill_bytes] is used by the code modelled here. *)
Record generator : Type := Generator
  { gen_state : Type; fill_bytes : gen_state -> nat -> option (bytes * gen_state) }.

Section Seeds.
Context {Pr : prims}.

(** src/nonces.rs:21-26 [From<[u8; 32]> for NonceSeed]. *)
Definition seed_from_array (b : bytes) : bytes := b.

(** src/nonces.rs:28-33 [From<&[u8; 32]> for NonceSeed]. *)
Definition seed_from_ref (b : bytes) : bytes := b.

(** src/nonces.rs:35-45 [From<&mut T> for NonceSeed]. *)
Definition seed_from_rng (g : generator) (st : gen_state g) : res Empty_set (bytes * gen_state g) :=
  match fill_bytes g st 32 with Some x => Ok x | None => Panic end.

(** A function [f] of a seed called with [&mut rng]: its result and the state of the generator
    after the call.  What a panicking generator leaves behind is not modelled: the old state
    stands for it. (src/nonces.rs:35-45, 221.) *)
Definition draw {E A : Type} (g : generator) (st : gen_state g) (f : bytes -> res E A)
  : res E A * gen_state g :=
  match seed_from_rng g st with
  | Ok (seed, st') => (f seed, st')
  | _ => (Panic, st)
  end.

(** src/nonces.rs:220-231 [SecNonceBuilder::new] with [&mut rng]; also src/nonces.rs:441-443
    [SecNonce::build]. *)
Definition builder_new_rng (g : generator) (st : gen_state g)
  : res Empty_set (builder Pr) * gen_state g :=
  draw g st (fun seed => Ok (builder_new seed)).

(** src/nonces.rs:461-476 [SecNonce::generate] with [&mut rng]. *)
Definition generate_rng (g : generator) (st : gen_state g) (sk : scalar Pr) (aggpk : point Pr)
  (msg extra : bytes) : res Empty_set (sec_nonce Pr) * gen_state g :=
  draw g st (fun seed => generate seed sk aggpk msg extra).

(** src/rounds.rs:98-128 [FirstRound::new] with [&mut rng]: the index is checked before the
    seed is drawn. *)
Definition first_round_new_rng (g : generator) (st : gen_state g) (c : key_agg_ctx Pr) (i : nat)
  (sp : spices Pr) : res signer_index_error (first_round Pr) * gen_state g :=
  match get_pubkey c i with
  | None => (Err (SignerIndexError i (length (pubkeys c))), st)
  | Some _ => draw g st (fun seed => first_round_new c seed i sp)
  end.

(** src/bip340.rs:31-38 [sign_solo_adaptor] with [&mut rng]. *)
Definition sign_solo_adaptor_rng (g : generator) (st : gen_state g) (sk : scalar Pr) (msg : bytes)
  (T : pt) : res Empty_set (adaptor_sig Pr) * gen_state g :=
  draw g st (fun seed => Ok (sign_solo_adaptor sk msg seed T)).

(** src/bip340.rs:92-104 [sign_solo] with [&mut rng]. *)
Definition sign_solo_rng (g : generator) (st : gen_state g) (sk : scalar Pr) (msg : bytes)
  : res Empty_set (lifted_sig Pr) * gen_state g :=
  draw g st (fun seed => sign_solo sk msg seed).

(** [Scalar::random] of the [secp] crate: 32 bytes are drawn until they encode an integer in
    [1, n).  The loop is unbounded; here it takes fuel and [None] means that it is still
    running.  That the crate's backends sample like this is an assumption (used at
    src/nonces.rs:492-493 only; for src/bip340.rs:292 see [rng_scalar]). *)
Fixpoint scalar_random (fuel : nat) (g : generator) (st : gen_state g)
  : option (res Empty_set (scalar Pr * gen_state g)) :=
  match fuel with
  | O => None
  | S f =>
      match fill_bytes g st 32 with
      | None => Some Panic
      | Some (b, st') =>
          match parse_scalar b with
          | Some k => Some (Ok (k, st'))
          | None => scalar_random f g st'
          end
      end
  end.

(** src/nonces.rs:487-495 [SecNonce::random]. *)
Definition secnonce_random (fuel : nat) (g : generator) (st : gen_state g)
  : option (res Empty_set (sec_nonce Pr * gen_state g)) :=
  match scalar_random fuel g st with
  | Some (Ok (a, st1)) =>
      match scalar_random fuel g st1 with
      | Some (Ok (b, st2)) => Some (Ok ({| k1 := a; k2 := b |}, st2))
      | Some _ => Some Panic
      | None => None
      end
  | Some _ => Some Panic
  | None => None
  end.

End Seeds.

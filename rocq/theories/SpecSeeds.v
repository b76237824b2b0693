(** Specification of functions fed by a random number generator. *)
From Verif Require Import Bytes Prims Errors KeyAgg Nonces Signature Bip340 Rounds Seeds.
Open Scope nat_scope.

(** A generator that hands out the bytes of an infinite string one after the other; its state
    is the number of bytes handed out. *)
Definition stream_gen (s : nat -> byte) : generator :=
  {| gen_state := nat; fill_bytes := fun p n => Some (map s (seq p n), p + n) |}.

(** The 32 bytes at position [p]. *)
Definition block (s : nat -> byte) (p : nat) : bytes := map s (seq p 32).

(** A generator that never panics. *)
Definition never_panics (g : generator) : Prop := forall st n, fill_bytes g st n <> None.

(** [nth_seed g st k b]: the (k+1)-th draw of 32 bytes from the state [st] gives [b];
    [after g st k st']: [k] draws lead to the state [st']. *)
Inductive after (g : generator) (st : gen_state g) : nat -> gen_state g -> Prop :=
| after_0 : after g st 0 st
| after_S : forall k st1 b st2, after g st k st1 -> fill_bytes g st1 32 = Some (b, st2) -> after g st (S k) st2.

(** The draw number [k], counted from 0. *)
Definition nth_seed (g : generator) (st : gen_state g) (k : nat) (b : bytes) : Prop :=
  exists st1 st2, after g st k st1 /\ fill_bytes g st1 32 = Some (b, st2).

Section Calls.
Context {Pr : prims}.

(** Calls of the functions that take a seed, and what they return. *)
Inductive seed_call : Type :=
| CallBuilder
| CallGenerate (sk : scalar Pr) (aggpk : point Pr) (msg extra : bytes)
| CallFirst (c : key_agg_ctx Pr) (i : nat) (sp : spices Pr)
| CallSolo (sk : scalar Pr) (msg : bytes)
| CallSoloAdaptor (sk : scalar Pr) (msg : bytes) (T : pt).

(** What the calls return. *)
Inductive seed_result : Type :=
| RBuilder (r : res Empty_set (builder Pr))
| RNonce (r : res Empty_set (sec_nonce Pr))
| RFirst (r : res signer_index_error (first_round Pr))
| RSolo (r : res Empty_set (lifted_sig Pr))
| RSoloAdaptor (r : res Empty_set (adaptor_sig Pr)).

(** The call with the generator in the state [st]. *)
Definition call_rng (g : generator) (st : gen_state g) (x : seed_call) : seed_result * gen_state g :=
  match x with
  | CallBuilder => let (r, st') := builder_new_rng g st in (RBuilder r, st')
  | CallGenerate sk a m e => let (r, st') := generate_rng g st sk a m e in (RNonce r, st')
  | CallFirst c i sp => let (r, st') := first_round_new_rng g st c i sp in (RFirst r, st')
  | CallSolo sk m => let (r, st') := sign_solo_rng g st sk m in (RSolo r, st')
  | CallSoloAdaptor sk m T => let (r, st') := sign_solo_adaptor_rng g st sk m T in (RSoloAdaptor r, st')
  end.

(** The call with a seed already converted. *)
Definition call_seed (seed : bytes) (x : seed_call) : seed_result :=
  match x with
  | CallBuilder => RBuilder (Ok (builder_new seed))
  | CallGenerate sk a m e => RNonce (generate seed sk a m e)
  | CallFirst c i sp => RFirst (first_round_new c seed i sp)
  | CallSolo sk m => RSolo (sign_solo sk m seed)
  | CallSoloAdaptor sk m T => RSoloAdaptor (Ok (sign_solo_adaptor sk m seed T))
  end.
(** The call with a 32-byte array, and with a reference to one. *)
Definition call_array (b : bytes) : seed_call -> seed_result := call_seed (seed_from_array b).
(** The call with a reference to a 32-byte array. *)
Definition call_ref (b : bytes) : seed_call -> seed_result := call_seed (seed_from_ref b).

(** Successive calls with one generator. *)
Fixpoint calls_rng (g : generator) (st : gen_state g) (l : list seed_call) : list seed_result * gen_state g :=
  match l with
  | [] => ([], st)
  | x :: l' =>
      let (r, st1) := call_rng g st x in
      let (rs, st2) := calls_rng g st1 l' in (r :: rs, st2)
  end.

(** Every call draws, except a first round for an index that is nobody's. *)
Definition is_draw (x : seed_call) : bool :=
  match x with CallFirst c i _ => i <? length (pubkeys c) | _ => true end.

(** How many of the calls draw. *)
Definition draws (l : list seed_call) : nat := length (filter is_draw l).

End Calls.
Arguments seed_call : clear implicits.
Arguments seed_result : clear implicits.

(** A round object in the hands of a caller, over its whole life: which calls are possible
    when, and what each returns.  Rust's ownership decides the former: [finalize],
    [finalize_adaptor] and [sign_for_aggregator(_adaptor)] take [self] by value
    (src/rounds.rs:178, 211, 275, 315, 423, 449), [FirstRound] and [SecondRound] are neither
    [Clone] nor [Copy] (77, 341), and the round is lost when such a call fails. *)
From Coq Require Import List Arith.
From Verif Require Import Bytes Prims Errors KeyAgg Nonces Signature Signing SigAgg Rounds SpecRounds.
Import ListNotations.
Open Scope nat_scope.

Section Machine.
Context {Pr : prims}.

(** The calls.  [FirstRound::finalize] (178-187) is [CSign] and [sign_for_aggregator]
    (275-291) is [CSignFor] with the infinite adaptor point. *)
Inductive mcall : Type :=
| CNonce (i : nat) (n : pub_nonce Pr)
| CSign (sk : scalar Pr) (T : pt) (msg : bytes)
| CSignFor (sk : scalar Pr) (T : pt) (msg : bytes) (an : agg_nonce Pr)
| CSignature (i : nat) (s : mscalar Pr)
| CFinish
| CFinishAdaptor.

(** What the caller gets.  [RPartial] is [our_signature] of the new second round. *)
Inductive mreply : Type :=
| RReceived (o : res contribution_error unit)
| RPartial (o : res finalize_error (mscalar Pr))
| RFor (o : res signing_error (mscalar Pr))
| RFinal (o : res finalize_error (lifted_sig Pr))
| RFinalAdaptor (o : res finalize_error (adaptor_sig Pr)).

(** Where a signer is: it owns a first round, a second round, or none (src/rounds.rs: [finalize] and [sign_for_aggregator] take [self] by value). *)
Inductive phase : Type :=
| Collecting (r : first_round Pr)
| Signing (r : second_round Pr)
| Consumed.

(** One call; [None] when it is impossible in this phase. *)
Definition mstep (p : phase) (k : mcall) : option (phase * mreply) :=
  match p, k with
  | Collecting r, CNonce i n =>
      let (r', o) := receive_nonce r i n in Some (Collecting r', RReceived o)
  | Collecting r, CSign sk T msg =>
      match fr_finalize_adaptor r sk T msg with
      | Ok sr => Some (Signing sr, RPartial (match our_signature sr with Ok s => Ok s | _ => Panic end))
      | Err e => Some (Consumed, RPartial (Err e))
      | Panic => Some (Consumed, RPartial Panic)
      end
  | Collecting r, CSignFor sk T msg an =>
      Some (Consumed, RFor (sign_for_aggregator_adaptor r sk T msg an))
  | Signing r, CSignature i s =>
      let (r', o) := receive_signature r i s in Some (Signing r', RReceived o)
  | Signing r, CFinish => Some (Consumed, RFinal (sr_finalize r))
  | Signing r, CFinishAdaptor => Some (Consumed, RFinalAdaptor (sr_finalize_adaptor r))
  | _, _ => None
  end.

(** Any sequence of calls: the impossible ones are left out.  The log holds the others with
    their results. *)
Fixpoint mrun (p : phase) (calls : list mcall) : phase * list (mcall * mreply) :=
  match calls with
  | [] => (p, [])
  | k :: ks =>
      match mstep p k with
      | None => mrun p ks
      | Some (p1, o) => let (p2, log) := mrun p1 ks in (p2, (k, o) :: log)
      end
  end.

(** Calls that use the secret key and the secret nonce. *)
Definition uses_secrets (k : mcall) : bool :=
  match k with CSign _ _ _ | CSignFor _ _ _ _ => true | _ => false end.

(** The call panicked. *)
Definition panicked (o : mreply) : Prop :=
  o = RReceived Panic \/ o = RPartial Panic \/ o = RFor Panic \/ o = RFinal Panic \/ o = RFinalAdaptor Panic.

(** The nonces delivered according to a log, in order. *)
Definition nonces_of (log : list (mcall * mreply)) : list (nat * pub_nonce Pr) :=
  flat_map (fun e => match fst e with CNonce i n => [(i, n)] | _ => [] end) log.

(** The public nonces on file according to a log of the round [r0]: our own and for each other
    signer the first one delivered. *)
Definition nonces_on_file (r0 : first_round Pr) (log : list (mcall * mreply)) (pns : list (pub_nonce Pr)) : Prop :=
  length pns = length (pubkeys (fr_ctx r0)) /\
  forall j, j < length pns ->
    nth_error pns j = on_file ((fr_index r0, our_public_nonce r0) :: nonces_of log) j.

(** According to the log the partial signature [s] was released for the key [sk], the adaptor
    point [T], the message [msg] and the aggregated nonce [an]. *)
Definition released (r0 : first_round Pr) (log : list (mcall * mreply))
    (sk : scalar Pr) (T : pt) (msg : bytes) (an : agg_nonce Pr) (s : mscalar Pr) : Prop :=
  In (CSignFor sk T msg an, RFor (Ok s)) log \/
  (In (CSign sk T msg, RPartial (Ok s)) log /\ exists pns, nonces_on_file r0 log pns /\ an = agg_sum pns).

End Machine.
Arguments mcall Pr : clear implicits.
Arguments mreply Pr : clear implicits.
Arguments phase Pr : clear implicits.

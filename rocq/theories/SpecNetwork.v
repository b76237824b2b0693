(** A whole session as an asynchronous system: every signer is a machine of [SpecMachine] with
    its own key, and a scheduler decides in which order what happens.  Nonces arrive from their
    signers, in any order, late, and any number of times.  Signatures may arrive from anyone: a
    delivery may carry any number under any signer's name.  A signer finalizes a round only
    when [is_complete] says so, as in the documentation (src/rounds.rs:77-82, README.md), since
    calling it earlier loses the round. *)
From Coq Require Import List Arith.
From Verif Require Import Bytes Prims Errors KeyAgg Nonces Signature Signing SigAgg Rounds SpecRounds SpecMachine.
Import ListNotations.
Local Open Scope nat_scope.

Section Network.
Context {Pr : prims}.
(** The number of signers, their first rounds and secret keys, the adaptor point, the message. *)
Context (n : nat) (r0 : nat -> first_round Pr) (sk : nat -> scalar Pr) (T : @pt Pr) (msg : bytes).

(** What may happen at a signer: signer i's nonce arrives; it signs; a number arrives as signer
    i's signature; it finishes. *)
Inductive event : Type :=
| EvNonce (i : nat)
| EvSign
| EvSignature (i : nat) (s : mscalar Pr)
| EvFinish
| EvFinishAdaptor.

(** The call the signer [j] makes. *)
Definition ev_call (j : nat) (e : event) : mcall Pr :=
  match e with
  | EvNonce i => CNonce i (our_public_nonce (r0 i))
  | EvSign => CSign (sk j) T msg
  | EvSignature i s => CSignature i s
  | EvFinish => CFinish
  | EvFinishAdaptor => CFinishAdaptor
  end.

(** What an honest signer waits for: nonces come from the group, signing waits for all nonces, finishing waits for all signatures. *)
Definition ready (p : phase Pr) (e : event) : bool :=
  match p, e with
  | _, EvNonce i => i <? n
  | Collecting r, EvSign => fr_is_complete r
  | Signing r, (EvFinish | EvFinishAdaptor) => sr_is_complete r
  | _, _ => true
  end.

(** The signers, and everything that happened so far: where, what, and what the call gave. *)
Record net : Type := Net { phases : list (phase Pr); net_log : list (nat * event * mreply Pr) }.

(** Every signer has made its first round and nothing has been delivered. *)
Definition net_start : net := Net (map (fun j => Collecting (r0 j)) (seq 0 n)) [].

(** [None] when this cannot happen now. *)
Definition net_step (N : net) (j : nat) (e : event) : option net :=
  match nth_error (phases N) j with
  | None => None
  | Some p =>
      if ready p e then
        match mstep p (ev_call j e) with
        | None => None
        | Some (p', o) => Some (Net (set_nth (phases N) j p') (net_log N ++ [(j, e, o)]))
        end
      else None
  end.

(** Any schedule; what cannot happen is left out. *)
Definition net_run (N : net) (evs : list (nat * event)) : net :=
  fold_left (fun N ev => match net_step N (fst ev) (snd ev) with Some N' => N' | None => N end) evs N.

(** Events that need nobody but the signers: the signatures that arrive were sent. *)
Definition genuine (N : net) (e : event) : Prop :=
  match e with EvSignature i s => In (i, EvSign, RPartial (Ok s)) (net_log N) | _ => True end.

(** What is left to do, counted with [holdouts]. *)
Definition node_todo (p : phase Pr) : nat :=
  match p with
  | Collecting r => length (fr_holdouts r) + n + 1
  | Signing r => length (sr_holdouts r) + 1
  | Consumed => 0
  end.
(** The same for all signers together. *)
Definition net_todo (N : net) : nat := list_sum (map node_todo (phases N)).

End Network.
Arguments event Pr : clear implicits.
Arguments net Pr : clear implicits.

(** Sessions on the toy curve for the examples of PropertiesWatch.v. *)
From Coq Require Import List.
From Verif Require Import Bytes Prims KeyAgg Nonces Signature Rounds SpecMachine ControlFlow Toy ToyData ToyRounds.
Import ListNotations.

(** Signer 1 signs with the key of signer 0: their own signature, delivered later, is in conflict with what
    is on file, and the signature of signer 2 never comes. *)
Definition watch_calls : list (mcall Toy) :=
  [CNonce 0 (toy_pn 0); CNonce 2 (toy_pn 2); CSign (toy_sk 0) pt_O toy_msg; CSignature 1 (toy_s 1); CSignature 0 (toy_s 0); CFinish].
(** The places of the branches taken. *)
Definition taken (l : list event) : list String.string :=
  flat_map (fun e => match e with Branch p true => [p] | _ => [] end) l.

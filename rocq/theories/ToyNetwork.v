(** A schedule of the toy session for the examples of PropertiesNetwork.v. *)
From Coq Require Import List.
From Verif Require Import Bytes Prims Errors KeyAgg Nonces Signature Rounds SpecRounds SpecMachine SpecNetwork Toy ToyData ToyRounds.
Import ListNotations.
Local Open Scope nat_scope.

(** Nonces arrive late and twice; signer 1 is asked to sign too early; a wrong signature and
    one under a name that does not exist arrive at signer 0; signer 2 finishes before signer 1
    has all signatures. *)
Definition toy_schedule : list (nat * event Toy) :=
  [(0, EvNonce 1); (1, EvSign); (2, EvNonce 0); (2, EvNonce 1); (2, EvNonce 0); (2, EvSign); (0, EvSignature 2 (toy_s 2));
   (0, EvNonce 2); (0, EvSign); (0, EvSignature 1 (toy_s 2)); (0, EvSignature 7 (toy_s 2)); (0, EvSignature 2 (toy_s 2));
   (1, EvNonce 2); (1, EvNonce 0); (1, EvSign); (2, EvSignature 0 (toy_s 0)); (2, EvSignature 1 (toy_s 1)); (2, EvFinish);
   (1, EvFinish); (0, EvSignature 1 (toy_s 1)); (0, EvFinishAdaptor); (1, EvSignature 0 (toy_s 0)); (1, EvSignature 2 (toy_s 2)); (1, EvFinish)].
(** The network after the first [k] events. *)
Definition toy_net (k : nat) : net Toy :=
  net_run 3 toy_r0 toy_sk pt_O toy_msg (net_start 3 toy_r0) (firstn k toy_schedule).

(** Call sequences on the toy curve for the examples of PropertiesHistories.v. *)
From Verif Require Import Bytes Prims Errors KeyAgg Nonces Signature Rounds SpecRounds SpecMachine Toy ToyData ToyRounds.
Open Scope nat_scope.

(** Signer 0: garbage and the other nonces, two attempts to sign, garbage and the other
    signatures, two attempts to finish. *)
Definition toy_calls : list (mcall Toy) :=
  [CNonce 5 (toy_pn 2); CNonce 2 (toy_pn 2); CFinish; CNonce 1 (toy_pn 1); CSign sk_a pt_O toy_msg; CSign sk_a pt_O [x09];
   CSignature 1 (toy_s 2); CSignature 1 (toy_s 1); CSignature 2 (toy_s 2); CFinish; CFinishAdaptor].

(** Signer 2, with other deliveries. *)
Definition toy_calls2 : list (mcall Toy) :=
  [CNonce 1 (toy_pn 1); CNonce 1 (toy_pn 2); CNonce 0 (toy_pn 0); CSign (toy_sk 2) pt_O toy_msg;
   CSignature 0 (toy_s 0); CSignature 1 (toy_s 1); CFinish].

(** A life of signer 0 that signs [m]. *)
Definition toy_life (m : bytes) : list (mcall Toy) := [CNonce 1 (toy_pn 1); CNonce 2 (toy_pn 2); CSign sk_a pt_O m].

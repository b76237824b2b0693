(** A forger of pre-signatures on the toy curve, for the examples of PropertiesPresign.v. *)
From Coq Require Import String List.
From Verif Require Import Bytes Prims TaggedHashes Errors SpecTags SpecBIP327 KeyAgg Signature Bip340 SpecExtract SpecFork SpecPresign Toy ToyData ToyFork.
Import ListNotations.
Local Open Scope Z_scope.

(** The adaptor point 4*G. *)
Definition pre_T : @pt Toy := pval (tpt 4).
(** A pre-signature for 5*G with the nonce k*G and the challenge digest [d]. *)
Definition pre_with (k : Z) (d : bytes) : presigned Toy :=
  let A := @point_mul Toy (@pt_G Toy) (k + 4) in
  {| q_R := @point_mul Toy (@pt_G Toy) k;
     q_s := of_Z 31 ((if @has_even_y Toy A then k else - k) + int_from_bytes d * toy_even 5);
     q_msg := toy_msg |}.
(** The challenge when the adapted nonce is 13*G or its opposite. *)
Definition pre_question : bytes := Eval vm_compute in @pre_challenge Toy (tpt 5) pre_T (pre_with 9 []).
(** It knows the secret of 5*G and asks for that challenge.  When the residue is 2 it fails; when it is 3 it takes
    the nonce with which the adapted nonce is the opposite one. *)
Definition pre_forger : asker (presigned Toy) :=
  Ask pre_question (fun d => Give (
    if int_from_bytes d =? 2 then pre_with 9 [] else if int_from_bytes d =? 3 then pre_with 14 d else pre_with 9 d)).

(** Adaptor signatures for two purposes on the toy curve, for the examples of PropertiesPrebind.v. *)
From Coq Require Import String List.
From Verif Require Import Bytes BytesFacts Prims SpecBIP327 Errors Signature Signing Bip340 SpecFork SpecBind SpecPrebind Toy ToyData ToyFork ToyBind.
Import ListNotations.
Local Open Scope Z_scope.

(** An adaptor signature of 5*G with the nonce 4*G, under 5*G, for the digest [d] of the challenge of 9*G. *)
Definition pre_sg (d : bytes) : adaptor_sig Toy :=
  @AdaptorSignature Toy (pval (tpt 4)) (of_Z 31 ((if @has_even_y Toy (pval (tpt 9)) then 4 else -4) + int_from_bytes d * toy_even 5)).
(** It signs the first message, and chooses the other purpose by the digest. *)
Definition pre_program : asker (pre_claim Toy) := Ask bind_q1 (fun d => Give ((pre_sg d, pval (tpt 5)), (bind_a, bind_choice d))).
Lemma pre_question_eq d p : pre_question (pre_sg d) (pval (tpt 5)) p = purpose_question toy_rx p.
Proof.
  unfold pre_question, purpose_question. cbn [pre_sg a_R]. assert (E : @xbytes Toy (@pt_add Toy (pval (tpt 4)) (pval (tpt 5))) = firstn 32 toy_rx) by (vm_compute; reflexivity).
  rewrite E. reflexivity.
Qed.
Lemma pre_within_case digests : pre_within bind_inputs digests 1 pre_program.
Proof.
  split; [left; reflexivity|]. intros d _. cbn [asks_within]. split; rewrite pre_question_eq; apply bind_in; [reflexivity | left; reflexivity | reflexivity | apply bind_choice_in].
Qed.
(** The even one of two opposite points is [toy_even k] times G, the odd one minus that.  An adaptor signature of 5*G for two messages
    with the adapted nonces of the even one of 9*G and the odd one of 7*G, and its two adaptor secrets. *)
Definition pre_e (k : positive) (m : bytes) : Z := fz (@compute_challenge_hash_tweak Toy (@xbytes Toy (pval (tpt k))) (tpt 5) m).
Definition pre_r : Z := (16 * (pre_e 7 [x02] - pre_e 9 [x01]) * toy_even 5) mod 31.
Definition pre_double : adaptor_sig Toy := @AdaptorSignature Toy (gmul (of_Z 31 pre_r)) (of_Z 31 (pre_r + pre_e 9 [x01] * toy_even 5)).
Definition pre_t : mscalar Toy := of_Z 31 (toy_even 9 - pre_r).
Definition pre_t' : mscalar Toy := of_Z 31 (- toy_even 7 - pre_r).

(** Sessions on the toy curve, for the examples of PropertiesFinal.v. *)
From Coq Require Import String List.
From Verif Require Import Bytes BytesFacts Prims SpecBIP327 Nonces SpecFork SpecFinal Toy ToyData ToyFork.
Import ListNotations.
Local Open Scope Z_scope.

(** The aggregated nonces 2*G and 3*G with one message, the same with another message, and 4*G and 6*G. *)
Definition sit (i j : positive) (m : bytes) : sitting Toy := {| s_nonce := @AggNonce Toy (pval (tpt i)) (pval (tpt j)); s_key := tpt 5; s_text := m |}.
Definition sit_a : sitting Toy := sit 2 3 [x01].
Definition sit_b : sitting Toy := sit 2 3 [x02].
Definition sit_c : sitting Toy := sit 4 6 [x02].
(** The questions, in the form in which they are looked up. *)
Definition sit_q1 : bytes := Eval vm_compute in sitting_question sit_a.
Definition sit_q2 : bytes := Eval vm_compute in sitting_question sit_b.
Definition sit_q3 : bytes := Eval vm_compute in sitting_question sit_c.
Definition sit_inputs : list bytes := [sit_q1; sit_q2; sit_q3].
(** A program that asks about one session and chooses the other one by the digest. *)
Definition sit_choice (d : bytes) : sitting Toy := if Z.even (be_dec d) then sit_b else sit_c.
Definition sit_program : asker (sitting Toy * sitting Toy) := Ask sit_q1 (fun d => Give (sit_a, sit_choice d)).
Lemma sit_in (s : sitting Toy) : In s [sit_a; sit_b; sit_c] -> In (sitting_question s) sit_inputs.
Proof. intros [<- | [<- | [<- | []]]]; [left | right; left | right; right; left]; vm_compute; reflexivity. Qed.
Lemma sit_within digests : sittings_within sit_inputs digests 1 sit_program.
Proof.
  split; [left; reflexivity|]. intros d _. cbn [asks_within fst snd]. split; apply sit_in; [left; reflexivity|]. unfold sit_choice. destruct (Z.even (be_dec d)); cbn [In]; tauto.
Qed.
(** The world with these three digests. *)
Definition sit_world (a b c : Z) : list (bytes * bytes) := [(sit_q1, be_enc 32 a); (sit_q2, be_enc 32 b); (sit_q3, be_enc 32 c)].

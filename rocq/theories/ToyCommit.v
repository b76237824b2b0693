(** Openings of taproot output keys on the toy curve, for the examples of PropertiesCommit.v. *)
From Coq Require Import List.
From Verif Require Import Bytes BytesFacts Prims KeyAgg SpecFork SpecCommit Toy ToyData ToyFork.
Import ListNotations.
Local Open Scope Z_scope.

(** The group of three with a script tree, without one, and another group with the tree. *)
Definition tap_script : opening Toy := (toy_c0, repeat x07 32).
Definition tap_plain : opening Toy := (toy_c0, []).
Definition tap_other : opening Toy := (toy_c, repeat x07 32).
(** The questions, in the form in which they are looked up. *)
Definition tap_q1 : bytes := Eval vm_compute in tap_question tap_script.
Definition tap_q2 : bytes := Eval vm_compute in tap_question tap_plain.
Definition tap_q3 : bytes := Eval vm_compute in tap_question tap_other.
Definition tap_inputs : list bytes := [tap_q1; tap_q2; tap_q3].
(** A program that asks about one opening and chooses the second one by the digest. *)
Definition tap_choice (d : bytes) : opening Toy := if Z.even (be_dec d) then tap_plain else tap_other.
Definition tap_program : asker (opening Toy * opening Toy) := Ask tap_q1 (fun d => Give (tap_script, tap_choice d)).
Definition tap_second : asker (opening Toy) := Ask tap_q1 (fun d => Give (tap_choice d)).
Lemma tap_in (o : opening Toy) : In o [tap_script; tap_plain; tap_other] -> In (tap_question o) tap_inputs.
Proof. intros [<- | [<- | [<- | []]]]; [left | right; left | right; right; left]; vm_compute; reflexivity. Qed.
Lemma tap_choice_in d : In (tap_question (tap_choice d)) tap_inputs.
Proof. unfold tap_choice. destruct (Z.even (be_dec d)); apply tap_in; cbn [In]; tauto. Qed.
Lemma tap_within digests : asks_within tap_inputs digests (fun r => In (tap_question (fst r)) tap_inputs /\ In (tap_question (snd r)) tap_inputs) 1 tap_program.
Proof. split; [left; reflexivity|]. intros d _. split; [apply tap_in; left; reflexivity | apply tap_choice_in]. Qed.
Lemma tap_second_within digests : asks_within tap_inputs digests (fun r => In (tap_question r) tap_inputs) 1 tap_second.
Proof. split; [left; reflexivity|]. intros d _. apply tap_choice_in. Qed.
(** The world with these three digests. *)
Definition tap_world (a b c : Z) : list (bytes * bytes) := [(tap_q1, be_enc 32 a); (tap_q2, be_enc 32 b); (tap_q3, be_enc 32 c)].

(** Signatures for two keys on the toy curve, for the examples of PropertiesBind.v. *)
From Coq Require Import String List.
From Verif Require Import Bytes BytesFacts Prims SpecBIP327 SpecFork SpecBind Toy ToyData ToyFork.
Import ListNotations.
Local Open Scope Z_scope.

(** One message for 5*G, another for the same key, and another for 3*G. *)
Definition bind_a : purpose Toy := (tpt 5, [x01]).
Definition bind_b : purpose Toy := (tpt 5, [x02]).
Definition bind_c : purpose Toy := (tpt 3, [x02]).
(** The challenges with the nonce 9*G, in the form in which they are looked up. *)
Definition bind_q1 : bytes := Eval vm_compute in purpose_question toy_rx bind_a.
Definition bind_q2 : bytes := Eval vm_compute in purpose_question toy_rx bind_b.
Definition bind_q3 : bytes := Eval vm_compute in purpose_question toy_rx bind_c.
Definition bind_inputs : list bytes := [bind_q1; bind_q2; bind_q3].
(** It signs the first message for 5*G, and chooses the other purpose by the digest. *)
Definition bind_choice (d : bytes) : purpose Toy := if Z.even (be_dec d) then bind_b else bind_c.
Definition bind_program : asker (bytes * (purpose Toy * purpose Toy)) := Ask bind_q1 (fun d => Give (toy_forgery 5 d, (bind_a, bind_choice d))).
(** The signature when the digest is 7, and a program that asks for its challenge. *)
Definition bind_sig : bytes := Eval vm_compute in toy_forgery 5 (be_enc 32 7).
Definition bind_second : asker (purpose Toy) := Ask bind_q1 (fun d => Give (bind_choice d)).
Lemma bind_in sig p : firstn 32 sig = toy_rx -> In p [bind_a; bind_b; bind_c] -> In (purpose_question sig p) bind_inputs.
Proof.
  intros H Hp. unfold purpose_question. rewrite H. destruct Hp as [<- | [<- | [<- | []]]]; [left | right; left | right; right; left]; vm_compute; reflexivity.
Qed.
Lemma bind_choice_in d : In (bind_choice d) [bind_a; bind_b; bind_c].
Proof. unfold bind_choice. destruct (Z.even (be_dec d)); cbn [In]; tauto. Qed.
Lemma bind_first d : firstn 32 (toy_forgery 5 d) = toy_rx.
Proof. unfold toy_forgery. generalize (be_enc 32 ((toy_even 9 + int_from_bytes d * toy_even 5) mod 31)). intro l. reflexivity. Qed.
Lemma bind_within digests : asks_within bind_inputs digests (fun r => In (purpose_question (fst r) (fst (snd r))) bind_inputs /\ In (purpose_question (fst r) (snd (snd r))) bind_inputs) 1 bind_program.
Proof. split; [left; reflexivity|]. intros d _. split; apply bind_in; [apply bind_first | left; reflexivity | apply bind_first | apply bind_choice_in]. Qed.
Lemma bind_second_within digests : asks_within bind_inputs digests (fun p => In (purpose_question bind_sig p) bind_inputs) 1 bind_second.
Proof. split; [left; reflexivity|]. intros d _. apply bind_in; [reflexivity | apply bind_choice_in]. Qed.
(** The world with these three digests. *)
Definition bind_world (a b c : Z) : list (bytes * bytes) := [(bind_q1, be_enc 32 a); (bind_q2, be_enc 32 b); (bind_q3, be_enc 32 c)].
Lemma bind_few : forall d, In d (@residues Toy) -> (count (@same_residue Toy d) (@residues Toy) <= 1)%nat.
Proof.
  assert (E : forallb (fun d => Nat.leb (count (@same_residue Toy d) (@residues Toy)) 1) (@residues Toy) = true) by (vm_compute; reflexivity).
  rewrite forallb_forall in E. intros d Hd. apply PeanoNat.Nat.leb_le, E, Hd.
Qed.

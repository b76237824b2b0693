(** Orders for deterministic signatures on the toy curve, for the example of PropertiesDet.v. *)
From Coq Require Import String List.
From Verif Require Import Bytes BytesFacts Prims SpecBIP327 SpecFork SpecSolo SpecDet Toy ToyData ToyFork.
Import ListNotations.
Local Open Scope Z_scope.

(** All that a program may ask for. *)
Fixpoint questions_of {A} (digests : list bytes) (F : asker A) : list bytes :=
  match F with Give _ => [] | Ask m k => m :: flat_map (fun d => questions_of digests (k d)) digests end.
Lemma only_asks_more {A} inputs inputs' digests (F : asker A) : (forall m, In m inputs -> In m inputs') -> only_asks inputs digests F -> only_asks inputs' digests F.
Proof. intro H. induction F as [a | m k IH]; [intros; exact I|]. intros [H1 H2]. split; [apply H, H1|]. intros d Hd. apply IH, H2, Hd. Qed.
Lemma only_asks_questions {A} digests (F : asker A) : only_asks (questions_of digests F) digests F.
Proof.
  induction F as [a | m k IH]; [exact I|]. split; [left; reflexivity|]. intros d Hd. apply (only_asks_more (questions_of digests (k d))); [|apply IH].
  intros x Hx. right. apply in_flat_map. exists d. split; assumption.
Qed.
(** Two messages: a plain signature, and one under the adaptor point 4*G. *)
Definition det_orders : list (det_order Toy) := [([x01], None); ([x02], Some (pval (tpt 4)))].
Definition det_program : asker (list (det_order Toy)) := Give det_orders.
Definition det_inputs (fuel : nat) : list bytes := flat_map (fun o => questions_of (@residues Toy) (signing fuel sk_a o)) det_orders.
Lemma det_within_case fuel : det_within fuel 2 sk_a (det_inputs fuel) (@residues Toy) 0 det_program.
Proof.
  split; [apply le_n|]. intros o Ho. apply (only_asks_more (questions_of (@residues Toy) (signing fuel sk_a o))); [|apply only_asks_questions].
  intros m Hm. apply in_flat_map. exists o. split; assumption.
Qed.
(** What signing hashes when all its digests are those of [y]. *)
Definition det_part (y : Z) (o : det_order Toy) : list (bytes * bytes) :=
  map (fun m => (m, be_enc 32 y)) (asked (fun _ => be_enc 32 y) (signing 1 sk_a o)).
(** The digests are those of [y] for the first message and those of [z] for the second. *)
Definition det_world (y z : Z) : list (bytes * bytes) := det_part y ([x01], None) ++ det_part z ([x02], Some (pval (tpt 4))).

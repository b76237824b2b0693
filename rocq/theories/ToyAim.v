(** A program that chooses a list of keys on the toy curve, for the examples of PropertiesAim.v. *)
From Coq Require Import String List.
From Verif Require Import Bytes Prims SpecBIP327 KeyAgg SpecFork SpecCollision SpecGroupKey SpecAim Toy ToyData ToyFork ToyGroupKey.
Import ListNotations.
Local Open Scope Z_scope.

(** It asks about the list of 3*G and 5*G, and ends by the digest with 4*G and 3*G or with 5*G and 3*G. *)
Definition aim_program : asker (list (point Toy)) := Ask gk_qa (fun d => Give (gk_choice d)).
Lemma aim_within : key_list_within gk_inputs gk_digests 1 2 aim_program.
Proof.
  split; [left; reflexivity|]. intros d _. cbn [asks_within]. apply gk_covered. unfold gk_choice. destruct (Z.even (be_dec d)); cbn [In]; tauto.
Qed.
(** The x coordinate of 8*G. *)
Definition aim_x : bytes := Eval vm_compute in pt_x (pval (tpt 8)).

(** Lists of keys on the toy curve, for the examples of PropertiesGroupKey.v. *)
From Coq Require Import String List Lia.
From Verif Require Import Bytes BytesFacts Prims SpecBIP327 KeyAgg SpecFork SpecCollision SpecGroupKey Toy ToyData ToyFork.
Import ListNotations.
Local Open Scope Z_scope.

(** The lists of 3*G and 5*G, of the same in the other order, and of 4*G and 3*G. *)
Definition gk_a : list (point Toy) := [tpt 3; tpt 5].
Definition gk_b : list (point Toy) := [tpt 5; tpt 3].
Definition gk_c : list (point Toy) := [tpt 4; tpt 3].
Definition gk_keys : list (point Toy) := [tpt 3; tpt 4; tpt 5].
(** Four digests, and the questions with them. *)
Definition gk_digests : list bytes := Eval vm_compute in map (be_enc 32) [1; 2; 4; 7].
Definition gk_qa : bytes := Eval vm_compute in list_input gk_a.
Definition gk_qb : bytes := Eval vm_compute in list_input gk_b.
Definition gk_qc : bytes := Eval vm_compute in list_input gk_c.
Definition gk_coefs (L : bytes) : list bytes := map (@coefficient_input Toy L) gk_keys.
Definition gk_inputs : list bytes := [gk_qa; gk_qb; gk_qc] ++ flat_map gk_coefs gk_digests.
(** A program that asks about one list and chooses the other one by the digest. *)
Definition gk_choice (d : bytes) : list (point Toy) := if Z.even (be_dec d) then gk_c else gk_b.
Definition gk_program : asker (list (point Toy) * list (point Toy)) := Ask gk_qa (fun d => Give (gk_a, gk_choice d)).
Lemma gk_covered l : In l [gk_a; gk_b; gk_c] -> list_covered gk_inputs gk_digests 2 l.
Proof.
  intro H. split; [destruct H as [<- | [<- | [<- | []]]]; apply le_n|]. split.
  - apply in_app_iff. left. destruct H as [<- | [<- | [<- | []]]]; [left | right; left | right; right; left]; vm_compute; reflexivity.
  - intros L K HL HK. apply in_app_iff. right. apply in_flat_map. exists L. split; [exact HL|]. apply in_map. destruct H as [<- | [<- | [<- | []]]]; cbn [In gk_a gk_b gk_c gk_keys] in *; intuition.
Qed.
Lemma gk_within : key_lists_within gk_inputs gk_digests 1 2 gk_program.
Proof.
  split; [left; reflexivity|]. intros d _. cbn [asks_within fst snd]. split; apply gk_covered; [left; reflexivity|]. unfold gk_choice. destruct (Z.even (be_dec d)); cbn [In]; tauto.
Qed.
(** The world in which the lists have the digests [a], 2 and 4 and all coefficients are [k] for the key 3*G and [k'] for the others. *)
Definition gk_world (a k k' : Z) : list (bytes * bytes) := Eval cbv [gk_qa gk_qb gk_qc] in
  [(gk_qa, be_enc 32 a); (gk_qb, be_enc 32 2); (gk_qc, be_enc 32 4)] ++
  flat_map (fun L => map (fun K => (@coefficient_input Toy L K, be_enc 32 (if pt_eqb (pval K) (pval (tpt 3)) then k else k'))) gk_keys) gk_digests.
Lemma gk_distinct : NoDup gk_digests /\ (forall d, In d gk_digests -> List.length d = 32%nat) /\ (forall d, In d gk_digests -> (count (@same_residue Toy d) gk_digests <= 1)%nat).
Proof.
  split; [|split].
  - repeat constructor; intro H; cbn [In] in H; repeat (destruct H as [H | H]; [discriminate H|]); exact H.
  - intros d H. cbn [In gk_digests] in H. repeat (destruct H as [<- | H]; [reflexivity|]). destruct H.
  - intros d H. cbn [In gk_digests] in H. repeat (destruct H as [<- | H]; [vm_compute; lia|]). destruct H.
Qed.

(** A program that chooses a group and a root on the toy curve, for the examples of PropertiesTapAim.v. *)
From Coq Require Import String List Lia.
From Verif Require Import Bytes BytesFacts Prims SpecBIP327 KeyAgg SpecExtract SpecFork SpecCollision SpecGroupKey SpecGroupTap SpecTapAim Toy ToyData ToyFork ToyGroupKey ToyGroupTap.
Import ListNotations.
Local Open Scope Z_scope.

(** Four digests, the last of which is not below the order, and the questions with them. *)
Definition ta_digests : list bytes := Eval vm_compute in map (be_enc 32) [1; 2; 24; 40].
Definition ta_inputs : list bytes := ([gk_qa; gk_qb; gk_qc] ++ flat_map gk_coefs ta_digests) ++ gt_taps.
(** It asks about the list of 3*G and 5*G and ends by the digest with 4*G and 3*G or with 5*G and 3*G, and a root. *)
Definition ta_program : asker (funded Toy) := Ask gk_qa (fun d => Give (gk_choice d, [x01])).
Lemma ta_covered l : In l [gk_b; gk_c] -> funded_covered ta_inputs ta_digests 2 (l, [x01]).
Proof.
  intro H. split; [split; [|split]|].
  - destruct H as [<- | [<- | []]]; apply le_n.
  - do 2 (apply in_app_iff; left). destruct H as [<- | [<- | []]]; [right; left | right; right; left]; vm_compute; reflexivity.
  - intros L K HL HK. apply in_app_iff. left. apply in_app_iff. right. apply in_flat_map. exists L. split; [exact HL|]. apply in_map. destruct H as [<- | [<- | []]]; cbn [fst In gk_b gk_c gk_keys] in *; intuition.
  - intros h x _ E. apply in_app_iff. right. unfold agg_x in E. destruct (@key_agg_new (with_hash Toy h) _) as [c| |]; try discriminate E. injection E as <-.
    apply in_flat_map. exists (pt_x (pval (aggregated_pubkey c))). split; [exact (gt_all (@Point_ Toy (pval (aggregated_pubkey c)) (p_fin (aggregated_pubkey c))))|].
    replace (@tag_twice Toy "TapTweak") with gt_tag by (vm_compute; reflexivity). cbn [snd]. left. reflexivity.
Qed.
Lemma ta_within : one_funded_within ta_inputs ta_digests 1 2 ta_program.
Proof.
  split; [left; reflexivity|]. intros d _. cbn [asks_within]. apply ta_covered. unfold gk_choice. destruct (Z.even (be_dec d)); cbn [In]; tauto.
Qed.
(** The world in which the lists have the digests [a], 1 and 2, all coefficients are 1 and all tweaks [t]. *)
Definition ta_world (a t : Z) : list (bytes * bytes) :=
  [(gk_qa, be_enc 32 a); (gk_qb, be_enc 32 1); (gk_qc, be_enc 32 2)] ++ flat_map (fun L => map (fun m => (m, be_enc 32 1)) (gk_coefs L)) ta_digests ++ map (fun m => (m, be_enc 32 t)) gt_taps.
Lemma ta_distinct : NoDup ta_digests /\ (forall d, In d ta_digests -> List.length d = 32%nat).
Proof.
  split.
  - repeat constructor; intro H; cbn [In] in H; repeat (destruct H as [H | H]; [discriminate H|]); exact H.
  - intros d H. cbn [In ta_digests] in H. repeat (destruct H as [<- | H]; [reflexivity|]). destruct H.
Qed.
(** The x coordinate of 8*G. *)
Definition ta_x : bytes := Eval vm_compute in pt_x (pval (tpt 8)).

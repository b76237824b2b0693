(** Groups with a merkle root on the toy curve, for the examples of PropertiesGroupTap.v. *)
From Coq Require Import String List ZArith Lia.
From Verif Require Import Bytes BytesFacts Prims PrimsFacts SpecBIP327 KeyAgg SpecExtract SpecFork SpecCollision SpecGroupKey SpecGroupTap Toy ToyData ToyFork ToyGroupKey.
Import ListNotations.
Local Open Scope Z_scope.

(** The lists of [ToyGroupKey] with a root and without. *)
Definition gt_a : funded Toy := (gk_a, [x01]).
Definition gt_b : funded Toy := (gk_b, []).
Definition gt_c : funded Toy := (gk_a, []).
(** The questions about their output keys, for all points of the curve. *)
Definition gt_xs : list bytes := Eval vm_compute in
  map (fun k => pt_x (pval (tpt k))) [1; 2; 3; 4; 5; 6; 7; 8; 9; 10; 11; 12; 13; 14; 15]%positive.
Definition gt_tag : bytes := Eval vm_compute in @tag_twice Toy "TapTweak".
Definition gt_taps : list bytes := flat_map (fun x => [gt_tag ++ x ++ [x01]; gt_tag ++ x ++ []]) gt_xs.
Definition gt_inputs : list bytes := gk_inputs ++ gt_taps.
(** A program that asks about one list and chooses the other group by the digest. *)
Definition gt_choice (d : bytes) : funded Toy := if Z.even (be_dec d) then gt_c else gt_b.
Definition gt_program : asker (funded Toy * funded Toy) := Ask gk_qa (fun d => Give (gt_a, gt_choice d)).
Lemma gt_all (P : point Toy) : In (pt_x (pval P)) gt_xs.
Proof.
  destruct (dlog P) as [k HP]. assert (Hk : k <> fzero) by (intros ->; apply (point_fin P); rewrite HP; apply gmul_0).
  rewrite HP. pose proof (fz_range k) as R. assert (NZ : fz k <> 0) by (intro E; apply Hk; apply fe_ext; exact E).
  rewrite <- (of_Z_fz k). clear HP Hk. revert R NZ. generalize (fz k). clear k. intros z R NZ. change (0 <= z < 31) in R.
  assert (C : In z (map Z.of_nat (seq 1 30))) by (apply in_map_iff; exists (Z.to_nat z); split; [apply Z2Nat.id; lia | apply in_seq; lia]).
  cbn [map seq In] in C. repeat (destruct C as [<- | C]; [vm_compute; tauto|]). destruct C.
Qed.
Lemma gt_covered g : In g [gt_a; gt_b; gt_c] -> funded_covered gt_inputs gk_digests 2 g.
Proof.
  intro H. split.
  - assert (C : list_covered gk_inputs gk_digests 2 (fst g)) by (apply gk_covered; destruct H as [<- | [<- | [<- | []]]]; cbn [fst gt_a gt_b gt_c In]; tauto).
    destruct C as (C1 & C2 & C3). split; [exact C1|]. split; [apply in_app_iff; left; exact C2|]. intros L K HL HK. apply in_app_iff. left. apply C3; assumption.
  - intros h x _ E. apply in_app_iff. right. unfold agg_x in E. destruct (@key_agg_new (with_hash Toy h) _) as [c| |]; try discriminate E. injection E as <-.
    apply in_flat_map. exists (pt_x (pval (aggregated_pubkey c))). split; [exact (gt_all (@Point_ Toy (pval (aggregated_pubkey c)) (p_fin (aggregated_pubkey c))))|].
    replace (@tag_twice Toy "TapTweak") with gt_tag by (vm_compute; reflexivity). destruct H as [<- | [<- | [<- | []]]]; cbn [snd gt_a gt_b gt_c In]; tauto.
Qed.
Lemma gt_within : funded_within gt_inputs gk_digests 1 2 gt_program.
Proof.
  split; [left; reflexivity|]. intros d _. cbn [asks_within fst snd]. split; apply gt_covered; [left; reflexivity|]. unfold gt_choice. destruct (Z.even (be_dec d)); cbn [In]; tauto.
Qed.
(** The world in which the lists have the digests [a], 2 and 4, all coefficients are 1 and the tweaks [t] with a root and [t'] without. *)
Definition gt_world (a t t' : Z) : list (bytes * bytes) :=
  gk_world a 1 1 ++ flat_map (fun x => [(gt_tag ++ x ++ [x01], be_enc 32 t); (gt_tag ++ x ++ [], be_enc 32 t')]) gt_xs.

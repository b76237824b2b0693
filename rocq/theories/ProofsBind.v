(** Proofs of the theorems of PropertiesBind.v. *)
From Coq Require Import String List.
From Verif Require Import Bytes BytesFacts Prims PrimsFacts TaggedHashes Errors SpecTags SpecBIP327
  Bip340 SpecExtract SpecFork SpecBind Toy ToyData ToyFork ToyBind.
Import ListNotations.
Open Scope list_scope.
Open Scope Z_scope.
From Coq Require Import Lia Arith Bool Znumtheory.
From Verif Require Import CodecFacts KeyAggFacts SpecFacts ProofsSoundness ProofsExtraction ForkFacts ProofsFork ProofsConcurrent ProofsCollision ProofsBatchForger ProofsCommit.
Open Scope Z_scope.

Section Bind.
Context {Pr : prims} {Laws : prims_ok Pr} {Tags : tags_ok Pr}.
(** The challenge times the key, for a question and its digest. *)
Definition share_of (y d : bytes) : option (@pt Pr) := match @lift_x Pr (firstn 32 (skipn 96 y)) with Some P => Some (pmul (of_Z ord (be_dec d)) P) | None => None end.
Definition same_share (y d y' d' : bytes) : bool := match share_of y d, share_of y' d' with Some X, Some X' => pt_eqb X X' | _, _ => false end.
Lemma same_share_sym y d y' d' : same_share y d y' d' = same_share y' d' y d.
Proof. unfold same_share. destruct (share_of y d), (share_of y' d'); try reflexivity. apply eq_true_iff_eq. rewrite !pt_eqb_eq. split; congruence. Qed.
Lemma same_share_few digests c y d y' : (forall d, In d digests -> (count (@same_residue Pr d) digests <= c)%nat) -> (count (same_share y d y') digests <= c)%nat.
Proof.
  intro Hc. destruct (existsb (same_share y d y') digests) eqn:E.
  - apply existsb_exists in E as (d0 & I0 & E0). eapply Nat.le_trans; [|apply (Hc d0 I0)]. apply count_le. intros d' _ E'. unfold same_share in E0, E'.
    destruct (share_of y d) as [X|]; [|discriminate E0]. unfold share_of in E0, E'. destruct (lift_x (firstn 32 (skipn 96 y'))) as [P|]; [|discriminate E0].
    apply pt_eqb_eq in E0, E'. rewrite E0 in E'. apply pmul_fin_inj in E'. unfold same_residue. apply Z.eqb_eq. apply (f_equal (fun a : mscalar Pr => fz a)) in E'. rewrite !fz_of_Z in E'. exact E'.
  - unfold count. replace (filter (same_share y d y') digests) with (@nil bytes); [apply Nat.le_0_l|]. symmetry. clear Hc. induction digests as [|d' l IH]; [reflexivity|].
    cbn [existsb] in E. apply orb_false_iff in E as [E1 E2]. cbn [filter]. rewrite E1. apply IH, E2.
Qed.
Lemma challenge_tag_len : length (tag_twice "BIP0340/challenge") = 64%nat.
Proof. unfold tag_twice. rewrite tag_bip340_challenge. reflexivity. Qed.
Lemma purpose_share (R : point Pr) s p d : share_of (purpose_question (pt_x R ++ s) p) d = Some (pmul (of_Z ord (be_dec d)) (to_even_y (fst p))).
Proof.
  unfold share_of. assert (X : firstn 32 (skipn 96 (purpose_question (pt_x R ++ s) p)) = pt_x (fst p)).
  { assert (X0 : firstn 32 (pt_x R ++ s) = pt_x R) by (rewrite firstn_app, x_len, firstn_all2 by (rewrite x_len; lia); cbn [Nat.sub firstn]; apply app_nil_r). unfold purpose_question, challenge_input. rewrite X0.
    rewrite skipn_app, challenge_tag_len, skipn_all2 by (rewrite challenge_tag_len; lia). cbn [app]. change (96 - 64)%nat with 32%nat.
    rewrite skipn_app, x_len, skipn_all2 by (rewrite x_len; lia). cbn [app Nat.sub skipn]. unfold xbytes. rewrite firstn_app, x_len, firstn_all2 by (rewrite x_len; lia). cbn [Nat.sub firstn]. apply app_nil_r. }
  rewrite X, lift_x_x, even_point_val. reflexivity.
Qed.
Lemma serves_share h (LI : prims_ok (with_hash Pr h)) sig p : serves h sig p = true -> exists (R : point Pr) (s : mscalar Pr), pt_odd R = false /\ sig = pt_x R ++ ser_scalar s /\
  gmul s = pt_add R (pmul (of_Z ord (be_dec (h (purpose_question sig p)))) (to_even_y (fst p))).
Proof.
  unfold serves. intro H. destruct (verify_single_bytes _ sig _) as [[] | |] eqn:V; [|discriminate H..]. exact (world_verify h (rehash h (fst p)) sig (snd p) LI V).
Qed.
Lemma bound_related h sig (p p' : purpose Pr) : prims_ok (with_hash Pr h) -> serves_both h sig p p' = true ->
  purpose_question sig p <> purpose_question sig p' /\ same_share (purpose_question sig p) (h (purpose_question sig p)) (purpose_question sig p') (h (purpose_question sig p')) = true.
Proof.
  intros LI H. unfold serves_both in H. rewrite !andb_true_iff in H. destruct H as [[D H1] H2].
  apply (serves_share h LI) in H1 as (R & s & O1 & E1 & G1). apply (serves_share h LI) in H2 as (R' & s' & O2 & E2 & G2).
  rewrite E1 in E2. destruct (sig_parts R R' s s' O1 O2 E2) as [<- <-]. split.
  - intro X. unfold purpose_question, challenge_input in X. do 2 apply app_inv_head in X. unfold xbytes in X. apply app_inj_len in X as [X1 X2]; [|rewrite !x_len; reflexivity].
    apply negb_true_iff in D. unfold same_purpose, xbytes in D. rewrite X1, X2, !bytes_eqb_refl in D. discriminate D.
  - unfold same_share. rewrite G1 in G2. apply add_cancel_l in G2. rewrite E1 in *. rewrite !purpose_share. apply pt_eqb_eq. exact G2.
Qed.
End Bind.

Section C101_signature_one_purpose.
Context {Pr : prims}.
Add Ring ring_C101_signature_one_purpose : (fe_ring_theory (n := @ord Pr)).
Lemma C101_signature_one_purpose_proof {Laws : prims_ok Pr} {Tags : tags_ok Pr} (F : asker (bytes * (purpose Pr * purpose Pr))) (inputs digests : list bytes) (q c : nat) (HS : NoDup digests) (HS32 : forall d, In d digests -> length d = 32%nat) (Hc : forall d, In d digests -> (count (@same_residue Pr d) digests <= c)%nat) (HF : asks_within inputs digests (fun r => In (purpose_question (fst r) (fst (snd r))) inputs /\ In (purpose_question (fst r) (snd (snd r))) inputs) q F) :
  let N := length digests in
  (2 * (N * count (two_purposes F) (worlds inputs digests)) <= (q + 2) * (q + 1) * (N ^ length inputs * c))%nat.
Proof.
  cbv zeta. rewrite <- (length_worlds inputs digests).
  set (G := fun r : bytes * (purpose Pr * purpose Pr) => Ask (purpose_question (fst r) (fst (snd r))) (fun _ => Ask (purpose_question (fst r) (snd (snd r))) (fun _ => Give tt))).
  assert (HG : asks_within inputs digests (fun _ => True) (q + 2) (and_then F G)).
  { apply (within_then _ _ _ _ q 2 F _ HF). intros r [H1 H2]. split; [exact H1|]. intros _ _. split; [exact H2|]. intros; exact I. }
  replace (q + 1)%nat with (q + 2 - 1)%nat by lia.
  apply (rel_birthday (and_then F G) inputs digests (q + 2) c (@same_share Pr) same_share_sym HS (fun y d y' => same_share_few digests c y d y' Hc) HG).
  intros w Hw H. pose proof (hash_in_len inputs digests w HS32 Hw) as HL. pose proof (with_hash_ok _ HL) as LI. apply (bound_related _ _ _ _ LI) in H as [D R].
  eexists _, _. split; [|split; [|split; [exact D | exact R]]]; unfold qs; rewrite asked_then; cbn [G asked]; apply in_app_iff; right; [left | right; left]; reflexivity.
Qed.
End C101_signature_one_purpose.

Section C101_signature_second_purpose.
Context {Pr : prims}.
Add Ring ring_C101_signature_second_purpose : (fe_ring_theory (n := @ord Pr)).
Lemma C101_signature_second_purpose_proof {Laws : prims_ok Pr} {Tags : tags_ok Pr} (sig : bytes) (p : purpose Pr) (F : asker (purpose Pr)) (inputs digests : list bytes) (q c : nat) (HS : NoDup digests) (HS32 : forall d, In d digests -> length d = 32%nat) (Hc : forall d, In d digests -> (count (@same_residue Pr d) digests <= c)%nat) (Hp : In (purpose_question sig p) inputs) (HF : asks_within inputs digests (fun p' => In (purpose_question sig p') inputs) q F) :
  let N := length digests in
  (N * count (other_purpose sig p F) (worlds inputs digests) <= (q + 1) * (N ^ length inputs * c))%nat.
Proof.
  cbv zeta. rewrite <- (length_worlds inputs digests).
  set (G := fun p' : purpose Pr => Ask (purpose_question sig p') (fun _ => Give tt)).
  set (F0 := Ask (purpose_question sig p) (fun _ => and_then F G)).
  assert (HG : asks_within inputs digests (fun _ => True) (S (q + 1)) F0).
  { split; [exact Hp|]. intros _ _. apply (within_then _ _ _ _ q 1 F _ HF). intros r H1. split; [exact H1|]. intros; exact I. }
  replace (q + 1)%nat with (S (q + 1) - 1)%nat by lia.
  apply (rel_first F0 inputs digests (S (q + 1)) c (@same_share Pr) HS (fun y d y' => same_share_few digests c y d y' Hc) HG _ (purpose_question sig p)).
  - intros w Hw. unfold qs. cbn [F0 asked place]. rewrite bytes_eqb_refl. reflexivity.
  - intros w Hw H. pose proof (hash_in_len inputs digests w HS32 Hw) as HL. pose proof (with_hash_ok _ HL) as LI. apply (bound_related _ _ _ _ LI) in H as [D R].
    eexists. split; [|split; [exact D | exact R]]. unfold qs. cbn [F0 asked]. rewrite asked_then. cbn [G asked]. right. apply in_app_iff. right. left. reflexivity.
Qed.
End C101_signature_second_purpose.

(** Proofs of the theorems of PropertiesPrebind.v. *)
From Coq Require Import String List.
From Verif Require Import Bytes BytesFacts Prims PrimsFacts TaggedHashes Errors SpecTags SpecBIP327
  Signature Signing Bip340 SpecExtract SpecFork SpecBind SpecPrebind Toy ToyData ToyFork ToyBind ToyPrebind.
Import ListNotations.
Open Scope list_scope.
Open Scope Z_scope.
From Coq Require Import Lia Arith Bool Znumtheory.
From Verif Require Import CodecFacts KeyAggFacts SpecFacts SignatureFacts SigningFacts ProofsSoundness ProofsExtraction ForkFacts ProofsFork ProofsConcurrent ProofsCollision ProofsBatchForger ProofsCommit ProofsBind ProofsLimits.
Open Scope Z_scope.

Section Prebind.
Context {Pr : prims} {Laws : prims_ok Pr} {Tags : tags_ok Pr}.
Lemma pre_share (X : @pt Pr) (p : purpose Pr) d : share_of (challenge_input (xbytes X) (xbytes (fst p)) (snd p)) d = Some (pmul (of_Z ord (be_dec d)) (to_even_y (fst p))).
Proof.
  unfold share_of. assert (E : firstn 32 (skipn 96 (challenge_input (xbytes X) (xbytes (fst p)) (snd p))) = pt_x (fst p)).
  { unfold challenge_input. rewrite skipn_app, challenge_tag_len, skipn_all2 by (rewrite challenge_tag_len; lia). cbn [app]. change (96 - 64)%nat with 32%nat. unfold xbytes.
    rewrite skipn_app, x_len, skipn_all2 by (rewrite x_len; lia). cbn [app Nat.sub skipn]. rewrite firstn_app, x_len, firstn_all2 by (rewrite x_len; lia). cbn [Nat.sub firstn]. apply app_nil_r. }
  rewrite E, lift_x_x, even_point_val. reflexivity.
Qed.
Lemma pre_serves_share h (LI : prims_ok (with_hash Pr h)) sg T (p : purpose Pr) : pre_serves h sg T p = true ->
  gmul (a_s sg) = pt_add (pneg_if (pt_odd (pt_add (a_R sg) T)) (a_R sg)) (pmul (of_Z ord (be_dec (h (pre_question sg T p)))) (to_even_y (fst p))).
Proof.
  unfold pre_serves. intro H. destruct (verify_single_adaptor _ _ _ _) as [[] | |] eqn:V; [|discriminate H..]. apply (@verify_adaptor_iff (with_hash Pr h) LI) in V.
  unfold SigningFacts.chal in V. rewrite (@even_point_val (with_hash Pr h) LI) in V.
  match type of V with _ = pt_add _ (pmul ?c _) => assert (C : c = of_Z ord (be_dec (h (pre_question sg T p)))) end.
  { unfold compute_challenge_hash_tweak, reduce_from, tagged, pre_question, challenge_input, tag_twice. rewrite tag_bip340_challenge, <- app_assoc. reflexivity. }
  rewrite C in V. exact V.
Qed.
End Prebind.

Section C102_presignature_one_purpose.
Context {Pr : prims}.
Add Ring ring_C102_presignature_one_purpose : (fe_ring_theory (n := @ord Pr)).
Lemma C102_presignature_one_purpose_proof {Laws : prims_ok Pr} {Tags : tags_ok Pr} (F : asker (pre_claim Pr)) (inputs digests : list bytes) (q c : nat) (HS : NoDup digests) (HS32 : forall d, In d digests -> length d = 32%nat) (Hc : forall d, In d digests -> (count (@same_residue Pr d) digests <= c)%nat) (HF : pre_within inputs digests q F) :
  let N := length digests in
  (2 * (N * count (two_pre_purposes F) (worlds inputs digests)) <= (q + 2) * (q + 1) * (N ^ length inputs * c))%nat.
Proof.
  cbv zeta. rewrite <- (length_worlds inputs digests).
  set (G := fun r : pre_claim Pr => let '((sg, T), (p, p')) := r in Ask (pre_question sg T p) (fun _ => Ask (pre_question sg T p') (fun _ => Give tt))).
  assert (HG : asks_within inputs digests (fun _ => True) (q + 2) (and_then F G)).
  { apply (within_then _ _ _ _ q 2 F _ HF). intros [[sg T] [p p']] [H1 H2]. split; [exact H1|]. intros _ _. split; [exact H2|]. intros; exact I. }
  replace (q + 1)%nat with (q + 2 - 1)%nat by lia.
  apply (rel_birthday (and_then F G) inputs digests (q + 2) c (@same_share Pr) same_share_sym HS (fun y d y' => same_share_few digests c y d y' Hc) HG).
  intros w Hw H. pose proof (hash_in_len inputs digests w HS32 Hw) as HL. pose proof (with_hash_ok _ HL) as LI. unfold two_pre_purposes in H. cbv zeta in H.
  unfold qs. rewrite asked_then. destruct (outcome (hash_in w) F) as [[sg T] [p p']]. cbn [G asked].
  rewrite !andb_true_iff in H. destruct H as [[D H1] H2]. apply (pre_serves_share _ LI) in H1, H2.
  exists (pre_question sg T p), (pre_question sg T p'). split; [apply in_app_iff; right; left; reflexivity|]. split; [apply in_app_iff; right; right; left; reflexivity|]. split.
  - intro X. unfold pre_question, challenge_input in X. do 2 apply app_inv_head in X. unfold xbytes in X. apply app_inj_len in X as [X1 X2]; [|rewrite !x_len; reflexivity].
    apply negb_true_iff in D. unfold same_purpose, xbytes in D. rewrite X1, X2, !bytes_eqb_refl in D. discriminate D.
  - rewrite H1 in H2. apply add_cancel_l in H2. unfold same_share. unfold pre_question at 1 3. rewrite !pre_share. apply pt_eqb_eq. exact H2.
Qed.
End C102_presignature_one_purpose.

Section C102_two_points_refuted.
Context {Pr : prims}.
Add Ring ring_C102_two_points_refuted : (fe_ring_theory (n := @ord Pr)).
Lemma C102_two_points_refuted_proof {Laws : prims_ok Pr} (sk : scalar Pr) (msg msg' : bytes) (x x' : mscalar Pr) (Hx : pt_odd (gmul x) = false) (Hx' : pt_odd (gmul x') = true) :
  exists (sg : adaptor_sig Pr) (t t' : mscalar Pr),
    verify_single_adaptor (base_mul sk) sg msg (gmul t) = Ok tt /\ verify_single_adaptor (base_mul sk) sg msg' (gmul t') = Ok tt /\
    pt_add (a_R sg) (gmul t) = gmul x /\ pt_add (a_R sg) (gmul t') = gmul x'.
Proof.
  destruct (finv_exists ord_prime _ two_nz) as [half Hh].
  set (d := fneg_if (pt_odd (gmul sk)) sk : mscalar Pr).
  assert (HD : pval (even_point (base_mul sk)) = gmul d).
  { rewrite even_point_val, base_mul_val. unfold to_even_y, d, pneg_if, fneg_if. destruct (pt_odd (gmul sk)); [rewrite gmul_neg|]; reflexivity. }
  set (e := SigningFacts.chal (gmul x) (base_mul sk) msg). set (e' := SigningFacts.chal (gmul x') (base_mul sk) msg').
  set (r := fmul (fmul (fadd e' (fneg e)) d) half). set (s := fadd r (fmul e d)).
  exists {| a_R := gmul r; a_s := s |}, (fadd x (fneg r)), (fadd x' (fneg r)).
  assert (A : forall y : mscalar Pr, pt_add (gmul r) (gmul (fadd y (fneg r))) = gmul y) by (intro y; rewrite <- gmul_add; f_equal; ring).
  assert (H2 : fadd r r = fmul (fadd e' (fneg e)) d).
  { replace (fadd r r) with (fmul (fmul (fadd e' (fneg e)) d) (fmul (fadd fone fone) half)) by (unfold r; ring). rewrite Hh. ring. }
  rewrite !verify_adaptor_iff. cbn [a_R a_s]. rewrite !A, Hx, Hx', HD. fold e e'. cbn [pneg_if]. rewrite <- !gmul_mul, <- gmul_neg, <- !gmul_add.
  repeat split; try reflexivity. f_equal. unfold s. replace (fadd r (fmul e d)) with (fadd (fadd (fneg r) (fadd r r)) (fmul e d)) by ring. rewrite H2. ring.
Qed.
End C102_two_points_refuted.

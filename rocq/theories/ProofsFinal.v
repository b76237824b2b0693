(** Proofs of the theorems of PropertiesFinal.v. *)
From Coq Require Import String List.
From Verif Require Import Bytes BytesFacts Prims PrimsFacts TaggedHashes Errors SpecTags SpecBIP327
  Nonces SpecExtract SpecFork SpecFinal Toy ToyData ToyFork ToyBind ToyFinal.
Import ListNotations.
Open Scope list_scope.
Open Scope Z_scope.
From Coq Require Import Lia Arith Bool Znumtheory.
From Verif Require Import CodecFacts EncodingFacts KeyAggFacts SpecFacts ProofsSoundness ProofsExtraction ForkFacts ProofsFork ProofsConcurrent ProofsCollision ProofsBatchForger ProofsCommit.
Open Scope Z_scope.

Section Final.
Context {Pr : prims} {Laws : prims_ok Pr} {Tags : tags_ok Pr}.
(** The sum of the nonces, which may be infinite, and the nonce in its place. *)
Definition raw_of (R1 R2 : @pt Pr) (d : bytes) : @pt Pr := pt_add R1 (pmul (of_Z ord (be_dec d)) R2).
Definition put_G (V : @pt Pr) : @pt Pr := if pt_eqb V pt_O then pt_G else V.
Lemma put_G_fin V : put_G V <> pt_O.
Proof. unfold put_G. destruct (pt_eqb V pt_O) eqn:E; [apply pt_eqb_neq, G_fin | apply pt_eqb_neq, E]. Qed.
Lemma final_val n b : pval (@final_nonce Pr n b) = put_G (pt_add (aR1 n) (pmul b (aR2 n))).
Proof.
  unfold final_nonce, put_G. destruct (not_inf _) as [P|] eqn:E.
  - apply not_inf_Some in E. rewrite E. rewrite (p_fin P). reflexivity.
  - apply not_inf_None in E. rewrite E. rewrite (proj2 (pt_eqb_eq _ _) eq_refl). reflexivity.
Qed.
(** The x coordinate of the nonce, for a question and its digest. *)
Definition fin_of (y d : bytes) : option bytes :=
  match @parse_mpoint Pr (firstn 33 (skipn 64 y)), @parse_mpoint Pr (firstn 33 (skipn 97 y)) with
  | Some R1, Some R2 => if pt_eqb R2 pt_O then None else Some (pt_x (put_G (raw_of R1 R2 d)))
  | _, _ => None
  end.
Definition same_fin (y d y' d' : bytes) : bool := match fin_of y d, fin_of y' d' with Some x, Some x' => bytes_eqb x x' | _, _ => false end.
Lemma same_fin_sym y d y' d' : same_fin y d y' d' = same_fin y' d' y d.
Proof. unfold same_fin. destruct (fin_of y d), (fin_of y' d'); try reflexivity. apply eq_true_iff_eq. rewrite !bytes_eqb_eq. split; congruence. Qed.
(** At most [c] digests pass a test that only digests with one residue pass. *)
Lemma count_residue digests c (f : bytes -> bool) : (forall d, In d digests -> (count (@same_residue Pr d) digests <= c)%nat) ->
  (forall d d', f d = true -> f d' = true -> @same_residue Pr d d' = true) -> (count f digests <= c)%nat.
Proof.
  intros Hc H. destruct (existsb f digests) eqn:E.
  - apply existsb_exists in E as (d0 & I0 & E0). eapply Nat.le_trans; [|apply (Hc d0 I0)]. apply count_le. intros d' _ E'. apply H; assumption.
  - unfold count. replace (filter f digests) with (@nil bytes); [apply Nat.le_0_l|]. symmetry. clear Hc. induction digests as [|d' l IH]; [reflexivity|].
    cbn [existsb] in E. apply orb_false_iff in E as [E1 E2]. cbn [filter]. rewrite E1. apply IH, E2.
Qed.
Lemma same_fin_few digests c y d y' : (forall d, In d digests -> (count (@same_residue Pr d) digests <= c)%nat) -> (count (same_fin y d y') digests <= 3 * c)%nat.
Proof.
  intro Hc. unfold same_fin. destruct (fin_of y d) as [x|]; [|unfold count; induction digests as [|a l IH]; [apply Nat.le_0_l|]].
  2: { cbn [filter]. apply IH. intros d0 Hd. eapply Nat.le_trans; [|apply (Hc d0 (or_intror Hd))]. unfold count. cbn [filter]. destruct (same_residue d0 a); cbn [length]; lia. }
  unfold fin_of. destruct (parse_mpoint (firstn 33 (skipn 64 y'))) as [R1|]; [|unfold count; clear; induction digests as [|a l IH]; [apply Nat.le_0_l | exact IH]].
  destruct (parse_mpoint (firstn 33 (skipn 97 y'))) as [R2|]; [|unfold count; clear; induction digests as [|a l IH]; [apply Nat.le_0_l | exact IH]].
  destruct (pt_eqb R2 pt_O) eqn:N; [unfold count; clear; induction digests as [|a l IH]; [apply Nat.le_0_l | exact IH]|].
  apply pt_eqb_neq in N. destruct (mpoint_cases R2) as [Z | [S2 ->]]; [contradiction|].
  set (f := fun d' => bytes_eqb x (pt_x (put_G (raw_of R1 S2 d')))). change (count f digests <= 3 * c)%nat.
  assert (U : forall V d0 d', raw_of R1 S2 d0 = V -> raw_of R1 S2 d' = V -> @same_residue Pr d0 d' = true).
  { intros V d0 d' E0 E'. rewrite <- E' in E0. unfold raw_of in E0. apply add_cancel_l, pmul_fin_inj in E0. unfold same_residue. apply Z.eqb_eq. apply (f_equal (fun a : mscalar Pr => fz a)) in E0. rewrite !fz_of_Z in E0. exact E0. }
  assert (B : forall V, (count (fun d' => pt_eqb (raw_of R1 S2 d') V) digests <= c)%nat).
  { intro V. apply (count_residue digests c _ Hc). intros d0 d' E0 E'. apply pt_eqb_eq in E0, E'. exact (U V d0 d' E0 E'). }
  destruct (existsb f digests) eqn:E.
  - apply existsb_exists in E as (d0 & I0 & E0). unfold f in E0. apply bytes_eqb_eq in E0. set (V := put_G (raw_of R1 S2 d0)) in E0.
    assert (X : (count f digests <= count (fun d' => pt_eqb (raw_of R1 S2 d') V) digests + count (fun d' => pt_eqb (raw_of R1 S2 d') (pt_neg V) || pt_eqb (raw_of R1 S2 d') pt_O) digests)%nat).
    { apply count_or. intros d' _ F'. unfold f in F'. apply bytes_eqb_eq in F'. rewrite E0 in F'. apply x_inj in F'; [|apply put_G_fin..]. unfold put_G in F'.
      destruct (pt_eqb (raw_of R1 S2 d') pt_O) eqn:O; [right; apply orb_true_r|]. destruct F' as [F' | F'].
      - left. apply pt_eqb_eq. symmetry. exact F'.
      - right. rewrite orb_false_r. apply pt_eqb_eq. rewrite F'. symmetry. apply neg_neg. }
    assert (Y : (count (fun d' => pt_eqb (raw_of R1 S2 d') (pt_neg V) || pt_eqb (raw_of R1 S2 d') pt_O) digests <= count (fun d' => pt_eqb (raw_of R1 S2 d') (pt_neg V)) digests + count (fun d' => pt_eqb (raw_of R1 S2 d') pt_O) digests)%nat).
    { apply count_or. intros d' _ F'. apply orb_true_iff in F'. exact F'. }
    pose proof (B V). pose proof (B (pt_neg V)). pose proof (B pt_O). lia.
  - assert (Z : count f digests = 0%nat); [|lia]. unfold count. clear - E. induction digests as [|a l IH]; [reflexivity|]. cbn [existsb] in E. apply orb_false_iff in E as [E1 E2]. cbn [filter]. rewrite E1. apply IH, E2.
Qed.
Lemma coef_tag_len : length (tag_twice "MuSig/noncecoef") = 64%nat.
Proof. unfold tag_twice. rewrite tag_musig_noncecoef. reflexivity. Qed.
Lemma sitting_fin h (LI : prims_ok (with_hash Pr h)) (s : sitting Pr) : second_finite s = true -> fin_of (sitting_question s) (h (sitting_question s)) = Some (sitting_x h s).
Proof.
  intro H. assert (X : sitting_x h s = pt_x (put_G (raw_of (aR1 (s_nonce s)) (aR2 (s_nonce s)) (h (sitting_question s))))).
  { unfold sitting_x. cbv zeta. set (an := @AggNonce (with_hash Pr h) (aR1 (s_nonce s)) (aR2 (s_nonce s))).
    assert (C : @nonce_coefficient (with_hash Pr h) an (rehash h (s_key s)) (s_text s) = of_Z ord (be_dec (h (sitting_question s)))).
    { unfold nonce_coefficient, reduce_from, tagged, sitting_question, tag_twice. rewrite tag_musig_noncecoef, <- !(@cbytes_ext_ser (with_hash Pr h) LI), <- !app_assoc. reflexivity. }
    rewrite C. unfold raw_of.
    assert (V : pval (@final_nonce (with_hash Pr h) an (of_Z ord (be_dec (h (sitting_question s))))) = put_G (pt_add (aR1 (s_nonce s)) (pmul (of_Z ord (be_dec (h (sitting_question s)))) (aR2 (s_nonce s))))).
    { unfold final_nonce. destruct (@not_inf (with_hash Pr h) _) as [P|] eqn:E.
      - apply (@not_inf_Some (with_hash Pr h)) in E. unfold put_G. pose proof (p_fin P) as PF. rewrite <- E in PF. cbn [an aR1 aR2] in *. change (@pt_eqb (with_hash Pr h)) with (@pt_eqb Pr) in PF. etransitivity; [symmetry; exact E|]. symmetry.
        match goal with |- (if ?b then _ else _) = _ => assert (Q : b = false) by exact PF; rewrite Q end. reflexivity.
      - apply (@not_inf_None (with_hash Pr h) LI) in E. unfold put_G. match goal with |- _ = (if ?b then _ else _) => assert (Q : b = true) by (apply pt_eqb_eq; exact E); rewrite Q end. reflexivity. }
    exact (f_equal (@pt_x Pr) V). }
  rewrite X. unfold fin_of. assert (P1 : firstn 33 (skipn 64 (sitting_question s)) = ser_mpoint (aR1 (s_nonce s)) /\ firstn 33 (skipn 97 (sitting_question s)) = ser_mpoint (aR2 (s_nonce s))).
  { unfold sitting_question. rewrite !cbytes_ext_ser. pose proof coef_tag_len as TL. revert TL. generalize (tag_twice "MuSig/noncecoef"). intros tg TL. generalize (xbytes (s_key s) ++ s_text s). intro r. pose proof (ser_mpoint_len (aR1 (s_nonce s))) as L1. pose proof (ser_mpoint_len (aR2 (s_nonce s))) as L2. revert L1 L2.
    generalize (ser_mpoint (aR1 (s_nonce s))). intro b1. generalize (ser_mpoint (aR2 (s_nonce s))). intros b2 L1 L2. split.
    - rewrite skipn_app, TL, skipn_all2 by lia. cbn [app Nat.sub skipn]. rewrite firstn_app, L1, firstn_all2 by lia. cbn [Nat.sub firstn]. apply app_nil_r.
    - rewrite skipn_app, TL, skipn_all2 by lia. cbn [app]. change (97 - 64)%nat with 33%nat. rewrite skipn_app, L1, skipn_all2 by lia. cbn [app Nat.sub skipn]. rewrite firstn_app, L2, firstn_all2 by lia. cbn [Nat.sub firstn]. apply app_nil_r. }
  destruct P1 as [-> ->]. rewrite !parse_mpoint_ser. unfold second_finite, is_infinite in H. apply negb_true_iff in H. rewrite H. reflexivity.
Qed.
Lemma sittings_related h (LI : prims_ok (with_hash Pr h)) (s s' : sitting Pr) : second_finite s = true -> second_finite s' = true -> same_sitting s s' = false -> bytes_eqb (sitting_x h s) (sitting_x h s') = true ->
  sitting_question s <> sitting_question s' /\ same_fin (sitting_question s) (h (sitting_question s)) (sitting_question s') (h (sitting_question s')) = true.
Proof.
  intros H1 H2 D E. split.
  - intro X. unfold sitting_question in X. apply app_inv_head in X. rewrite !cbytes_ext_ser in X. apply app_inj_len in X as [X1 X]; [|rewrite !ser_mpoint_len; reflexivity]. apply app_inj_len in X as [X2 X]; [|rewrite !ser_mpoint_len; reflexivity].
    unfold xbytes in X. apply app_inj_len in X as [X3 X4]; [|rewrite !x_len; reflexivity]. apply ser_mpoint_inj in X1, X2.
    unfold same_sitting, xbytes in D. rewrite X1, X2, X3, X4, !bytes_eqb_refl, !(proj2 (pt_eqb_eq _ _) eq_refl) in D. discriminate D.
  - unfold same_fin. rewrite (sitting_fin h LI s H1), (sitting_fin h LI s' H2). exact E.
Qed.
End Final.

Section C103_sessions_apart.
Context {Pr : prims}.
Add Ring ring_C103_sessions_apart : (fe_ring_theory (n := @ord Pr)).
Lemma C103_sessions_apart_proof {Laws : prims_ok Pr} {Tags : tags_ok Pr} (F : asker (sitting Pr * sitting Pr)) (inputs digests : list bytes) (q c : nat) (HS : NoDup digests) (HS32 : forall d, In d digests -> length d = 32%nat) (Hc : forall d, In d digests -> (count (@same_residue Pr d) digests <= c)%nat) (HF : sittings_within inputs digests q F) :
  let N := length digests in
  (2 * (N * count (two_sittings F) (worlds inputs digests)) <= (q + 2) * (q + 1) * (N ^ length inputs * (3 * c)))%nat.
Proof.
  cbv zeta. rewrite <- (length_worlds inputs digests).
  set (G := fun r : sitting Pr * sitting Pr => Ask (sitting_question (fst r)) (fun _ => Ask (sitting_question (snd r)) (fun _ => Give tt))).
  assert (HG : asks_within inputs digests (fun _ => True) (q + 2) (and_then F G)).
  { apply (within_then _ _ _ _ q 2 F _ HF). intros r [H1 H2]. split; [exact H1|]. intros _ _. split; [exact H2|]. intros; exact I. }
  replace (q + 1)%nat with (q + 2 - 1)%nat by lia.
  apply (rel_birthday (and_then F G) inputs digests (q + 2) (3 * c) (@same_fin Pr) same_fin_sym HS (fun y d y' => same_fin_few digests c y d y' Hc) HG).
  intros w Hw H. pose proof (hash_in_len inputs digests w HS32 Hw) as HL. pose proof (with_hash_ok _ HL) as LI. unfold two_sittings in H. cbv zeta in H.
  unfold qs. rewrite asked_then. destruct (outcome (hash_in w) F) as [s s']. cbn [G asked fst snd].
  rewrite !andb_true_iff in H. destruct H as [[[H1 H2] D] E]. apply negb_true_iff in D. destruct (sittings_related _ LI s s' H1 H2 D E) as [X Y].
  exists (sitting_question s), (sitting_question s'). split; [apply in_app_iff; right; left; reflexivity|]. split; [apply in_app_iff; right; right; left; reflexivity|]. split; assumption.
Qed.
End C103_sessions_apart.

Section C103_infinite_second_refuted.
Context {Pr : prims}.
Add Ring ring_C103_infinite_second_refuted : (fe_ring_theory (n := @ord Pr)).
Lemma C103_infinite_second_refuted_proof {Laws : prims_ok Pr} (an : agg_nonce Pr) (Q Q' : point Pr) (msg msg' : bytes) :
  exists an' : agg_nonce Pr, aggnonce_from_bytes (aggnonce_to_bytes an') = Ok an' /\
    final_nonce an' (nonce_coefficient an' Q' msg') = final_nonce an (nonce_coefficient an Q msg).
Proof.
  set (R := final_nonce an (nonce_coefficient an Q msg)). exists {| aR1 := pval R; aR2 := pt_O |}. split; [apply aggnonce_decode; reflexivity|].
  apply point_ext. rewrite final_val. cbn [aR1 aR2]. rewrite pmul_O, add_O_r. unfold put_G. rewrite (p_fin R). reflexivity.
Qed.
End C103_infinite_second_refuted.

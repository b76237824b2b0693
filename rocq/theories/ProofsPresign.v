(** Proofs of the theorems of PropertiesPresign.v. *)
From Coq Require Import String List.
From Verif Require Import Bytes BytesFacts Prims PrimsFacts TaggedHashes Errors SpecTags SpecBIP327
  KeyAgg Nonces Signature Signing SigAgg Bip340 SpecCtx SpecView SpecExtract SpecFork SpecPresign Toy ToyData ToyFork ToyPresign.
Import ListNotations.
Open Scope list_scope.
Open Scope Z_scope.
From Coq Require Import Lia Arith Bool.
From Verif Require Import CodecFacts KeyAggFacts SignatureFacts SigningFacts SpecFacts SpecSigning SessionFacts ProofsSoundness ProofsSingle ProofsExtraction ProofsRare ProofsGuess ForkFacts ProofsFork.
Open Scope Z_scope.

(** The counting of ProofsFork.v for any kind of result with a challenge. *)
Section Generic.
Context {Pr : prims} {A : Type} (ch : A -> bytes) (ok : list (bytes * bytes) -> bool) (F : asker A) (inputs digests : list bytes) (q : nat)
  (HF : asks_within inputs digests (fun r => In (ch r) inputs) q F).

Definition g_ch (w : list (bytes * bytes)) : bytes := ch (outcome (hash_in w) F).
Definition g_qs (w : list (bytes * bytes)) : list bytes := asked (hash_in w) F ++ [g_ch w].
Definition g_at (w : list (bytes * bytes)) : option nat := if ok w then place (g_ch w) (g_qs w) else None.
Definition g_forks (w : list (bytes * bytes)) (d : bytes) : bool :=
  ok w && ok (put (g_ch w) d w) &&
  (match place (g_ch w) (g_qs w), place (g_ch (put (g_ch w) d w)) (g_qs (put (g_ch w) d w)) with
   | Some i, Some i' => Nat.eqb i i' | _, _ => false end) &&
  negb (same_residue (hash_in w (g_ch w)) d).

Lemma g_facts w : In w (worlds inputs digests) ->
  (forall m, In m (g_qs w) -> In m inputs) /\ (length (g_qs w) <= q + 1)%nat /\ In (g_ch w) inputs.
Proof.
  intro Hw. destruct (asked_within _ _ _ q F (hash_in w) HF) as (I1 & I2 & I3).
  { intros m Hm. apply hash_in_in with (M := inputs); assumption. }
  split; [|split; [unfold g_qs; rewrite app_length; cbn [List.length]; lia | exact I3]].
  intros m Hm. unfold g_qs in Hm. apply in_app_iff in Hm as [Hm | [<- | []]]; [apply I1, Hm | exact I3].
Qed.
Lemma g_same w m d i : In w (worlds inputs digests) -> In m inputs -> In d digests -> ~ In m (firstn i (g_qs w)) ->
  firstn (S i) (g_qs (put m d w)) = firstn (S i) (g_qs w).
Proof.
  intros Hw Hm Hd H. unfold g_qs, g_ch in *. apply (asked_same F (hash_in w) (hash_in (put m d w)) m (fun r => [ch r]) (fun r => [ch r])); [|reflexivity | exact H].
  intros x Hx. apply hash_in_put_other, Hx.
Qed.
Lemma g_place w : exists i, place (g_ch w) (g_qs w) = Some i.
Proof. apply place_some. unfold g_qs. apply in_app_iff. right. left. reflexivity. Qed.
Lemma g_new w i : place (g_ch w) (g_qs w) = Some i -> new_at g_qs i w = Some (g_ch w).
Proof. intro H. apply new_at_spec, place_spec, H. Qed.
Lemma g_same_challenge w d : In w (worlds inputs digests) -> In d digests -> g_forks w d = true -> g_ch (put (g_ch w) d w) = g_ch w.
Proof.
  intros Hw Hd H. unfold g_forks in H. rewrite !andb_true_iff in H. destruct H as [[_ H] _].
  destruct (place _ (g_qs w)) as [i|] eqn:P1; [|discriminate]. destruct (place _ (g_qs (put _ d w))) as [i'|] eqn:P2; [|discriminate].
  apply Nat.eqb_eq in H as <-. apply g_new in P1, P2.
  pose proof (new_at_put inputs digests g_qs (fun w m Hw => proj1 (g_facts w Hw) m) g_same i w _ d Hw Hd P1) as E. congruence.
Qed.
Lemma g_forking (c : nat) : NoDup digests -> (forall d, In d digests -> (count (same_residue d) digests <= c)%nat) ->
  let W := worlds inputs digests in
  (length digests * (count ok W * count ok W) <= (q + 1) * (length W * (count (fun wd => g_forks (fst wd) (snd wd)) (list_prod W digests) + count ok W * c)))%nat.
Proof.
  intros HS Hc. cbv zeta. set (W := worlds inputs digests).
  assert (QI : forall w m, In w W -> In m (g_qs w) -> In m inputs) by (intros w m Hw; apply (proj1 (g_facts w Hw))).
  pose proof g_same as QS.
  pose proof (fork_places Nat.eqb (seq 0 (q + 1)) W digests (has_new g_qs) (redraw g_qs) (drawn g_qs) g_at) as H.
  cbv zeta in H. rewrite seq_length in H.
  assert (EA : count (fun a => match g_at a with Some _ => true | None => false end) W = count ok W).
  { rewrite !count_sum. apply sum_ext. intros w _. unfold g_at. destruct (ok w); [|reflexivity].
    destruct (g_place w) as [i ->]. reflexivity. }
  rewrite EA in H. eapply Nat.le_trans; [apply H|].
  - intros. apply Nat.eqb_eq.
  - apply seq_NoDup.
  - apply nodup_worlds, HS.
  - exact HS.
  - intros w i Hw E. unfold g_at in E. destruct (ok w); [|discriminate].
    split; [apply in_seq; pose proof (place_lt _ _ _ E); destruct (g_facts w Hw) as (_ & L & _); lia|].
    unfold has_new. rewrite (g_new w i E). reflexivity.
  - intros. apply (redraw_in inputs digests g_qs QI QS); assumption.
  - intros. apply (drawn_in inputs digests g_qs QI); assumption.
  - intros. apply (redraw_drawn inputs digests g_qs QI); assumption.
  - intros. apply (drawn_redraw inputs digests g_qs QI QS); assumption.
  - intros. apply (redraw_redraw inputs digests g_qs QI QS); assumption.
  - apply Nat.mul_le_mono_l, Nat.mul_le_mono_l.
    apply (drop_same W digests ok (fun w => hash_in w (g_ch w))).
    + intros w Hw _. apply hash_in_in with (M := inputs); [exact Hw | apply (g_facts w Hw)].
    + exact Hc.
    + intros w d Hw Hd. unfold again. cbn [fst snd]. unfold g_at at 1. destruct (ok w) eqn:F1; [|discriminate].
      destruct (place (g_ch w) (g_qs w)) as [i|] eqn:P; [|discriminate].
      unfold redraw. rewrite (g_new w i P). unfold g_at. destruct (ok (put _ d w)) eqn:F2; [|discriminate].
      destruct (place _ (g_qs (put _ d w))) as [i'|] eqn:P2; [|discriminate]. intro E.
      destruct (same_residue (hash_in w (g_ch w)) d) eqn:SR; [right; auto | left].
      unfold g_forks. rewrite F1, F2, P, P2, E, SR. reflexivity.
Qed.
End Generic.

Section Equation.
Context {Pr : prims} {Laws : prims_ok Pr} {Tags : tags_ok Pr}.
Add Ring fring1 : (fe_ring_theory (n := @ord Pr)).

(** What verification of a pre-signature says in the world of any hash function. *)
Lemma world_adaptor (h : bytes -> bytes) (Q : point Pr) (T : @pt Pr) (r : presigned Pr) : prims_ok (with_hash Pr h) ->
  @verify_single_adaptor (with_hash Pr h) (rehash h Q) (@AdaptorSignature (with_hash Pr h) (q_R r) (q_s r)) (q_msg r) T = Ok tt ->
  gmul (q_s r) = pt_add (pneg_if (pt_odd (adapted_nonce T r)) (q_R r))
    (pmul (of_Z ord (be_dec (h (pre_challenge Q T r)))) (pneg_if (pt_odd Q) (pval Q))).
Proof.
  intros LI H. apply (@verify_adaptor_iff _ LI) in H. cbn [a_R a_s] in H.
  assert (EP : pval (@even_point (with_hash Pr h) (rehash h Q)) = pneg_if (pt_odd Q) (pval Q) :> @pt Pr) by (apply (@even_pneg (with_hash Pr h)); exact LI).
  rewrite EP in H.
  assert (C : @chal (with_hash Pr h) (@pt_add (with_hash Pr h) (q_R r) T) (rehash h Q) (q_msg r) = of_Z ord (be_dec (h (pre_challenge Q T r)))).
  { unfold chal, compute_challenge_hash_tweak, reduce_from, tagged, pre_challenge, challenge_input, tag_twice. rewrite tag_bip340_challenge, <- app_assoc. reflexivity. }
  rewrite C in H. exact H.
Qed.
(** Moving the adaptor point to the other side. *)
Lemma shift_T (T R X : @pt Pr) (s t : mscalar Pr) (b : bool) : gmul t = T -> gmul s = pt_add (pneg_if b R) X ->
  gmul (fadd s (fneg_if b t)) = pt_add (pneg_if b (pt_add R T)) X.
Proof.
  intros Ht H. rewrite gmul_add, H, <- pneg_if_gmul, Ht. destruct b; cbn [pneg_if].
  - rewrite neg_add. rewrite !add_assoc. f_equal. apply add_comm.
  - rewrite !add_assoc. f_equal. apply add_comm.
Qed.
Lemma even_same (A B : @pt Pr) : A <> pt_O -> B <> pt_O -> pt_x A = pt_x B -> pneg_if (pt_odd A) A = pneg_if (pt_odd B) B.
Proof.
  intros HA HB E. destruct (x_inj A B HA HB E) as [-> | ->]; [reflexivity|]. rewrite odd_neg by exact HB.
  destruct (pt_odd B); cbn [negb pneg_if]; [reflexivity | apply neg_neg].
Qed.
End Equation.

Section C93_presignatures_without_key.
Context {Pr : prims}.
Add Ring ring_C93_presignatures_without_key : (fe_ring_theory (n := @ord Pr)).
Lemma C93_presignatures_without_key_proof {Laws : prims_ok Pr} {Tags : tags_ok Pr} (pk : point Pr) (msg : bytes) (A : pt) (s : mscalar Pr) :
  let P := if has_even_y pk then pval pk else pt_neg pk in
  let e := int_from_bytes (tagged_hash "BIP0340/challenge" (xbytes A ++ xbytes pk ++ msg)) mod n_ in
  let V := pt_add (point_mul pt_G (fz s)) (pt_neg (point_mul P e)) in
  let R0 := if has_even_y A then V else pt_neg V in
  forall R, verify_single_adaptor pk (adaptor_new R s) msg (pt_add A (pt_neg R)) = Ok tt <-> R = R0.
Proof.
  cbv zeta. intro R. rewrite verify_adaptor_iff. unfold adaptor_new. cbn [a_R a_s].
  assert (EA : pt_add R (pt_add A (pt_neg R)) = A).
  { rewrite (add_comm A), <- add_assoc, add_neg_r, add_O_l. reflexivity. }
  rewrite EA, even_pneg. unfold chal. rewrite chal_int. change (pt_x A) with (xbytes A).
  set (e := compute_challenge_hash_tweak (xbytes A) pk msg).
  assert (EP : (if has_even_y pk then pval pk else pt_neg pk) = pneg_if (pt_odd pk) pk) by (unfold has_even_y; destruct (pt_odd pk); reflexivity).
  rewrite EP, point_mul_gmul_Z, of_Z_fz, point_mul_Z, of_Z_fz. set (X := pmul e _).
  assert (ER : (if has_even_y A then pt_add (gmul s) (pt_neg X) else pt_neg (pt_add (gmul s) (pt_neg X))) = pneg_if (pt_odd A) (pt_add (gmul s) (pt_neg X)))
    by (unfold has_even_y; destruct (pt_odd A); reflexivity).
  rewrite ER. split.
  - intros ->. rewrite add_assoc, add_neg_r, add_O_r. symmetry. apply pneg_if_invol.
  - intros ->. rewrite pneg_if_invol, add_assoc, add_neg_l, add_O_r. reflexivity.
Qed.
End C93_presignatures_without_key.

Section C93_forking.
Context {Pr : prims}.
Add Ring ring_C93_forking : (fe_ring_theory (n := @ord Pr)).
Lemma C93_forking_proof (Q : point Pr) (T : pt) (F : asker (presigned Pr)) (inputs digests : list bytes) (q c : nat) (HS : NoDup digests) (Hc : forall d, In d digests -> (count (same_residue d) digests <= c)%nat) (HF : asks_within inputs digests (fun r => In (pre_challenge Q T r) inputs) q F) :
  let W := worlds inputs digests in
  let N := length digests in
  let acc := count (pre_forged Q T F) W in
  let forking := count (fun wd => pre_forks Q T F (fst wd) (snd wd)) (list_prod W digests) in
  (N * (acc * acc) <= (q + 1) * (N ^ length inputs * (forking + acc * c)))%nat.
Proof.
  cbv zeta. rewrite <- (length_worlds inputs digests).
  exact (g_forking (pre_challenge Q T) (pre_forged Q T F) F inputs digests q HF c HS Hc).
Qed.
End C93_forking.

Section C93_fork_gives_secret.
Context {Pr : prims}.
Add Ring ring_C93_fork_gives_secret : (fe_ring_theory (n := @ord Pr)).
Lemma C93_fork_gives_secret_proof {Laws : prims_ok Pr} {Tags : tags_ok Pr} (Q : point Pr) (T : pt) (F : asker (presigned Pr)) (inputs digests : list bytes) (q : nat) (w : list (bytes * bytes)) (d : bytes) (t : Z) (HS : forall d, In d digests -> length d = 32%nat) (HF : asks_within inputs digests (fun r => In (pre_challenge Q T r) inputs) q F) (Hw : In w (worlds inputs digests)) (Hd : In d digests) (Hfork : pre_forks Q T F w d = true) (Ht : point_mul pt_G t = T) :
  let m := pre_challenge_in Q T F w in
  let r := outcome (hash_in w) F in
  let r' := outcome (hash_in (put m d w)) F in
  let D := int_from_bytes (hash_in w m) - int_from_bytes d in
  let Y := (if has_even_y Q then 1 else -1) * (fz (q_s r) - fz (q_s r') + (nonce_sign T r - nonce_sign T r') * t) in
  D mod n_ <> 0 /\ forall x, (D * x) mod n_ = Y mod n_ <-> point_mul pt_G x = pval Q.
Proof.
  cbv zeta. pose proof (g_same_challenge (pre_challenge Q T) (pre_forged Q T F) F inputs digests q HF w d Hw Hd Hfork) as SC.
  destruct (g_facts (pre_challenge Q T) F inputs digests q HF w Hw) as (_ & _ & HM).
  change (g_ch (pre_challenge Q T) F) with (pre_challenge_in Q T F) in *.
  assert (Hw' : In (put (pre_challenge_in Q T F w) d w) (worlds inputs digests)) by (apply put_in; assumption).
  unfold pre_forks in Hfork. rewrite !andb_true_iff in Hfork. destruct Hfork as [[[F1 F2] _] SR].
  pose proof (hash_in_len inputs digests w HS Hw) as HL. pose proof (hash_in_len inputs digests _ HS Hw') as HL'.
  pose proof (hash_in_put_same inputs digests (pre_challenge_in Q T F w) d w Hw HM) as HD.
  apply with_hash_ok in HL, HL'. unfold pre_forged in F1, F2.
  set (w' := put (pre_challenge_in Q T F w) d w) in *. clearbody w'. unfold pre_challenge_in in SC, SR, HD, HM |- *.
  set (r := outcome (hash_in w) F) in *. set (r' := outcome (hash_in w') F) in *. clearbody r r'.
  apply andb_true_iff in F1 as [N1 F1]. apply andb_true_iff in F2 as [N2 F2].
  assert (V : forall (u : res verify_error unit), is_ok u = true -> u = Ok tt) by (intros [[]| |]; [reflexivity | discriminate | discriminate]).
  apply V, world_adaptor in F1; [|exact HL]. apply V, world_adaptor in F2; [|exact HL'].
  rewrite SC in F2. rewrite HD in F2.
  assert (NE : forall X : pt, negb (pt_eqb X pt_O) = true -> X <> pt_O) by (intros X HX E; apply pt_eqb_eq in E; rewrite E in HX; discriminate).
  apply NE in N1, N2. unfold pre_challenge in SC. apply challenge_parts in SC as (EX & _ & _); try apply x_len.
  rewrite point_mul_gmul_Z in Ht. apply (shift_T _ _ _ _ _ _ Ht) in F1, F2.
  fold (adapted_nonce T r) in F1. fold (adapted_nonce T r') in F2.
  rewrite (even_same _ _ N2 N1 EX) in F2.
  set (m := pre_challenge Q T r) in *.
  set (S1 := fadd (q_s r) _) in F1. set (S2 := fadd (q_s r') _) in F2.
  assert (EY : of_Z ord ((if has_even_y Q then 1 else -1) * (fz (q_s r) - fz (q_s r') + (nonce_sign T r - nonce_sign T r') * t)) = fneg_if (pt_odd Q) (fsub S1 S2) :> mscalar Pr).
  { unfold S1, S2, nonce_sign, has_even_y.
    destruct (pt_odd Q), (pt_odd (adapted_nonce T r)), (pt_odd (adapted_nonce T r')); cbn [negb fneg_if];
      rewrite ?of_Z_mul, ?of_Z_add, ?of_Z_sub, ?of_Z_mul, ?of_Z_sub, ?of_Z_fz; change (-1) with (- (1)); rewrite ?of_Z_opp;
      change (of_Z ord 1) with (fone : mscalar Pr); ring. }
  assert (E : forall x : mscalar Pr, gmul x = Q -> fmul (of_Z ord (int_from_bytes (hash_in w m) - int_from_bytes d)) x
     = of_Z ord ((if has_even_y Q then 1 else -1) * (fz (q_s r) - fz (q_s r') + (nonce_sign T r - nonce_sign T r') * t))).
  { intros x Hx. rewrite EY, of_Z_sub. exact (pair_equation Q _ x S1 S2 _ _ (eq_sym Hx) F1 F2). }
  assert (ND : (int_from_bytes (hash_in w m) - int_from_bytes d) mod n_ <> 0).
  { unfold same_residue in SR. rewrite negb_true_iff, Z.eqb_neq in SR. intro F0. apply SR. change 0 with (0 mod n_) in F0. apply of_Z_iff in F0.
    apply of_Z_iff. rewrite of_Z_sub in F0. change (of_Z ord 0) with (fzero : mscalar Pr) in F0.
    transitivity (fadd (fsub (of_Z ord (int_from_bytes (hash_in w m))) (of_Z ord (int_from_bytes d))) (of_Z ord (int_from_bytes d)) : mscalar Pr); [ring | rewrite F0; ring]. }
  split; [exact ND|]. intro x. rewrite point_mul_gmul_Z. split.
  - intro Hx. apply of_Z_iff in Hx. rewrite of_Z_mul in Hx. apply (only_solution Q _ _ E); [|exact Hx]. intro F0. apply ND. rewrite mod_n, F0. reflexivity.
  - intro Hx. apply of_Z_iff. rewrite of_Z_mul. apply E. exact Hx.
Qed.
End C93_fork_gives_secret.

Section C93_infinite_nonce.
Context {Pr : prims}.
Add Ring ring_C93_infinite_nonce : (fe_ring_theory (n := @ord Pr)).
Lemma C93_infinite_nonce_proof {Laws : prims_ok Pr} {Tags : tags_ok Pr} (pk : point Pr) (sg : adaptor_sig Pr) (msg : bytes) (T : pt) (t : Z) (H : verify_single_adaptor pk sg msg T = Ok tt) (HA : pt_add (a_R sg) T = pt_O) (Ht : point_mul pt_G t = T) :
  let e := int_from_bytes (tagged_hash "BIP0340/challenge" (xbytes (pt_add (a_R sg) T) ++ xbytes pk ++ msg)) in
  let sign := if has_even_y (pt_add (a_R sg) T) then 1 else -1 in
  let g := if has_even_y pk then 1 else -1 in
  e mod n_ <> 0 ->
  forall x, (e * x) mod n_ = (g * (fz (a_s sg) + sign * t)) mod n_ <-> point_mul pt_G x = pval pk.
Proof.
  cbv zeta. intros He x. apply verify_adaptor_iff in H. rewrite even_pneg in H. rewrite point_mul_gmul_Z in Ht.
  apply (shift_T _ _ _ _ _ _ Ht) in H. rewrite HA in *. unfold chal in H. change (pt_x pt_O) with (xbytes pt_O) in H.
  assert (Z0 : forall b, pneg_if b (@pt_O Pr) = pt_O) by (intros []; [apply neg_O | reflexivity]).
  rewrite Z0, add_O_l in H.
  set (S1 := fadd (a_s sg) _) in H.
  assert (CE : of_Z ord (int_from_bytes (tagged_hash "BIP0340/challenge" (xbytes (@pt_O Pr) ++ xbytes pk ++ msg))) = compute_challenge_hash_tweak (xbytes pt_O) pk msg :> mscalar Pr).
  { rewrite <- (of_Z_fz (compute_challenge_hash_tweak _ _ _)), <- chal_int. apply of_Z_iff. symmetry; apply Z.mod_mod; discriminate. }
  set (e := int_from_bytes _) in *. rewrite <- CE in H.
  assert (EY : of_Z ord ((if has_even_y pk then 1 else -1) * (fz (a_s sg) + (if has_even_y (@pt_O Pr) then 1 else -1) * t)) = fneg_if (pt_odd pk) S1 :> mscalar Pr).
  { unfold S1, has_even_y. destruct (pt_odd pk), (pt_odd (@pt_O Pr)); cbn [negb fneg_if];
      rewrite ?of_Z_mul, ?of_Z_add, ?of_Z_mul, ?of_Z_fz; change (-1) with (- (1)); rewrite ?of_Z_opp;
      change (of_Z ord 1) with (fone : mscalar Pr); ring. }
  assert (E : forall y : mscalar Pr, gmul y = pk -> fmul (of_Z ord e) y = of_Z ord ((if has_even_y pk then 1 else -1) * (fz (a_s sg) + (if has_even_y (@pt_O Pr) then 1 else -1) * t))).
  { intros y Hy. rewrite EY. clear - H Hy Laws. apply gmul_inj. rewrite gmul_mul, Hy, <- pneg_if_gmul, H, pneg_if_pmul, pneg_if_invol. reflexivity. }
  rewrite point_mul_gmul_Z. split.
  - intro Hx. apply of_Z_iff in Hx. rewrite of_Z_mul in Hx. apply (only_solution (pval pk) _ _ E); [|exact Hx]. intro F0. apply He. rewrite mod_n, F0. reflexivity.
  - intro Hx. apply of_Z_iff. rewrite of_Z_mul. apply E. exact Hx.
Qed.
End C93_infinite_nonce.

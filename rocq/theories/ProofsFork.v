(** Proofs of the theorems of PropertiesFork.v. *)
From Coq Require Import String List.
From Verif Require Import Bytes BytesFacts Prims PrimsFacts TaggedHashes Errors SpecTags SpecBIP327
  KeyAgg Nonces Signature Signing SigAgg Bip340 SpecCtx SpecView SpecExtract SpecFork Toy ToyData ToyFork.
Import ListNotations.
Open Scope list_scope.
Open Scope Z_scope.
From Coq Require Import Lia Arith Bool.
From Verif Require Import CodecFacts KeyAggFacts SignatureFacts SigningFacts SpecFacts SpecSigning SessionFacts ProofsSoundness ProofsSingle ProofsExtraction ProofsRare ProofsGuess ForkFacts.
Open Scope Z_scope.

Section Count.
Context {Pr : prims}.

(** Repetitions with the same residue are few. *)
Lemma drop_same {A} (W : list A) (S : list bytes) (ok : A -> bool) (val : A -> bytes) (ag good : A * bytes -> bool) (c : nat) :
  (forall a, In a W -> ok a = true -> In (val a) S) ->
  (forall d, In d S -> (count (same_residue d) S <= c)%nat) ->
  (forall a d, In a W -> In d S -> ag (a, d) = true -> good (a, d) = true \/ (ok a = true /\ same_residue (val a) d = true)) ->
  (count ag (list_prod W S) <= count good (list_prod W S) + count ok W * c)%nat.
Proof.
  intros Hv Hc H. rewrite !count_sum, !sum_prod.
  apply Nat.le_trans with (sum_over (fun a => sum_over (fun d => ind (good (a, d))) S + ind (ok a) * c)%nat W).
  - apply sum_le. intros a Ha.
    apply Nat.le_trans with (sum_over (fun d => ind (good (a, d)) + ind (ok a) * ind (same_residue (val a) d))%nat S).
    + apply sum_le. intros d Hd. destruct (ag (a, d)) eqn:E; [|apply Nat.le_0_l].
      destruct (H a d Ha Hd E) as [-> | [-> ->]]; [apply Nat.le_add_r | cbn [ind]; lia].
    + rewrite sum_add, sum_scale. destruct (ok a) eqn:O; cbn [ind]; [|lia].
      pose proof (Hc (val a) (Hv a Ha O)) as X. rewrite count_sum in X. lia.
  - rewrite sum_add. apply Nat.add_le_mono_l.
    rewrite (sum_ext _ (fun a => c * ind (ok a))%nat) by (intros; lia). rewrite sum_scale. lia.
Qed.

Section OneKey.
Context (Q : point Pr) (F : asker (bytes * bytes)) (inputs digests : list bytes) (q : nat)
  (HF : asks_within inputs digests (fun r => In (challenge_input (firstn 32 (fst r)) (xbytes Q) (snd r)) inputs) q F).

Lemma questions_eq w : questions Q F w = asked (hash_in w) F ++ (fun r : bytes * bytes => [challenge_input (firstn 32 (fst r)) (xbytes Q) (snd r)]) (outcome (hash_in w) F).
Proof. unfold questions, forged_challenge. destruct (outcome (hash_in w) F) as [sig msg]. reflexivity. Qed.
Lemma questions_facts w : In w (worlds inputs digests) ->
  (forall m, In m (questions Q F w) -> In m inputs) /\ (length (questions Q F w) <= q + 1)%nat /\ In (forged_challenge Q F w) inputs.
Proof.
  intro Hw. destruct (asked_within _ _ _ q F (hash_in w) HF) as (I1 & I2 & I3).
  { intros m Hm. apply hash_in_in with (M := inputs); assumption. }
  assert (C : In (forged_challenge Q F w) inputs) by (unfold forged_challenge; destruct (outcome (hash_in w) F); exact I3).
  split; [|split; [unfold questions; rewrite app_length; cbn [List.length]; lia | exact C]].
  intros m Hm. unfold questions in Hm. apply in_app_iff in Hm as [Hm | [<- | []]]; [apply I1, Hm | exact C].
Qed.
Lemma questions_same w m d i : In w (worlds inputs digests) -> In m inputs -> In d digests -> ~ In m (firstn i (questions Q F w)) ->
  firstn (S i) (questions Q F (put m d w)) = firstn (S i) (questions Q F w).
Proof.
  intros Hw Hm Hd H. rewrite questions_eq in *. rewrite questions_eq. set (e := fun r : bytes * bytes => [challenge_input (firstn 32 (fst r)) (xbytes Q) (snd r)]). apply (asked_same F (hash_in w) (hash_in (put m d w)) m e e); [|reflexivity | exact H].
  intros x Hx. apply hash_in_put_other, Hx.
Qed.
Lemma challenge_place w : exists i, place (forged_challenge Q F w) (questions Q F w) = Some i.
Proof. apply place_some. unfold questions. apply in_app_iff. right. left. reflexivity. Qed.
Lemma challenge_new w i : place (forged_challenge Q F w) (questions Q F w) = Some i -> new_at (questions Q F) i w = Some (forged_challenge Q F w).
Proof. intro H. apply new_at_spec, place_spec, H. Qed.
(** The place at which a forgery happens. *)
Definition forged_at (w : list (bytes * bytes)) : option nat :=
  if forged Q F w then place (forged_challenge Q F w) (questions Q F w) else None.
(** After a fork the challenge is the same question. *)
Lemma fork_same_challenge w d : In w (worlds inputs digests) -> In d digests -> forks Q F w d = true ->
  forged_challenge Q F (put (forged_challenge Q F w) d w) = forged_challenge Q F w.
Proof.
  intros Hw Hd H. unfold forks in H. rewrite !andb_true_iff in H. destruct H as [[_ H] _].
  destruct (place _ (questions Q F w)) as [i|] eqn:P1; [|discriminate]. destruct (place _ (questions Q F (put _ d w))) as [i'|] eqn:P2; [|discriminate].
  apply Nat.eqb_eq in H as <-. apply challenge_new in P1, P2.
  pose proof (new_at_put inputs digests (questions Q F) (fun w m Hw => proj1 (questions_facts w Hw) m) questions_same i w _ d Hw Hd P1) as E. congruence.
Qed.
End OneKey.
End Count.

Section World.
Context {Pr : prims} {Laws : prims_ok Pr} {Tags : tags_ok Pr}.
Add Ring fring0 : (fe_ring_theory (n := @ord Pr)).

Lemma hash_in_len inputs digests w : (forall d, In d digests -> length d = 32%nat) -> In w (worlds inputs digests) -> forall m, length (hash_in w m) = 32%nat.
Proof.
  intros HS Hw m. apply in_worlds in Hw as [_ Hw]. unfold hash_in. destruct (assigned w m) as [d|] eqn:E; [|apply sha_len].
  apply HS. clear HS. induction w as [|[m' d'] w IH]; cbn [assigned] in E; [discriminate|]. destruct (bytes_eqb m m').
  - injection E as <-. exact (Hw _ (or_introl eq_refl)).
  - apply IH; [intros e He; apply Hw; right; exact He | exact E].
Qed.

(** What verification says in the world of any hash function. *)
Lemma world_verify (h : bytes -> bytes) (Q : point (with_hash Pr h)) (sig msg : bytes) : prims_ok (with_hash Pr h) ->
  @verify_single_bytes (with_hash Pr h) Q sig msg = Ok tt ->
  exists (R : point Pr) (s : mscalar Pr), pt_odd R = false /\ sig = pt_x R ++ ser_scalar s /\
    gmul s = pt_add R (pmul (of_Z ord (be_dec (h (challenge_input (firstn 32 sig) (@pt_x Pr (pval Q)) msg)))) (pneg_if (@pt_odd Pr (pval Q)) (pval Q : @pt Pr))).
Proof.
  intros LI H. apply (@verify_bytes_iff _ LI) in H as (R & s & HO & E & G).
  exists (@Point_ Pr (pval R) (p_fin R)), s. split; [exact HO|]. split; [exact E|].
  assert (EP : pval (@even_point (with_hash Pr h) Q) = pneg_if (@pt_odd Pr (pval Q)) (pval Q : @pt Pr) :> @pt Pr).
  { apply (@even_pneg (with_hash Pr h)). exact LI. }
  rewrite EP in G. rewrite E, (@sig_first _ LI).
  assert (C : @compute_challenge_hash_tweak (with_hash Pr h) (@pt_x (with_hash Pr h) R) Q msg
    = of_Z ord (be_dec (h (challenge_input (@pt_x (with_hash Pr h) R) (@pt_x Pr (pval Q)) msg)))).
  { unfold compute_challenge_hash_tweak, reduce_from, tagged, challenge_input, tag_twice. rewrite tag_bip340_challenge, <- app_assoc. reflexivity. }
  rewrite C in G. exact G.
Qed.
Lemma challenge_parts rx rx' x x' msg msg' : length rx = 32%nat -> length rx' = 32%nat -> length x = 32%nat -> length x' = 32%nat ->
  challenge_input rx x msg = challenge_input rx' x' msg' -> rx = rx' /\ x = x' /\ msg = msg'.
Proof.
  intros L1 L2 L3 L4 H. unfold challenge_input in H. apply app_inv_head in H.
  apply app_inj_len in H as [-> H]; [|congruence]. apply app_inj_len in H as [-> ->]; [auto | congruence].
Qed.
End World.

Section C86_forking.
Context {Pr : prims}.
Add Ring ring_C86_forking : (fe_ring_theory (n := @ord Pr)).
Lemma C86_forking_proof (Q : point Pr) (F : asker (bytes * bytes)) (inputs digests : list bytes) (q c : nat) (HS : NoDup digests) (Hc : forall d, In d digests -> (count (same_residue d) digests <= c)%nat) (HF : asks_within inputs digests (fun r => In (challenge_input (firstn 32 (fst r)) (xbytes Q) (snd r)) inputs) q F) :
  let W := worlds inputs digests in
  let N := length digests in
  let acc := count (forged Q F) W in
  let forking := count (fun wd => forks Q F (fst wd) (snd wd)) (list_prod W digests) in
  (N * (acc * acc) <= (q + 1) * (N ^ length inputs * (forking + acc * c)))%nat.
Proof.
  cbv zeta. rewrite <- (length_worlds inputs digests). set (W := worlds inputs digests).
  set (qs := questions Q F).
  assert (QI : forall w m, In w W -> In m (qs w) -> In m inputs) by (intros w m Hw; apply (proj1 (questions_facts Q F inputs digests q HF w Hw))).
  pose proof (questions_same Q F inputs digests) as QS.
  pose proof (fork_places Nat.eqb (seq 0 (q + 1)) W digests (has_new qs) (redraw qs) (drawn qs) (forged_at Q F)) as H.
  cbv zeta in H. rewrite seq_length in H.
  assert (EA : count (fun a => match forged_at Q F a with Some _ => true | None => false end) W = count (forged Q F) W).
  { rewrite !count_sum. apply sum_ext. intros w _. unfold forged_at. destruct (forged Q F w); [|reflexivity].
    destruct (challenge_place Q F w) as [i ->]. reflexivity. }
  rewrite EA in H. eapply Nat.le_trans; [apply H|].
  - intros. apply Nat.eqb_eq.
  - apply seq_NoDup.
  - apply nodup_worlds, HS.
  - exact HS.
  - intros w i Hw E. unfold forged_at in E. destruct (forged Q F w); [|discriminate].
    split; [apply in_seq; pose proof (place_lt _ _ _ E); destruct (questions_facts Q F inputs digests q HF w Hw) as (_ & L & _); lia|].
    unfold has_new, qs. rewrite (challenge_new Q F w i E). reflexivity.
  - intros. apply (redraw_in inputs digests qs QI QS); assumption.
  - intros. apply (drawn_in inputs digests qs QI); assumption.
  - intros. apply (redraw_drawn inputs digests qs QI); assumption.
  - intros. apply (drawn_redraw inputs digests qs QI QS); assumption.
  - intros. apply (redraw_redraw inputs digests qs QI QS); assumption.
  - apply Nat.mul_le_mono_l, Nat.mul_le_mono_l.
    apply (drop_same W digests (forged Q F) (fun w => hash_in w (forged_challenge Q F w))).
    + intros w Hw _. apply hash_in_in with (M := inputs); [exact Hw | apply (questions_facts Q F inputs digests q HF w Hw)].
    + exact Hc.
    + intros w d Hw Hd. unfold again. cbn [fst snd]. unfold forged_at at 1. destruct (forged Q F w) eqn:F1; [|discriminate].
      destruct (place (forged_challenge Q F w) (questions Q F w)) as [i|] eqn:P; [|discriminate].
      unfold redraw, qs. rewrite (challenge_new Q F w i P). unfold forged_at. destruct (forged Q F (put _ d w)) eqn:F2; [|discriminate].
      destruct (place _ (questions Q F (put _ d w))) as [i'|] eqn:P2; [|discriminate]. intro E.
      destruct (same_residue (hash_in w (forged_challenge Q F w)) d) eqn:SR; [right; auto | left].
      unfold forks. rewrite F1, F2, P, P2, E, SR. reflexivity.
Qed.
End C86_forking.

Section C86_fork_gives_secret.
Context {Pr : prims}.
Add Ring ring_C86_fork_gives_secret : (fe_ring_theory (n := @ord Pr)).
Lemma C86_fork_gives_secret_proof {Laws : prims_ok Pr} {Tags : tags_ok Pr} (Q : point Pr) (F : asker (bytes * bytes)) (inputs digests : list bytes) (q : nat) (w : list (bytes * bytes)) (d : bytes) (HS : forall d, In d digests -> length d = 32%nat) (HF : asks_within inputs digests (fun r => In (challenge_input (firstn 32 (fst r)) (xbytes Q) (snd r)) inputs) q F) (Hw : In w (worlds inputs digests)) (Hd : In d digests) (Hfork : forks Q F w d = true) :
  let m := forged_challenge Q F w in
  let s := fun w => int_from_bytes (skipn 32 (fst (outcome (hash_in w) F))) in
  let D := int_from_bytes (hash_in w m) - int_from_bytes d in
  let r := (if has_even_y Q then 1 else -1) * (s w - s (put m d w)) in
  D mod n_ <> 0 /\ forall x, (D * x) mod n_ = r mod n_ <-> point_mul pt_G x = pval Q.
Proof.
  cbv zeta. pose proof (fork_same_challenge Q F inputs digests q HF w d Hw Hd Hfork) as SC.
  destruct (questions_facts Q F inputs digests q HF w Hw) as (_ & _ & HM).
  assert (Hw' : In (put (forged_challenge Q F w) d w) (worlds inputs digests)) by (apply put_in; assumption).
  unfold forks in Hfork. rewrite !andb_true_iff in Hfork. destruct Hfork as [[[F1 F2] _] SR].
  pose proof (hash_in_len inputs digests w HS Hw) as HL. pose proof (hash_in_len inputs digests _ HS Hw') as HL'.
  pose proof (hash_in_put_same inputs digests (forged_challenge Q F w) d w Hw HM) as HD.
  apply with_hash_ok in HL, HL'. unfold forged in F1, F2. 
  set (w' := put (forged_challenge Q F w) d w) in *. clearbody w'. unfold forged_challenge in SC, SR, HD, HM |- *.
  destruct (outcome (hash_in w) F) as [sig msg], (outcome (hash_in w') F) as [sig' msg']. cbn [fst].
  assert (V : forall h (sg ms : bytes), is_ok (@verify_single_bytes (with_hash Pr h) (rehash h Q) sg ms) = true -> @verify_single_bytes (with_hash Pr h) (rehash h Q) sg ms = Ok tt).
  { intros h sg ms. destruct (verify_single_bytes _ sg ms) as [[]| |]; [reflexivity | discriminate | discriminate]. }
  apply V, world_verify in F1 as (R & s & HO & E & G); [|exact HL]. apply V, world_verify in F2 as (R' & s' & HO' & E' & G'); [|exact HL'].
  change (@pval (with_hash Pr ?h) (rehash ?h Q)) with (pval Q) in G, G'. 
  subst sig sig'. rewrite !sig_first in *. rewrite !sig_second, !int_ser. 
  apply challenge_parts in SC as (ER & _ & ->); try apply x_len.
  assert (R' = R) as -> by (apply even_x_inj; assumption).
  change (xbytes (pval Q)) with (pt_x (pval Q)) in *.
  set (m := challenge_input (pt_x R) (pt_x (pval Q)) msg) in *. rewrite HD in G'.
  assert (E : forall x : mscalar Pr, gmul x = Q -> fmul (of_Z ord (int_from_bytes (hash_in w m) - int_from_bytes d)) x
     = of_Z ord ((if has_even_y Q then 1 else -1) * (fz s - fz s'))).
  { intros x Hx. pose proof (pair_equation Q R x s s' _ _ (eq_sym Hx) G G') as PE. rewrite of_Z_sub. etransitivity; [exact PE|].
    rewrite of_Z_mul, of_Z_sub, !of_Z_fz. unfold has_even_y. destruct (pt_odd Q); cbn [negb fneg_if].
    - change (-1) with (- (1)). rewrite of_Z_opp. change (of_Z ord 1) with (fone : mscalar Pr). ring.
    - change (of_Z ord 1) with (fone : mscalar Pr). ring. }
  assert (ND : (int_from_bytes (hash_in w m) - int_from_bytes d) mod n_ <> 0).
  { unfold same_residue in SR. rewrite negb_true_iff, Z.eqb_neq in SR. intro F0. apply SR. change 0 with (0 mod n_) in F0. apply of_Z_iff in F0.
    apply of_Z_iff. rewrite of_Z_sub in F0. change (of_Z ord 0) with (fzero : mscalar Pr) in F0.
    transitivity (fadd (fsub (of_Z ord (int_from_bytes (hash_in w m))) (of_Z ord (int_from_bytes d))) (of_Z ord (int_from_bytes d)) : mscalar Pr); [ring | rewrite F0; ring]. }
  split; [exact ND|]. intro x. rewrite point_mul_gmul_Z. split.
  - intro Hx. apply of_Z_iff in Hx. rewrite of_Z_mul in Hx. apply (only_solution Q _ _ E); [|exact Hx]. intro F0. apply ND. rewrite mod_n, F0. reflexivity.
  - intro Hx. apply of_Z_iff. rewrite of_Z_mul. apply E. exact Hx.
Qed.
End C86_fork_gives_secret.

(** Proofs of the theorems of PropertiesDet.v. *)
From Coq Require Import String List NArith.
From Verif Require Import Bytes BytesFacts Prims PrimsFacts TaggedHashes Errors SpecTags SpecBIP327 SpecRfc6979
  Nonces Signature Bip340 Deterministic SpecExtract SpecFork SpecSolo SpecDet Toy ToyData ToyFork ToySolo ToyDet.
Import ListNotations.
Open Scope list_scope.
Open Scope Z_scope.
From Coq Require Import Lia Arith Bool.
From Verif Require Import CodecFacts SignatureFacts Bip340Facts ProofsBip340 ProofsSoundness ProofsExtraction ProofsCodecs ProofsDeterministic ForkFacts ProofsFork ProofsConcurrent ProofsCollision ProofsBatchForger ProofsFresh ProofsSolo.
Open Scope Z_scope.

Section Det.
Context {Pr : prims} {Laws : prims_ok Pr} (sk : scalar Pr) (fuel : nat).
Lemma ask_hmac_outcome {A} h key text (k : bytes -> asker A) : outcome h (ask_hmac key text k) = outcome h (k (@hmac_sha256 (with_hash Pr h) key text)).
Proof. unfold ask_hmac, hmac_sha256, rfc_xor. cbn [outcome sha256 with_hash]. rewrite (map_ext _ _ xor_36), (map_ext _ _ xor_5c). reflexivity. Qed.
(** The seed as bytes. *)
Definition seed_bytes h (a : option (scalar (with_hash Pr h))) : option bytes := option_map (fun a : scalar (with_hash Pr h) => @ser_scalar (with_hash Pr h) (sval a)) a.
Lemma ask_candidates_outcome {A} h (LI : prims_ok (with_hash Pr h)) f K V (k : option bytes -> asker A) :
  outcome h (ask_candidates f K V k) = outcome h (k (seed_bytes h (@rfc6979_loop (with_hash Pr h) f K V))).
Proof.
  revert K V. induction f as [|f IH]; intros K V; [reflexivity|]. cbn [ask_candidates rfc6979_loop]. cbv zeta. rewrite ask_hmac_outcome. set (T := @hmac_sha256 (with_hash Pr h) K V).
  destruct (@parse_scalar (with_hash Pr h) T) as [a|] eqn:E.
  - pose proof (proj1 (@int_scalar (with_hash Pr h) LI T a) E) as (_ & R & _). apply (@parse_scalar_Some (with_hash Pr h) LI) in E.
    change (@n_ (with_hash Pr h)) with (@n_ Pr) in R. destruct (Z.leb_spec 1 (int_from_bytes T)); [|lia]. destruct (Z.ltb_spec (int_from_bytes T) n_); [|lia]. cbn [andb seed_bytes option_map].
    rewrite E. reflexivity.
  - apply (@int_scalar_None (with_hash Pr h) LI) in E; [|apply (@sha_len (with_hash Pr h) LI)]. change (@n_ (with_hash Pr h)) with (@n_ Pr) in E.
    assert (B : (1 <=? int_from_bytes T) && (int_from_bytes T <? n_) = false) by (destruct (Z.leb_spec 1 (int_from_bytes T)), (Z.ltb_spec (int_from_bytes T) n_); try reflexivity; lia).
    rewrite B, !ask_hmac_outcome. apply IH.
Qed.
Lemma ask_seed_outcome {A} h (LI : prims_ok (with_hash Pr h)) msg (k : option bytes -> asker A) :
  outcome h (ask_seed fuel sk msg k) = outcome h (k (seed_bytes h (@derive_nonce_rfc6979 (with_hash Pr h) fuel (rescalar h sk) msg))).
Proof.
  unfold ask_seed. cbv zeta. cbn [outcome]. rewrite !ask_hmac_outcome, (ask_candidates_outcome h LI). reflexivity.
Qed.
(** The orders with their seeds, for those messages that have one. *)
Fixpoint seeded (l : list (det_order Pr)) : asker (list (order_ Pr)) :=
  match l with
  | [] => Give []
  | o :: l => ask_seed fuel sk (fst o) (fun s => and_then (seeded l) (fun t => Give (match s with Some s => with_seed o s :: t | None => t end)))
  end.
(** An order with its seed, if there is one. *)
Definition seed_of h (o : det_order Pr) : list (order_ Pr) :=
  match seed_bytes h (@derive_nonce_rfc6979 (with_hash Pr h) fuel (rescalar h sk) (fst o)) with Some s => [with_seed o s] | None => [] end.
Lemma seeded_outcome h (LI : prims_ok (with_hash Pr h)) l : outcome h (seeded l) = flat_map (seed_of h) l.
Proof.
  induction l as [|o l IH]; [reflexivity|]. cbn [seeded flat_map]. rewrite (ask_seed_outcome h LI), outcome_then, IH. cbn [outcome].
  replace (seed_of h o) with (match seed_bytes h (@derive_nonce_rfc6979 (with_hash Pr h) fuel (rescalar h sk) (fst o)) with Some s => [with_seed o s] | None => [] end) by reflexivity.
  destruct (seed_bytes h _); reflexivity.
Qed.
Lemma seeded_nonces h (LI : prims_ok (with_hash Pr h)) l : flat_map (det_nonce fuel h sk) l = map (nonce_of h sk) (flat_map (seed_of h) l).
Proof.
  induction l as [|[m T] l IH]; [reflexivity|]. cbn [flat_map]. rewrite map_app, <- IH. f_equal. unfold det_nonce, seed_of, seed_bytes, det_sign_solo_adaptor, det_sign_solo. cbn [fst snd].
  destruct (@derive_nonce_rfc6979 (with_hash Pr h) fuel (rescalar h sk) m) as [a|]; [|destruct T; reflexivity].
  cbn [option_map map]. unfold nonce_of, with_seed. cbn [o_point o_msg o_seed fst snd]. destruct T as [T|]; [reflexivity|].
  destruct (@sign_solo_Ok (with_hash Pr h) LI (rescalar h sk) m (@ser_scalar (with_hash Pr h) (sval a))) as (l' & L & _). rewrite L. reflexivity.
Qed.
Lemma seeded_msg h l o : In o (flat_map (seed_of h) l) -> In (o_msg o) (map fst l).
Proof.
  intro H. apply in_flat_map in H as (p & Hp & H). unfold seed_of in H. destruct (seed_bytes h _) as [s|]; [|destruct H]. destruct H as [<- | []].
  apply in_map_iff. exists p. split; [reflexivity | exact Hp].
Qed.
Lemma seeded_differ h l : comes_twice (map fst l) = false -> orders_differ (flat_map (seed_of h) l) = true.
Proof.
  induction l as [|o l IH]; [reflexivity|]. cbn [map comes_twice flat_map]. intro H. apply orb_false_iff in H as [H1 H2]. specialize (IH H2).
  unfold seed_of at 1. destruct (seed_bytes h _) as [s|]; [|exact IH]. cbn [app orders_differ]. rewrite IH, andb_true_r. apply forallb_forall. intros o' Ho. apply seeded_msg in Ho.
  apply negb_true_iff. unfold same_order. cbn [with_seed o_msg o_seed]. destruct (bytes_eqb (fst o) (o_msg o')) eqn:E; [|apply andb_false_r].
  assert (X : existsb (bytes_eqb (fst o)) (map fst l) = true) by (apply existsb_exists; exists (o_msg o'); split; assumption). rewrite X in H1. discriminate H1.
Qed.
Section Within.
Context (inputs digests : list bytes) {A : Type} (fin : A -> Prop).
Lemma candidates_within n f K V (k : option bytes -> asker unit) (k' : option bytes -> asker A) :
  (forall s, only_asks inputs digests (k s) -> asks_within inputs digests fin n (k' s)) ->
  only_asks inputs digests (ask_candidates f K V k) -> asks_within inputs digests fin (6 * f + n) (ask_candidates f K V k').
Proof.
  intro H. revert K V. induction f as [|f IH]; intros K V HK; [apply H, HK|]. replace (6 * S f + n)%nat with (S (S (S (S (S (S (6 * f + n)))))))%nat by lia.
  cbn [ask_candidates] in *. unfold ask_hmac in *. cbn [only_asks asks_within] in *. destruct HK as [H1 HK]. split; [exact H1|]. intros i Hi. specialize (HK i Hi).
  destruct HK as [H2 HK]. split; [exact H2|]. intros T HT. specialize (HK T HT). destruct ((1 <=? int_from_bytes T) && (int_from_bytes T <? n_)).
  - apply (within_le _ _ _ n); [lia | apply H, HK].
  - cbn [only_asks asks_within] in *. destruct HK as [H3 HK]. split; [exact H3|]. intros i' Hi'. specialize (HK i' Hi'). destruct HK as [H4 HK]. split; [exact H4|]. intros K' HK'. specialize (HK K' HK').
    destruct HK as [H5 HK]. split; [exact H5|]. intros j Hj. specialize (HK j Hj). destruct HK as [H6 HK]. split; [exact H6|]. intros V' HV'. apply IH, HK, HV'.
Qed.
Lemma seed_within n msg (k : option bytes -> asker unit) (k' : option bytes -> asker A) :
  (forall s, only_asks inputs digests (k s) -> asks_within inputs digests fin n (k' s)) ->
  only_asks inputs digests (ask_seed fuel sk msg k) -> asks_within inputs digests fin (9 + 6 * fuel + n) (ask_seed fuel sk msg k').
Proof.
  intros H HK. unfold ask_seed, ask_hmac in *. cbv zeta in *. rewrite <- Nat.add_assoc. cbn [Nat.add only_asks asks_within] in *.
  do 9 (destruct HK as [?HI HK]; split; [assumption|]; let d := fresh "d" in let Hd := fresh "Hd" in intros d Hd; specialize (HK d Hd)).
  apply (candidates_within n fuel _ _ k k' H HK).
Qed.
End Within.
Lemma seeded_within inputs digests l : (forall o, In o l -> only_asks inputs digests (signing fuel sk o)) ->
  asks_within inputs digests (fun t => (length t <= length l)%nat /\ forall o, In o t -> In (seed_input o) inputs /\ forall a, In a digests -> In (nonce_input sk a o) inputs)
    ((9 + 6 * fuel) * length l) (seeded l).
Proof.
  induction l as [|o l IH]; intro H; [split; [apply le_n | intros o []]|]. cbn [seeded]. replace ((9 + 6 * fuel) * length (o :: l))%nat with (9 + 6 * fuel + (9 + 6 * fuel) * length l)%nat by (cbn [length]; lia).
  apply (seed_within inputs digests _ _ _ _ _) with (2 := H o (or_introl eq_refl)). intros s HS.
  replace ((9 + 6 * fuel) * length l)%nat with ((9 + 6 * fuel) * length l + 0)%nat by lia.
  apply (within_then _ _ _ _ _ 0 _ _ (IH (fun o' Ho => H o' (or_intror Ho)))). intros t (HL & HT). cbn [asks_within]. destruct s as [s|].
  - split; [cbn [length]; lia|]. cbn [only_asks] in HS. destruct HS as [H1 H2]. intros o' [<- | Ho]; [|apply HT, Ho]. split; [exact H1|]. intros a Ha. apply (H2 a Ha).
  - split; [cbn [length]; lia | exact HT].
Qed.
End Det.

Section C100_det_nonces_fresh.
Context {Pr : prims}.
Add Ring ring_C100_det_nonces_fresh : (fe_ring_theory (n := @ord Pr)).
Lemma C100_det_nonces_fresh_proof {Laws : prims_ok Pr} {Tags : tags_ok Pr} (fuel M : nat) (sk : scalar Pr) (F : asker (list (det_order Pr))) (inputs digests : list bytes) (q c : nat) (HS : NoDup digests) (HS32 : forall d, In d digests -> length d = 32%nat) (Hc : forall d, In d digests -> (count (@same_up_to_sign Pr d) digests <= c)%nat) (HF : det_within fuel M sk inputs digests q F) :
  let N := length digests in
  let q' := (q + (11 + 6 * fuel) * M)%nat in
  (2 * (N * count (det_shared fuel M sk F) (worlds inputs digests)) <= q' * (q' - 1) * (N ^ length inputs * c))%nat.
Proof.
  cbv zeta. set (G := and_then F (seeded sk fuel)).
  assert (HG : orders_within M sk inputs digests (q + (9 + 6 * fuel) * M) G).
  { apply (within_then _ _ _ _ q ((9 + 6 * fuel) * M) F _ HF). intros t (HL & HT). apply (within_le _ _ _ ((9 + 6 * fuel) * length t)); [apply Nat.mul_le_mono_l, HL|].
    apply (within_imp _ _ _ _ _ _) with (2 := seeded_within sk fuel inputs digests t HT). intros t' (HL' & HT'). split; [lia | exact HT']. }
  pose proof (C99_solo_nonces_fresh_proof M sk G inputs digests _ c HS HS32 Hc HG) as B. cbv zeta in B.
  replace (q + (9 + 6 * fuel) * M + 2 * M)%nat with (q + (11 + 6 * fuel) * M)%nat in B by lia.
  apply (Nat.le_trans _ (2 * (length digests * count (nonce_shared M sk G) (worlds inputs digests)))); [|exact B].
  apply Nat.mul_le_mono_l, Nat.mul_le_mono_l, count_le. intros w Hw H. unfold det_shared, nonce_shared in *. cbv zeta in *.
  pose proof (with_hash_ok _ (hash_in_len inputs digests w HS32 Hw)) as LI. unfold G. rewrite outcome_then, (seeded_outcome sk fuel _ LI). set (t := outcome (hash_in w) F) in *.
  rewrite !andb_true_iff in *. destruct H as [[H1 H2] H3]. apply Nat.leb_le in H1. apply negb_true_iff in H2. rewrite (seeded_nonces sk fuel _ LI) in H3. split; [split|].
  - apply Nat.leb_le. apply (Nat.le_trans _ (length t)); [|exact H1]. clear. induction t as [|o t IH]; [apply le_n|]. cbn [flat_map length]. rewrite app_length.
    assert (length (seed_of sk fuel (hash_in w) o) <= 1)%nat by (unfold seed_of; destruct (seed_bytes _ _); cbn [length]; lia). lia.
  - apply seeded_differ, H2.
  - exact H3.
Qed.
End C100_det_nonces_fresh.

(** Proofs of the theorems of PropertiesFresh.v. *)
From Coq Require Import String List.
From Verif Require Import Bytes BytesFacts Prims PrimsFacts TaggedHashes Errors SpecTags SpecBIP327
  KeyAgg Nonces Signature Signing SigAgg Bip340 SpecExtract SpecFork SpecFresh Toy ToyData ToyFork ToyFresh.
Import ListNotations.
Open Scope list_scope.
Open Scope Z_scope.
From Coq Require Import Lia Arith Bool Znumtheory.
From Verif Require Import CodecFacts KeyAggFacts SpecFacts NoncesFacts SpecNonces SpecSigning ProofsSoundness ProofsExtraction ForkFacts ProofsFork ProofsConcurrent ProofsCollision ProofsBatchForger.
Open Scope Z_scope.

(** Two different questions of a program have related digests. *)
Section Related.
Context {Pr : prims} {A : Type} (F : asker A) (inputs digests : list bytes) (q c : nat) (E : bytes -> bytes -> bool) (ES : forall d d', E d d' = E d' d) (HS : NoDup digests)
  (Hc : forall d, In d digests -> (count (E d) digests <= c)%nat) (HF : asks_within inputs digests (fun _ => True) q F).
Let W := worlds inputs digests.
Definition related_at (i1 i2 : nat) (w : list (bytes * bytes)) : bool :=
  match new_at (qs F) i1 w, new_at (qs F) i2 w with Some y, Some y' => E (hash_in w y) (hash_in w y') | _, _ => false end.
Definition related_pairs : list (list (bytes * bytes) -> bool) := flat_map (fun i2 => map (fun i1 => related_at i1 i2) (seq 0 i2)) (seq 0 q).
Lemma related_rare i1 i2 : (i1 < i2)%nat -> (length digests * count (related_at i1 i2) W <= length W * c)%nat.
Proof.
  intro Hi. apply (few_place F inputs digests q _ HF i2 c _ HS).
  - intros w Hw H. unfold related_at in H. unfold has_new. destruct (new_at (qs F) i1 w); [|discriminate H]. destruct (new_at (qs F) i2 w); [reflexivity | discriminate H].
  - intros u x Hu Hx E1. unfold related_at in E1. destruct (new_at (qs F) i1 u) as [y|] eqn:Y1; [|discriminate E1].
    assert (IY : In (hash_in u y) digests) by (apply (hash_in_in inputs digests); [exact Hu | apply (new_at_in inputs digests (qs F) (qs_in F inputs digests q _ HF) i1 u y Hu Y1)]).
    eapply Nat.le_trans; [|apply (Hc _ IY)]. apply count_le. intros d Hd E2. unfold related_at in E2.
    destruct (new_at (qs F) i1 (put x d u)) as [y'|] eqn:Y2; [|discriminate E2].
    rewrite (new_at_put inputs digests (qs F) (qs_in F inputs digests q _ HF) (qs_same F inputs digests) i2 u x d Hu Hd Hx) in E2.
    pose proof (two_at F u y i1 Y1) as P1. pose proof (two_at F _ y' i1 Y2) as P2. apply (two_place F inputs digests q _ HF u x d i2 Hu Hx Hd) in P2; [|lia].
    rewrite (place_inj _ _ _ _ P2 P1) in E2. rewrite (two_hash F u x d i2 Hx y i1 Hi P1), (two_hash_x F inputs digests q _ HF u x d i2 Hu Hx) in E2. exact E2.
Qed.
Lemma length_related : (2 * length related_pairs = q * (q - 1))%nat.
Proof.
  unfold related_pairs. clear. induction q as [|k IH]; [reflexivity|]. rewrite seq_S, flat_map_app, app_length. cbn [flat_map Nat.add]. rewrite app_nil_r, map_length, seq_length.
  rewrite Nat.mul_add_distr_l, IH. destruct k as [|k]; [reflexivity|]. rewrite !Nat.sub_succ, !Nat.sub_0_r. lia.
Qed.
Lemma related_found w y y' : In w W -> In y (qs F w) -> In y' (qs F w) -> y <> y' -> E (hash_in w y) (hash_in w y') = true -> exists g, In g related_pairs /\ g w = true.
Proof.
  intros Hw.
  assert (G : forall y y' k k', place y (qs F w) = Some k -> place y' (qs F w) = Some k' -> (k < k')%nat -> E (hash_in w y) (hash_in w y') = true -> exists g, In g related_pairs /\ g w = true).
  { intros a a' k k' P P' L R. exists (related_at k k'). pose proof (place_lt _ _ _ P') as B. pose proof (proj2 (qs_facts F inputs digests q _ HF w Hw)) as Q.
    split.
    - apply in_flat_map. exists k'. split; [apply in_seq; lia|]. apply in_map_iff. exists k. split; [reflexivity | apply in_seq; lia].
    - unfold related_at. apply place_spec in P, P'. rewrite (proj2 (new_at_spec (qs F) k w a) P), (proj2 (new_at_spec (qs F) k' w a') P'). exact R. }
  intros I I' N R. destruct (place_some _ _ I) as [k P], (place_some _ _ I') as [k' P'].
  destruct (Nat.lt_trichotomy k k') as [L | [-> | L]]; [apply (G y y' k k'); assumption | exfalso; apply N, (place_inj _ _ _ _ P P') | apply (G y' y k' k); [assumption | assumption | assumption | rewrite ES; exact R]].
Qed.
Lemma related_birthday (bad : list (bytes * bytes) -> bool) :
  (forall w, In w W -> bad w = true -> exists y y', In y (qs F w) /\ In y' (qs F w) /\ y <> y' /\ E (hash_in w y) (hash_in w y') = true) ->
  (2 * (length digests * count bad W) <= q * (q - 1) * (length W * c))%nat.
Proof.
  intro H. rewrite <- length_related, <- Nat.mul_assoc. apply Nat.mul_le_mono_l. apply union_bound.
  - intros w Hw B. destruct (H w Hw B) as (y & y' & I & I' & N & R). apply (related_found w y y'); assumption.
  - intros g Hg. unfold related_pairs in Hg. apply in_flat_map in Hg as (i2 & _ & Hg). apply in_map_iff in Hg as (i1 & <- & I1). apply in_seq in I1. apply related_rare. lia.
Qed.
End Related.

Section Nonces.
Context {Pr : prims} {Laws : prims_ok Pr} {Tags : tags_ok Pr} (sk : option (scalar Pr)).
(** What [build] hashes with another hash function, and what it makes of the digest. *)
Lemma preimage_with h (b : builder Pr) i : prims_ok (with_hash Pr h) ->
  MUSIG_NONCE_TAG_DIGEST ++ MUSIG_NONCE_TAG_DIGEST ++ @nonce_preimage (with_hash Pr h) (rebuilder h sk b) ++ [i] = nonce_question sk (h (aux_question b)) b i.
Proof.
  intro LI. unfold nonce_question, nonce_preimage, rebuilder, aux_question, tag_twice, tagged, seckey_bytes, xbytes.
  cbn [nonce_seed_bytes b_seckey b_pubkey b_aggregated_pubkey b_message b_extra_inputs].
  rewrite tag_musig_nonce, tag_musig_aux, bytes_xor_eq, <- !app_assoc.
  destruct sk as [k|]; cbn [option_map]; destruct (b_pubkey b) as [P|], (b_aggregated_pubkey b) as [Q|], (b_message b) as [m|], (b_extra_inputs b) as [|x l];
    cbn [option_map]; rewrite ?cbytes_ser; reflexivity.
Qed.
Lemma nonce_value h m : prims_ok (with_hash Pr h) -> fz (sval (@nonce_scalar (with_hash Pr h) m)) = Z.max 1 (int_from_bytes m mod @n_ Pr).
Proof.
  intro LI. change (int_from_bytes m mod @n_ Pr) with (fz (@reduce_from (with_hash Pr h) m)). pose proof (fz_range (@reduce_from (with_hash Pr h) m)) as R.
  destruct (fe_eq_dec (@reduce_from (with_hash Pr h) m) fzero) as [E|E].
  - rewrite (@nonce_scalar_zero (with_hash Pr h) m E), E. cbn [sval scalar_one]. change (Z.max 1 (fz fzero)) with 1. apply Z.mod_small.
    change (Z.pos (@ord (with_hash Pr h))) with (Z.pos (@ord Pr)). pose proof (@ord_prime Pr Laws) as [H _]. lia.
  - rewrite (@nonce_scalar_eq (with_hash Pr h) m E). assert (fz (@reduce_from (with_hash Pr h) m) <> 0); [|lia].
    intro Z0. apply E. apply fe_ext. exact Z0.
Qed.
Definition value (h : bytes -> bytes) (bi : builder Pr * byte) : Z := Z.max 1 (int_from_bytes (h (nonce_question sk (h (aux_question (fst bi))) (fst bi) (snd bi))) mod n_).
Lemma all_nonces_eq h t : prims_ok (with_hash Pr h) -> all_nonces h sk t = flat_map (fun b => [value h (b, x00); value h (b, x01)]) t.
Proof.
  intro LI. unfold all_nonces. apply flat_map_ext. intro b. cbv zeta. unfold build. cbn [k1 k2]. rewrite !(nonce_value h _ LI). unfold value, tagged. cbn [fst snd sha256 with_hash].
  rewrite !(preimage_with h b _ LI). reflexivity.
Qed.
Lemma question_inj a a' (b b' : builder Pr) i i' : length a = 32%nat -> length a' = 32%nat -> msg_small (b_message b) -> msg_small (b_message b') ->
  nonce_question sk a b i = nonce_question sk a' b' i' -> i = i' /\ a = a' /\ tl (given b) = tl (given b').
Proof.
  intros La La' M M' H. unfold nonce_question in H. apply app_inv_head in H.
  set (s := match sk with Some k => bytes_from_int (fz (sval k)) | None => zeros 32 end) in H.
  assert (Ls : length s = 32%nat) by (unfold s; destruct sk as [k|]; [rewrite bytes_from_fz; apply ser_scalar_len | reflexivity]).
  rewrite !bytes_xor_eq in H. apply app_inj_len in H as [X H]; [|rewrite !xor_bytes_length by congruence; reflexivity].
  assert (EA : a = a') by (apply (xor_bytes_inj_r s); congruence).
  assert (FP : forall o : option (point Pr), match o with None => [x00] | Some pk => x21 :: cbytes pk end = pk_field o) by (intros [P|]; cbn [pk_field]; rewrite ?cbytes_ser; reflexivity).
  assert (FE : forall l : list bytes, match l with [] => [] | b0 :: l0 => be_enc 4 (zlen (concat (b0 :: l0))) ++ concat (b0 :: l0) end = extra_field l) by (intros [|x l]; reflexivity).
  rewrite !FP, !FE in H. apply pk_field_inj in H as [E2 H]. apply (agg_field_inj (b_aggregated_pubkey b) (b_aggregated_pubkey b')) in H as [E3 H].
  apply (msg_field_inj (b_message b) (b_message b')) in H as [E4 H]; [|assumption..]. apply (extra_field_inj (b_extra_inputs b) (b_extra_inputs b')) in H as [E5 E6].
  split; [exact E6|]. split; [exact EA|]. unfold given. cbn [tl]. unfold xbytes. rewrite E2, E3, E4. repeat f_equal. destruct (b_extra_inputs b), (b_extra_inputs b'); exact E5.
Qed.
Lemma same_given_refl l : same_given l l = true.
Proof. induction l as [|[a|] l IH]; cbn [same_given]; [reflexivity | rewrite bytes_eqb_refl; exact IH | exact IH]. Qed.
(** Two equal values belong to different numbers of one builder or to builders given different things. *)
Lemma twice_pair h (t : list (builder Pr)) : all_different t = true -> twice (flat_map (fun b => [value h (b, x00); value h (b, x01)]) t) = true ->
  exists b b' i i', In b t /\ In b' t /\ In i [x00; x01] /\ In i' [x00; x01] /\ value h (b, i) = value h (b', i') /\ (i <> i' \/ same_given (given b) (given b') = false).
Proof.
  induction t as [|b t IH]; cbn [all_different flat_map app twice]; intros D T; [discriminate T|]. apply andb_true_iff in D as [D1 D2]. rewrite forallb_forall in D1.
  assert (G : forall i, In i [x00; x01] -> existsb (Z.eqb (value h (b, i))) (flat_map (fun b => [value h (b, x00); value h (b, x01)]) t) = true ->
    exists b0 b' i i', In b0 (b :: t) /\ In b' (b :: t) /\ In i [x00; x01] /\ In i' [x00; x01] /\ value h (b0, i) = value h (b', i') /\ (i <> i' \/ same_given (given b0) (given b') = false)).
  { intros i Hi X. apply existsb_exists in X as (z & Hz & X). apply Z.eqb_eq in X. apply in_flat_map in Hz as (b' & Hb & Hz).
    assert (exists i', In i' [x00; x01] /\ z = value h (b', i')) as (i' & Hi' & ->).
    { destruct Hz as [<- | [<- | []]]; [exists x00 | exists x01]; split; auto; [left | right; left]; reflexivity. }
    exists b, b', i, i'. split; [left; reflexivity|]. split; [right; exact Hb|]. split; [exact Hi|]. split; [exact Hi'|]. split; [exact X|]. right. apply negb_true_iff, D1, Hb. }
  cbn [existsb] in T. rewrite !orb_true_iff in T. destruct T as [[T | T] | [T | T]].
  - apply Z.eqb_eq in T. exists b, b, x00, x01. split; [left; reflexivity|]. split; [left; reflexivity|]. split; [left; reflexivity|]. split; [right; left; reflexivity|]. split; [exact T | left; discriminate].
  - apply (G x00); [left; reflexivity | exact T].
  - apply (G x01); [right; left; reflexivity | exact T].
  - destruct (IH D2 T) as (b1 & b' & i & i' & I1 & I2 & R). exists b1, b', i, i'. split; [right; exact I1|]. split; [right; exact I2 | exact R].
Qed.
(** The questions that [build] adds. *)
Fixpoint ask_nonces (t : list (builder Pr)) : asker unit :=
  match t with
  | [] => Give tt
  | b :: t => Ask (aux_question b) (fun a => Ask (nonce_question sk a b x00) (fun _ => Ask (nonce_question sk a b x01) (fun _ => ask_nonces t)))
  end.
Lemma ask_nonces_asked h t : asked h (ask_nonces t) = flat_map (fun b => [aux_question b; nonce_question sk (h (aux_question b)) b x00; nonce_question sk (h (aux_question b)) b x01]) t.
Proof. induction t as [|b t IH]; [reflexivity|]. cbn [ask_nonces asked flat_map app]. rewrite IH. reflexivity. Qed.
Lemma ask_nonces_within inputs digests t : (forall b, In b t -> In (aux_question b) inputs /\ forall a, In a digests -> In (nonce_question sk a b x00) inputs /\ In (nonce_question sk a b x01) inputs) ->
  asks_within inputs digests (fun _ => True) (3 * length t) (ask_nonces t).
Proof.
  induction t as [|b t IH]; intro H; [exact I|]. replace (3 * length (b :: t))%nat with (S (S (S (3 * length t)))) by (cbn [length]; lia). cbn [ask_nonces asks_within].
  destruct (H b (or_introl eq_refl)) as [H1 H2]. split; [exact H1|]. intros a Ha. destruct (H2 a Ha) as [H3 H4]. split; [exact H3|]. intros _ _. split; [exact H4|]. intros _ _.
  apply IH. intros b' Hb. apply H. right. exact Hb.
Qed.
Lemma aux_inj (b b' : builder Pr) : aux_question b = aux_question b' -> nonce_seed_bytes b = nonce_seed_bytes b'.
Proof. unfold aux_question. apply app_inv_head. Qed.
Lemma repeats_rare (M : nat) (F : asker (list (builder Pr))) (inputs digests : list bytes) (q c : nat) (HS : NoDup digests) (HS32 : forall d, In d digests -> length d = 32%nat)
  (Hc : forall d, In d digests -> (count (@same_nonce Pr d) digests <= c)%nat) (HF : nonces_within M sk inputs digests q F) :
  (2 * (length digests * count (nonce_repeats M sk F) (worlds inputs digests)) <= (q + 3 * M) * (q + 3 * M - 1) * (length (worlds inputs digests) * c))%nat.
Proof.
  assert (HG : asks_within inputs digests (fun _ => True) (q + 3 * M) (and_then F ask_nonces)).
  { apply (within_then _ _ _ _ q (3 * M) F _ HF). intros t (HL & HT). apply (within_le _ _ _ (3 * length t)); [lia | apply ask_nonces_within, HT]. }
  apply (related_birthday (and_then F ask_nonces) inputs digests (q + 3 * M) c (@same_nonce Pr) (fun d d' => Z.eqb_sym _ _) HS Hc HG).
  intros w Hw H. unfold nonce_repeats in H. cbv zeta in H. set (t := outcome (hash_in w) F) in H. rewrite !andb_true_iff in H. destruct H as [[[_ HM] HD] HT].
  pose proof (hash_in_len inputs digests w HS32 Hw) as HL. pose proof (with_hash_ok _ HL) as LI.
  rewrite (all_nonces_eq _ _ LI) in HT. destruct (twice_pair _ _ HD HT) as (b & b' & i & i' & I1 & I2 & J1 & J2 & V & N).
  set (h := hash_in w) in *.
  assert (QQ : forall b i, In b t -> In i [x00; x01] -> In (aux_question b) (qs (and_then F ask_nonces) w) /\ In (nonce_question sk (h (aux_question b)) b i) (qs (and_then F ask_nonces) w)).
  { intros b0 i0 Ib Ii. unfold qs. rewrite asked_then, ask_nonces_asked. fold h. fold t. split; apply in_app_iff; right; apply in_flat_map; exists b0; (split; [exact Ib|]); [left; reflexivity|].
    destruct Ii as [<- | [<- | []]]; [right; left | right; right; left]; reflexivity. }
  assert (SM : forall b, In b t -> msg_small (b_message b)).
  { intros b0 Ib. rewrite forallb_forall in HM. specialize (HM b0 Ib). destruct (b_message b0) as [m|]; [apply Z.ltb_lt, HM | exact I]. }
  destruct (bytes_eqb (nonce_question sk (h (aux_question b)) b i) (nonce_question sk (h (aux_question b')) b' i')) eqn:Y.
  - apply bytes_eqb_eq in Y. apply question_inj in Y as (EI & EA & EG); [| apply HL | apply HL | apply SM, I1 | apply SM, I2].
    destruct N as [N | N]; [contradiction|].
    exists (aux_question b), (aux_question b'). split; [apply (QQ b i I1 J1)|]. split; [apply (QQ b' i' I2 J2)|]. split.
    + intro X. apply aux_inj in X. assert (Y : given b = given b') by (unfold given in EG |- *; cbn [tl] in EG; rewrite X, EG; reflexivity). rewrite Y, same_given_refl in N. discriminate N.
    + fold h. rewrite EA. apply Z.eqb_refl.
  - exists (nonce_question sk (h (aux_question b)) b i), (nonce_question sk (h (aux_question b')) b' i'). split; [apply (QQ b i I1 J1)|]. split; [apply (QQ b' i' I2 J2)|]. split.
    + intro X. rewrite X, bytes_eqb_refl in Y. discriminate Y.
    + unfold same_nonce. apply Z.eqb_eq. exact V.
Qed.
End Nonces.

Section C97_nonces_fresh.
Context {Pr : prims}.
Add Ring ring_C97_nonces_fresh : (fe_ring_theory (n := @ord Pr)).
Lemma C97_nonces_fresh_proof {Laws : prims_ok Pr} {Tags : tags_ok Pr} (M : nat) (sk : option (scalar Pr)) (F : asker (list (builder Pr))) (inputs digests : list bytes) (q c : nat) (HS : NoDup digests) (HS32 : forall d, In d digests -> length d = 32%nat) (Hc : forall d, In d digests -> (count (@same_nonce Pr d) digests <= c)%nat) (HF : nonces_within M sk inputs digests q F) :
  let N := length digests in
  let q' := (q + 3 * M)%nat in
  (2 * (N * count (nonce_repeats M sk F) (worlds inputs digests)) <= q' * (q' - 1) * (N ^ length inputs * c))%nat.
Proof.
  cbv zeta. rewrite <- (length_worlds inputs digests). apply repeats_rare; assumption.
Qed.
End C97_nonces_fresh.

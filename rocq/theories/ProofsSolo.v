(** Proofs of the theorems of PropertiesSolo.v. *)
From Coq Require Import String List.
From Verif Require Import Bytes BytesFacts Prims PrimsFacts TaggedHashes Errors SpecTags SpecBIP327
  Nonces Signature Bip340 SpecExtract SpecFork SpecSolo Toy ToyData ToyFork ToySolo.
Import ListNotations.
Open Scope list_scope.
Open Scope Z_scope.
From Coq Require Import Lia Arith Bool Znumtheory.
From Verif Require Import CodecFacts KeyAggFacts SpecFacts SpecSigning SignatureFacts Bip340Facts ProofsBip340 ProofsSoundness ProofsExtraction ForkFacts ProofsFork ProofsConcurrent ProofsCollision ProofsBatchForger ProofsFresh.
Open Scope Z_scope.

Section Solo.
Context {Pr : prims} {Laws : prims_ok Pr} {Tags : tags_ok Pr} (sk : scalar Pr).
(** The masked secret key. *)
Definition even_key : mscalar Pr := fneg_if (pt_odd (gmul sk)) sk.
Lemma even_key_int : (let P := point_mul pt_G (fz sk) in if has_even_y P then fz sk else n_ - fz sk) = fz even_key.
Proof.
  cbv zeta. rewrite point_mul_G. unfold has_even_y, even_key. destruct (pt_odd (gmul sk)); cbn [negb fneg_if]; [|reflexivity].
  unfold fneg. rewrite fz_of_Z. rewrite <- (Z.mod_small (n_ - fz sk) n_).
  - unfold n_. replace (Z.pos ord - fz (sval sk)) with (- fz (sval sk) + 1 * Z.pos ord) by ring. rewrite Z.mod_add by discriminate. reflexivity.
  - pose proof (fz_n (sval sk)). assert (fz (sval sk) <> 0). { intro H0. apply (scalar_nz sk). apply fe_ext. rewrite H0. reflexivity. }
    pose proof (fz_range (sval sk)). lia.
Qed.
Lemma nonce_input_eq a (o : order_ Pr) : nonce_input sk a o = BIP0340_NONCE_TAG_DIGEST ++ BIP0340_NONCE_TAG_DIGEST ++ xor_bytes a (ser_scalar even_key) ++ pt_x (gmul sk) ++ o_msg o.
Proof.
  unfold nonce_input. cbv zeta. pose proof even_key_int as E. cbv zeta in E. rewrite E, bytes_from_fz, bytes_xor_eq, xor_bytes_comm, point_mul_G. unfold tag_twice, xbytes. rewrite tag_bip340_nonce, <- app_assoc. reflexivity.
Qed.
Definition value_of (h : bytes -> bytes) (o : order_ Pr) : Z := Z.max 1 (int_from_bytes (h (nonce_input sk (h (seed_input o)) o)) mod n_).
Lemma prenonce_value h (o : order_ Pr) : prims_ok (with_hash Pr h) -> fz (sval (@solo_prenonce (with_hash Pr h) (rescalar h sk) (o_msg o) (o_seed o))) = value_of h o.
Proof.
  intro LI. unfold solo_prenonce. cbv zeta. rewrite (nonce_value h _ LI). unfold value_of.
  match goal with |- Z.max 1 (int_from_bytes ?m mod _) = _ => assert (EM : m = h (nonce_input sk (h (seed_input o)) o)) end; [|rewrite EM; reflexivity].
  rewrite nonce_input_eq. unfold tagged. cbn [sha256 with_hash]. rewrite !(@base_mul_val (with_hash Pr h) LI). unfold seed_input, tag_twice. rewrite tag_bip340_aux, <- app_assoc. reflexivity.
Qed.
Lemma nonce_of_value h (o : order_ Pr) : prims_ok (with_hash Pr h) -> exists k : mscalar Pr, fz k = value_of h o /\ nonce_of h sk o = pt_x (gmul k).
Proof.
  intro LI. exists (sval (@solo_prenonce (with_hash Pr h) (rescalar h sk) (o_msg o) (o_seed o))). split; [exact (prenonce_value h o LI)|]. unfold nonce_of. destruct (o_point o) as [T|].
  - rewrite (@solo_adaptor_R (with_hash Pr h) LI). reflexivity.
  - destruct (@sign_solo_Ok (with_hash Pr h) LI (rescalar h sk) (o_msg o) (o_seed o)) as (l & L & _). rewrite L. exact (proj1 (@sign_solo_nonce (with_hash Pr h) LI _ _ _ l L)).
Qed.
Lemma value_pos h o : 1 <= value_of h o.
Proof. unfold value_of. lia. Qed.
Lemma same_x_value (k k' : mscalar Pr) : 1 <= fz k -> 1 <= fz k' -> pt_x (gmul k) = pt_x (gmul k') -> fz k = fz k' \/ fz k + fz k' = n_.
Proof.
  intros H H' X. assert (NZ : forall a : mscalar Pr, 1 <= fz a -> gmul a <> pt_O) by (intros a Ha Z; apply gmul_eq_O in Z; rewrite Z in Ha; change (fz (fzero : mscalar Pr)) with 0 in Ha; lia).
  destruct (x_inj _ _ (NZ k H) (NZ k' H') X) as [E | E]; [left; f_equal; apply gmul_inj, E|]. right. rewrite <- gmul_neg in E. apply gmul_inj in E. rewrite E.
  unfold fneg. rewrite fz_of_Z. pose proof (fz_range k') as R. unfold n_. rewrite Z.mod_opp_l_nz; [|discriminate | rewrite Z.mod_small; lia]. rewrite Z.mod_small; lia.
Qed.
Lemma input_inj a a' (o o' : order_ Pr) : length a = 32%nat -> length a' = 32%nat -> nonce_input sk a o = nonce_input sk a' o' -> a = a' /\ o_msg o = o_msg o'.
Proof.
  intros La La' H. rewrite !nonce_input_eq in H. do 2 apply app_inv_head in H. pose proof (ser_scalar_len even_key) as Ls.
  apply app_inj_len in H as [X H]; [|rewrite !xor_bytes_length by congruence; congruence]. rewrite !(xor_bytes_comm _ (ser_scalar even_key)) in X. apply xor_bytes_inj_r in X; [|congruence..].
  apply app_inv_head in H. split; assumption.
Qed.
Lemma twice_orders (f : order_ Pr -> bytes) t : orders_differ t = true -> comes_twice (map f t) = true -> exists o o', In o t /\ In o' t /\ f o = f o' /\ same_order o o' = false.
Proof.
  induction t as [|o t IH]; cbn [orders_differ map comes_twice]; intros D T; [discriminate T|]. apply andb_true_iff in D as [D1 D2]. apply orb_true_iff in T as [T | T].
  - apply existsb_exists in T as (z & Hz & T). apply bytes_eqb_eq in T. apply in_map_iff in Hz as (o' & <- & Ho). rewrite forallb_forall in D1.
    exists o, o'. split; [left; reflexivity|]. split; [right; exact Ho|]. split; [exact T | apply negb_true_iff, D1, Ho].
  - destruct (IH D2 T) as (o1 & o2 & I1 & I2 & R). exists o1, o2. split; [right; exact I1|]. split; [right; exact I2 | exact R].
Qed.
(** The questions that signing adds. *)
Fixpoint ask_orders (t : list (order_ Pr)) : asker unit :=
  match t with [] => Give tt | o :: t => Ask (seed_input o) (fun a => Ask (nonce_input sk a o) (fun _ => ask_orders t)) end.
Lemma ask_orders_asked h t : asked h (ask_orders t) = flat_map (fun o => [seed_input o; nonce_input sk (h (seed_input o)) o]) t.
Proof. induction t as [|o t IH]; [reflexivity|]. cbn [ask_orders asked flat_map app]. rewrite IH. reflexivity. Qed.
Lemma ask_orders_within inputs digests t : (forall o, In o t -> In (seed_input o) inputs /\ forall a, In a digests -> In (nonce_input sk a o) inputs) ->
  asks_within inputs digests (fun _ => True) (2 * length t) (ask_orders t).
Proof.
  induction t as [|o t IH]; intro H; [exact I|]. replace (2 * length (o :: t))%nat with (S (S (2 * length t))) by (cbn [length]; lia). cbn [ask_orders asks_within].
  destruct (H o (or_introl eq_refl)) as [H1 H2]. split; [exact H1|]. intros a Ha. split; [apply H2, Ha|]. intros _ _. apply IH. intros o' Ho. apply H. right. exact Ho.
Qed.
Lemma up_to_sign_sym d d' : @same_up_to_sign Pr d d' = same_up_to_sign d' d.
Proof. unfold same_up_to_sign. cbv zeta. rewrite Z.eqb_sym, Z.add_comm. reflexivity. Qed.
End Solo.

Section C99_solo_nonces_fresh.
Context {Pr : prims}.
Add Ring ring_C99_solo_nonces_fresh : (fe_ring_theory (n := @ord Pr)).
Lemma C99_solo_nonces_fresh_proof {Laws : prims_ok Pr} {Tags : tags_ok Pr} (M : nat) (sk : scalar Pr) (F : asker (list (order_ Pr))) (inputs digests : list bytes) (q c : nat) (HS : NoDup digests) (HS32 : forall d, In d digests -> length d = 32%nat) (Hc : forall d, In d digests -> (count (@same_up_to_sign Pr d) digests <= c)%nat) (HF : orders_within M sk inputs digests q F) :
  let N := length digests in
  let q' := (q + 2 * M)%nat in
  (2 * (N * count (nonce_shared M sk F) (worlds inputs digests)) <= q' * (q' - 1) * (N ^ length inputs * c))%nat.
Proof.
  cbv zeta. rewrite <- (length_worlds inputs digests).
  assert (HG : asks_within inputs digests (fun _ => True) (q + 2 * M) (and_then F (ask_orders sk))).
  { apply (within_then _ _ _ _ q (2 * M) F _ HF). intros t (HL & HT). apply (within_le _ _ _ (2 * length t)); [lia | apply ask_orders_within, HT]. }
  apply (related_birthday (and_then F (ask_orders sk)) inputs digests (q + 2 * M) c (@same_up_to_sign Pr) up_to_sign_sym HS Hc HG).
  intros w Hw H. unfold nonce_shared in H. cbv zeta in H. set (t := outcome (hash_in w) F) in H. rewrite !andb_true_iff in H. destruct H as [[_ HD] HT].
  pose proof (hash_in_len inputs digests w HS32 Hw) as HL. pose proof (with_hash_ok _ HL) as LI.
  destruct (twice_orders _ _ HD HT) as (o & o' & I1 & I2 & V & N). set (h := hash_in w) in *.
  assert (QQ : forall o, In o t -> In (seed_input o) (qs (and_then F (ask_orders sk)) w) /\ In (nonce_input sk (h (seed_input o)) o) (qs (and_then F (ask_orders sk)) w)).
  { intros o0 Io. unfold qs. rewrite asked_then, ask_orders_asked. fold h. fold t. split; apply in_app_iff; right; apply in_flat_map; exists o0; (split; [exact Io|]); [left | right; left]; reflexivity. }
  destruct (bytes_eqb (nonce_input sk (h (seed_input o)) o) (nonce_input sk (h (seed_input o')) o')) eqn:Y.
  - apply bytes_eqb_eq in Y. apply input_inj in Y as (EA & EM); [|apply HL..].
    exists (seed_input o), (seed_input o'). split; [apply (QQ o I1)|]. split; [apply (QQ o' I2)|]. split.
    + intro X. unfold seed_input in X. apply app_inv_head in X. unfold same_order in N. rewrite X, EM, !bytes_eqb_refl in N. discriminate N.
    + fold h. rewrite EA. unfold same_up_to_sign. cbv zeta. rewrite Z.eqb_refl. reflexivity.
  - exists (nonce_input sk (h (seed_input o)) o), (nonce_input sk (h (seed_input o')) o'). split; [apply (QQ o I1)|]. split; [apply (QQ o' I2)|]. split.
    + intro X. rewrite X, bytes_eqb_refl in Y. discriminate Y.
    + destruct (nonce_of_value sk h o LI) as (k & K1 & K2), (nonce_of_value sk h o' LI) as (k' & K1' & K2'). rewrite K2, K2' in V.
      apply same_x_value in V; [|rewrite K1; apply value_pos | rewrite K1'; apply value_pos]. rewrite K1, K1' in V. unfold same_up_to_sign. cbv zeta. apply orb_true_iff. rewrite !Z.eqb_eq. exact V.
Qed.
End C99_solo_nonces_fresh.

(** Proofs of the theorems of PropertiesDeterministic.v. *)
From Coq Require Import String List.
From Verif Require Import Bytes BytesFacts Prims PrimsFacts Errors SpecBIP327
  Nonces Signature Signing Bip340 Deterministic SpecTags SpecSession SpecRfc6979 Toy ToyData.
Import ListNotations.
Open Scope list_scope.
Open Scope Z_scope.
From Coq Require Import Lia.
From Verif Require Import CodecFacts KeyAggFacts SigningFacts SpecFacts SignatureFacts ProofsBip340 EncodingFacts ProofsCodecs.

Section Helpers.
Context {Pr : prims} {Laws : prims_ok Pr}.

Lemma xor_36 b : z2b (Z.lxor (b2z b) 54) = xor_byte x36 b.
Proof. destruct b; reflexivity. Qed.
Lemma xor_5c b : z2b (Z.lxor (b2z b) 92) = xor_byte x5c b.
Proof. destruct b; reflexivity. Qed.
Lemma hmac_rfc key m : length key = 32%nat -> hmac_sha256 key m = rfc_hmac key m.
Proof.
  intro H. unfold hmac_sha256, rfc_hmac, rfc_block_key, rfc_xor. rewrite H. cbn [Nat.ltb Nat.leb]. rewrite H.
  cbn [Nat.sub]. rewrite (map_ext _ _ xor_36), (map_ext _ _ xor_5c). reflexivity.
Qed.
Lemma hmac_len key m : length (hmac_sha256 key m) = 32%nat.
Proof. apply sha_len. Qed.
Lemma rfc_hmac_len key m : length (rfc_hmac key m) = 32%nat.
Proof. apply sha_len. Qed.
Lemma init_rfc sk msg : rfc6979_init sk msg = rfc_start (fz (sval sk)) (sha256 msg).
Proof.
  unfold rfc6979_init, rfc_start. cbv zeta. change (repeat x00 32) with (zeros 32).
  change (bytes_from_int (fz (sval sk))) with (ser_scalar (sval sk)).
  rewrite !(hmac_rfc (zeros 32)) by reflexivity.
  rewrite !hmac_rfc by apply rfc_hmac_len. reflexivity.
Qed.
Lemma state_K_len x z i : length (fst (rfc_state x z i)) = 32%nat.
Proof. destruct i; apply rfc_hmac_len. Qed.
Lemma loop_step f x z i : rfc6979_loop (S f) (fst (rfc_state x z i)) (snd (rfc_state x z i)) =
  match parse_scalar (rfc_T (rfc_state x z i)) with
  | Some k => Some k
  | None => rfc6979_loop (Pr := Pr) f (fst (rfc_state x z (S i))) (snd (rfc_state x z (S i)))
  end.
Proof.
  cbn [rfc6979_loop rfc_state]. cbv zeta. rewrite !hmac_rfc by apply state_K_len.
  rewrite !hmac_rfc by apply rfc_hmac_len. reflexivity.
Qed.
Lemma cand_some x z i (k : scalar Pr) : parse_scalar (rfc_T (rfc_state x z i)) = Some k <->
  rfc_candidate x z i = fz (sval k) /\ 1 <= rfc_candidate x z i < n_.
Proof.
  rewrite int_scalar. unfold rfc_candidate. split.
  - intros (_ & H1 & H2). auto.
  - intros (H1 & H2). split; [apply rfc_hmac_len|]. auto.
Qed.
Lemma cand_none x z i : parse_scalar (Pr := Pr) (rfc_T (rfc_state x z i)) = None <-> ~ 1 <= rfc_candidate x z i < n_.
Proof.
  split.
  - intro H. apply int_scalar_None; [apply rfc_hmac_len|exact H].
  - intro H. destruct (parse_scalar _) as [k|] eqn:E; [|reflexivity]. apply cand_some in E as [_ E]. contradiction.
Qed.
Lemma loop_some f x z i (k : scalar Pr) :
  rfc6979_loop f (fst (rfc_state x z i)) (snd (rfc_state x z i)) = Some k <->
  exists j, (i <= j < i + f)%nat /\ rfc_candidate x z j = fz (sval k) /\ 1 <= rfc_candidate x z j < n_ /\
    forall l, (i <= l < j)%nat -> ~ 1 <= rfc_candidate x z l < n_.
Proof.
  revert i. induction f as [|f IH]; intro i.
  - split; [discriminate|]. intros (j & Hj & _). lia.
  - rewrite loop_step. destruct (parse_scalar (rfc_T (rfc_state x z i))) as [k0|] eqn:E.
    + apply cand_some in E as E'. destruct E' as [E1 E2]. split.
      * intro H. assert (k0 = k) by congruence. subst k0. exists i. split; [lia|]. split; [exact E1|]. split; [exact E2|]. intros; lia.
      * intros (j & Hj & H1 & H2 & H3). destruct (Nat.eq_dec j i) as [->|Hn].
        -- rewrite <- E. apply cand_some. auto.
        -- exfalso. apply (H3 i); [lia|exact E2].
    + apply cand_none in E. rewrite IH. split.
      * intros (j & Hj & H1 & H2 & H3). exists j. split; [lia|]. split; [exact H1|]. split; [exact H2|].
        intros l Hl. destruct (Nat.eq_dec l i) as [->|Hn]; [exact E|apply H3; lia].
      * intros (j & Hj & H1 & H2 & H3). exists j. assert (j <> i) by (intros ->; contradiction).
        split; [lia|]. split; [exact H1|]. split; [exact H2|]. intros l Hl. apply H3. lia.
Qed.
Lemma derive_first fuel (sk : scalar Pr) msg (k : scalar Pr) :
  derive_nonce_rfc6979 fuel sk msg = Some k <->
  exists i, (i < fuel)%nat /\ rfc_first (fz (sval sk)) (sha256 msg) i (fz (sval k)).
Proof.
  unfold derive_nonce_rfc6979. rewrite init_rfc.
  pose proof (loop_some fuel (fz (sval sk)) (sha256 msg) 0 k) as H. cbn [rfc_state] in H.
  destruct (rfc_start _ _) as [K V]. cbn [fst snd] in H. rewrite H. unfold rfc_first. split.
  - intros (j & Hj & H1 & H2 & H3). exists j. split; [lia|]. split; [exact H1|]. split; [lia|]. intros l Hl. apply H3. lia.
  - intros (j & Hj & H1 & H2 & H3). exists j. split; [lia|]. split; [exact H1|]. split; [lia|]. intros l Hl. apply H3. lia.
Qed.
Lemma scalar_of_range z : 1 <= z < n_ -> exists k : scalar Pr, fz (sval k) = z.
Proof.
  intro H.
  destruct (not_zero (of_Z ord z : mscalar Pr)) as [k|] eqn:E.
  - exists k. apply not_zero_Some in E. rewrite <- E, fz_of_Z. apply Z.mod_small. unfold n_ in H. lia.
  - apply not_zero_None in E. apply (f_equal (@fz _)) in E. rewrite fz_of_Z, Z.mod_small in E by (unfold n_ in H; lia).
    change (fz (fzero : mscalar Pr)) with (0 mod Zpos (@ord Pr)) in E. rewrite Z.mod_0_l in E by discriminate. lia.
Qed.
Lemma bits2octets_id msg : int_from_bytes (sha256 msg) < n_ -> bits2octets (sha256 msg) = sha256 msg.
Proof.
  intro H. unfold bits2octets, bytes_from_int, int_from_bytes in *. pose proof (be_dec_range (sha256 msg)).
  rewrite Z.mod_small by lia. rewrite <- (sha_len msg). apply be_enc_dec.
Qed.
Lemma rfc_first_fun x z i1 k1 i2 k2 : rfc_first (Pr := Pr) x z i1 k1 -> rfc_first x z i2 k2 -> k1 = k2.
Proof.
  intros (A1 & A2 & A3) (B1 & B2 & B3).
  destruct (lt_eq_lt_dec i1 i2) as [[H|H]|H].
  - exfalso. apply (B3 i1 H). lia.
  - congruence.
  - exfalso. apply (A3 i2 H). lia.
Qed.
End Helpers.

Section C45_first_candidate.
Context {Pr : prims}.
Add Ring ring_C45_first_candidate : (fe_ring_theory (n := @ord Pr)).
Lemma C45_first_candidate_proof {Laws : prims_ok Pr} (sk : scalar Pr) (msg : bytes) :
  (forall fuel k, derive_nonce_rfc6979 fuel sk msg = Some k <->
     exists i, (i < fuel)%nat /\ rfc_first (fz sk) (sha256 msg) i (fz k)) /\
  (forall fuel, derive_nonce_rfc6979 fuel sk msg = None <->
     forall i, (i < fuel)%nat -> ~ 1 <= rfc_candidate (fz sk) (sha256 msg) i < n_) /\
  (forall f1 f2 k1 k2, derive_nonce_rfc6979 f1 sk msg = Some k1 -> derive_nonce_rfc6979 f2 sk msg = Some k2 -> k1 = k2) /\
  (forall fuel msg', sha256 msg' = sha256 msg -> derive_nonce_rfc6979 fuel sk msg' = derive_nonce_rfc6979 fuel sk msg).
Proof.
  split; [|split; [|split]].
  - intros. apply derive_first.
  - intro fuel. split.
    + intros HN i. induction i as [i IH] using lt_wf_ind. intros Hi Hr.
      destruct (scalar_of_range _ Hr) as [k Hk].
      assert (E : derive_nonce_rfc6979 fuel sk msg = Some k); [|congruence].
      apply derive_first. exists i. split; [exact Hi|]. split; [auto|]. rewrite Hk. split; [exact Hr|].
      intros j Hj. apply IH; lia.
    + intro H. destruct (derive_nonce_rfc6979 fuel sk msg) as [k|] eqn:E; [|reflexivity].
      apply derive_first in E as (i & Hi & E1 & E2 & _). exfalso. apply (H i Hi). lia.
  - intros f1 f2 ka kb H1 H2. apply derive_first in H1 as (i1 & _ & H1). apply derive_first in H2 as (i2 & _ & H2).
    apply scalar_ext, fe_ext. eapply rfc_first_fun; eassumption.
  - intros fuel msg' E. unfold derive_nonce_rfc6979, rfc6979_init. rewrite E. reflexivity.
Qed.
End C45_first_candidate.

Section C45_is_rfc6979.
Context {Pr : prims}.
Add Ring ring_C45_is_rfc6979 : (fe_ring_theory (n := @ord Pr)).
Lemma C45_is_rfc6979_proof {Laws : prims_ok Pr} (sk : scalar Pr) (msg : bytes) (Hd : int_from_bytes (sha256 msg) < n_) :
  (forall k, (exists fuel, derive_nonce_rfc6979 fuel sk msg = Some k) <-> rfc6979_nonce (fz sk) msg (fz k)) /\
  (forall z, rfc6979_nonce (fz sk) msg z -> exists fuel k, derive_nonce_rfc6979 fuel sk msg = Some k /\ fz k = z).
Proof.
  assert (HA : forall k, (exists fuel, derive_nonce_rfc6979 fuel sk msg = Some k) <-> rfc6979_nonce (fz sk) msg (fz k)).
  { intro k. unfold rfc6979_nonce. rewrite bits2octets_id by exact Hd. split.
    - intros [f H]. apply derive_first in H as (i & _ & H). exists i. exact H.
    - intros [i H]. exists (S i). apply derive_first. exists i. split; [lia|exact H]. }
  split; [exact HA|]. intros z Hz. assert (HR : 1 <= z < n_) by (destruct Hz as (i & _ & H & _); exact H).
  destruct (scalar_of_range z HR) as [k Hk]. rewrite <- Hk in Hz. apply HA in Hz as [f Hf]. eauto.
Qed.
End C45_is_rfc6979.

Lemma C45_documented_rfc6979_refuted_proof :
  exists (sk k : scalar ToyLow) (msg : bytes) (z : Z),
    derive_nonce_rfc6979 4 sk msg = Some k /\ rfc6979_nonce (Pr := ToyLow) (fz sk) msg z /\ z <> fz k.
Proof.
  set (msg := [x00]).
  destruct (derive_nonce_rfc6979 4 (lsc 3) msg) as [k|] eqn:E.
  2: { exfalso. assert (H : match derive_nonce_rfc6979 4 (lsc 3) msg with Some _ => true | None => false end = true) by (vm_compute; reflexivity).
       rewrite E in H. discriminate. }
  assert (HB : let c := rfc_candidate (Pr := ToyLow) (fz (sval (lsc 3))) (bits2octets (Pr := ToyLow) (@sha256 ToyLow msg)) 0 in
      ((1 <=? c) && (c <? 31) && match derive_nonce_rfc6979 4 (lsc 3) msg with Some k => negb (fz (sval k) =? c) | None => false end)%bool = true)
    by (vm_compute; reflexivity).
  cbv zeta in HB. rewrite E in HB. apply andb_prop in HB as [HB H3]. apply andb_prop in HB as [H1 H2].
  apply Z.leb_le in H1. apply Z.ltb_lt in H2. apply Bool.negb_true_iff, Z.eqb_neq in H3.
  exists (lsc 3), k, msg, (rfc_candidate (Pr := ToyLow) (fz (sval (lsc 3))) (bits2octets (Pr := ToyLow) (@sha256 ToyLow msg)) 0).
  split; [exact E|]. split; [|intro E0; apply H3; symmetry; exact E0].
  exists O. split; [reflexivity|]. split; [|intros j Hj; lia]. split; [exact H1|exact H2].
Qed.

Section C45_signatures.
Context {Pr : prims}.
Add Ring ring_C45_signatures : (fe_ring_theory (n := @ord Pr)).
Lemma C45_signatures_proof {Laws : prims_ok Pr} {Tags : tags_ok Pr} (fuel : nat) (sk : scalar Pr) (msg : bytes) (k : scalar Pr) (Hk : derive_nonce_rfc6979 fuel sk msg = Some k) :
  let aux := bytes_from_int (fz k) in
  let pkx := xbytes (point_mul pt_G (fz sk)) in
  (exists sg, det_sign_solo fuel sk msg = Some (Ok sg) /\
     schnorr_verify msg pkx (lifted_to_bytes sg) = Ret true /\
     (schnorr_sign (bytes_from_int (fz sk)) aux msg = Ret (lifted_to_bytes sg) \/
      (schnorr_sign (bytes_from_int (fz sk)) aux msg = ValueError /\ xbytes (l_R sg) = xbytes pt_G))) /\
  (forall T, exists sg, det_sign_solo_adaptor fuel sk msg T = Some sg /\
     verify_single_adaptor (base_mul sk) sg msg T = Ok tt /\ presig_valid (base_mul sk) msg T (a_R sg) (a_s sg)).
Proof.
  intros aux pkx. assert (HP : pkx = pt_x (base_mul sk)) by (rewrite base_mul_val; unfold pkx; rewrite point_mul_G; reflexivity).
  split.
  - destruct (C20_sign_solo_is_bip340_proof sk msg aux) as (sg & H1 & H2 & H3 & H4).
    exists sg. split; [|split; [rewrite HP; exact H3|exact H4]]. unfold det_sign_solo. rewrite Hk.
    change (ser_scalar (sval k)) with aux. rewrite H1. reflexivity.
  - intro T. destruct (C21_solo_adaptor_verifies_and_adapts_proof sk msg aux T) as (H1 & H2 & _).
    exists (sign_solo_adaptor sk msg aux T). split; [|split; assumption].
    unfold det_sign_solo_adaptor. rewrite Hk. reflexivity.
Qed.
End C45_signatures.

Section C49_deterministic_pair_reveals_key.
Context {Pr : prims}.
Add Ring ring_C49_deterministic_pair_reveals_key : (fe_ring_theory (n := @ord Pr)).
Lemma C49_deterministic_pair_reveals_key_proof {Laws : prims_ok Pr} {Tags : tags_ok Pr} (f1 f2 : nat) (sk : scalar Pr) (msg : bytes) (T : pt) (l : lifted_sig Pr) (sg : adaptor_sig Pr) (H1 : det_sign_solo f1 sk msg = Some (Ok l)) (H2 : det_sign_solo_adaptor f2 sk msg T = Some sg) :
  let P := base_mul sk in
  let R := a_R sg in
  let sigma := fun T => if has_even_y (pt_add R T) then 1 else -1 in
  let e := fun T => int_from_bytes (tagged_hash "BIP0340/challenge"%string
                      (xbytes (pt_add R T) ++ xbytes P ++ msg)) mod n_ in
  let d := if has_even_y P then fz sk else n_ - fz sk in
  let D := sigma T * e T - sigma pt_O * e pt_O in
  let s := sigma T * fz (a_s sg) - sigma pt_O * fz (l_s l) in
  xbytes (l_R l) = xbytes R /\
  (D * d) mod n_ = s mod n_ /\
  (D mod n_ <> 0 -> forall x : scalar Pr, (D * fz x) mod n_ = s mod n_ -> x = sk \/ sval x = fneg sk).
Proof.
  unfold det_sign_solo in H1. unfold det_sign_solo_adaptor in H2.
  destruct (derive_nonce_rfc6979 f1 sk msg) as [ka|] eqn:E1; [|discriminate].
  destruct (derive_nonce_rfc6979 f2 sk msg) as [kb|] eqn:E2; [|discriminate].
  assert (ka = kb).
  { apply derive_first in E1 as (i1 & _ & E1). apply derive_first in E2 as (i2 & _ & E2).
    apply scalar_ext, fe_ext. eapply rfc_first_fun; eassumption. }
  subst kb.
  assert (HS : sign_solo sk msg (ser_scalar ka) = Ok l) by congruence.
  assert (HA : sg = sign_solo_adaptor sk msg (ser_scalar ka) T) by congruence. subst sg.
  destruct (C49_seed_reuse_across_adaptors_proof sk msg (ser_scalar ka) T pt_O) as (A1 & A2 & A3 & A4).
  destruct (A4 l eq_refl HS) as [B1 B2]. cbv zeta. rewrite B2. split; [exact B1|]. split; [exact A2|exact A3].
Qed.
End C49_deterministic_pair_reveals_key.

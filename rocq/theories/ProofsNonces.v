(** Proofs of the theorems of PropertiesNonces.v. *)
From Coq Require Import String List Permutation.
From Verif Require Import Bytes BytesFacts Prims PrimsFacts TaggedHashes Errors SpecTags SpecBIP327
  KeyAgg Nonces Signature Signing SigAgg Bip340 Rounds SpecCtx SpecNonces Toy ToyData ToyRounds ToyNonces.
Import ListNotations.
Open Scope list_scope.
Open Scope Z_scope.
From Coq Require Import Lia.
From Verif Require Import CodecFacts KeyAggFacts SigningFacts SignatureFacts SpecFacts SpecSigning NoncesFacts.

Section Helpers.
Context {Pr : prims} {Laws : prims_ok Pr} {Tags : tags_ok Pr}.
Add Ring fring0 : (fe_ring_theory (n := @ord Pr)).

Lemma z2b_0 : z2b 0 = x00. Proof. reflexivity. Qed.
Lemma z2b_1 : z2b 1 = x01. Proof. reflexivity. Qed.

(** The scalars of a builder whose hash input is BIP327's. *)
Lemma matching_build (b : builder Pr) pk :
  length (nonce_seed_bytes b) = 32%nat -> b_pubkey b = Some pk -> b_extra_inputs b <> [] ->
  (b_seckey b <> None \/ tagged_hash "MuSig/aux" (nonce_seed_bytes b) = nonce_seed_bytes b) ->
  let h i := nonce_int (Pr := Pr) (bip327_input_of b pk i) in
  fz (sval (k1 (build b))) = (if h 0 =? 0 then 1 else h 0) /\
  fz (sval (k2 (build b))) = (if h 1 =? 0 then 1 else h 1) /\
  bip327_gen_of b pk =
    if (h 0 =? 0) || (h 1 =? 0) then AssertFailed
    else Ret (secnonce_to_bytes (build b) ++ cbytes pk, pubnonce_to_bytes (public_nonce (build b))).
Proof.
  intros HL Hp He Hs h.
  pose proof (proj2 (input_matches_iff b pk 0 HL Hp) (conj He Hs)) as E0.
  pose proof (proj2 (input_matches_iff b pk 1 HL Hp) (conj He Hs)) as E1.
  rewrite z2b_0 in E0. rewrite z2b_1 in E1.
  destruct (build_ints b) as [F0 F1]. cbv zeta in F0, F1. rewrite E0 in F0. rewrite E1 in F1.
  fold (h 0) in F0. fold (h 1) in F1. split; [exact F0|]. split; [exact F1|].
  unfold bip327_gen_of. rewrite gen_internal_cases. cbv zeta. fold (bip327_input_of b pk 0). fold (bip327_input_of b pk 1).
  fold (h 0). fold (h 1).
  destruct (h 0 =? 0) eqn:Z0; [reflexivity|]. destruct (h 1 =? 0) eqn:Z1; [reflexivity|].
  cbn [orb]. rewrite <- F0, <- F1, !point_mul_G, <- !base_mul_val, !cbytes_ser, !bytes_from_fz.
  unfold secnonce_to_bytes, pubnonce_to_bytes, public_nonce. cbn [pR1 pR2]. rewrite <- app_assoc. reflexivity.
Qed.

Lemma nonce_agg_loop_bytes j (bs : list bytes) i (R : pt) :
  (j = 0 \/ j = 1)%nat -> Forall (fun b => length b = 66%nat) bs ->
  (exists Ps : list (point Pr), Forall2 (fun b P => firstn 33 (skipn (j * 33) b) = ser_point P) bs Ps /\
     nonce_agg_loop j i bs R = Ret (pt_add R (psum (map (fun P : point Pr => pval P) Ps)))) \/
  (exists m b, nth_error bs m = Some b /\ parse_point (Pr := Pr) (firstn 33 (skipn (j * 33) b)) = None /\
     nonce_agg_loop j i bs R = InvalidContribution (Some (i + m)%nat) CPubnonce).
Proof.
  intro Hj. revert i R. induction bs as [|b bs IH]; intros i R HF.
  - left. exists []. split; [constructor|]. cbn [nonce_agg_loop map]. rewrite psum_nil, add_O_r. reflexivity.
  - inversion HF as [|? ? H1 H2]; subst. cbn [nonce_agg_loop]. rewrite cpoint_parse.
    destruct (parse_point (firstn 33 (skipn (j * 33) b))) as [P|] eqn:EP.
    + cbn [py_blame py_bind]. destruct (IH (S i) (pt_add R P) H2) as [(Ps & F & E)|(m & b' & Hm & Hb & E)].
      * left. exists (P :: Ps). split; [constructor; [apply parse_point_Some, EP|exact F]|].
        rewrite E. cbn [map]. rewrite psum_cons, add_assoc. reflexivity.
      * right. exists (S m), b'. split; [exact Hm|]. split; [exact Hb|]. rewrite E. f_equal. f_equal. lia.
    + right. exists 0%nat, b. split; [reflexivity|]. split; [exact EP|].
      cbn [py_blame py_bind]. rewrite Nat.add_0_r. reflexivity.
Qed.

Lemma pubnonce_split b : length b = 66%nat ->
  pubnonce_from_bytes (Pr := Pr) b =
  match parse_point (firstn 33 b), parse_point (firstn 33 (skipn 33 b)) with
  | Some P, Some Q => Ok {| pR1 := P; pR2 := Q |}
  | _, _ => Err InvalidPoint
  end.
Proof.
  intro H. unfold pubnonce_from_bytes. rewrite H. cbn [Nat.eqb negb].
  rewrite (firstn_all2 (n := 33) (skipn 33 b)) by (rewrite skipn_length, H; lia). 
  destruct (parse_point (firstn 33 b)), (parse_point (skipn 33 b)); reflexivity.
Qed.

Lemma round_input_eq (c : key_agg_ctx Pr) seed i pk sp b :
  round_builder c seed i pk sp = Ok b ->
  (forall k, nonce_preimage b ++ [k] = round_nonce_input seed i pk (aggregated_pubkey c) sp k) /\
  nonce_seed_bytes b = seed /\ b_seckey b = sp_seckey sp /\ b_pubkey b = Some pk /\
  b_aggregated_pubkey b = Some (aggregated_pubkey c) /\ b_message b = sp_message sp /\
  b_extra_inputs b = be_enc 4 (Z.of_nat i) :: sp_extra_inputs sp.
Proof.
  unfold round_builder, with_extra_input, with_spices.
  destruct (extra_input_ok _); cbn [bind]; [|discriminate].
  cbn [b_extra_inputs set_extra_inputs with_aggregated_pubkey with_pubkey builder_new app
       nonce_seed_bytes b_seckey b_pubkey b_aggregated_pubkey b_message].
  destruct (extra_input_ok _); [|discriminate]. intro H. apply Ok_inj in H. subst b.
  cbn [nonce_seed_bytes b_seckey b_pubkey b_aggregated_pubkey b_message b_extra_inputs].
  assert (O1 : opt_or (sp_seckey sp) None = sp_seckey sp) by (destruct (sp_seckey sp); reflexivity).
  assert (O2 : opt_or (sp_message sp) None = sp_message sp) by (destruct (sp_message sp); reflexivity).
  rewrite O1, O2. split; [|auto 10]. intro k.
  rewrite preimage_fields.
  cbn [nonce_seed_bytes b_seckey b_pubkey b_aggregated_pubkey b_message b_extra_inputs].
  unfold round_nonce_input. rewrite cbytes_ser. unfold xbytes. rewrite <- !app_assoc.
  cbn [pk_field agg_field app extra_field]. unfold extra_total. cbn [concat].
  rewrite zlen_app. unfold zlen at 1. rewrite be_enc_length. change (Z.of_nat 4) with 4.
  rewrite <- !app_assoc. reflexivity.
Qed.
End Helpers.

Section C35_generate_is_bip327.
Context {Pr : prims}.
Add Ring ring_C35_generate_is_bip327 : (fe_ring_theory (n := @ord Pr)).
Lemma C35_generate_is_bip327_proof {Laws : prims_ok Pr} {Tags : tags_ok Pr} (seed : bytes) (sk : scalar Pr) (aggpk : point Pr) (msg extra : bytes) (HL : length seed = 32%nat) :
  let skb := bytes_from_int (fz (sval sk)) in
  let pk := cbytes (point_mul pt_G (fz (sval sk))) in
  let h i := nonce_int (Pr := Pr) (bip327_nonce_input seed (Some skb) pk (Some (xbytes aggpk)) (Some msg) (Some extra) i) in
  (zlen extra <= 4294967295 -> exists sn, generate seed sk aggpk msg extra = Ok sn /\
     fz (sval (k1 sn)) = (if h 0 =? 0 then 1 else h 0) /\
     fz (sval (k2 sn)) = (if h 1 =? 0 then 1 else h 1) /\
     nonce_gen_internal seed (Some skb) pk (Some (xbytes aggpk)) (Some msg) (Some extra) =
       if (h 0 =? 0) || (h 1 =? 0) then AssertFailed
       else Ret (secnonce_to_bytes sn ++ pk, pubnonce_to_bytes (public_nonce sn))) /\
  (zlen extra > 4294967295 -> generate seed sk aggpk msg extra = Panic).
Proof.
  intros skb pk h. unfold generate, with_extra_input.
  cbn [b_extra_inputs with_message with_aggregated_pubkey with_seckey builder_new app].
  unfold extra_input_ok, extra_total. cbn [concat]. rewrite app_nil_r. change u32_max with 4294967295. split; intro Hz.
  - rewrite (proj2 (Z.leb_le _ _) Hz). cbn [bind].
    set (b := set_extra_inputs _ _). exists (build b). split; [reflexivity|].
    assert (Epk : pk = cbytes (base_mul sk)) by (unfold pk; rewrite point_mul_G, <- base_mul_val; reflexivity).
    pose proof (matching_build b (base_mul sk) HL eq_refl) as M.
    assert (Hn : b_extra_inputs b <> []) by discriminate.
    assert (Hs : b_seckey b <> None) by discriminate.
    specialize (M Hn (or_introl Hs)). cbv beta zeta in M.
    assert (Ei : forall i, bip327_input_of b (base_mul sk) i
                 = bip327_nonce_input seed (Some skb) pk (Some (xbytes aggpk)) (Some msg) (Some extra) i).
    { intro i. unfold bip327_input_of, b, request_of, skb.
      cbn [set_extra_inputs with_message with_aggregated_pubkey with_seckey builder_new nonce_seed_bytes
           b_seckey b_aggregated_pubkey b_message b_extra_inputs option_map nr_aggpk nr_extra concat].
      rewrite app_nil_r, Epk. reflexivity. }
    rewrite !Ei in M. fold (h 0) in M. fold (h 1) in M. destruct M as (M1 & M2 & M3).
    split; [exact M1|]. split; [exact M2|]. rewrite Epk. rewrite <- M3.
    unfold bip327_gen_of, b, request_of, skb.
    cbn [set_extra_inputs with_message with_aggregated_pubkey with_seckey builder_new nonce_seed_bytes
         b_seckey b_aggregated_pubkey b_message b_extra_inputs option_map nr_aggpk nr_extra concat].
    rewrite app_nil_r. reflexivity.
  - rewrite (proj2 (Z.leb_gt _ _)) by lia. reflexivity.
Qed.
End C35_generate_is_bip327.

Section C36_input_matches_exactly_when.
Context {Pr : prims}.
Add Ring ring_C36_input_matches_exactly_when : (fe_ring_theory (n := @ord Pr)).
Lemma C36_input_matches_exactly_when_proof {Laws : prims_ok Pr} {Tags : tags_ok Pr} (b : builder Pr) (i : Z) (HL : length (nonce_seed_bytes b) = 32%nat) :
  (forall pk, b_pubkey b = Some pk ->
    (nonce_preimage b ++ [z2b i] = bip327_input_of b pk i <->
     b_extra_inputs b <> [] /\
     (b_seckey b <> None \/ tagged_hash "MuSig/aux" (nonce_seed_bytes b) = nonce_seed_bytes b))) /\
  (b_pubkey b = None -> forall pk, nonce_preimage b ++ [z2b i] <> bip327_input_of b pk i).
Proof.
  split.
  - intros pk Hp. apply input_matches_iff; assumption.
  - intros Hp pk H. rewrite bip327_input_len_pk, preimage_fields, Hp, <- !app_assoc in H.
    apply app_inj_len in H as [_ H].
    2: { rewrite masked_seed_len. destruct (b_seckey b); [rewrite masked_seed_len|]; auto. }
    cbn [pk_field app] in H. discriminate H.
Qed.
End C36_input_matches_exactly_when.

Section C36_build_is_bip327.
Context {Pr : prims}.
Add Ring ring_C36_build_is_bip327 : (fe_ring_theory (n := @ord Pr)).
Lemma C36_build_is_bip327_proof {Laws : prims_ok Pr} {Tags : tags_ok Pr} (b : builder Pr) (pk : point Pr) (sk : scalar Pr) (HL : length (nonce_seed_bytes b) = 32%nat) (Hp : b_pubkey b = Some pk) (Hs : b_seckey b = Some sk) (He : b_extra_inputs b <> []) :
  let h i := nonce_int (Pr := Pr) (bip327_input_of b pk i) in
  fz (sval (k1 (build b))) = (if h 0 =? 0 then 1 else h 0) /\
  fz (sval (k2 (build b))) = (if h 1 =? 0 then 1 else h 1) /\
  bip327_gen_of b pk =
    if (h 0 =? 0) || (h 1 =? 0) then AssertFailed
    else Ret (secnonce_to_bytes (build b) ++ cbytes pk, pubnonce_to_bytes (public_nonce (build b))).
Proof.
  apply matching_build; try assumption. left. congruence.
Qed.
End C36_build_is_bip327.

Lemma C36_documented_match_refuted_proof :
  exists b1 b2 : builder Toy, exists pk,
  b_pubkey b1 = Some pk /\ b_seckey b1 = None /\ b_extra_inputs b1 <> [] /\
  b_pubkey b2 = Some pk /\ b_seckey b2 <> None /\ b_extra_inputs b2 = [] /\
  (exists sn pn, bip327_gen_of b1 pk = Ret (sn, pn) /\ sn <> secnonce_to_bytes (build b1) ++ cbytes pk) /\
  (exists sn pn, bip327_gen_of b2 pk = Ret (sn, pn) /\ sn <> secnonce_to_bytes (build b2) ++ cbytes pk).
Proof.
  assert (A : forall (r : py (bytes * bytes)) x,
    (match r with Ret (sn, _) => negb (bytes_eqb sn x) | _ => false end) = true ->
    exists sn pn, r = Ret (sn, pn) /\ sn <> x).
  { intros r x H. destruct r as [[sn pn]| | |]; try discriminate. exists sn, pn. split; [reflexivity|].
    intros ->. rewrite (proj2 (bytes_eqb_eq x x) eq_refl) in H. discriminate. }
  exists (toy_builder None [[x01]]), (toy_builder (Some sk_a) []), (base_mul sk_a).
  do 2 (split; [reflexivity|]). split; [discriminate|]. split; [reflexivity|]. split; [discriminate|].
  split; [reflexivity|]. split; apply A; vm_compute; reflexivity.
Qed.

Section C37_hash_input_injective.
Context {Pr : prims}.
Add Ring ring_C37_hash_input_injective : (fe_ring_theory (n := @ord Pr)).
Lemma C37_hash_input_injective_proof {Laws : prims_ok Pr} {Tags : tags_ok Pr} (b1 b2 : builder Pr) (i1 i2 : byte) (H1 : forall m, b_message b1 = Some m -> zlen m < 2 ^ 64) (H2 : forall m, b_message b2 = Some m -> zlen m < 2 ^ 64) :
  (nonce_preimage b1 ++ [i1] = nonce_preimage b2 ++ [i2] <-> i1 = i2 /\ request_of b1 = request_of b2) /\
  (request_of b1 = request_of b2 -> nonce_seed_bytes b1 = nonce_seed_bytes b2 -> b_seckey b1 = b_seckey b2) /\
  (request_of b1 = request_of b2 -> b_pubkey b1 = b_pubkey b2).
Proof.
  assert (M1 : msg_small (b_message b1)) by (destruct (b_message b1) as [m|]; [exact (H1 m eq_refl)|exact I]).
  assert (M2 : msg_small (b_message b2)) by (destruct (b_message b2) as [m|]; [exact (H2 m eq_refl)|exact I]).
  split; [split|split].
  - intro H. apply preimage_inj in H as [-> H]; [|assumption..]. split; [reflexivity|]. apply request_eq, H.
  - intros [-> H]. rewrite (request_preimage _ _ H). reflexivity.
  - intros H Hs. apply request_eq in H as [H _]. rewrite Hs in H. exact (masked_seed_sk _ _ _ H).
  - intro H. apply request_eq in H as (_ & H & _). exact H.
Qed.
End C37_hash_input_injective.

Section C37_build_depends_on_request_only.
Context {Pr : prims}.
Add Ring ring_C37_build_depends_on_request_only : (fe_ring_theory (n := @ord Pr)).
Lemma C37_build_depends_on_request_only_proof {Laws : prims_ok Pr} {Tags : tags_ok Pr} (b1 b2 : builder Pr) :
  (request_of b1 = request_of b2 -> build b1 = build b2) /\
  (forall l1 l2, l1 <> [] -> l2 <> [] -> concat l1 = concat l2 ->
     build (set_extra_inputs b1 l1) = build (set_extra_inputs b1 l2)).
Proof.
  assert (A : forall b b' : builder Pr, request_of b = request_of b' -> build b = build b').
  { intros b b' H. unfold build. rewrite (request_preimage _ _ H). reflexivity. }
  split; [apply A|]. intros l1 l2 N1 N2 E. apply A. apply request_eq.
  cbn [set_extra_inputs nonce_seed_bytes b_seckey b_pubkey b_aggregated_pubkey b_message b_extra_inputs].
  repeat split. destruct l1, l2; cbn [joined]; try congruence.
Qed.
End C37_build_depends_on_request_only.

Section C38_round_nonce_source.
Context {Pr : prims}.
Add Ring ring_C38_round_nonce_source : (fe_ring_theory (n := @ord Pr)).
Lemma C38_round_nonce_source_proof {Laws : prims_ok Pr} {Tags : tags_ok Pr} (c : key_agg_ctx Pr) (seed : bytes) (i : nat) (sp : spices Pr) (r : first_round Pr) (Hr : first_round_new c seed i sp = Ok r) :
  exists pk, get_pubkey c i = Some pk /\
  (let h := nonce_int (Pr := Pr) (round_nonce_input seed i pk (aggregated_pubkey c) sp x00) in
   fz (sval (k1 (fr_secnonce r))) = if h =? 0 then 1 else h) /\
  (let h := nonce_int (Pr := Pr) (round_nonce_input seed i pk (aggregated_pubkey c) sp x01) in
   fz (sval (k2 (fr_secnonce r))) = if h =? 0 then 1 else h).
Proof.
  unfold first_round_new in Hr. destruct (get_pubkey c i) as [pk|] eqn:Ep; [|discriminate].
  destruct (round_builder c seed i pk sp) as [b| |] eqn:Eb; [|discriminate..].
  destruct (round_input_eq _ _ _ _ _ _ Eb) as [HI _].
  destruct (place _ _ _ _) as [s [u| |]]; try discriminate. apply Ok_inj in Hr. subst r. cbn [fr_secnonce].
  exists pk. split; [reflexivity|]. destruct (build_ints b) as [B1 B2]. rewrite HI in B1, B2. split; assumption.
Qed.
End C38_round_nonce_source.

Section C38_rounds_separate.
Context {Pr : prims}.
Add Ring ring_C38_rounds_separate : (fe_ring_theory (n := @ord Pr)).
Lemma C38_rounds_separate_proof {Laws : prims_ok Pr} {Tags : tags_ok Pr} (seed1 seed2 : bytes) (i1 i2 : nat) (pk1 pk2 Q1 Q2 : point Pr) (sp1 sp2 : spices Pr) (n1 n2 : byte) (H1 : forall m, sp_message sp1 = Some m -> zlen m < 2 ^ 64) (H2 : forall m, sp_message sp2 = Some m -> zlen m < 2 ^ 64) :
  round_nonce_input seed1 i1 pk1 Q1 sp1 n1 = round_nonce_input seed2 i2 pk2 Q2 sp2 n2 ->
  n1 = n2 /\ Z.of_nat i1 mod 2 ^ 32 = Z.of_nat i2 mod 2 ^ 32 /\
  (Z.of_nat i1 < 2 ^ 32 -> Z.of_nat i2 < 2 ^ 32 -> i1 = i2) /\
  pk1 = pk2 /\ xbytes Q1 = xbytes Q2 /\ sp_message sp1 = sp_message sp2 /\
  concat (sp_extra_inputs sp1) = concat (sp_extra_inputs sp2) /\
  masked_seed seed1 (sp_seckey sp1) = masked_seed seed2 (sp_seckey sp2) /\
  (seed1 = seed2 -> sp_seckey sp1 = sp_seckey sp2).
Proof.
  intro H. unfold round_nonce_input in H.
  assert (M1 : msg_small (sp_message sp1)) by (destruct (sp_message sp1) as [m|]; [exact (H1 m eq_refl)|exact I]).
  assert (M2 : msg_small (sp_message sp2)) by (destruct (sp_message sp2) as [m|]; [exact (H2 m eq_refl)|exact I]).
  apply app_inj_len in H as [E1 H]; [|rewrite !masked_seed_len; reflexivity].
  cbn [app] in H. apply cons_inj in H as [_ H].
  rewrite !cbytes_ser in H. apply app_inj_len in H as [E2 H]; [|rewrite !ser_point_len; reflexivity].
  apply cons_inj in H as [_ H]. unfold xbytes in *.
  apply app_inj_len in H as [E3 H]; [|rewrite !x_len; reflexivity].
  apply msg_field_inj in H as [E4 H]; [|assumption..].
  apply app_inj_len in H as [_ H]; [|rewrite !be_enc_length; reflexivity].
  apply app_inj_len in H as [E5 H]; [|rewrite !be_enc_length; reflexivity].
  apply app_inj_tail in H as [E6 ->].
  apply (f_equal be_dec) in E5. rewrite !be_dec_enc in E5. change (256 ^ Z.of_nat 4) with (2 ^ 32) in E5.
  split; [reflexivity|]. split; [exact E5|]. split.
  { intros L1 L2. rewrite !Z.mod_small in E5 by lia. lia. }
  split; [apply ser_point_inj, E2|]. split; [exact E3|]. split; [exact E4|]. split; [exact E6|]. split; [exact E1|].
  intros ->. exact (masked_seed_sk _ _ _ E1).
Qed.
End C38_rounds_separate.

Section C39_secret_nonces_in_range.
Context {Pr : prims}.
Add Ring ring_C39_secret_nonces_in_range : (fe_ring_theory (n := @ord Pr)).
Lemma C39_secret_nonces_in_range_proof {Laws : prims_ok Pr} {Tags : tags_ok Pr} (sn : sec_nonce Pr) (Hsn : (exists b, sn = build b) \/ (exists bs, secnonce_from_bytes bs = Ok sn)) :
  1 <= fz (sval (k1 sn)) < n_ /\ 1 <= fz (sval (k2 sn)) < n_ /\
  is_infinite (pR1 (public_nonce sn)) = false /\ is_infinite (pR2 (public_nonce sn)) = false /\
  pval (pR1 (public_nonce sn)) = point_mul pt_G (fz (sval (k1 sn))) /\
  pval (pR2 (public_nonce sn)) = point_mul pt_G (fz (sval (k2 sn))).
Proof.
  assert (A : forall k : scalar Pr, 1 <= fz (sval k) < n_).
  { intro k. pose proof (fz_range (sval k)). unfold n_. split; [|lia].
    assert (fz (sval k) <> 0); [|lia]. intro E. apply (scalar_nz k). apply fz_zero. apply Z.eqb_eq. exact E. }
  split; [apply A|]. split; [apply A|]. rewrite !is_infinite_point, !point_mul_G.
  unfold public_nonce. cbn [pR1 pR2]. rewrite !base_mul_val. auto.
Qed.
End C39_secret_nonces_in_range.

Section C39_degenerate_hash.
Context {Pr : prims}.
Add Ring ring_C39_degenerate_hash : (fe_ring_theory (n := @ord Pr)).
Lemma C39_degenerate_hash_proof {Laws : prims_ok Pr} {Tags : tags_ok Pr} (b : builder Pr) :
  (forall h, h = int_from_bytes (tagged_hash "MuSig/nonce" (nonce_preimage b ++ [x00])) mod n_ ->
     fz (sval (k1 (build b))) = (if h =? 0 then 1 else h)) /\
  (forall h, h = int_from_bytes (tagged_hash "MuSig/nonce" (nonce_preimage b ++ [x01])) mod n_ ->
     fz (sval (k2 (build b))) = (if h =? 0 then 1 else h)).
Proof.
  split; intros h ->; [exact (proj1 (build_ints b))|exact (proj2 (build_ints b))].
Qed.
End C39_degenerate_hash.

Section C39_final_nonce.
Context {Pr : prims}.
Add Ring ring_C39_final_nonce : (fe_ring_theory (n := @ord Pr)).
Lemma C39_final_nonce_proof {Laws : prims_ok Pr} (an : agg_nonce Pr) (b : mscalar Pr) :
  let R := pt_add (aR1 an) (point_mul (aR2 an) (fz b)) in
  is_infinite (final_nonce an b) = false /\
  (is_infinite R = false -> pval (final_nonce an b) = R) /\
  (is_infinite R = true -> pval (final_nonce an b) = pt_G).
Proof.
  intro R. split; [apply is_infinite_point|]. unfold final_nonce. rewrite <- point_mul_pmul. fold R. split; intro H.
  - destruct (not_inf R) as [P|] eqn:E; [apply not_inf_Some in E; auto|]. apply not_inf_None in E.
    apply is_infinite_O in E. congruence.
  - apply is_infinite_O, not_inf_None in H. rewrite H. reflexivity.
Qed.
End C39_final_nonce.

Section C43_sum_is_nonce_agg.
Context {Pr : prims}.
Add Ring ring_C43_sum_is_nonce_agg : (fe_ring_theory (n := @ord Pr)).
Lemma C43_sum_is_nonce_agg_proof {Laws : prims_ok Pr} (pns : list (pub_nonce Pr)) :
  nonce_agg (map pubnonce_to_bytes pns) = Ret (aggnonce_to_bytes (agg_sum pns)) /\
  (forall pns', Permutation pns pns' -> agg_sum pns = agg_sum pns') /\
  (forall groups, Permutation pns (concat groups) ->
     aR1 (agg_sum pns) = fold_right pt_add pt_O (map (fun g => aR1 (agg_sum g)) groups) /\
     aR2 (agg_sum pns) = fold_right pt_add pt_O (map (fun g => aR2 (agg_sum g)) groups)).
Proof.
  assert (P1 : forall l l' : list (pub_nonce Pr), Permutation l l' -> agg_sum l = agg_sum l').
  { intros l l' H. unfold agg_sum. f_equal; apply psum_perm, Permutation_map, H. }
  split; [apply nonce_agg_eq|]. split; [apply P1|]. intros groups H. rewrite (P1 _ _ H). clear H.
  induction groups as [|g gs [IH1 IH2]]; cbn [concat map fold_right]; [split; reflexivity|].
  rewrite <- IH1, <- IH2. unfold agg_sum. cbn [aR1 aR2]. rewrite !map_app, !psum_app. split; reflexivity.
Qed.
End C43_sum_is_nonce_agg.

Section C43_received_nonces.
Context {Pr : prims}.
Add Ring ring_C43_received_nonces : (fe_ring_theory (n := @ord Pr)).
Lemma C43_received_nonces_proof {Laws : prims_ok Pr} (bs : list bytes) (HL : Forall (fun b => length b = 66%nat) bs) :
  (exists pns : list (pub_nonce Pr), Forall2 (fun b pn => pubnonce_from_bytes b = Ok pn) bs pns /\
     nonce_agg bs = Ret (aggnonce_to_bytes (agg_sum pns))) \/
  (exists i b, nth_error bs i = Some b /\ pubnonce_from_bytes (Pr := Pr) b = Err InvalidPoint /\
     nonce_agg bs = InvalidContribution (Some i) CPubnonce).
Proof.
  unfold nonce_agg.
  destruct (nonce_agg_loop_bytes 0 bs 0 pt_O (or_introl eq_refl) HL) as [(Ps & F1 & E1)|(m & b & Hm & Hb & E1)].
  2: { right. exists m, b. split; [exact Hm|]. split; [|rewrite E1; reflexivity].
       rewrite pubnonce_split by (apply nth_error_In in Hm; exact (proj1 (Forall_forall _ _) HL _ Hm)).
       cbn [Nat.mul skipn] in Hb. rewrite Hb. reflexivity. }
  destruct (nonce_agg_loop_bytes 1 bs 0 pt_O (or_intror eq_refl) HL) as [(Qs & F2 & E2)|(m & b & Hm & Hb & E2)].
  2: { right. exists m, b. split; [exact Hm|]. split; [|rewrite E1, E2; reflexivity].
       rewrite pubnonce_split by (apply nth_error_In in Hm; exact (proj1 (Forall_forall _ _) HL _ Hm)).
       change (1 * 33)%nat with 33%nat in Hb. rewrite Hb. destruct (parse_point (firstn 33 b)); reflexivity. }
  left. rewrite E1, E2. cbn [py_bind]. rewrite !add_O_l, !cbytes_ext_ser.
  assert (A : exists pns : list (pub_nonce Pr), Forall2 (fun b pn => pubnonce_from_bytes b = Ok pn) bs pns /\
            Ps = map (fun n => pR1 n) pns /\ Qs = map (fun n => pR2 n) pns).
  { clear E1 E2. revert Qs F2 HL. induction F1 as [|b P bs Ps Hb F1 IH]; intros Qs F2 HL.
    - inversion F2. exists []. repeat split. constructor.
    - inversion F2 as [|? Q ? Qs' Hq F2' E3 E4]; subst. inversion HL as [|? ? HL1 HL2]; subst.
      destruct (IH Qs' F2' HL2) as (pns & F & -> & ->).
      exists ({| pR1 := P; pR2 := Q |} :: pns). split; [constructor; [|exact F]|split; reflexivity].
      rewrite pubnonce_split by exact HL1. cbn [Nat.mul skipn] in Hb. change (1 * 33)%nat with 33%nat in Hq.
      rewrite Hb, Hq, !parse_point_ser. reflexivity. }
  destruct A as (pns & F & -> & ->). exists pns. split; [exact F|].
  unfold aggnonce_to_bytes, agg_sum. cbn [aR1 aR2]. rewrite !map_map. reflexivity.
Qed.
End C43_received_nonces.

Section C48_builder_calls.
Context {Pr : prims}.
Add Ring ring_C48_builder_calls : (fe_ring_theory (n := @ord Pr)).
Lemma C48_builder_calls_proof (seed : bytes) (l : list (bcall Pr)) :
  let extra := concat (map adds_extra l) in
  (zlen (concat extra) <= 4294967295 -> exists b, brun (builder_new seed) l = Ok b /\
     nonce_seed_bytes b = seed /\ b_extra_inputs b = extra /\
     (forall o, b_seckey b = o <-> last_set sets_seckey l o) /\
     (forall o, b_pubkey b = o <-> last_set sets_pubkey l o) /\
     (forall o, b_aggregated_pubkey b = o <-> last_set sets_aggregated l o) /\
     (forall o, b_message b = o <-> last_set sets_message l o)) /\
  (zlen (concat extra) > 4294967295 -> brun (builder_new seed) l = Panic).
Proof.
  intro extra. change 4294967295 with u32_max. fold (extra_total extra).
  destruct (brun_spec seed l) as [[H (b & E & Hs & H1 & H2 & H3 & H4 & H5)]|[H E]]; fold extra in H; (split; intro H'; [|]); try lia.
  - exists b. split; [exact E|]. split; [exact Hs|]. split; [exact H5|].
    repeat split; intros; subst; try assumption; eapply last_set_fun; eassumption.
  - exact E.
Qed.
End C48_builder_calls.

Section C48_spices_calls.
Context {Pr : prims}.
Add Ring ring_C48_spices_calls : (fe_ring_theory (n := @ord Pr)).
Lemma C48_spices_calls_proof (l : list (scall Pr)) :
  let extra := concat (map sadds_extra l) in
  (zlen (concat extra) <= 4294967295 -> exists s, srun spices_new l = Ok s /\
     sp_extra_inputs s = extra /\
     (forall o, sp_seckey s = o <-> last_set ssets_seckey l o) /\
     (forall o, sp_message s = o <-> last_set ssets_message l o)) /\
  (zlen (concat extra) > 4294967295 -> srun (Pr := Pr) spices_new l = Panic).
Proof.
  intro extra. change 4294967295 with u32_max. fold (extra_total extra).
  destruct (srun_spec l) as [[H (s & E & H1 & H2 & H3)]|[H E]]; fold extra in H; (split; intro H'; [|]); try lia.
  - exists s. split; [exact E|]. split; [exact H3|].
    repeat split; intros; subst; try assumption; eapply last_set_fun; eassumption.
  - exact E.
Qed.
End C48_spices_calls.

(** Proofs of the theorems of PropertiesHashing.v. *)
From Coq Require Import String List.
From Verif Require Import Bytes BytesFacts Prims PrimsFacts TaggedHashes Errors SpecTags SpecBIP327
  KeyAgg Nonces Signature Signing SigAgg Bip340 SpecCtx SpecView SpecNonces SpecHashing Toy ToyData ToyNonces.
Import ListNotations.
Open Scope list_scope.
Open Scope Z_scope.
From Coq Require Import Lia.
From Verif Require Import CodecFacts KeyAggFacts KeyAggCodec NoncesFacts SpecFacts SpecSigning ProofsSecp.
Open Scope Z_scope.

Section Helpers.
Context {Pr : prims} {Laws : prims_ok Pr} {Tags : tags_ok Pr}.

(** The precomputed tag digest of a use of the hash (src/tagged_hashes.rs). *)
Definition use_digest (u : hash_use) : bytes :=
  match u with
  | UseKeyList _ => KEYAGG_LIST_TAG_DIGEST
  | UseKeyCoefficient _ _ => KEYAGG_COEFF_TAG_DIGEST
  | UseTapTweak _ _ => TAPROOT_TWEAK_TAG_DIGEST
  | UseNonceSeed _ => MUSIG_AUX_TAG_DIGEST
  | UseNonce _ _ => MUSIG_NONCE_TAG_DIGEST
  | UseNonceCoefficient _ _ _ _ => MUSIG_NONCECOEF_TAG_DIGEST
  | UseChallenge _ _ _ => BIP0340_CHALLENGE_TAG_DIGEST
  | UseSoloSeed _ => BIP0340_AUX_TAG_DIGEST
  | UseSoloNonce _ _ _ => BIP0340_NONCE_TAG_DIGEST
  | UseBatch _ => BIP0340_BATCH_TAG_DIGEST
  end.
Lemma use_digest_tag u : sha256 (ascii_bytes (use_tag u)) = use_digest u.
Proof.
  destruct u; cbn [use_tag use_digest].
  - apply tag_keyagg_list. - apply tag_keyagg_coeff. - apply tag_taptweak. - apply tag_musig_aux. - apply tag_musig_nonce.
  - apply tag_musig_noncecoef. - apply tag_bip340_challenge. - apply tag_bip340_aux. - apply tag_bip340_nonce. - apply tag_bip340_batch.
Qed.
Lemma hash_of_tagged u : hash_of u = tagged (use_digest u) (use_fields u).
Proof. unfold hash_of, hash_input, tagged. rewrite use_digest_tag. reflexivity. Qed.
Lemma hash_int_reduce u : hash_int u = fz (reduce_from (Pr := Pr) (tagged (use_digest u) (use_fields u))).
Proof. unfold hash_int. rewrite reduce_mod, hash_of_tagged. reflexivity. Qed.

(** The number of its tag. *)
Definition use_kind (u : hash_use) : nat :=
  match u with
  | UseKeyList _ => 0 | UseKeyCoefficient _ _ => 1 | UseNonceSeed _ => 2 | UseNonce _ _ => 3
  | UseNonceCoefficient _ _ _ _ => 4 | UseSoloSeed _ => 5 | UseSoloNonce _ _ _ => 6 | UseChallenge _ _ _ => 7
  | UseBatch _ => 8 | UseTapTweak _ _ => 9
  end%nat.
(** The tag digests, by these numbers. *)
Definition digests : list bytes := [KEYAGG_LIST_TAG_DIGEST; KEYAGG_COEFF_TAG_DIGEST; MUSIG_AUX_TAG_DIGEST; MUSIG_NONCE_TAG_DIGEST;
  MUSIG_NONCECOEF_TAG_DIGEST; BIP0340_AUX_TAG_DIGEST; BIP0340_NONCE_TAG_DIGEST; BIP0340_CHALLENGE_TAG_DIGEST;
  BIP0340_BATCH_TAG_DIGEST; TAPROOT_TWEAK_TAG_DIGEST].
Lemma use_digest_nth u : nth_error digests (use_kind u) = Some (use_digest u).
Proof. destruct u; reflexivity. Qed.
Lemma use_digest_len u : length (use_digest u) = 32%nat.
Proof. destruct u; reflexivity. Qed.
Lemma use_digest_kind u v : use_digest u = use_digest v -> use_kind u = use_kind v.
Proof.
  intro H. apply (proj1 (NoDup_nth_error digests) digests_distinct).
  - apply nth_error_Some. rewrite use_digest_nth. discriminate.
  - rewrite !use_digest_nth, H. reflexivity.
Qed.

Lemma concat_inj n (l m : list bytes) : (0 < n)%nat -> Forall (has_len n) l -> Forall (has_len n) m -> concat l = concat m -> l = m.
Proof.
  intros Hn Hl. revert m. induction Hl as [|x l Hx Hl IH]; intros [|y m] Hm E; cbn [concat] in E; [reflexivity| | |].
  - inversion Hm as [|? ? Hy]; subst. apply (f_equal (@length _)) in E. rewrite app_length, Hy in E. cbn in E. lia.
  - apply (f_equal (@length _)) in E. rewrite app_length, Hx in E. cbn in E. lia.
  - inversion Hm as [|? ? Hy Hm']; subst. apply app_inj_len in E as [-> E]; [|rewrite Hx, Hy; reflexivity].
    f_equal. apply IH; assumption.
Qed.
Lemma len_field_inj k a b r s : (k <= 255)%nat -> (0 < k)%nat -> opt_len k a -> opt_len k b ->
  len_field 1 a ++ r = len_field 1 b ++ s -> a = b /\ r = s.
Proof.
  intros Hk Hk0 Ha Hb H.
  assert (A : forall (x y : Z) (u v : bytes), 0 <= x < 256 -> 0 <= y < 256 -> be_enc 1 x ++ u = be_enc 1 y ++ v -> x = y /\ u = v).
  { intros x y u v Hx Hy E. apply app_inj_len in E as [E ->]; [|rewrite !be_enc_length; reflexivity].
    apply be_enc_inj in E; auto. }
  destruct a as [a|], b as [b|]; cbn [len_field opt_len] in *; rewrite <- ?app_assoc in H;
    apply A in H as [E1 E2]; unfold zlen in *; try lia.
  - apply app_inj_len in E2 as [-> ->]; [auto|]. congruence.
  - auto.
Qed.
Lemma opt_field_inj a b i j : opt_field 4 a ++ [i] = opt_field 4 b ++ [j] -> a = b /\ i = j.
Proof.
  intro H. apply app_inj_tail in H as [H ->]. split; [|reflexivity].
  destruct a as [a|], b as [b|]; cbn [opt_field] in *; [| | |reflexivity].
  - apply app_inj_len in H as [_ ->]; [reflexivity|]. rewrite !be_enc_length. reflexivity.
  - apply (f_equal (@length _)) in H. rewrite app_length, be_enc_length in H. discriminate.
  - apply (f_equal (@length _)) in H. rewrite app_length, be_enc_length in H. discriminate.
Qed.
Lemma split_rows (l m : list (bytes * bytes)) :
  Forall (fun r => has_len 32 (fst r) /\ has_len 32 (snd r)) l -> Forall (fun r => has_len 32 (fst r) /\ has_len 32 (snd r)) m ->
  concat (map fst l) ++ concat (map snd l) = concat (map fst m) ++ concat (map snd m) -> l = m.
Proof.
  intros Hl Hm E.
  assert (L : forall l : list bytes, Forall (has_len 32) l -> length (concat l) = (32 * length l)%nat).
  { clear. induction 1 as [|x l Hx Hl IH]; [reflexivity|]. cbn [concat length]. rewrite app_length, Hx, IH. lia. }
  assert (F1 : forall l, Forall (fun r : bytes * bytes => has_len 32 (fst r) /\ has_len 32 (snd r)) l -> Forall (has_len 32) (map fst l)).
  { clear. induction 1 as [|x l [Hx _] Hl IH]; constructor; assumption. }
  assert (F2 : forall l, Forall (fun r : bytes * bytes => has_len 32 (fst r) /\ has_len 32 (snd r)) l -> Forall (has_len 32) (map snd l)).
  { clear. induction 1 as [|x l [_ Hx] Hl IH]; constructor; assumption. }
  assert (N : length l = length m).
  { apply (f_equal (@length _)) in E. rewrite !app_length, !L in E by auto. rewrite !map_length in E. lia. }
  apply app_inj_len in E as [E1 E2].
  2: { rewrite !L by auto. rewrite !map_length, N. reflexivity. }
  apply (concat_inj 32) in E1; [|lia|auto|auto]. apply (concat_inj 32) in E2; [|lia|auto|auto].
  clear -E1 E2. revert m E1 E2. induction l as [|[x y] l IH]; intros [|[x' y'] m] E1 E2; cbn [map fst snd] in *; try discriminate; [reflexivity|].
  injection E1 as -> E1. injection E2 as -> E2. f_equal. apply IH; assumption.
Qed.

Lemma use_inj u v : well_formed u -> well_formed v -> hash_input u = hash_input v -> u = v.
Proof.
  intros Hu Hv E. unfold hash_input in E. rewrite !use_digest_tag in E.
  apply app_inj_len in E as [E1 E2]; [|rewrite !use_digest_len; reflexivity].
  apply app_inj_len in E2 as [_ E2]; [|rewrite !use_digest_len; reflexivity].
  apply use_digest_kind in E1.
  destruct u, v; cbn [use_kind] in E1; try discriminate; cbn [use_fields well_formed] in *; unfold has_len in *.
  - f_equal. apply (concat_inj 33) in E2; auto. lia.
  - destruct Hu, Hv. apply app_inj_len in E2 as [-> ->]; congruence.
  - apply app_inj_len in E2 as [-> ->]; congruence.
  - congruence.
  - destruct request as [ra rb rc rd re], request0 as [sa sb sc sd se].
    cbn [nr_rand nr_pk nr_aggpk nr_msg nr_extra] in *. destruct Hu as (U1 & U2 & U3 & U4), Hv as (V1 & V2 & V3 & V4).
    apply app_inj_len in E2 as [-> E2]; [|congruence].
    apply (len_field_inj 33) in E2 as [-> E2]; [|lia|lia|assumption..].
    apply (len_field_inj 32) in E2 as [-> E2]; [|lia|lia|assumption..].
    change (match rd with None => [x00] | Some m => [x01] ++ be_enc 8 (zlen m) ++ m end) with (msg_field rd) in E2.
    change (match sd with None => [x00] | Some m => [x01] ++ be_enc 8 (zlen m) ++ m end) with (msg_field sd) in E2.
    apply msg_field_inj in E2 as [-> E2].
    2: { destruct rd; [apply U4; reflexivity | exact I]. }
    2: { destruct sd; [apply V4; reflexivity | exact I]. }
    apply opt_field_inj in E2 as [-> ->]. reflexivity.
  - destruct Hu as (U1 & U2 & U3), Hv as (V1 & V2 & V3). apply app_inj_len in E2 as [-> E2]; [|congruence].
    apply app_inj_len in E2 as [-> E2]; [|congruence]. apply app_inj_len in E2 as [-> ->]; congruence.
  - destruct Hu as (U1 & U2), Hv as (V1 & V2). apply app_inj_len in E2 as [-> E2]; [|congruence].
    apply app_inj_len in E2 as [-> ->]; congruence.
  - congruence.
  - destruct Hu as (U1 & U2), Hv as (V1 & V2). apply app_inj_len in E2 as [-> E2]; [|congruence].
    apply app_inj_len in E2 as [-> ->]; congruence.
  - f_equal. apply split_rows; assumption.
Qed.

Lemma use_digest_collision u v : well_formed u -> well_formed v -> hash_of u = hash_of v -> u = v \/ collide u v.
Proof.
  intros Hu Hv E. destruct (bytes_eq_dec (hash_input u) (hash_input v)) as [H|H].
  - left. apply use_inj; assumption.
  - right. split; assumption.
Qed.
Lemma use_int_collision u v : well_formed u -> well_formed v -> hash_int u = hash_int v -> u = v \/ collide_mod_n u v.
Proof.
  intros Hu Hv E. destruct (bytes_eq_dec (hash_input u) (hash_input v)) as [H|H].
  - left. apply use_inj; assumption.
  - right. split; assumption.
Qed.

Lemma keys_wf (pks : list (point Pr)) : Forall (has_len 33) (map (fun P : point Pr => cbytes P) pks).
Proof. induction pks; constructor; [|assumption]. unfold has_len. rewrite cbytes_ser. apply ser_point_len. Qed.
Lemma keylist_hash (pks : list (point Pr)) : hash_of (UseKeyList (map (fun P : point Pr => cbytes P) pks)) = hash_pubkeys pks.
Proof.
  rewrite hash_of_tagged. cbn [use_digest use_fields]. unfold hash_pubkeys. rewrite flat_map_ser_concat.
  do 2 f_equal. apply map_ext. intro. apply cbytes_ser.
Qed.
Lemma request_wf (b : builder Pr) i : (forall m, b_message b = Some m -> zlen m < 2 ^ 64) -> well_formed (UseNonce (request_of b) i).
Proof.
  intro Hm. cbn [well_formed request_of nr_rand nr_pk nr_aggpk nr_msg]. split; [apply masked_seed_len|].
  split; [|split; [|exact Hm]].
  - destruct (b_pubkey b); [|exact I]. cbn [option_map opt_len]. rewrite cbytes_ser. apply ser_point_len.
  - destruct (b_aggregated_pubkey b); [|exact I]. apply x_len.
Qed.
Lemma nonce_fields (b : builder Pr) i : use_fields (UseNonce (request_of b) i) = nonce_preimage b ++ [i].
Proof.
  rewrite preimage_fields, <- !app_assoc. cbn [use_fields request_of nr_rand nr_pk nr_aggpk nr_msg nr_extra].
  replace (len_field 1 (option_map (fun P : point Pr => cbytes P) (b_pubkey b))) with (pk_field (b_pubkey b)).
  2: { destruct (b_pubkey b) as [P|]; [|reflexivity]. cbn [option_map len_field pk_field]. rewrite cbytes_ser. unfold zlen. rewrite ser_point_len. reflexivity. }
  replace (len_field 1 (option_map (fun P : point Pr => xbytes P) (b_aggregated_pubkey b))) with (agg_field (b_aggregated_pubkey b)).
  2: { destruct (b_aggregated_pubkey b) as [P|]; [|reflexivity]. cbn [option_map len_field agg_field]. unfold xbytes, zlen. rewrite x_len. reflexivity. }
  replace (opt_field 4 _) with (extra_field (b_extra_inputs b)) by (destruct (b_extra_inputs b); reflexivity).
  reflexivity.
Qed.
Lemma nonce_scalar_int h : fz (sval (nonce_scalar (Pr := Pr) h)) = let k := int_from_bytes h mod n_ in if k =? 0 then 1 else k.
Proof.
  cbv zeta. rewrite reduce_mod. destruct (fe_eq_dec (reduce_from h) fzero) as [E|E].
  - rewrite (nonce_scalar_zero h E), E. cbn [sval scalar_one]. change (fz (fzero : mscalar Pr)) with 0. cbn [Z.eqb]. apply Z.mod_small.
    pose proof (ord_ge_3 (Pr := Pr)). lia.
  - rewrite (nonce_scalar_eq h E). destruct (fz (reduce_from h) =? 0) eqn:H; [|reflexivity].
    destruct E. apply fe_ext. apply Z.eqb_eq in H. rewrite H. reflexivity.
Qed.
End Helpers.

Section C53_inputs_unambiguous.
Context {Pr : prims}.
Add Ring ring_C53_inputs_unambiguous : (fe_ring_theory (n := @ord Pr)).
Lemma C53_inputs_unambiguous_proof {Laws : prims_ok Pr} {Tags : tags_ok Pr} (u v : hash_use) (Hu : well_formed u) (Hv : well_formed v) :
  hash_input u = hash_input v <-> u = v.
Proof.
  split; [apply use_inj; assumption | intros ->; reflexivity].
Qed.
End C53_inputs_unambiguous.

Section C53_hashes_of_the_code.
Context {Pr : prims}.
Add Ring ring_C53_hashes_of_the_code : (fe_ring_theory (n := @ord Pr)).
Lemma C53_hashes_of_the_code_proof {Laws : prims_ok Pr} {Tags : tags_ok Pr} :
  (forall (c : key_agg_ctx Pr) (pk : point Pr), ctx_reachable c -> In pk (pubkeys c) ->
     let keys := map (fun P : point Pr => cbytes P) (pubkeys c) in
     let u := UseKeyCoefficient (hash_of (UseKeyList keys)) (cbytes pk) in
     exists a, key_coefficient c pk = Ok (Some a) /\
       fz a = (if bytes_eqb (cbytes pk) (get_second_key keys) then 1 else hash_int u) /\
       well_formed (UseKeyList keys) /\ well_formed u) /\
  (forall (c : key_agg_ctx Pr) root,
     let u := UseTapTweak (xbytes (aggregated_pubkey c)) root in
     with_taproot_tweak c root =
       match parse_scalar (hash_of u) with Some t => with_xonly_tweak c t | None => Err TweakError end /\
     well_formed u) /\
  (forall (an : agg_nonce Pr) (Q : point Pr) msg,
     let u := UseNonceCoefficient (cbytes_ext (aR1 an)) (cbytes_ext (aR2 an)) (xbytes Q) msg in
     fz (nonce_coefficient an Q msg) = hash_int u /\ well_formed u) /\
  (forall (R Q : point Pr) msg,
     let u := UseChallenge (xbytes R) (xbytes Q) msg in
     fz (compute_challenge_hash_tweak (pt_x R) Q msg) = hash_int u /\ well_formed u) /\
  (forall (b : builder Pr), (forall m, b_message b = Some m -> zlen m < 2 ^ 64) ->
     let u i := UseNonce (request_of b) i in
     let or_one k := if k =? 0 then 1 else k in
     fz (k1 (build b)) = or_one (hash_int (u x00)) /\ fz (k2 (build b)) = or_one (hash_int (u x01)) /\
     (forall i, well_formed (u i)) /\
     nr_rand (request_of b) =
       bytes_xor (match b_seckey b with Some k => bytes_from_int (fz (sval k)) | None => zeros 32 end)
                 (hash_of (UseNonceSeed (nonce_seed_bytes b)))) /\
  (forall (sk : scalar Pr) msg seed,
     let P := base_mul sk in
     let d := if pt_odd P then n_ - fz sk else fz sk in
     let u := UseSoloNonce (bytes_xor (bytes_from_int d) (hash_of (UseSoloSeed seed))) (xbytes P) msg in
     fz (solo_prenonce sk msg seed) = (if hash_int u =? 0 then 1 else hash_int u) /\ well_formed u) /\
  (forall rows : list (batch_row Pr),
     let u := UseBatch (map (fun r => (bytes_from_int (fz (row_challenge r)), bytes_from_int (fz (row_s r)))) rows) in
     batch_seed rows = hash_of u /\ well_formed u).
Proof.
  split; [|split; [|split; [|split; [|split; [|split]]]]].
  - intros c pk Hc Hin. cbv zeta. pose proof (reachable_wf c Hc) as Hwf.
    exists (coeff_of (ordered_pubkeys c) pk). split; [apply key_coefficient_in; assumption|].
    split; [|split; [apply keys_wf|split; [|unfold has_len; rewrite cbytes_ser; apply ser_point_len]]].
    2: { unfold has_len. rewrite hash_of_tagged. apply sha_len. }
    rewrite <- coeff_eq. unfold key_agg_coeff, key_agg_coeff_internal. rewrite cbytes_ser. unfold pubkeys.
    rewrite (map_ext _ _ (fun P : point Pr => cbytes_ser P)). destruct (bytes_eqb _ _); [reflexivity|].
    unfold hash_int. f_equal.
  - intros c root. cbv zeta. rewrite hash_of_tagged. split; [reflexivity|]. apply x_len.
  - intros an Q msg. cbv zeta. rewrite hash_int_reduce, !cbytes_ext_ser. split; [reflexivity|].
    cbn [well_formed]. unfold has_len. rewrite !ser_mpoint_len. repeat split. apply x_len.
  - intros R Q msg. cbv zeta. rewrite hash_int_reduce. split; [reflexivity|]. split; apply x_len.
  - intros b Hm. cbv zeta. unfold hash_int. rewrite !hash_of_tagged, !nonce_fields. unfold build. cbn [k1 k2 use_digest].
    rewrite !nonce_scalar_int. split; [reflexivity|]. split; [reflexivity|]. split; [intro; apply request_wf, Hm|].
    cbn [request_of nr_rand use_digest use_fields]. unfold masked_seed, tagged_hash, tagged. rewrite tag_musig_aux. reflexivity.
  - intros sk msg seed. cbv zeta. unfold hash_int at 1 2. rewrite !hash_of_tagged. cbn [use_digest use_fields].
    unfold solo_prenonce. rewrite nonce_scalar_int. cbv zeta.
    assert (E : bytes_from_int (if pt_odd (base_mul sk) then n_ - fz sk else fz sk) = ser_scalar (fneg_if (pt_odd (base_mul sk)) sk)).
    { rewrite <- bytes_from_fz. f_equal. destruct (pt_odd (base_mul sk)); cbn [fneg_if]; [|reflexivity].
      unfold fneg. rewrite fz_of_Z. symmetry. rewrite <- (Z.mod_small (n_ - fz sk) n_).
      - unfold n_. replace (Z.pos ord - fz (sval sk)) with (- fz (sval sk) + 1 * Z.pos ord) by ring. rewrite Z.mod_add by discriminate. reflexivity.
      - pose proof (fz_n (sval sk)). assert (fz (sval sk) <> 0). { intro H0. apply (scalar_nz sk). apply fe_ext. rewrite H0. reflexivity. }
        pose proof (fz_range (sval sk)). lia. }
    rewrite E, bytes_xor_eq, xor_bytes_comm. split; [reflexivity|]. split; [|apply x_len].
    unfold has_len. rewrite xor_bytes_length; unfold tagged; rewrite ?ser_scalar_len, ?sha_len; reflexivity.
  - intros rows. cbv zeta. rewrite hash_of_tagged. cbn [use_digest use_fields]. split.
    + unfold batch_seed. f_equal. f_equal.
      * rewrite flat_map_concat_map, map_map. reflexivity.
      * rewrite flat_map_concat_map, map_map. reflexivity.
    + cbn [well_formed]. apply Forall_forall. intros x Hx. apply in_map_iff in Hx as (r & <- & _). unfold has_len. cbn [fst snd]. rewrite !bytes_from_fz, !ser_scalar_len. auto.
Qed.
End C53_hashes_of_the_code.

Section C53_key_lists_bound.
Context {Pr : prims}.
Add Ring ring_C53_key_lists_bound : (fe_ring_theory (n := @ord Pr)).
Lemma C53_key_lists_bound_proof {Laws : prims_ok Pr} {Tags : tags_ok Pr} (c1 c2 : key_agg_ctx Pr) (pk : point Pr) (a : mscalar Pr) (H1 : ctx_reachable c1) (H2 : ctx_reachable c2) (E1 : key_coefficient c1 pk = Ok (Some a)) (E2 : key_coefficient c2 pk = Ok (Some a)) :
  let keys1 := map (fun P : point Pr => cbytes P) (pubkeys c1) in
  let keys2 := map (fun P : point Pr => cbytes P) (pubkeys c2) in
  pubkeys c1 = pubkeys c2 \/
  get_second_key keys1 = cbytes pk \/
  get_second_key keys2 = cbytes pk \/
  collide (UseKeyList keys1) (UseKeyList keys2) \/
  collide_mod_n (UseKeyCoefficient (hash_of (UseKeyList keys1)) (cbytes pk))
                (UseKeyCoefficient (hash_of (UseKeyList keys2)) (cbytes pk)).
Proof.
  destruct (@C53_hashes_of_the_code_proof Pr Laws Tags) as [A _].
  assert (In1 : In pk (pubkeys c1)).
  { destruct (in_dec (fun P Q : point Pr => point_eq_dec P Q) pk (pubkeys c1)) as [H|H]; [exact H|].
    rewrite (key_coefficient_out c1 pk (reachable_wf c1 H1) H) in E1. discriminate. }
  assert (In2 : In pk (pubkeys c2)).
  { destruct (in_dec (fun P Q : point Pr => point_eq_dec P Q) pk (pubkeys c2)) as [H|H]; [exact H|].
    rewrite (key_coefficient_out c2 pk (reachable_wf c2 H2) H) in E2. discriminate. }
  destruct (A c1 pk H1 In1) as (a1 & K1 & V1 & W1 & X1). destruct (A c2 pk H2 In2) as (a2 & K2 & V2 & W2 & X2).
  rewrite E1 in K1. rewrite E2 in K2. injection K1 as <-. injection K2 as <-.
  destruct (bytes_eqb (cbytes pk) (get_second_key (map _ (pubkeys c1)))) eqn:B1.
  { right; left. symmetry. apply bytes_eqb_eq, B1. }
  destruct (bytes_eqb (cbytes pk) (get_second_key (map _ (pubkeys c2)))) eqn:B2.
  { right; right; left. symmetry. apply bytes_eqb_eq, B2. }
  rewrite V1 in V2. destruct (use_int_collision _ _ X1 X2 V2) as [E|C]; [|right; right; right; right; exact C].
  injection E as E. destruct (use_digest_collision _ _ W1 W2 E) as [E'|C]; [|right; right; right; left; exact C].
  left. injection E' as E'. apply (f_equal (@concat _)) in E'. apply flat_map_ser_inj. rewrite !flat_map_ser_concat.
  rewrite <- !(map_ext _ _ (fun P : point Pr => cbytes_ser P)). exact E'.
Qed.
End C53_key_lists_bound.

Section C53_sessions_bound.
Context {Pr : prims}.
Add Ring ring_C53_sessions_bound : (fe_ring_theory (n := @ord Pr)).
Lemma C53_sessions_bound_proof {Laws : prims_ok Pr} {Tags : tags_ok Pr} (Q Q' : point Pr) (msg msg' : bytes) :
  (forall an an' : agg_nonce Pr, nonce_coefficient an Q msg = nonce_coefficient an' Q' msg' ->
     (an = an' /\ xbytes Q = xbytes Q' /\ msg = msg') \/
     collide_mod_n (UseNonceCoefficient (cbytes_ext (aR1 an)) (cbytes_ext (aR2 an)) (xbytes Q) msg)
                   (UseNonceCoefficient (cbytes_ext (aR1 an')) (cbytes_ext (aR2 an')) (xbytes Q') msg')) /\
  (forall R R' : point Pr, compute_challenge_hash_tweak (pt_x R) Q msg = compute_challenge_hash_tweak (pt_x R') Q' msg' ->
     (xbytes R = xbytes R' /\ xbytes Q = xbytes Q' /\ msg = msg') \/
     collide_mod_n (UseChallenge (xbytes R) (xbytes Q) msg) (UseChallenge (xbytes R') (xbytes Q') msg')).
Proof.
  destruct (@C53_hashes_of_the_code_proof Pr Laws Tags) as (_ & _ & A & B & _). split.
  - intros an an' E. destruct (A an Q msg) as [V W]. destruct (A an' Q' msg') as [V' W'].
    apply (f_equal fz) in E. rewrite V, V' in E. destruct (use_int_collision _ _ W W' E) as [U|C]; [left|right; exact C].
    injection U as U1 U2 U3 U4. split; [|auto]. rewrite !cbytes_ext_ser in U1, U2. apply ser_mpoint_inj in U1, U2.
    destruct an as [a1 a2], an' as [b1 b2]. cbn [aR1 aR2] in U1, U2. congruence.
  - intros R R' E. destruct (B R Q msg) as [V W]. destruct (B R' Q' msg') as [V' W'].
    apply (f_equal fz) in E. rewrite V, V' in E. destruct (use_int_collision _ _ W W' E) as [U|C]; [left|right; exact C].
    injection U as U1 U2 U3. auto.
Qed.
End C53_sessions_bound.

Section C53_secret_nonces_bound.
Context {Pr : prims}.
Add Ring ring_C53_secret_nonces_bound : (fe_ring_theory (n := @ord Pr)).
Lemma C53_secret_nonces_bound_proof {Laws : prims_ok Pr} {Tags : tags_ok Pr} (b b' : builder Pr) (H : forall m, b_message b = Some m -> zlen m < 2 ^ 64) (H' : forall m, b_message b' = Some m -> zlen m < 2 ^ 64) :
  let use := fun (x : builder Pr) (i : byte) => UseNonce (request_of x) i in
  (sval (k1 (build b)) = sval (k1 (build b')) -> request_of b = request_of b' \/ collide_nonzero (use b x00) (use b' x00)) /\
  (sval (k2 (build b)) = sval (k2 (build b')) -> request_of b = request_of b' \/ collide_nonzero (use b x01) (use b' x01)) /\
  (sval (k1 (build b)) = sval (k2 (build b')) -> collide_nonzero (use b x00) (use b' x01)).
Proof.
  destruct (@C53_hashes_of_the_code_proof Pr Laws Tags) as (_ & _ & _ & _ & A & _).
  destruct (A b H) as (V1 & V2 & W & _), (A b' H') as (V1' & V2' & W' & _). cbv zeta in *.
  assert (M : forall z, 0 <= z -> (if z =? 0 then 1 else z) = Z.max 1 z).
  { intros z Hz. destruct (Z.eqb_spec z 0); lia. }
  assert (P0 : forall u, 0 <= hash_int (Pr := Pr) u). { intro u. apply Z.mod_pos_bound. reflexivity. }
  rewrite M in V1, V2, V1', V2' by apply P0.
  assert (K : forall i j, Z.max 1 (hash_int (UseNonce (request_of b) i)) = Z.max 1 (hash_int (UseNonce (request_of b') j)) ->
    (request_of b = request_of b' /\ i = j) \/ collide_nonzero (UseNonce (request_of b) i) (UseNonce (request_of b') j)).
  { intros i j E. destruct (bytes_eq_dec (hash_input (UseNonce (request_of b) i)) (hash_input (UseNonce (request_of b') j))) as [H0|H0].
    - left. apply use_inj in H0; [|apply W|apply W']. split; [exact (f_equal (fun u => match u with UseNonce r _ => r | _ => request_of b end) H0) | exact (f_equal (fun u => match u with UseNonce _ k => k | _ => i end) H0)].
    - right. split; [exact H0|exact E]. }
  split; [|split]; intro E; apply (f_equal fz) in E.
  - rewrite V1, V1' in E. apply K in E as [[E _]|C]; auto.
  - rewrite V2, V2' in E. apply K in E as [[E _]|C]; auto.
  - rewrite V1, V2' in E. apply K in E as [[_ E]|C]; [discriminate|auto].
Qed.
End C53_secret_nonces_bound.

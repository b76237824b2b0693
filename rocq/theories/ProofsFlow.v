(** Proofs of the theorems of PropertiesFlow.v. *)
From Coq Require Import String List.
From Verif Require Import Bytes BytesFacts Prims PrimsFacts TaggedHashes Errors SpecTags SpecBIP327
  KeyAgg Nonces Signature Signing Bip340 Deterministic SpecCtx SpecView SpecSession SpecNonces SpecHashing SpecRfc6979
  ControlFlow SpecFlow Toy ToyData ToyNonces ToyFlow.
Import ListNotations.
Open Scope string_scope.
Open Scope list_scope.
Open Scope Z_scope.
From Coq Require Import Lia Arith.
From Verif Require Import CodecFacts KeyAggFacts NoncesFacts SigningFacts SignatureFacts SpecFacts SpecSigning SessionFacts
  ProofsKeyAgg ProofsHashing ProofsDeterministic.
Open Scope list_scope.
Open Scope Z_scope.

Section Flow.
Context {Pr : prims} {Laws : prims_ok Pr} {Tags : tags_ok Pr}.
Add Ring fring0 : (fe_ring_theory (n := @ord Pr)).

Lemma traced_eq {A} (m : traced A) l a : trace m = l -> value m = a -> m = Traced l a.
Proof. destruct m. cbn. intros -> ->. reflexivity. Qed.

Lemma key_coefficient_t_value (c : key_agg_ctx Pr) pk : value (key_coefficient_t c pk) = key_coefficient c pk.
Proof. unfold key_coefficient_t, key_coefficient. destruct (pubkey_index c pk); reflexivity. Qed.
Lemma effective_pubkey_t_value (c : key_agg_ctx Pr) pk : value (effective_pubkey_t c pk) = effective_pubkey c pk.
Proof. unfold effective_pubkey_t, effective_pubkey. destruct (pubkey_index c pk); reflexivity. Qed.
Lemma final_nonce_t_eq (an : agg_nonce Pr) b :
  final_nonce_t an b = Traced [Branch "nonces.rs:639" (is_infinite (pt_add (aR1 an) (pmul b (aR2 an))))] (final_nonce an b).
Proof.
  unfold final_nonce_t, final_nonce, is_infinite. destruct (not_inf _) as [P|] eqn:E.
  - apply not_inf_Some in E. rewrite (proj2 (pt_eqb_neq _ _)); [reflexivity|]. rewrite E. apply point_fin.
  - apply not_inf_None in E. rewrite (proj2 (pt_eqb_eq _ _)); [reflexivity|]. exact E.
Qed.
Lemma final_nonce_t_value (an : agg_nonce Pr) b : value (final_nonce_t an b) = final_nonce an b.
Proof. rewrite final_nonce_t_eq. reflexivity. Qed.

Lemma verify_t_value (c : key_agg_ctx Pr) s an T pk pn msg :
  value (verify_partial_adaptor_t c s an T pk pn msg) = verify_partial_adaptor c s an T pk pn msg.
Proof.
  unfold verify_partial_adaptor_t, verify_partial_adaptor. cbn [next value]. rewrite effective_pubkey_t_value.
  destruct (lookup_or _ _) as [eff|e|]; cbn [early see bind value ret]; [|reflexivity|reflexivity].
  cbn [next value nonce_coefficient_t challenge_t see ret]. rewrite final_nonce_t_value.
  destruct (pt_odd _); cbn [see ret value]; destruct (negb _); reflexivity.
Qed.
Lemma sign_t_value (c : key_agg_ctx Pr) sk sn an T msg :
  value (sign_partial_adaptor_t c sk sn an T msg) = sign_partial_adaptor c sk sn an T msg.
Proof.
  unfold sign_partial_adaptor_t, sign_partial_adaptor. cbn [next value]. rewrite key_coefficient_t_value.
  destruct (lookup_or _ _) as [a|e|]; cbn [early see bind value ret]; [|reflexivity|reflexivity].
  cbn [next value nonce_coefficient_t challenge_t see ret]. rewrite !final_nonce_t_value, verify_t_value.
  destruct (map_err _ _); reflexivity.
Qed.

Lemma verify_t_trace (c : key_agg_ctx Pr) s an T pk pn msg i : ctx_wf c -> pubkey_index c pk = Some i ->
  verify_partial_adaptor c s an T pk pn msg = Ok tt ->
  trace (verify_partial_adaptor_t c s an T pk pn msg) =
  [ Branch "key_agg.rs:463" false; Index "key_agg.rs:464" i; Branch "signing.rs:162" false;
    Size "nonces.rs:619" (zlen msg); Branch "nonces.rs:639" (is_infinite (raw_nonce c an msg));
    Branch "signing.rs:173" (pt_odd (sess_A c an T msg)); Size "signing.rs:30" (zlen msg);
    Branch "signing.rs:184" false ].
Proof.
  intros Hwf Hi HV. pose proof (verify_t_value c s an T pk pn msg) as V. rewrite HV in V. revert V. clear HV.
  assert (Hin : In pk (ordered_pubkeys c)).
  { destruct (in_pks_dec pk (ordered_pubkeys c)) as [H|H]; [exact H|].
    apply (nonmember_index c pk Hwf) in H. congruence. }
  pose proof (effective_pubkey_in c pk Hwf Hin) as E. rewrite <- effective_pubkey_t_value in E.
  assert (ET : trace (effective_pubkey_t c pk) = [ Branch "key_agg.rs:463" false; Index "key_agg.rs:464" i ])
    by (unfold effective_pubkey_t; rewrite Hi; reflexivity).
  unfold verify_partial_adaptor_t. rewrite (traced_eq _ _ _ ET E). cbn [next trace value lookup_or early see nonce_coefficient_t challenge_t ret app].
  rewrite final_nonce_t_eq. cbn [trace value app].
  change (pt_add (final_nonce an (nonce_coefficient an (pubkey c) msg)) T) with (sess_A c an T msg).
  change (pt_add (aR1 an) (pmul (nonce_coefficient an (pubkey c) msg) (aR2 an))) with (raw_nonce c an msg).
  destruct (pt_odd (sess_A c an T msg)); cbn [see ret trace value app]; destruct (negb _); cbn [see ret trace value app];
    try discriminate; reflexivity.
Qed.

Lemma nonce_scalar_t_eq (place : string) h :
  nonce_scalar_t (Pr := Pr) place h = Traced [Branch place (int_from_bytes h mod n_ =? 0)] (nonce_scalar h).
Proof.
  unfold nonce_scalar_t, nonce_scalar. rewrite reduce_mod. destruct (not_zero (reduce_from h)) as [k|] eqn:E.
  - apply not_zero_Some in E. rewrite E. rewrite (proj2 (Z.eqb_neq _ _)); [reflexivity|].
    intro H. apply (scalar_nz k). apply fe_ext. rewrite H. reflexivity.
  - apply not_zero_None in E. rewrite E. reflexivity.
Qed.
Lemma hash_extras_t_eq l : hash_extras_t l = Traced (map (Size "nonces.rs:388") (map zlen l)) (concat l).
Proof.
  induction l as [|e l IH]; [reflexivity|]. cbn [hash_extras_t]. rewrite IH. unfold see, next, ret. cbn [trace value map concat].
  rewrite app_nil_r. reflexivity.
Qed.
Lemma zero_nonce_eq (b : builder Pr) i :
  int_from_bytes (tagged MUSIG_NONCE_TAG_DIGEST (nonce_preimage b ++ [i])) mod n_ = hash_int (UseNonce (request_of b) i).
Proof. unfold hash_int. rewrite hash_of_tagged, nonce_fields. reflexivity. Qed.
Lemma build_t_eq (b : builder Pr) :
  build_t b = Traced (nonce_flow (shape_of b) (zero_nonce b x00) (zero_nonce b x01)) (build b).
Proof.
  unfold zero_nonce. rewrite <- !zero_nonce_eq.
  destruct b as [seed sk pk aggpk m ex].
  unfold build_t, build, nonce_flow, shape_of, nonce_preimage, seckey_bytes, present.
  cbn [nonce_seed_bytes b_seckey b_pubkey b_aggregated_pubkey b_message b_extra_inputs
       has_seckey has_pubkey has_aggpk message_length extra_lengths].
  destruct sk, pk, aggpk, m, ex as [|e ex];
    rewrite ?hash_extras_t_eq; unfold see, next, ret; cbn [trace value app option_map map]; rewrite !nonce_scalar_t_eq;
    cbn [trace value app option_map map]; rewrite ?app_nil_r, <- ?app_assoc; reflexivity.
Qed.

Lemma nonce_flow_inj sh a b sh' a' b' : nonce_flow sh a b = nonce_flow sh' a' b' -> sh = sh' /\ a = a' /\ b = b'.
Proof.
  destruct sh as [s1 s2 s3 ml el], sh' as [s1' s2' s3' ml' el']. unfold nonce_flow.
  cbn [has_seckey has_pubkey has_aggpk message_length extra_lengths app]. intro H.
  injection H as -> -> -> H.
  assert (Hex : forall (l l' : list Z) u v u' v',
    map (Size "nonces.rs:388") l ++ [Branch "nonces.rs:396" u; Branch "nonces.rs:400" v]
    = map (Size "nonces.rs:388") l' ++ [Branch "nonces.rs:396" u'; Branch "nonces.rs:400" v'] -> l = l' /\ u = u' /\ v = v').
  { induction l as [|x l IH]; intros [|x' l'] u v u' v' HE; cbn [map app] in HE; try discriminate.
    - injection HE as -> ->. auto.
    - injection HE as -> HE. apply IH in HE as (-> & -> & ->). auto. }
  destruct ml as [m|], ml' as [m'|], el as [|x el], el' as [|x' el']; cbn [app map] in H; try discriminate;
    injection H; clear H; intros; subst;
    try match goal with E : map _ _ ++ _ = _ |- _ => apply Hex in E as (-> & -> & ->) end; auto.
Qed.

Lemma zero_solo_eq (sk : scalar Pr) msg seed :
  int_from_bytes (tagged BIP0340_NONCE_TAG_DIGEST
     (xor_bytes (tagged BIP0340_AUX_TAG_DIGEST seed) (ser_scalar (fneg_if (pt_odd (base_mul sk)) sk)) ++ pt_x (base_mul sk) ++ msg)) mod n_ =? 0
  = zero_solo sk msg seed.
Proof.
  unfold zero_solo. rewrite point_mul_G, <- base_mul_val. unfold hash_int. rewrite !hash_of_tagged. cbn [use_digest use_fields].
  assert (E : bytes_from_int (if has_even_y (base_mul sk) then fz sk else n_ - fz sk) = ser_scalar (fneg_if (pt_odd (base_mul sk)) sk)).
  { unfold has_even_y. rewrite <- bytes_from_fz. f_equal. destruct (pt_odd (base_mul sk)); cbn [negb fneg_if]; [|reflexivity].
    unfold fneg. rewrite fz_of_Z. symmetry. rewrite <- (Z.mod_small (n_ - fz sk) n_).
    - unfold n_. replace (Z.pos ord - fz (sval sk)) with (- fz (sval sk) + 1 * Z.pos ord) by ring. rewrite Z.mod_add by discriminate. reflexivity.
    - pose proof (fz_n (sval sk)). assert (fz (sval sk) <> 0). { intro H0. apply (scalar_nz sk). apply fe_ext. rewrite H0. reflexivity. }
      pose proof (fz_range (sval sk)). lia. }
  rewrite E, bytes_xor_eq, xor_bytes_comm. reflexivity.
Qed.
Lemma solo_adaptor_t_eq (sk : scalar Pr) msg seed T :
  sign_solo_adaptor_t sk msg seed T = Traced (solo_adaptor_flow (zlen msg) (zero_solo sk msg seed)) (sign_solo_adaptor sk msg seed T).
Proof.
  unfold sign_solo_adaptor_t, sign_solo_adaptor, solo_prenonce, solo_adaptor_flow. cbv zeta.
  unfold see, next, ret. rewrite nonce_scalar_t_eq, zero_solo_eq. reflexivity.
Qed.
Lemma adapt_t_eq (sg : adaptor_sig Pr) t :
  adapt_t sg t = Traced [Branch "signature.rs:190" (is_infinite (pt_add (a_R sg) (gmul t)))] (adapt sg t).
Proof.
  unfold adapt_t, adapt, is_infinite. destruct (not_inf _) as [P|] eqn:E.
  - apply not_inf_Some in E. rewrite (proj2 (pt_eqb_neq _ _)); [reflexivity|]. rewrite E. apply point_fin.
  - apply not_inf_None in E. rewrite (proj2 (pt_eqb_eq _ _)); [reflexivity|]. exact E.
Qed.
Lemma solo_t_eq (sk : scalar Pr) msg seed :
  sign_solo_t sk msg seed = Traced (solo_flow (zlen msg) (zero_solo sk msg seed)) (sign_solo sk msg seed).
Proof.
  unfold sign_solo_t, sign_solo, solo_flow. rewrite solo_adaptor_t_eq. unfold next, ret. cbn [trace value]. rewrite adapt_t_eq.
  cbn [trace value app].
  assert (E : is_infinite (pt_add (a_R (sign_solo_adaptor sk msg seed pt_O)) (gmul fzero)) = false); [|rewrite E; reflexivity].
  unfold sign_solo_adaptor. cbn [adaptor_new a_R]. rewrite gmul_0, add_O_r. apply pt_eqb_neq, point_fin.
Qed.

Lemma loop_t_value fuel K V : value (rfc6979_loop_t (Pr := Pr) fuel K V) = rfc6979_loop fuel K V.
Proof.
  revert K V. induction fuel as [|f IH]; intros K V; [reflexivity|]. cbn [rfc6979_loop_t rfc6979_loop]. cbv zeta.
  destruct (parse_scalar _); cbn [see ret value]; [reflexivity|apply IH].
Qed.
Lemma derive_t_value fuel (sk : scalar Pr) msg : value (derive_nonce_rfc6979_t fuel sk msg) = derive_nonce_rfc6979 fuel sk msg.
Proof.
  unfold derive_nonce_rfc6979_t, derive_nonce_rfc6979. destruct (rfc6979_init sk msg). cbn [see value]. apply loop_t_value.
Qed.
Lemma loop_t_step f x z i : rfc6979_loop_t (Pr := Pr) (S f) (fst (rfc_state x z i)) (snd (rfc_state x z i)) =
  match parse_scalar (rfc_T (rfc_state x z i)) with
  | Some k => see (Branch "deterministic.rs:74" true) (ret (Some k))
  | None => see (Branch "deterministic.rs:74" false) (rfc6979_loop_t f (fst (rfc_state x z (S i))) (snd (rfc_state x z (S i))))
  end.
Proof.
  cbn [rfc6979_loop_t rfc_state]. cbv zeta. rewrite !hmac_rfc by apply state_K_len.
  rewrite !hmac_rfc by apply rfc_hmac_len. reflexivity.
Qed.
Lemma loop_t_trace f x z i j : (i <= j < i + f)%nat -> 1 <= rfc_candidate (Pr := Pr) x z j < n_ ->
  (forall l, (i <= l < j)%nat -> ~ 1 <= rfc_candidate (Pr := Pr) x z l < n_) ->
  trace (rfc6979_loop_t (Pr := Pr) f (fst (rfc_state x z i)) (snd (rfc_state x z i)))
  = repeat (Branch "deterministic.rs:74" false) (j - i) ++ [Branch "deterministic.rs:74" true].
Proof.
  revert i. induction f as [|f IH]; intros i Hj H1 H2; [lia|]. rewrite loop_t_step.
  destruct (parse_scalar (rfc_T (rfc_state x z i))) as [k|] eqn:E.
  - apply cand_some in E as [E1 E2]. assert (j = i) as ->.
    { destruct (Nat.eq_dec j i) as [|Hn]; [assumption|]. exfalso. apply (H2 i); [lia|exact E2]. }
    rewrite Nat.sub_diag. reflexivity.
  - apply cand_none in E. assert (j <> i) by (intros ->; contradiction).
    replace (j - i)%nat with (S (j - S i)) by lia. cbn [see trace repeat app]. f_equal.
    apply IH; [lia|exact H1|]. intros l Hl. apply H2. lia.
Qed.
Lemma loop_t_never f x z i : (forall l, (i <= l < i + f)%nat -> ~ 1 <= rfc_candidate (Pr := Pr) x z l < n_) ->
  trace (rfc6979_loop_t (Pr := Pr) f (fst (rfc_state x z i)) (snd (rfc_state x z i)))
  = repeat (Branch "deterministic.rs:74" false) f.
Proof.
  revert i. induction f as [|f IH]; intros i H; [reflexivity|]. rewrite loop_t_step.
  destruct (parse_scalar (rfc_T (rfc_state x z i))) as [k|] eqn:E.
  - apply cand_some in E as [E1 E2]. exfalso. apply (H i); [lia|exact E2].
  - cbn [see trace repeat]. f_equal. apply IH. intros l Hl. apply H. lia.
Qed.

Lemma seckey_loop_t_value coeffs (sks : list (scalar Pr)) acc :
  value (seckey_loop_t coeffs sks acc) = seckey_loop coeffs sks acc.
Proof.
  revert coeffs acc. induction sks as [|sk sks IH]; intros coeffs acc; [reflexivity|].
  destruct coeffs as [|a coeffs]; [reflexivity|]. cbn [seckey_loop_t seckey_loop see value]. apply IH.
Qed.
Lemma seckey_loop_t_trace coeffs (sks : list (scalar Pr)) acc :
  trace (seckey_loop_t coeffs sks acc) =
  if (length sks <=? length coeffs)%nat then repeat (Branch "key_agg.rs:477" false) (length sks)
  else repeat (Branch "key_agg.rs:477" false) (length coeffs) ++ [Branch "key_agg.rs:477" true].
Proof.
  revert coeffs acc. induction sks as [|sk sks IH]; intros coeffs acc; [reflexivity|].
  destruct coeffs as [|a coeffs]; [reflexivity|]. cbn [seckey_loop_t see trace length Nat.leb]. rewrite IH.
  destruct (length sks <=? length coeffs)%nat; reflexivity.
Qed.
Lemma weighted_points_eq (pks l : list (point Pr)) sks :
  psum (map (fun p : point Pr * point Pr => point_mul (snd p) (key_agg_coeff (map ser_point pks) (ser_point (fst p))))
            (combine l (map base_mul sks)))
  = gmul (fsum (map (fun p => fmul (fst p) (sval (snd p))) (combine (map (coeff_of pks) l) sks))).
Proof.
  revert sks. induction l as [|pk l IH]; intros [|sk sks]; cbn [map combine];
    try (rewrite psum_nil, fsum_nil, gmul_0; reflexivity).
  rewrite psum_cons, fsum_cons, gmul_add, IH. cbn [fst snd]. rewrite coeff_eq, point_mul_pmul, base_mul_val, gmul_mul. reflexivity.
Qed.
Lemma claimed_key_eq (c : key_agg_ctx Pr) sks : ctx_wf c -> (length sks <= length (ordered_pubkeys c))%nat ->
  exists acc, seckey_loop (key_coefficients c) sks fzero = Some acc /\
  claimed_key c (map base_mul sks) = gmul (fadd (fneg_if (parity_acc c) acc) (tweak_acc c)).
Proof.
  intros Hc Hl. rewrite seckey_loop_spec, (wf_coeffs c Hc), map_length.
  rewrite (proj2 (Nat.leb_le _ _) Hl). eexists. split; [reflexivity|].
  unfold claimed_key, weighted_points, pubkeys. rewrite weighted_points_eq, point_mul_gacc, point_mul_G.
  set (w := fsum _). rewrite gmul_add. f_equal.
  rewrite (Radd_0_l (fe_ring_theory (n := @ord Pr))). destruct (parity_acc c); cbn [pneg_if fneg_if]; [|reflexivity].
  symmetry. apply gmul_neg.
Qed.
End Flow.

Section C83_signing.
Context {Pr : prims}.
Add Ring ring_C83_signing : (fe_ring_theory (n := @ord Pr)).
Lemma C83_signing_proof {Laws : prims_ok Pr} {Tags : tags_ok Pr} (c : key_agg_ctx Pr) (sk : scalar Pr) (sn : sec_nonce Pr) (an : agg_nonce Pr) (T : pt) (msg : bytes) (Hc : ctx_reachable c) :
  value (sign_partial_adaptor_t c sk sn an T msg) = sign_partial_adaptor c sk sn an T msg /\
  (forall i, nth_error (pubkeys c) i = Some (base_mul sk) ->
     (forall j, (i < j)%nat -> nth_error (pubkeys c) j <> Some (base_mul sk)) ->
     trace (sign_partial_adaptor_t c sk sn an T msg) = signing_flow c i an T msg) /\
  (~ In (base_mul sk) (pubkeys c) -> trace (sign_partial_adaptor_t c sk sn an T msg) = stranger_flow).
Proof.
  split; [apply sign_t_value|]. pose proof (reachable_wf c Hc) as Hwf. split.
  - intros i Hi Hlast.
    assert (Hx : pubkey_index c (base_mul sk) = Some i) by (apply (C02_member_lookup_proof c (base_mul sk) Hc); auto).
    assert (Hin : In (base_mul sk) (ordered_pubkeys c)) by (apply nth_error_In in Hi; exact Hi).
    pose proof (sign_member c sk sn an T msg Hwf Hin) as HS.
    pose proof (key_coefficient_in c (base_mul sk) Hwf Hin) as E. rewrite <- key_coefficient_t_value in E.
    assert (ET : trace (key_coefficient_t c (base_mul sk)) = [ Branch "key_agg.rs:452" false; Index "key_agg.rs:453" i ])
      by (unfold key_coefficient_t; rewrite Hx; reflexivity).
    unfold signing_flow. rewrite spec_R_raw_eq, spec_values_eq. cbn [v_R].
    change (pt_add (sess_R c an msg) T) with (sess_A c an T msg).
    unfold has_even_y. rewrite Bool.negb_involutive.
    unfold sign_partial_adaptor_t. rewrite (traced_eq _ _ _ ET E).
    cbn [next trace value lookup_or early see nonce_coefficient_t challenge_t ret app].
    rewrite final_nonce_t_eq. cbn [trace value app].
    change (final_nonce an (nonce_coefficient an (pubkey c) msg)) with (sess_R c an msg).
    change (pt_add (aR1 an) (pmul (nonce_coefficient an (pubkey c) msg) (aR2 an))) with (raw_nonce c an msg).
    change (nonce_coefficient an (pubkey c) msg) with (sess_b c an msg).
    change (pt_add (sess_R c an msg) T) with (sess_A c an T msg).
    change (compute_challenge_hash_tweak (pt_x (sess_A c an T msg)) (pubkey c) msg) with (sess_e c an T msg).
    change (xorb (pt_odd (pubkey c)) (parity_acc c)) with (sess_par c).
    fold (psig_value c sk sn an T msg).
    pose proof (proj2 (verify_member_iff c _ an T _ _ msg Hwf Hin) (psig_value_eq c sk sn an T msg)) as HV.
    rewrite verify_t_value, HV, (verify_t_trace c _ an T _ _ msg i Hwf Hx HV). reflexivity.
  - intro Hn. unfold sign_partial_adaptor_t, key_coefficient_t.
    rewrite (proj2 (nonmember_index c _ Hwf) Hn). reflexivity.
Qed.
End C83_signing.

Section C83_nonces.
Context {Pr : prims}.
Add Ring ring_C83_nonces : (fe_ring_theory (n := @ord Pr)).
Lemma C83_nonces_proof {Laws : prims_ok Pr} {Tags : tags_ok Pr} (b : builder Pr) (b' : builder Pr) :
  value (build_t b) = build b /\
  trace (build_t b) = nonce_flow (shape_of b) (zero_nonce b x00) (zero_nonce b x01) /\
  (trace (build_t b) = trace (build_t b') <->
     shape_of b = shape_of b' /\ zero_nonce b x00 = zero_nonce b' x00 /\ zero_nonce b x01 = zero_nonce b' x01).
Proof.
  rewrite !build_t_eq. cbn [trace value]. split; [reflexivity|]. split; [reflexivity|]. split.
  - apply nonce_flow_inj.
  - intros (-> & -> & ->). reflexivity.
Qed.
End C83_nonces.

Lemma C83_nonces_independent_refuted_proof :
  (exists (b b' : builder Toy),
     nonce_seed_bytes b <> nonce_seed_bytes b' /\ b_seckey b = b_seckey b' /\ b_pubkey b = b_pubkey b' /\
     b_aggregated_pubkey b = b_aggregated_pubkey b' /\ b_message b = b_message b' /\
     b_extra_inputs b = b_extra_inputs b' /\
     trace (build_t b) <> trace (build_t b')) /\
  (exists (sk sk' : scalar Toy) msg seed,
     trace (sign_solo_t sk msg seed) <> trace (sign_solo_t sk' msg seed)).
Proof.
  split.
  - exists flow_builder, (reseeded flow_builder).
    split; [intro H; vm_compute in H; discriminate H|]. do 5 (split; [reflexivity|]).
    intro H. apply (f_equal (existsb zero_taken)) in H. vm_compute in H. discriminate H.
  - exists flow_sk, sk_b, toy_msg, toy_flow_seed. intro H. apply (f_equal (existsb zero_taken)) in H. vm_compute in H. discriminate H.
Qed.

Section C83_solo.
Context {Pr : prims}.
Add Ring ring_C83_solo : (fe_ring_theory (n := @ord Pr)).
Lemma C83_solo_proof {Laws : prims_ok Pr} {Tags : tags_ok Pr} (sk : scalar Pr) (msg : bytes) (seed : bytes) (T : pt) :
  value (sign_solo_adaptor_t sk msg seed T) = sign_solo_adaptor sk msg seed T /\
  value (sign_solo_t sk msg seed) = sign_solo sk msg seed /\
  trace (sign_solo_adaptor_t sk msg seed T) = solo_adaptor_flow (zlen msg) (zero_solo sk msg seed) /\
  trace (sign_solo_t sk msg seed) = solo_flow (zlen msg) (zero_solo sk msg seed) /\
  (zero_solo sk msg seed = true <-> schnorr_sign (bytes_from_int (fz sk)) seed msg = ValueError).
Proof.
  rewrite solo_adaptor_t_eq, solo_t_eq. cbn [trace value]. do 4 (split; [reflexivity|]).
  unfold schnorr_sign. change (bytes_from_int (fz sk)) with (ser_scalar sk). rewrite int_ser, scalar_range. cbn [py_check].
  unfold zero_solo, hash_int, hash_of, hash_input. cbn [use_tag use_fields]. unfold tagged_hash.
  destruct (_ =? 0); cbn [negb py_check]; split; try reflexivity; discriminate.
Qed.
End C83_solo.

Section C83_deterministic.
Context {Pr : prims}.
Add Ring ring_C83_deterministic : (fe_ring_theory (n := @ord Pr)).
Lemma C83_deterministic_proof {Laws : prims_ok Pr} {Tags : tags_ok Pr} (fuel : nat) (sk : scalar Pr) (msg : bytes) (T : pt) :
  value (derive_nonce_rfc6979_t fuel sk msg) = derive_nonce_rfc6979 fuel sk msg /\
  value (det_sign_solo_adaptor_t fuel sk msg T) = det_sign_solo_adaptor fuel sk msg T /\
  value (det_sign_solo_t fuel sk msg) = det_sign_solo fuel sk msg /\
  (forall i k, (i < fuel)%nat -> rfc_first (fz sk) (sha256 msg) i k ->
     let zero := zero_solo sk msg (bytes_from_int k) in
     trace (derive_nonce_rfc6979_t fuel sk msg) = rfc6979_flow (zlen msg) i /\
     trace (det_sign_solo_adaptor_t fuel sk msg T) = rfc6979_flow (zlen msg) i ++ solo_adaptor_flow (zlen msg) zero /\
     trace (det_sign_solo_t fuel sk msg) = rfc6979_flow (zlen msg) i ++ solo_flow (zlen msg) zero) /\
  ((forall i, (i < fuel)%nat -> ~ 1 <= rfc_candidate (fz sk) (sha256 msg) i < n_) ->
     trace (derive_nonce_rfc6979_t fuel sk msg)
     = Size "deterministic.rs:38" (zlen msg) :: repeat (Branch "deterministic.rs:74" false) fuel).
Proof.
  split; [apply derive_t_value|].
  split; [|split; [|split]].
  - unfold det_sign_solo_adaptor_t, det_sign_solo_adaptor. cbn [next value]. rewrite derive_t_value.
    destruct (derive_nonce_rfc6979 fuel sk msg); [|reflexivity]. rewrite solo_adaptor_t_eq. reflexivity.
  - unfold det_sign_solo_t, det_sign_solo. cbn [next value]. rewrite derive_t_value.
    destruct (derive_nonce_rfc6979 fuel sk msg); [|reflexivity]. rewrite solo_t_eq. reflexivity.
  - intros i k Hi Hf. cbv zeta.
    assert (HT : trace (derive_nonce_rfc6979_t fuel sk msg) = rfc6979_flow (zlen msg) i).
    { unfold derive_nonce_rfc6979_t, rfc6979_flow. destruct Hf as (H1 & H2 & H3).
      pose proof (loop_t_trace fuel (fz sk) (sha256 msg) 0 i) as H. cbn [rfc_state] in H. rewrite Nat.sub_0_r in H.
      rewrite init_rfc. destruct (rfc_start _ _) as [K V]. cbn [see trace fst snd] in *. f_equal.
      apply H; [lia|rewrite H1; exact H2|]. intros l Hl. apply H3. lia. }
    destruct (scalar_of_range k (proj1 (proj2 Hf))) as [kk Hk].
    assert (HD : derive_nonce_rfc6979 fuel sk msg = Some kk).
    { apply derive_first. exists i. split; [exact Hi|]. rewrite Hk. exact Hf. }
    rewrite <- Hk. change (bytes_from_int (fz kk)) with (ser_scalar kk).
    split; [exact HT|]. unfold det_sign_solo_adaptor_t, det_sign_solo_t. unfold next at 1 3. cbn [trace]. rewrite HT, derive_t_value, HD.
    rewrite solo_adaptor_t_eq, solo_t_eq. unfold next, ret. cbn [trace value]. rewrite !app_nil_r. split; reflexivity.
  - intro Hn. unfold derive_nonce_rfc6979_t.
    pose proof (loop_t_never fuel (fz sk) (sha256 msg) 0) as H. cbn [rfc_state] in H.
    rewrite init_rfc. destruct (rfc_start _ _) as [K V]. cbn [see trace fst snd] in *. f_equal.
    apply H. intros l Hl. apply Hn. lia.
Qed.
End C83_deterministic.

Section C83_seckey.
Context {Pr : prims}.
Add Ring ring_C83_seckey : (fe_ring_theory (n := @ord Pr)).
Lemma C83_seckey_proof {Laws : prims_ok Pr} {Tags : tags_ok Pr} (c : key_agg_ctx Pr) (sks : list (scalar Pr)) (Hc : ctx_reachable c) :
  value (aggregated_seckey_t c sks) = aggregated_seckey c sks /\
  trace (aggregated_seckey_t c sks) = seckey_flow c (map base_mul sks).
Proof.
  pose proof (reachable_wf c Hc) as Hwf. split.
  - unfold aggregated_seckey_t, aggregated_seckey. cbn [next value]. rewrite seckey_loop_t_value.
    destruct (seckey_loop _ _ _) as [acc|]; [|reflexivity].
    destruct (not_zero _) as [x|]; [|reflexivity]. cbn [see value]. destruct (negb _); reflexivity.
  - unfold aggregated_seckey_t, seckey_flow. cbn [next trace]. rewrite seckey_loop_t_trace, seckey_loop_t_value.
    unfold aggregated_pubkey, pubkeys. rewrite map_length. rewrite (wf_coeffs c Hwf), map_length.
    destruct (Nat.leb_spec (length sks) (length (ordered_pubkeys c))) as [Hl|Hl].
    + destruct (claimed_key_eq c sks Hwf Hl) as (acc & E & Hk). rewrite (wf_coeffs c Hwf) in E. rewrite E, Hk. f_equal.
      unfold is_infinite. destruct (not_zero _) as [x|] eqn:Ex.
      * apply not_zero_Some in Ex. rewrite Ex.
        assert (Hx : pt_eqb (gmul x) pt_O = false) by (apply pt_eqb_neq; intro H; apply gmul_eq_O in H; apply (scalar_nz x H)).
        rewrite Hx. cbn [see trace]. destruct (pt_eqb (gmul x) (pubkey c)); reflexivity.
      * apply not_zero_None in Ex. rewrite Ex, gmul_0. rewrite (proj2 (pt_eqb_eq _ _)); reflexivity.
    + rewrite seckey_loop_spec, map_length. rewrite (proj2 (Nat.leb_gt _ _) Hl). cbn [ret trace]. apply app_nil_r.
Qed.
End C83_seckey.

Section C83_adaptors.
Context {Pr : prims}.
Add Ring ring_C83_adaptors : (fe_ring_theory (n := @ord Pr)).
Lemma C83_adaptors_proof {Laws : prims_ok Pr} (sg : adaptor_sig Pr) (t : mscalar Pr) :
  let A := pt_add (a_R sg) (point_mul pt_G (fz t)) in
  value (adapt_t sg t) = adapt sg t /\
  trace (adapt_t sg t) = [ Branch "signature.rs:190" (is_infinite A) ] /\
  (forall final, value (reveal_secret_t sg final) = reveal_secret sg final) /\
  (forall final, adapt sg t = Some final ->
     trace (reveal_secret_t sg final) =
     if has_even_y A || is_infinite (a_R sg) then [ Branch "signature.rs:215" true ]
     else [ Branch "signature.rs:215" false; Branch "signature.rs:217" true ]).
Proof.
  cbv zeta. rewrite point_mul_G, adapt_t_eq. cbn [trace value]. split; [reflexivity|]. split; [reflexivity|]. split.
  - intro final. unfold reveal_secret_t, reveal_secret. destruct (pt_eqb _ _); [reflexivity|]. cbn [see value].
    destruct (pt_eqb _ _); reflexivity.
  - intros final H. apply adapt_Some in H as (H1 & H2 & H3). unfold reveal_secret_t.
    set (d := fsub (l_s final) (a_s sg)).
    assert (Hd : d = fneg_if (pt_odd (pt_add (a_R sg) (gmul t))) t) by (unfold d; rewrite H3; ring).
    rewrite Hd, H2. unfold to_even_y, has_even_y, is_infinite.
    destruct (pt_odd (pt_add (a_R sg) (gmul t))); cbn [fneg_if pneg_if negb orb].
    + assert (E : pt_eqb (gmul (fneg t)) (psub (pt_neg (pt_add (a_R sg) (gmul t))) (a_R sg)) = pt_eqb (a_R sg) pt_O).
      { destruct (dlog (a_R sg)) as [r Hr]. rewrite Hr in *.
        destruct (pt_eqb (gmul r) pt_O) eqn:E0.
        - apply pt_eqb_eq, gmul_eq_O in E0. subst r. apply pt_eqb_eq.
          rewrite <- gmul_add, <- gmul_neg, <- gmul_sub. f_equal. ring.
        - apply pt_eqb_neq in E0. apply pt_eqb_neq. intro E.
          rewrite <- gmul_add, <- gmul_neg, <- gmul_sub in E. apply gmul_inj in E.
          apply (neg_ne _ E0). rewrite <- gmul_neg. f_equal.
          assert (E2 : fadd r r = fzero).
          { replace (fadd r r) with (fsub (fneg t) (fsub (fneg (fadd r t)) r)) by ring. rewrite <- E. ring. }
          replace (fneg r) with (fsub r (fadd r r)) by ring. rewrite E2. ring. }
      rewrite E. destruct (pt_eqb (a_R sg) pt_O); [reflexivity|]. cbn [see trace].
      rewrite (proj2 (pt_eqb_eq _ _)); [reflexivity|].
      rewrite gmul_neg, neg_add, (add_comm (pt_neg (a_R sg))), add_assoc, add_neg_l, add_O_r. reflexivity.
    + rewrite (proj2 (pt_eqb_eq _ _)); [reflexivity|].
      unfold psub. rewrite (add_comm (a_R sg)), add_assoc, add_neg_r, add_O_r. reflexivity.
Qed.
End C83_adaptors.

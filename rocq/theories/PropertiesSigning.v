(** Properties of partial signing, verification and aggregation: C11 - C15, C46, C47. *)
From Coq Require Import String List Permutation.
From Verif Require Import Bytes BytesFacts Prims PrimsFacts TaggedHashes Errors SpecTags SpecBIP327
  KeyAgg Nonces Signature Signing SigAgg Bip340 SpecCtx SpecView SpecSession Toy ToyData.
Import ListNotations.
Open Scope list_scope.
Open Scope Z_scope.
From Verif Require Import ProofsSigning.

(** C11.  For every context, [sign_partial_adaptor] succeeds exactly when the signer's
    public key is a member, with the value of the BIP327 Sign formula (with the adaptor point
    added to the nonce); otherwise it reports an unknown key.  The self-check never
    fails and nothing panics. *)
Theorem C11_sign_is_bip327_sign {Pr : prims} {Laws : prims_ok Pr} {Tags : tags_ok Pr} (c : key_agg_ctx Pr) (sk : scalar Pr) (sn : sec_nonce Pr) (an : agg_nonce Pr) (T : pt) (msg : bytes) (Hc : ctx_reachable c) :
  (forall s, sign_partial_adaptor c sk sn an T msg = Ok s <->
     In (base_mul sk) (pubkeys c) /\ fz s = spec_psig c sk sn an T msg) /\
  (sign_partial_adaptor c sk sn an T msg = Err SE_UnknownKey <-> ~ In (base_mul sk) (pubkeys c)) /\
  sign_partial_adaptor c sk sn an T msg <> Err SE_SelfVerifyFail /\
  sign_partial_adaptor c sk sn an T msg <> Panic /\
  sign_partial c sk sn an msg = sign_partial_adaptor c sk sn an pt_O msg.
Proof. exact (@C11_sign_is_bip327_sign_proof Pr Laws Tags c sk sn an T msg Hc). Qed.
Print Assumptions C11_sign_is_bip327_sign.

(** Signing with a member key and a stranger's key on [toy_c], whose aggregated key is
    odd, with gacc = -1 and a non-zero tweak. *)
Example C11_case : ctx_reachable toy_c /\
  match sign_partial_adaptor toy_c sk_a (mk_sn 7 11) toy_an toy_T toy_msg with Ok s => fz s | _ => 0 end = 23 /\
  sign_partial_adaptor toy_c (tsc 4) (mk_sn 7 11) toy_an toy_T toy_msg = Err SE_UnknownKey.
Proof. split; [exact toy_c_reach|]. split; [vm_compute; reflexivity|]. apply err_of_eq. vm_compute. reflexivity. Qed.

(** For contexts made by [new] and [with_tweaks], signing is the reference's [sign] on the
    serialised inputs. *)
Theorem C11_sign_reference_bytes {Pr : prims} {Laws : prims_ok Pr} {Tags : tags_ok Pr} (pks : list (point Pr)) (ts : list (scalar Pr * bool)) (c0 : key_agg_ctx Pr) (c : key_agg_ctx Pr) (sk : scalar Pr) (sn : sec_nonce Pr) (an : agg_nonce Pr) (msg : bytes) (Hnew : key_agg_new pks = Ok c0) (Htw : with_tweaks c0 ts = Ok c) :
  sign (secnonce_to_bytes sn ++ ser_point (base_mul sk)) (ser_scalar sk) (ref_session an pks ts msg)
  = match sign_partial c sk sn an msg with
    | Ok s => Ret (ser_scalar s)
    | Err SE_UnknownKey => ValueError
    | _ => AssertFailed
    end.
Proof. exact (@C11_sign_reference_bytes_proof Pr Laws Tags pks ts c0 c sk sn an msg Hnew Htw). Qed.
Print Assumptions C11_sign_reference_bytes.

Example C11_reference_case :
  key_agg_new toy_keys = Ok toy_c0 /\ with_tweaks toy_c0 toy_tweaks = Ok toy_c /\
  is_ok (sign_partial toy_c sk_a (mk_sn 7 11) toy_an toy_msg) = true.
Proof. split; [exact toy_c0_eq|]. split; [exact toy_c_eq|]. vm_compute. reflexivity. Qed.

(** C12.  Partial verification accepts exactly when the key is a member and the BIP327
    equation holds; it reports an unknown key exactly for non-members; exactly one scalar
    satisfies the equation, so for a member exactly one scalar is accepted. *)
Theorem C12_verify_is_bip327_verify {Pr : prims} {Laws : prims_ok Pr} {Tags : tags_ok Pr} (c : key_agg_ctx Pr) (an : agg_nonce Pr) (T : pt) (pk : point Pr) (pn : pub_nonce Pr) (msg : bytes) (Hc : ctx_reachable c) :
  (forall s, verify_partial_adaptor c s an T pk pn msg = Ok tt <->
     In pk (pubkeys c) /\ psig_valid c an T msg pk pn s) /\
  (forall s, verify_partial_adaptor c s an T pk pn msg = Err VE_UnknownKey <-> ~ In pk (pubkeys c)) /\
  (forall s, verify_partial_adaptor c s an T pk pn msg <> Panic) /\
  (forall s, verify_partial c s an pk pn msg = verify_partial_adaptor c s an pt_O pk pn msg) /\
  (In pk (pubkeys c) -> exists s, forall s', verify_partial_adaptor c s' an T pk pn msg = Ok tt <-> s' = s).
Proof. exact (@C12_verify_is_bip327_verify_proof Pr Laws Tags c an T pk pn msg Hc). Qed.
Print Assumptions C12_verify_is_bip327_verify.

Example C12_case : ctx_reachable toy_c /\ In (tpt 3) (pubkeys toy_c) /\
  is_ok (verify_partial_adaptor toy_c (tsc 23) toy_an toy_T (tpt 3) (public_nonce (mk_sn 7 11)) toy_msg) = true /\
  is_ok (verify_partial_adaptor toy_c (tsc 24) toy_an toy_T (tpt 3) (public_nonce (mk_sn 7 11)) toy_msg) = false.
Proof. split; [exact toy_c_reach|]. split; [apply in_toy; vm_compute; reflexivity|]. vm_compute. auto. Qed.

(** On serialised inputs it is the reference's [partial_sig_verify_internal]; byte strings
    that are not reduced scalars are rejected by the reference. *)
Theorem C12_verify_reference_bytes {Pr : prims} {Laws : prims_ok Pr} {Tags : tags_ok Pr} (pks : list (point Pr)) (ts : list (scalar Pr * bool)) (c0 : key_agg_ctx Pr) (c : key_agg_ctx Pr) (pk : point Pr) (pn : pub_nonce Pr) (an : agg_nonce Pr) (msg : bytes) (Hnew : key_agg_new pks = Ok c0) (Htw : with_tweaks c0 ts = Ok c) :
  (forall s : mscalar Pr,
   partial_sig_verify_internal (ser_scalar s) (pubnonce_to_bytes pn) (ser_point pk) (ref_session an pks ts msg)
   = match verify_partial c s an pk pn msg with
     | Ok _ => Ret true
     | Err VE_BadSignature => Ret false
     | Err VE_UnknownKey => ValueError
     | Panic => AssertFailed
     end) /\
  (forall psig : bytes, length psig = 32%nat -> parse_mscalar (Pr := Pr) psig = None ->
   partial_sig_verify_internal psig (pubnonce_to_bytes pn) (ser_point pk) (ref_session an pks ts msg) = Ret false).
Proof. exact (@C12_verify_reference_bytes_proof Pr Laws Tags pks ts c0 c pk pn an msg Hnew Htw). Qed.
Print Assumptions C12_verify_reference_bytes.

Example C12_bytes_case : key_agg_new toy_keys = Ok toy_c0 /\ with_tweaks toy_c0 toy_tweaks = Ok toy_c /\
  is_ok (verify_partial toy_c (hd fzero (toy_sigs pt_O)) toy_an (tpt 3) (public_nonce (mk_sn 7 11)) toy_msg) = true /\
  parse_mscalar (Pr := Toy) (be_enc 32 31) = None.
Proof. split; [exact toy_c0_eq|]. split; [exact toy_c_eq|]. vm_compute. auto. Qed.

(** C13.  Whenever every partial signature verifies against the nonces whose sum is the
    aggregated nonce, aggregation succeeds exactly when R1 + b*R2 is finite, and the
    result then has that nonce and the reference's s; otherwise it fails. *)
Theorem C13_valid_partials_aggregate {Pr : prims} {Laws : prims_ok Pr} {Tags : tags_ok Pr} (c : key_agg_ctx Pr) (pns : list (pub_nonce Pr)) (T : pt) (sigs : list (mscalar Pr)) (msg : bytes) (Hc : ctx_reachable c) (Hpn : length pns = length (pubkeys c)) (Hs : length sigs = length (pubkeys c)) (Hv : forall i pk pn s, nth_error (pubkeys c) i = Some pk -> nth_error pns i = Some pn -> nth_error sigs i = Some s -> verify_partial_adaptor c s (agg_sum pns) T pk pn msg = Ok tt) :
  (spec_R_raw c (agg_sum pns) msg <> pt_O ->
     exists sg, aggregate_partial_adaptor_signatures c (agg_sum pns) T sigs msg = Ok sg /\
       a_R sg = spec_R_raw c (agg_sum pns) msg /\ fz (a_s sg) = spec_agg_s c (agg_sum pns) T sigs msg) /\
  (spec_R_raw c (agg_sum pns) msg = pt_O ->
     aggregate_partial_adaptor_signatures c (agg_sum pns) T sigs msg = Err VE_BadSignature).
Proof. exact (@C13_valid_partials_aggregate_proof Pr Laws Tags c pns T sigs msg Hc Hpn Hs Hv). Qed.
Print Assumptions C13_valid_partials_aggregate.

Example C13_case : ctx_reachable toy_c /\ length toy_pns = 3%nat /\ length (pubkeys toy_c) = 3%nat /\
  forallb (fun p : (point Toy * pub_nonce Toy) * mscalar Toy =>
     is_ok (verify_partial_adaptor toy_c (snd p) (agg_sum toy_pns) toy_T (fst (fst p)) (snd (fst p)) toy_msg))
   (combine (combine (pubkeys toy_c) toy_pns) (toy_sigs toy_T)) = true /\
  is_ok (aggregate_partial_adaptor_signatures toy_c (agg_sum toy_pns) toy_T (toy_sigs toy_T) toy_msg) = true.
Proof. split; [exact toy_c_reach|]. vm_compute. auto. Qed.

(** src/signing.rs:136-138 and 193-195 promise that the aggregate of verified partial
    signatures is "guaranteed to be valid".  Honestly generated nonces can cancel: here every
    signer signs honestly, every partial signature verifies, and aggregation fails. *)
Theorem C13_guarantee_refuted :
  exists (c : key_agg_ctx Toy) (sns : list (sec_nonce Toy)) (sigs : list (mscalar Toy)) (msg : bytes),
    ctx_reachable c /\
    length sns = length (pubkeys c) /\ length sigs = length (pubkeys c) /\
    (forall i pk sn s, nth_error (pubkeys c) i = Some pk -> nth_error sns i = Some sn ->
       nth_error sigs i = Some s ->
       verify_partial c s (agg_sum (map public_nonce sns)) pk (public_nonce sn) msg = Ok tt) /\
    aggregate_partial_signatures c (agg_sum (map public_nonce sns)) sigs msg = Err VE_BadSignature.
Proof. exact C13_guarantee_refuted_proof. Qed.
Print Assumptions C13_guarantee_refuted.

(** C14.  A plain aggregated signature that is returned is accepted by [verify_single] in
    both forms; aggregation never panics; it does not depend on the order of the partial
    signatures. *)
Theorem C14_aggregate_valid {Pr : prims} {Laws : prims_ok Pr} {Tags : tags_ok Pr} (c : key_agg_ctx Pr) (an : agg_nonce Pr) (sigs : list (mscalar Pr)) (msg : bytes) :
  (forall sg, aggregate_partial_signatures c an sigs msg = Ok sg ->
     verify_single_lifted (aggregated_pubkey c) sg msg = Ok tt /\
     verify_single_bytes (aggregated_pubkey c) (lifted_to_bytes sg) msg = Ok tt /\
     schnorr_verify msg (xbytes (aggregated_pubkey c)) (lifted_to_bytes sg) = Ret true /\
     pt_odd (l_R sg) = false /\ fz (l_s sg) = spec_agg_s c an pt_O sigs msg) /\
  aggregate_partial_signatures c an sigs msg <> Panic /\
  (forall sigs', Permutation sigs sigs' ->
     aggregate_partial_signatures c an sigs' msg = aggregate_partial_signatures c an sigs msg).
Proof. exact (@C14_aggregate_valid_proof Pr Laws Tags c an sigs msg). Qed.
Print Assumptions C14_aggregate_valid.

Example C14_case :
  is_ok (aggregate_partial_signatures toy_c toy_an (toy_sigs pt_O) toy_msg) = true /\
  is_ok (aggregate_partial_signatures toy_c toy_an (tl (toy_sigs pt_O)) toy_msg) = false.
Proof. vm_compute. auto. Qed.

(** For contexts made by [new] and [with_tweaks]: aggregation returns the bytes of the
    reference's [partial_sig_agg] exactly when the reference's output is a valid BIP340
    signature, and an error exactly when it is not. *)
Theorem C14_aggregate_reference_bytes {Pr : prims} {Laws : prims_ok Pr} {Tags : tags_ok Pr} (pks : list (point Pr)) (ts : list (scalar Pr * bool)) (c0 : key_agg_ctx Pr) (c : key_agg_ctx Pr) (an : agg_nonce Pr) (sigs : list (mscalar Pr)) (msg : bytes) (Hnew : key_agg_new pks = Ok c0) (Htw : with_tweaks c0 ts = Ok c) :
  exists out, partial_sig_agg (map ser_scalar sigs) (ref_session an pks ts msg) = Ret out /\
    (schnorr_verify msg (xbytes (aggregated_pubkey c)) out = Ret true ->
       exists sg, aggregate_partial_signatures c an sigs msg = Ok sg /\ lifted_to_bytes sg = out) /\
    (schnorr_verify msg (xbytes (aggregated_pubkey c)) out <> Ret true ->
       aggregate_partial_signatures c an sigs msg = Err VE_BadSignature).
Proof. exact (@C14_aggregate_reference_bytes_proof Pr Laws Tags pks ts c0 c an sigs msg Hnew Htw). Qed.
Print Assumptions C14_aggregate_reference_bytes.

Example C14_bytes_case : key_agg_new toy_keys = Ok toy_c0 /\ with_tweaks toy_c0 toy_tweaks = Ok toy_c /\
  match partial_sig_agg (map ser_scalar (toy_sigs pt_O)) (ref_session toy_an toy_keys toy_tweaks toy_msg) with
  | Ret out => match schnorr_verify toy_msg (xbytes (pubkey toy_c)) out with Ret b => b | _ => false end
  | _ => false end = true.
Proof. split; [exact toy_c0_eq|]. split; [exact toy_c_eq|]. vm_compute. reflexivity. Qed.

(** C15.  An aggregated adaptor signature that is returned satisfies the pre-signature
    equation, is accepted by [adaptor::verify_single], and adapting it with the discrete
    logarithm of the adaptor point gives a valid signature, failing exactly when R + T is
    infinite. *)
Theorem C15_adaptor_aggregate_valid {Pr : prims} {Laws : prims_ok Pr} {Tags : tags_ok Pr} (c : key_agg_ctx Pr) (an : agg_nonce Pr) (t : mscalar Pr) (sigs : list (mscalar Pr)) (msg : bytes) (sg : adaptor_sig Pr) (Hagg : aggregate_partial_adaptor_signatures c an (gmul t) sigs msg = Ok sg) :
  presig_valid (aggregated_pubkey c) msg (gmul t) (a_R sg) (a_s sg) /\
  verify_single_adaptor (aggregated_pubkey c) sg msg (gmul t) = Ok tt /\
  (forall l, adapt sg t = Some l ->
     verify_single_lifted (aggregated_pubkey c) l msg = Ok tt /\
     schnorr_verify msg (xbytes (aggregated_pubkey c)) (lifted_to_bytes l) = Ret true) /\
  (adapt sg t = None <-> pt_add (a_R sg) (gmul t) = pt_O).
Proof. exact (@C15_adaptor_aggregate_valid_proof Pr Laws Tags c an t sigs msg sg Hagg). Qed.
Print Assumptions C15_adaptor_aggregate_valid.

Example C15_case :
  ok_and (aggregate_partial_adaptor_signatures toy_c toy_an toy_T (toy_sigs toy_T) toy_msg)
    (fun sg => match adapt sg (tsc 5) with
               | Some l => is_ok (verify_single_lifted (aggregated_pubkey toy_c) l toy_msg)
               | None => false end) = true.
Proof. vm_compute. reflexivity. Qed.

(** C46.  Signing the same message under the same aggregated nonce and secret nonce with two
    adaptor points reveals the secret key: with sigma_i = +-1 the parity sign of R + T_i,
    (sigma_1 e_1 - sigma_2 e_2) * a * g * gacc * d = sigma_1 s_1 - sigma_2 s_2 (mod n), and
    everything except d is public. *)
Theorem C46_nonce_reuse_two_sessions {Pr : prims} {Laws : prims_ok Pr} {Tags : tags_ok Pr} (c : key_agg_ctx Pr) (sk : scalar Pr) (sn : sec_nonce Pr) (an : agg_nonce Pr) (T1 : pt) (T2 : pt) (msg : bytes) (s1 : mscalar Pr) (s2 : mscalar Pr) (Hc : ctx_reachable c) (H1 : sign_partial_adaptor c sk sn an T1 msg = Ok s1) (H2 : sign_partial_adaptor c sk sn an T2 msg = Ok s2) :
  let v1 := spec_values c an T1 msg in
  let v2 := spec_values c an T2 msg in
  let sigma1 := if has_even_y (pt_add (v_R v1) T1) then 1 else -1 in
  let sigma2 := if has_even_y (pt_add (v_R v2) T2) then 1 else -1 in
  let D := (sigma1 * v_e v1 - sigma2 * v_e v2) * spec_a c (base_mul sk) * (spec_g v1 * v_gacc v1) in
  (D * fz sk) mod n_ = (sigma1 * fz s1 - sigma2 * fz s2) mod n_ /\
  (D mod n_ <> 0 -> forall x : scalar Pr,
     (D * fz x) mod n_ = (sigma1 * fz s1 - sigma2 * fz s2) mod n_ -> x = sk).
Proof. exact (@C46_nonce_reuse_two_sessions_proof Pr Laws Tags c sk sn an T1 T2 msg s1 s2 Hc H1 H2). Qed.
Print Assumptions C46_nonce_reuse_two_sessions.

(** Plain signing and adaptor signing in one session: D is not 0 modulo 31. *)
Example C46_case : ctx_reachable toy_c /\
  is_ok (sign_partial_adaptor toy_c sk_a (mk_sn 7 11) toy_an pt_O toy_msg) = true /\
  is_ok (sign_partial_adaptor toy_c sk_a (mk_sn 7 11) toy_an toy_T toy_msg) = true /\
  let v1 := spec_values toy_c toy_an pt_O toy_msg in
  let v2 := spec_values toy_c toy_an toy_T toy_msg in
  let sigma1 := if has_even_y (v_R v1) then 1 else -1 in
  let sigma2 := if has_even_y (pt_add (v_R v2) toy_T) then 1 else -1 in
  (((sigma1 * v_e v1 - sigma2 * v_e v2) * spec_a toy_c (base_mul sk_a) * (spec_g v1 * v_gacc v1)) mod 31 =? 0) = false.
Proof. split; [exact toy_c_reach|]. vm_compute. auto. Qed.

(** Three sessions of one context with the same secret nonce and any aggregated nonces,
    adaptor points and messages: by Cramer's rule det(sigma_i, sigma_i b_i, e_i a g) * d equals the
    determinant with the last column replaced by s_i. *)
Theorem C46_nonce_reuse_three_sessions {Pr : prims} {Laws : prims_ok Pr} {Tags : tags_ok Pr} (c : key_agg_ctx Pr) (sk : scalar Pr) (sn : sec_nonce Pr) (an : nat -> agg_nonce Pr) (T : nat -> pt) (msg : nat -> bytes) (s : nat -> mscalar Pr) (Hc : ctx_reachable c) (H : forall i, (i < 3)%nat -> sign_partial_adaptor c sk sn (an i) (T i) (msg i) = Ok (s i)) :
  let v := fun i => spec_values c (an i) (T i) (msg i) in
  let sigma := fun i => if has_even_y (pt_add (v_R (v i)) (T i)) then 1 else -1 in
  let b := fun i => sigma i * v_b (v i) in
  let w := fun i => v_e (v i) * spec_a c (base_mul sk) * (spec_g (v i) * v_gacc (v i)) in
  let det := fun col : nat -> Z =>
       sigma 0%nat * (b 1%nat * col 2%nat - b 2%nat * col 1%nat)
     - sigma 1%nat * (b 0%nat * col 2%nat - b 2%nat * col 0%nat)
     + sigma 2%nat * (b 0%nat * col 1%nat - b 1%nat * col 0%nat) in
  (det w * fz sk) mod n_ = det (fun i => fz (s i)) mod n_ /\
  (det w mod n_ <> 0 -> forall x : scalar Pr, (det w * fz x) mod n_ = det (fun i => fz (s i)) mod n_ -> x = sk).
Proof. exact (@C46_nonce_reuse_three_sessions_proof Pr Laws Tags c sk sn an T msg s Hc H). Qed.
Print Assumptions C46_nonce_reuse_three_sessions.

(** Three plain sessions on different messages with an invertible determinant. *)
Example C46_three_case :
  forallb (fun m => is_ok (sign_partial_adaptor toy_c sk_a (mk_sn 7 11) toy_an pt_O m)) [[x01]; [x02]; [x04]] = true /\
  let v := fun m => spec_values toy_c toy_an pt_O m in
  let sg := fun m => if has_even_y (pt_add (v_R (v m)) pt_O) then 1 else -1 in
  let b := fun m => sg m * v_b (v m) in
  let w := fun m => v_e (v m) * spec_a toy_c (base_mul sk_a) * (spec_g (v m) * v_gacc (v m)) in
  let m0 := [x01] in let m1 := [x02] in let m2 := [x04] in
  (sg m0 * (b m1 * w m2 - b m2 * w m1) - sg m1 * (b m0 * w m2 - b m2 * w m0)
     + sg m2 * (b m0 * w m1 - b m1 * w m0)) mod 31 <> 0.
Proof. split; [vm_compute; reflexivity | vm_compute; discriminate]. Qed.

(** C47.  The whole pipeline on serialised values is the reference: aggregation of keys with
    tweaks, aggregation of nonces, signing, verification by signer index, and aggregation of
    partial signatures. *)
Theorem C47_pipeline_reference {Pr : prims} {Laws : prims_ok Pr} {Tags : tags_ok Pr} (pks : list (point Pr)) (ts : list (scalar Pr * bool)) (c0 : key_agg_ctx Pr) (c : key_agg_ctx Pr) (pns : list (pub_nonce Pr)) (msg : bytes) (Hnew : key_agg_new pks = Ok c0) (Htw : with_tweaks c0 ts = Ok c) (Hlen : length pns = length pks) :
  let tw := map (fun tx : scalar Pr * bool => ser_scalar (fst tx)) ts in
  let xo := map snd ts in
  let an := agg_sum pns in
  let sc := SessionContext (aggnonce_to_bytes an) (map ser_point pks) tw xo msg in
  key_agg_and_tweak (map ser_point pks) tw xo = Ret (ref_ctx c) /\
  nonce_agg (map pubnonce_to_bytes pns) = Ret (aggnonce_to_bytes an) /\
  (forall sk sn, In (base_mul sk) pks ->
     exists s, sign_partial c sk sn an msg = Ok s /\
       sign (secnonce_to_bytes sn ++ ser_point (base_mul sk)) (ser_scalar sk) sc = Ret (ser_scalar s)) /\
  (forall i pk pn s, nth_error pks i = Some pk -> nth_error pns i = Some pn ->
     partial_sig_verify (ser_scalar s) (map pubnonce_to_bytes pns) (map ser_point pks) tw xo msg i
     = Ret (is_ok (verify_partial c s an pk pn msg))) /\
  (forall sigs sg, aggregate_partial_signatures c an sigs msg = Ok sg ->
     partial_sig_agg (map ser_scalar sigs) sc = Ret (lifted_to_bytes sg)).
Proof. exact (@C47_pipeline_reference_proof Pr Laws Tags pks ts c0 c pns msg Hnew Htw Hlen). Qed.
Print Assumptions C47_pipeline_reference.

Example C47_case : key_agg_new toy_keys = Ok toy_c0 /\ with_tweaks toy_c0 toy_tweaks = Ok toy_c /\
  length toy_pns = length toy_keys /\
  is_ok (aggregate_partial_signatures toy_c toy_an (toy_sigs pt_O) toy_msg) = true.
Proof. split; [exact toy_c0_eq|]. split; [exact toy_c_eq|]. vm_compute. auto. Qed.

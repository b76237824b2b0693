(** How far the exceptions reach: the failures shown on the toy curve by the [_refuted]
    theorems occur for every context and every session, on every curve satisfying the laws
    (secp256k1 included); decoding on targets of any width. *)
From Coq Require Import String List.
From Verif Require Import Bytes BytesFacts Prims PrimsFacts TaggedHashes Errors SpecTags SpecBIP327
  KeyAgg Nonces Signature Signing SigAgg Bip340 Rounds SpecCtx SpecView SpecSession SpecRounds Toy ToyData ToyRounds.
Import ListNotations.
Open Scope list_scope.
Open Scope Z_scope.
From Verif Require Import ProofsLimits.

(** C06.  Not only the toy curve: for every context with two or more members, some list of as
    many secret keys that are not those of [pubkeys()] is accepted and yields the aggregated
    secret key. *)
Theorem C06_every_context_accepts_misaligned {Pr : prims} {Laws : prims_ok Pr} {Tags : tags_ok Pr} (c : key_agg_ctx Pr) (Hn : 3 < n_) (Hc : ctx_reachable c) (H2 : (2 <= length (pubkeys c))%nat) :
  exists (sks : list (scalar Pr)) (x : scalar Pr), length sks = length (pubkeys c) /\ map base_mul sks <> pubkeys c /\
    aggregated_seckey c sks = Ok x /\ base_mul x = aggregated_pubkey c.
Proof. exact (@C06_every_context_accepts_misaligned_proof Pr Laws Tags c Hn Hc H2). Qed.
Print Assumptions C06_every_context_accepts_misaligned.

Example C06_misaligned_case : 3 < @n_ Toy /\ ctx_reachable toy_c /\ length (pubkeys toy_c) = 3%nat.
Proof. split; [vm_compute; reflexivity|]. split; [exact toy_c_reach | vm_compute; reflexivity]. Qed.

(** C07.  The round trip also holds on narrower targets, as long as 33 bytes per key can be
    counted in a [usize]: on 32-bit targets for up to 130150524 keys. *)
Theorem C07_roundtrip_on_any_target {Pr : prims} {Laws : prims_ok Pr} (c : key_agg_ctx Pr) (tg : target) (Hc : ctx_reachable c) (Hk : 33 * zlen (pubkeys c) < 2 ^ usize_bits tg) :
  ctx_from_bytes tg (ctx_to_bytes c) = Ok c.
Proof. exact (@C07_roundtrip_on_any_target_proof Pr Laws c tg Hc Hk). Qed.
Print Assumptions C07_roundtrip_on_any_target.

Example C07_narrow_case : ctx_reachable toy_c /\ 33 * zlen (pubkeys toy_c) < 2 ^ usize_bits (Target 32 true).
Proof. split; [exact toy_c_reach | vm_compute; reflexivity]. Qed.

(** C08.  Not only the toy curve: every context has 63 encodings besides the one
    [to_bytes] produces, on every wide target. *)
Theorem C08_every_context_has_other_encodings {Pr : prims} {Laws : prims_ok Pr} (c : key_agg_ctx Pr) (tg : target) (k : Z) (Hc : ctx_reachable c) (Htg : 64 <= usize_bits tg) (Hk : 0 < k < 64) :
  exists h0 rest, ctx_to_bytes c = h0 :: rest /\
    let b := z2b (b2z h0 + 4 * k) :: rest in b <> ctx_to_bytes c /\ ctx_from_bytes tg b = Ok c.
Proof. exact (@C08_every_context_has_other_encodings_proof Pr Laws c tg k Hc Htg Hk). Qed.
Print Assumptions C08_every_context_has_other_encodings.

Example C08_other_case : ctx_reachable toy_c /\ 64 <= usize_bits target64 /\ 0 < 61 < 64.
Proof. split; [exact toy_c_reach|]. split; vm_compute; [discriminate | auto]. Qed.

(** C09.  Decoding on targets of every width, exactly.  The declared count times 33 is
    computed in a [usize]: it is exact, wraps, or panics.  A string is accepted exactly when
    that product is the number of bytes after the count; these are the 33-byte encodings of
    the keys followed by fewer than 33 bytes of anything.  Decoding panics exactly when
    the product does, or when it wrapped to a length below 33, with no key in the string. *)
Theorem C09_decoding_on_any_target {Pr : prims} {Laws : prims_ok Pr} (tg : target) (b : bytes) (Hbits : 0 <= usize_bits tg) :
  let prod := fun cnt => let p := be_dec cnt * 33 in
     if p <? 2 ^ usize_bits tg then Some p
     else if overflow_checks tg then None else Some (p mod 2 ^ usize_bits tg) in
  (forall c : key_agg_ctx Pr, ctx_from_bytes tg b = Ok c <->
     ctx_reachable c /\
     let t := fz (tweak_acc c) in
     exists h cnt junk,
       b = h :: (if t =? 0 then [] else be_enc 32 t) ++ cnt ++ flat_map ser_point (pubkeys c) ++ junk /\
       b2z h mod 4 = (if parity_acc c then 1 else 0) + (if t =? 0 then 0 else 2) /\
       length cnt = 4%nat /\ (length junk < 33)%nat /\
       prod cnt = Some (33 * zlen (pubkeys c) + zlen junk)) /\
  (ctx_from_bytes (Pr := Pr) tg b = Panic <->
     exists h tb cnt rest, b = h :: tb ++ cnt ++ rest /\ (38 <= length b)%nat /\ length cnt = 4%nat /\
       (Z.testbit (b2z h) 1 = false /\ tb = [] \/
        Z.testbit (b2z h) 1 = true /\ exists t : scalar Pr, tb = be_enc 32 (fz t)) /\
       (prod cnt = None \/ prod cnt = Some (zlen rest) /\ (length rest < 33)%nat)).
Proof. exact (@C09_decoding_on_any_target_proof Pr Laws tg b Hbits). Qed.
Print Assumptions C09_decoding_on_any_target.

(** The two attacks: on 32 bits, 130150525 declared keys wrap to 29 bytes. *)
Example C09_any_case : 0 <= usize_bits (Target 32 false) /\ be_dec [x07; xc1; xf0; x7d] * 33 mod 2 ^ 32 = 29.
Proof. split; vm_compute; [discriminate | reflexivity]. Qed.

(** C09.  Not only the toy curve: for every context (of fewer than 130150524 keys) and
    every garbage of 1 to 32 bytes, there is a string declaring another number of keys, with
    the garbage at its end, that a wrapping 32-bit target decodes to the context; wide
    targets reject it. *)
Theorem C09_every_context_wrong_count {Pr : prims} {Laws : prims_ok Pr} (c : key_agg_ctx Pr) (junk : bytes) (tg : target) (Hc : ctx_reachable c) (Hk : zlen (pubkeys c) < 130150524) (Hj : (0 < length junk < 33)%nat) (Htg : 64 <= usize_bits tg) :
  exists h rest cnt, ctx_to_bytes c = h :: rest /\ length cnt = 4%nat /\ be_dec cnt <> zlen (pubkeys c) /\
    let t := fz (tweak_acc c) in
    let b := h :: (if t =? 0 then [] else be_enc 32 t) ++ cnt ++ flat_map ser_point (pubkeys c) ++ junk in
    ctx_from_bytes (Target 32 false) b = Ok c /\
    ctx_from_bytes (Pr := Pr) tg b = Err (BadLength (length b)).
Proof. exact (@C09_every_context_wrong_count_proof Pr Laws c junk tg Hc Hk Hj Htg). Qed.
Print Assumptions C09_every_context_wrong_count.

Example C09_wrong_count_case : ctx_reachable toy_c /\ zlen (pubkeys toy_c) < 130150524 /\ (0 < length [x01; xff] < 33)%nat.
Proof. split; [exact toy_c_reach|]. split; [vm_compute; reflexivity | cbn; lia]. Qed.

(** C13.  Not only the toy curve: for every context with two or more members, every adaptor
    point and message, there are secret nonces for which all members sign, all partial
    signatures verify, and aggregation fails. *)
Theorem C13_every_context_can_fail {Pr : prims} {Laws : prims_ok Pr} {Tags : tags_ok Pr} (c : key_agg_ctx Pr) (sks : list (scalar Pr)) (T : pt) (msg : bytes) (Hc : ctx_reachable c) (Hs : map base_mul sks = pubkeys c) (H2 : (2 <= length (pubkeys c))%nat) :
  exists (sns : list (sec_nonce Pr)) (sigs : list (mscalar Pr)),
    length sns = length (pubkeys c) /\ length sigs = length (pubkeys c) /\
    (forall i sk sn s, nth_error sks i = Some sk -> nth_error sns i = Some sn -> nth_error sigs i = Some s ->
       sign_partial_adaptor c sk sn (agg_sum (map public_nonce sns)) T msg = Ok s /\
       verify_partial_adaptor c s (agg_sum (map public_nonce sns)) T (base_mul sk) (public_nonce sn) msg = Ok tt) /\
    aggregate_partial_adaptor_signatures c (agg_sum (map public_nonce sns)) T sigs msg = Err VE_BadSignature.
Proof. exact (@C13_every_context_can_fail_proof Pr Laws Tags c sks T msg Hc Hs H2). Qed.
Print Assumptions C13_every_context_can_fail.

Example C13_can_fail_case : ctx_reachable toy_c /\ map base_mul toy_sks = pubkeys toy_c /\ length (pubkeys toy_c) = 3%nat.
Proof. split; [exact toy_c_reach|]. split; [symmetry; apply (map_base_toy toy_sks); vm_compute; reflexivity | vm_compute; reflexivity]. Qed.

(** C17.  Not only the toy curve: of every secret and its negation, one is misreported by
    [reveal_secret] when R is infinite. *)
Theorem C17_every_secret_or_its_negation {Pr : prims} {Laws : prims_ok Pr} (s : mscalar Pr) (t : scalar Pr) :
  exists (u : scalar Pr) (final : lifted_sig Pr), (sval u = sval t \/ sval u = fneg t) /\
    let sg := {| a_R := pt_O; a_s := s |} in
    adapt sg u = Some final /\ has_even_y (l_R final) = true /\
    reveal_secret sg final = Some (fneg u) /\ reveal_secret sg final <> Some (sval u).
Proof. exact (@C17_every_secret_or_its_negation_proof Pr Laws s t). Qed.
Print Assumptions C17_every_secret_or_its_negation.

(** 5 or -5 on the toy curve. *)
Example C17_every_case :
  let wrong u := match adapt {| a_R := pt_O; a_s := sval (tsc 9) |} u with
    | Some l => match reveal_secret {| a_R := pt_O; a_s := sval (tsc 9) |} l with Some v => negb (feqb v u) | None => false end
    | None => false end in
  xorb (wrong (sval (tsc 5))) (wrong (fneg (tsc 5))) = true.
Proof. vm_compute. reflexivity. Qed.

(** C19.  Not only the toy curve: for every key, message, seed and second secret u there is a
    secret t for which [adaptor::sign_solo]'s pre-signature, encrypted again with u, adapts
    with t + u to an invalid signature. *)
Theorem C19_every_solo_adaptor_can_fail {Pr : prims} {Laws : prims_ok Pr} {Tags : tags_ok Pr} (sk : scalar Pr) (msg : bytes) (seed : bytes) (u : scalar Pr) (Hn : 3 < n_) :
  exists (t : scalar Pr) (l' : lifted_sig Pr),
    let sg := sign_solo_adaptor sk msg seed (gmul t) in
    verify_single_adaptor (base_mul sk) sg msg (gmul t) = Ok tt /\
    adapt (adaptor_encrypt sg u) (fadd (sval t) u) = Some l' /\
    verify_single_lifted (base_mul sk) l' msg = Err VE_BadSignature.
Proof. exact (@C19_every_solo_adaptor_can_fail_proof Pr Laws Tags sk msg seed u Hn). Qed.
Print Assumptions C19_every_solo_adaptor_can_fail.

Example C19_solo_case : 3 < @n_ Toy.
Proof. vm_compute. reflexivity. Qed.

(** C32.  Not only the toy curve: in every honest session there is a finite adaptor point for
    which every complete second round's plain [finalize] returns Ok, and the signature it
    returns is invalid. *)
Theorem C32_every_session_can_return_invalid {Pr : prims} {Laws : prims_ok Pr} {Tags : tags_ok Pr} (c : key_agg_ctx Pr) (r0 : nat -> first_round Pr) (seed : nat -> bytes) (sp : nat -> spices Pr) (sk : nat -> scalar Pr) (calls1 : nat -> list (nat * pub_nonce Pr)) (msg : bytes) (Hc : ctx_reachable c) (Hnew : forall j, (j < length (pubkeys c))%nat -> first_round_new c (seed j) j (sp j) = Ok (r0 j)) (Hsk : forall j pk, nth_error (pubkeys c) j = Some pk -> base_mul (sk j) = pk) (Hfirst : forall j i, (j < length (pubkeys c))%nat -> (i < length (pubkeys c))%nat -> on_file ((j, our_public_nonce (r0 j)) :: calls1 j) i = Some (our_public_nonce (r0 i))) (HR : spec_R_raw c (agg_sum (map (fun j => our_public_nonce (r0 j)) (seq 0 (length (pubkeys c))))) msg <> pt_O) :
  exists T : pt, T <> pt_O /\ exists l : lifted_sig Pr,
    verify_single_lifted (aggregated_pubkey c) l msg = Err VE_BadSignature /\
    forall j, (j < length (pubkeys c))%nat ->
      exists sr, fr_finalize_adaptor (fst (fr_run (r0 j) (calls1 j))) (sk j) T msg = Ok sr /\
        forall calls2, sr_is_complete (fst (sr_run sr calls2)) = true ->
          sr_finalize (fst (sr_run sr calls2)) = Ok l.
Proof. exact (@C32_every_session_can_return_invalid_proof Pr Laws Tags c r0 seed sp sk calls1 msg Hc Hnew Hsk Hfirst HR). Qed.
Print Assumptions C32_every_session_can_return_invalid.

(** The three-signer session of the toy context, whose R1 + b*R2 is finite. *)
Example C32_can_return_invalid_case : ctx_reachable toy_c /\
  (forall j, (j < 3)%nat -> first_round_new toy_c toy_seed j spices_new = Ok (toy_r0 j)) /\
  pt_eqb (spec_R_raw toy_c (agg_sum (map (fun j => our_public_nonce (toy_r0 j)) (seq 0 3))) toy_msg) pt_O = false.
Proof. split; [exact toy_c_reach|]. split; [exact toy_r0_eq|]. vm_compute. reflexivity. Qed.

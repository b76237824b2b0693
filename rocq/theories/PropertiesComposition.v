(** How operations combine: sequences of tweaks (C54), partial signatures that do not verify
    (C57), pre-signatures for a common adaptor point (C58) and the aggregated secret key under
    tweaks (C66). *)
From Coq Require Import String List Permutation.
From Verif Require Import Bytes BytesFacts Prims PrimsFacts TaggedHashes Errors SpecTags SpecBIP327
  KeyAgg Nonces Signature Signing SigAgg Bip340 SpecCtx SpecView SpecSession SpecTaproot Toy ToyData.
Import ListNotations.
Open Scope list_scope.
Open Scope Z_scope.
From Verif Require Import ProofsComposition.

(** C54.  Plain tweaks, applied one after the other, amount to one tweak by their sum: the
    key moves by that multiple of G and the whole resulting context depends on the sum only (so
    the order is irrelevant, a single tweak by the sum gives the same context, and tweaks
    that add up to zero give back the context).  The sequence fails exactly if after one of the
    tweaks the key would be infinite. *)
Theorem C54_plain_tweaks_add_up {Pr : prims} {Laws : prims_ok Pr} {Tags : tags_ok Pr} (c : key_agg_ctx Pr) (ts : list (scalar Pr)) :
  let plain := map (fun t : scalar Pr => (t, false)) in
  let total (l : list (scalar Pr)) := fold_right Z.add 0 (map (fun t : scalar Pr => fz t) l) mod n_ in
  (forall c', with_tweaks c (plain ts) = Ok c' ->
     pval (aggregated_pubkey c') = pt_add (aggregated_pubkey c) (point_mul pt_G (total ts)) /\
     (forall ts' c'', with_tweaks c (plain ts') = Ok c'' -> (total ts' = total ts <-> c'' = c')) /\
     (forall u : scalar Pr, fz u = total ts -> with_plain_tweak c u = Ok c') /\
     (total ts = 0 -> c' = c)) /\
  (with_tweaks c (plain ts) = Err TweakError <->
     exists before after, ts = before ++ after /\ before <> [] /\
       pt_add (aggregated_pubkey c) (point_mul pt_G (total before)) = pt_O).
Proof. exact (@C54_plain_tweaks_add_up_proof Pr Laws Tags c ts). Qed.
Print Assumptions C54_plain_tweaks_add_up.

(** Three tweaks and their sum; the same in another order; and a sequence through infinity. *)
Example C54_case :
  ok_and (with_tweaks toy_c [(tsc 4, false); (tsc 9, false); (tsc 29, false)]) (fun c1 =>
  ok_and (with_tweaks toy_c [(tsc 29, false); (tsc 4, false); (tsc 9, false)]) (fun c2 =>
  ok_and (with_plain_tweak toy_c (tsc 11)) (fun c3 =>
    point_eqb (pubkey c1) (pubkey c2) && point_eqb (pubkey c1) (pubkey c3) && feqb (tweak_acc c1) (tweak_acc c3)))) = true /\
  is_ok (with_tweaks toy_c [(tsc 12, false); (tsc 1, false)]) = false /\ is_ok (with_plain_tweak toy_c (tsc 13)) = true.
Proof. vm_compute. auto. Qed.

(** C54.  An x-only tweak acts on the even-y point with the x coordinate of the key: the new key is
    lift_x(x(Q)) + t*G, it fails exactly if that is infinite, contexts with the same x-only
    key get the same new key, a subsequent plain tweak by -t gives lift_x(x(Q)), and on an even key it is
    the plain tweak. *)
Theorem C54_xonly_tweaks {Pr : prims} {Laws : prims_ok Pr} {Tags : tags_ok Pr} (c : key_agg_ctx Pr) (t : scalar Pr) :
  exists P, pt_lift (xbytes (aggregated_pubkey c)) = Some P /\
  (forall c', with_xonly_tweak c t = Ok c' -> pval (aggregated_pubkey c') = pt_add P (point_mul pt_G (fz t)) /\
     forall u : scalar Pr, fz u = n_ - fz t ->
       exists c'', with_plain_tweak c' u = Ok c'' /\ pval (aggregated_pubkey c'') = P) /\
  (with_xonly_tweak c t = Err TweakError <-> pt_add P (point_mul pt_G (fz t)) = pt_O) /\
  (with_xonly_tweak c t <> Panic) /\
  (forall d d', xbytes (aggregated_pubkey d) = xbytes (aggregated_pubkey c) -> with_xonly_tweak d t = Ok d' ->
     exists c', with_xonly_tweak c t = Ok c' /\ aggregated_pubkey c' = aggregated_pubkey d') /\
  (has_even_y (aggregated_pubkey c) = true -> with_xonly_tweak c t = with_plain_tweak c t).
Proof. exact (@C54_xonly_tweaks_proof Pr Laws Tags c t). Qed.
Print Assumptions C54_xonly_tweaks.

(** [toy_c] has an odd key. *)
Example C54_xonly_case : has_even_y (pubkey toy_c) = false /\
  ok_and (with_xonly_tweak toy_c (tsc 6)) (fun c' => negb (is_ok (with_plain_tweak toy_c (tsc 6))) ||
     ok_and (with_plain_tweak toy_c (tsc 6)) (fun c'' => negb (point_eqb (pubkey c') (pubkey c'')))) = true.
Proof. vm_compute. auto. Qed.

(** C57.  Let one scalar per signer be accepted by partial verification, and the nonce be
    finite.  Any list of scalars aggregates to the same signature if its sum is the same, and
    is rejected otherwise. *)
Theorem C57_aggregation_sees_only_the_sum {Pr : prims} {Laws : prims_ok Pr} {Tags : tags_ok Pr} (c : key_agg_ctx Pr) (pns : list (pub_nonce Pr)) (T : pt) (good sigs : list (mscalar Pr)) (msg : bytes) (Hc : ctx_reachable c) (Hpn : length pns = length (pubkeys c)) (Hs : length good = length (pubkeys c)) (Hv : forall i pk pn s, nth_error (pubkeys c) i = Some pk -> nth_error pns i = Some pn -> nth_error good i = Some s -> verify_partial_adaptor c s (agg_sum pns) T pk pn msg = Ok tt) (HR : spec_R_raw c (agg_sum pns) msg <> pt_O) :
  let sum l := fold_right Z.add 0 (map fz l) mod n_ in
  exists sg, aggregate_partial_adaptor_signatures c (agg_sum pns) T good msg = Ok sg /\
    (sum sigs = sum good -> aggregate_partial_adaptor_signatures c (agg_sum pns) T sigs msg = Ok sg) /\
    (sum sigs <> sum good -> aggregate_partial_adaptor_signatures c (agg_sum pns) T sigs msg = Err VE_BadSignature).
Proof. exact (@C57_aggregation_sees_only_the_sum_proof Pr Laws Tags c pns T good sigs msg Hc Hpn Hs Hv HR). Qed.
Print Assumptions C57_aggregation_sees_only_the_sum.

Example C57_case : ctx_reachable toy_c /\ length toy_pns = length (pubkeys toy_c) /\
  forallb (fun p : (point Toy * pub_nonce Toy) * mscalar Toy =>
     is_ok (verify_partial_adaptor toy_c (snd p) (agg_sum toy_pns) toy_T (fst (fst p)) (snd (fst p)) toy_msg))
   (combine (combine (pubkeys toy_c) toy_pns) (toy_sigs toy_T)) = true /\
  negb (pt_eqb (spec_R_raw toy_c (agg_sum toy_pns) toy_msg) pt_O) = true.
Proof. split; [exact toy_c_reach|]. vm_compute. auto. Qed.

(** C57.  If the nonce is finite and all partial signatures but one verify, aggregation
    succeeds exactly if the remaining one verifies as well.  And if aggregation fails
    although there is one partial signature per signer, partial verification rejects at least one
    of them: it identifies a culprit. *)
Theorem C57_one_bad_signature {Pr : prims} {Laws : prims_ok Pr} {Tags : tags_ok Pr} (c : key_agg_ctx Pr) (pns : list (pub_nonce Pr)) (T : pt) (sigs : list (mscalar Pr)) (msg : bytes) (Hc : ctx_reachable c) (Hpn : length pns = length (pubkeys c)) (Hs : length sigs = length (pubkeys c)) (HR : spec_R_raw c (agg_sum pns) msg <> pt_O) :
  let accepted i := forall pk pn s, nth_error (pubkeys c) i = Some pk -> nth_error pns i = Some pn ->
    nth_error sigs i = Some s -> verify_partial_adaptor c s (agg_sum pns) T pk pn msg = Ok tt in
  (forall i, (i < length (pubkeys c))%nat -> (forall j, j <> i -> accepted j) ->
     ((exists sg, aggregate_partial_adaptor_signatures c (agg_sum pns) T sigs msg = Ok sg) <-> accepted i)) /\
  (aggregate_partial_adaptor_signatures c (agg_sum pns) T sigs msg = Err VE_BadSignature ->
     exists i pk pn s, nth_error (pubkeys c) i = Some pk /\ nth_error pns i = Some pn /\ nth_error sigs i = Some s /\
       verify_partial_adaptor c s (agg_sum pns) T pk pn msg = Err VE_BadSignature).
Proof. exact (@C57_one_bad_signature_proof Pr Laws Tags c pns T sigs msg Hc Hpn Hs HR). Qed.
Print Assumptions C57_one_bad_signature.

(** The toy session with its second partial signature altered. *)
Example C57_one_bad_case : ctx_reachable toy_c /\ length toy_pns = 3%nat /\ length (toy_sigs toy_T) = 3%nat /\
  negb (pt_eqb (spec_R_raw toy_c (agg_sum toy_pns) toy_msg) pt_O) = true /\
  match toy_sigs toy_T with
  | [a; b; d] => negb (is_ok (aggregate_partial_adaptor_signatures toy_c (agg_sum toy_pns) toy_T [a; fadd b fone; d] toy_msg))
  | _ => false end = true.
Proof. split; [exact toy_c_reach|]. vm_compute. auto. Qed.

(** C57.  Two wrong partial signatures can cancel: from any partial signatures accepted for
    two positions, two scalars that partial verification rejects give the same aggregated
    signature (any non-zero d).  So success of aggregation says nothing about single
    contributions. *)
Theorem C57_bad_signatures_can_cancel {Pr : prims} {Laws : prims_ok Pr} {Tags : tags_ok Pr} (c : key_agg_ctx Pr) (an : agg_nonce Pr) (T : pt) (l1 l2 l3 : list (mscalar Pr)) (a b d : mscalar Pr) (pk1 pk2 : point Pr) (pn1 pn2 : pub_nonce Pr) (msg : bytes) (Hc : ctx_reachable c) (H1 : verify_partial_adaptor c a an T pk1 pn1 msg = Ok tt) (H2 : verify_partial_adaptor c b an T pk2 pn2 msg = Ok tt) (Hd : fz d <> 0) :
  verify_partial_adaptor c (fadd a d) an T pk1 pn1 msg = Err VE_BadSignature /\
  verify_partial_adaptor c (fsub b d) an T pk2 pn2 msg = Err VE_BadSignature /\
  aggregate_partial_adaptor_signatures c an T (l1 ++ fadd a d :: l2 ++ fsub b d :: l3) msg
  = aggregate_partial_adaptor_signatures c an T (l1 ++ a :: l2 ++ b :: l3) msg.
Proof. exact (@C57_bad_signatures_can_cancel_proof Pr Laws Tags c an T l1 l2 l3 a b d pk1 pk2 pn1 pn2 msg Hc H1 H2 Hd). Qed.
Print Assumptions C57_bad_signatures_can_cancel.

Example C57_cancel_case : ctx_reachable toy_c /\ match toy_sigs toy_T with
  | [a; b; d] => is_ok (verify_partial_adaptor toy_c a toy_an toy_T (tpt 3) (public_nonce (mk_sn 7 11)) toy_msg)
                 && is_ok (verify_partial_adaptor toy_c b toy_an toy_T (tpt 5) (public_nonce (mk_sn 20 2)) toy_msg)
                 && is_ok (aggregate_partial_adaptor_signatures toy_c toy_an toy_T [fadd a (tsc 4); fsub b (tsc 4); d] toy_msg)
  | _ => false end = true.
Proof. split; [exact toy_c_reach|]. vm_compute. reflexivity. Qed.

(** C58.  Let a pre-signature with a finite nonce R verify for the adaptor point T, R + T being finite.
    Any BIP340-valid 64 bytes for the same key and message whose nonce is that of R + T, however they were
    made, let [reveal_secret] return the discrete logarithm t of T; and t completes every other
    pre-signature that verifies for T, under any key and message, unless its nonce is -T. *)
Theorem C58_published_signature_reveals {Pr : prims} {Laws : prims_ok Pr} {Tags : tags_ok Pr} (pk : point Pr) (sg : adaptor_sig Pr) (msg : bytes) (T : pt) (published : bytes) (Hv : verify_single_adaptor pk sg msg T = Ok tt) (HR : a_R sg <> pt_O) (HA : pt_add (a_R sg) T <> pt_O) (Hlen : length published = 64%nat) (Hpub : schnorr_verify msg (xbytes pk) published = Ret true) (Hnonce : firstn 32 published = xbytes (pt_add (a_R sg) T)) :
  exists (final : lifted_sig Pr) (t : mscalar Pr),
    lifted_from_bytes published = Ok final /\
    reveal_secret sg final = Some t /\ point_mul pt_G (fz t) = T /\
    forall (pk2 : point Pr) (sg2 : adaptor_sig Pr) (msg2 : bytes), verify_single_adaptor pk2 sg2 msg2 T = Ok tt ->
      pt_add (a_R sg2) T <> pt_O ->
      exists l2, adapt sg2 t = Some l2 /\ schnorr_verify msg2 (xbytes pk2) (lifted_to_bytes l2) = Ret true.
Proof. exact (@C58_published_signature_reveals_proof Pr Laws Tags pk sg msg T published Hv HR HA Hlen Hpub Hnonce). Qed.
Print Assumptions C58_published_signature_reveals.

(** Two toy sessions for the adaptor point [toy_T]: the first, finished with 5, gives the
    64 bytes. *)
Example C58_case :
  ok_and (aggregate_partial_adaptor_signatures toy_c toy_an toy_T (toy_sigs toy_T) toy_msg)
    (fun g => is_ok (verify_single_adaptor (pubkey toy_c) g toy_msg toy_T)
       && negb (pt_eqb (a_R g) pt_O) && negb (pt_eqb (pt_add (a_R g) toy_T) pt_O)
       && match adapt g (tsc 5) with
          | Some l => match schnorr_verify toy_msg (xbytes (pubkey toy_c)) (lifted_to_bytes l) with Ret b => b | _ => false end
                      && bytes_eqb (firstn 32 (lifted_to_bytes l)) (xbytes (pt_add (a_R g) toy_T))
          | None => false end) = true /\
  is_ok (verify_single_adaptor (tpt 3) (sign_solo_adaptor sk_a toy_msg (zeros 32) toy_T) toy_msg toy_T) = true.
Proof. vm_compute. auto. Qed.

(** C66.  The aggregated secret key of a tweaked context is the old one, negated by an x-only
    tweak of an odd key, plus the tweak; and the same lists of secret keys are accepted. *)
Theorem C66_seckey_follows_tweaks {Pr : prims} {Laws : prims_ok Pr} {Tags : tags_ok Pr} (c c' : key_agg_ctx Pr) (t : scalar Pr) (is_xonly : bool) (sks : list (scalar Pr)) (Ht : with_tweak c t is_xonly = Ok c') :
  let g := if is_xonly && negb (has_even_y (aggregated_pubkey c)) then -1 else 1 in
  (forall d, aggregated_seckey c sks = Ok d ->
     exists d', aggregated_seckey c' sks = Ok d' /\ fz d' = (g * fz d + fz t) mod n_) /\
  (aggregated_seckey c' sks = Err InvalidSecretKeysError <-> aggregated_seckey c sks = Err InvalidSecretKeysError).
Proof. exact (@C66_seckey_follows_tweaks_proof Pr Laws Tags c c' t is_xonly sks Ht). Qed.
Print Assumptions C66_seckey_follows_tweaks.

(** [toy_c] has an odd key and the aggregated secret key 19. *)
Example C66_case : has_even_y (pubkey toy_c) = false /\
  map (fun x => match with_tweak toy_c (tsc 6) x with
                | Ok c' => match aggregated_seckey c' toy_sks with Ok d => fz d | _ => -1 end | _ => -2 end) [true; false]
  = [(- 19 + 6) mod 31; (19 + 6) mod 31].
Proof. vm_compute. auto. Qed.

(** A context with a taproot tweak, seen from BIP340 and BIP341 alone: its key is the output
    key for the internal key and the root, its aggregated secret key is BIP341's tweak of the
    old one, and its aggregated signatures, like the solo signatures of that secret key, are
    valid for the output key. *)
Theorem C66_taproot_output_key {Pr : prims} {Laws : prims_ok Pr} {Tags : tags_ok Pr} (c c' : key_agg_ctx Pr) (root : bytes) (Ht : with_taproot_tweak c root = Ok c') :
  exists Q : pt,
    taproot_tweak_pubkey (xbytes (aggregated_pubkey c)) root = Ret Q /\
    (forall an sigs msg l, aggregate_partial_signatures c' an sigs msg = Ok l ->
       schnorr_verify msg (xbytes Q) (lifted_to_bytes l) = Ret true) /\
    (forall sks d, aggregated_seckey c sks = Ok d ->
       exists d', aggregated_seckey c' sks = Ok d' /\
         taproot_tweak_seckey (ser_scalar d) root = Ret (ser_scalar d') /\
         forall msg seed, exists l, sign_solo d' msg seed = Ok l /\
           schnorr_verify msg (xbytes Q) (lifted_to_bytes l) = Ret true).
Proof. exact (@C66_taproot_output_key_proof Pr Laws Tags c c' root Ht). Qed.
Print Assumptions C66_taproot_output_key.

(** The taproot tweak of the toy context with small hashes, its secret key and a solo signature. *)
Example C66_taproot_case :
  ok_and (with_taproot_tweak low_c0 [x00]) (fun c' =>
    ok_and (aggregated_seckey low_c0 [lsc 3; lsc 5; lsc 3]) (fun d => ok_and (aggregated_seckey c' [lsc 3; lsc 5; lsc 3]) (fun d' =>
      match taproot_tweak_seckey (Pr := ToyLow) (ser_scalar d) [x00] with Ret b => bytes_eqb b (ser_scalar d') && negb (bytes_eqb b (ser_scalar d)) | _ => false end
      && ok_and (sign_solo d' [x05] (repeat x09 32)) (fun l => is_ok (verify_single_lifted (aggregated_pubkey c') l [x05]))))) = true.
Proof. vm_compute. reflexivity. Qed.

(** Aggregated keys can be members of a further group: with one list of secret keys per inner
    group the outer context has an aggregated secret key, and each inner secret key signs as
    the corresponding member. *)
Theorem C66_nested_groups {Pr : prims} {Laws : prims_ok Pr} {Tags : tags_ok Pr} (outer : key_agg_ctx Pr) (inner : list (key_agg_ctx Pr * list (scalar Pr))) (ds : list (scalar Pr)) (Hc : ctx_reachable outer) (Hkeys : pubkeys outer = map (fun p => aggregated_pubkey (fst p)) inner) (Hds : Forall2 (fun p d => aggregated_seckey (fst p) (snd p) = Ok d) inner ds) :
  map base_mul ds = pubkeys outer /\
  exists d, aggregated_seckey outer ds = Ok d /\ base_mul d = aggregated_pubkey outer.
Proof. exact (@C66_nested_groups_proof Pr Laws Tags outer inner ds Hc Hkeys Hds). Qed.
Print Assumptions C66_nested_groups.

(** The toy group and a tweaked copy of it as the two members of a third group. *)
Example C66_nested_case :
  ok_and (with_plain_tweak toy_c (tsc 4)) (fun c2 =>
    ok_and (key_agg_new [aggregated_pubkey toy_c; aggregated_pubkey c2]) (fun outer =>
      ok_and (aggregated_seckey toy_c toy_sks) (fun d1 => ok_and (aggregated_seckey c2 toy_sks) (fun d2 =>
        ok_and (aggregated_seckey outer [d1; d2]) (fun d => pt_eqb (gmul d) (aggregated_pubkey outer)))))) = true.
Proof. vm_compute. reflexivity. Qed.

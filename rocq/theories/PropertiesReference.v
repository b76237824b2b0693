(** Properties against the Python reference on integers and byte strings: C71. *)
From Coq Require Import String List ZArith.
From Verif Require Import Bytes BytesFacts Prims PrimsFacts Errors SpecTags SpecBIP327
  KeyAgg Nonces Signature Signing SigAgg Bip340 SpecCtx SpecSecp SpecReference Secp256k1 SecpFacts ReferenceFacts ProofsKeyAgg ProofsSecp ProofsSecpLimits.
Import ListNotations.
Open Scope list_scope.
Open Scope Z_scope.
From Verif Require Import ProofsReference.

(** C71.  Key aggregation on arbitrary byte strings against reference.py on integers.  Either
    the reference blames the first string that the crate refuses to decode as a point, or all
    decode and [KeyAggContext::new] gives the reference's key; [KeyAggError] is the
    reference's failed assertion; on the empty list the crate panics and the reference fails
    its assertion. *)
Theorem C71_bytes_keys (r : bytes -> nat -> positive) (pkbs : list bytes) :
  (exists i b, nth_error pkbs i = Some b /\ parse_point (Pr := Secp r) b = None /\
     (forall j b', (j < i)%nat -> nth_error pkbs j = Some b' -> parse_point (Pr := Secp r) b' <> None) /\
     py_key_agg pkbs = InvalidContribution (Some i) CPubkey) \/
  (exists pks : list (point (Secp r)), Forall2 (fun b pk => parse_point b = Some pk) pkbs pks /\
     match key_agg_new pks with
     | Ok c => py_key_agg pkbs = Ret (PyKeyAgg (enc (pval (aggregated_pubkey c))) 1 0) /\ pubkeys c = pks
     | Err KeyAggError => py_key_agg pkbs = AssertFailed
     | Panic => 4294967295 < zlen pkbs \/ pkbs = [] /\ py_key_agg pkbs = AssertFailed
     end).
Proof. exact (@C71_bytes_keys_proof r pkbs). Qed.
Print Assumptions C71_bytes_keys.

(** The key G aggregates, and a string of zeros is blamed. *)
Example C71_keys_case : (exists c : key_agg_ctx (Secp (fun _ _ => 1%positive)), key_agg_new [gen_point] = Ok c) /\
  parse_point (Pr := Secp (fun _ _ => 1%positive)) (repeat xff 33) = None.
Proof. split; [exact (ProofsSecp.one_key _) | reflexivity]. Qed.

(** Tweaks given as arbitrary byte strings.  The reference raises [ValueError] if one of them is
    not an integer below n in 32 bytes; on non-zero scalars [with_tweaks] gives the reference's
    (Q, gacc, tacc), with [TweakError] exactly where the reference raises.  The tweak 0, which
    the reference accepts, is no [Scalar]: the crate cannot be asked for it. *)
Theorem C71_bytes_tweaks (r : bytes -> nat -> positive) (pks : list (point (Secp r))) (c0 : key_agg_ctx (Secp r)) (tws : list (bytes * bool)) (Hnew : key_agg_new pks = Ok c0) :
  let ref := py_key_agg_and_tweak (map ser_point pks) (map fst tws) (map snd tws) in
  (Exists (fun t => parse_mscalar (Pr := Secp r) (fst t) = None) tws -> ref = ValueError) /\
  (forall ts : list (scalar (Secp r) * bool),
     Forall2 (fun b t => parse_scalar (fst b) = Some (fst t) /\ snd b = snd t) tws ts ->
     match with_tweaks c0 ts with
     | Ok c => ref = Ret (PyKeyAgg (enc (pval (aggregated_pubkey c)))
                            (if parity_acc c then py_n - 1 else 1) (fz (tweak_acc c)))
     | Err TweakError => ref = ValueError
     | Panic => False
     end) /\
  (forall x, parse_scalar (Pr := Secp r) (zeros 32) = None /\
     exists k, py_key_agg_and_tweak (map ser_point pks) [zeros 32] [x] = Ret k /\
       py_Q k = if x && pt_odd (aggregated_pubkey c0) then py_neg (enc (pval (aggregated_pubkey c0)))
                else enc (pval (aggregated_pubkey c0))).
Proof. exact (@C71_bytes_tweaks_proof r pks c0 tws Hnew). Qed.
Print Assumptions C71_bytes_tweaks.

(** A tweaked context: the key G with the tweak 1. *)
Example C71_tweaks_case : exists c0 : key_agg_ctx (Secp (fun _ _ => 1%positive)),
  key_agg_new [gen_point] = Ok c0 /\
  parse_scalar (Pr := Secp (fun _ _ => 1%positive)) (be_enc 32 1) <> None /\
  parse_mscalar (Pr := Secp (fun _ _ => 1%positive)) (repeat xff 32) = None.
Proof. destruct (ProofsSecp.one_key (fun _ _ => 1%positive)) as [c0 H]. exists c0. split; [exact H|]. split; [discriminate | reflexivity]. Qed.

(** Signing on byte strings of the right lengths.  The reference blames the aggregator exactly
    when the crate cannot decode the aggregated nonce, raises [ValueError] when the crate cannot
    decode the nonce or the key, and otherwise returns the bytes of [sign_partial], with
    [ValueError] for an unknown key.  One difference: the crate's decoder drops the public key
    in bytes 64 to 97 of the secret nonce, and signs where the reference raises because it is
    not the signer's. *)
Theorem C71_bytes_sign (r : bytes -> nat -> positive) (pks : list (point (Secp r))) (ts : list (scalar (Secp r) * bool)) (c0 c : key_agg_ctx (Secp r)) (anb snb skb msg : bytes) (Hnew : key_agg_new pks = Ok c0) (Htw : with_tweaks c0 ts = Ok c) (Han : length anb = 66%nat) (Hsn : length snb = 97%nat) (Hsk : length skb = 32%nat) :
  let sc := SessionContext anb (map ser_point pks) (map (fun tx => ser_scalar (sval (fst tx))) ts) (map snd ts) msg in
  match aggnonce_from_bytes (Pr := Secp r) anb with
  | Err _ => py_sign snb skb sc = InvalidContribution None CAggnonce
  | Panic => False
  | Ok an =>
      match secnonce_from_bytes (Pr := Secp r) snb, parse_scalar (Pr := Secp r) skb with
      | Ok sn, Some sk =>
          (skipn 64 snb <> ser_point (base_mul sk) ->
             py_sign snb skb sc = ValueError /\
             (In (base_mul sk) pks -> exists s, sign_partial c sk sn an msg = Ok s)) /\
          (skipn 64 snb = ser_point (base_mul sk) ->
             match sign_partial c sk sn an msg with
             | Ok s => py_sign snb skb sc = Ret (ser_scalar s)
             | Err SE_UnknownKey => py_sign snb skb sc = ValueError
             | Err SE_SelfVerifyFail | Panic => False
             end)
      | Panic, _ => False
      | _, _ => py_sign snb skb sc = ValueError
      end
  end.
Proof. exact (@C71_bytes_sign_proof r pks ts c0 c anb snb skb msg Hnew Htw Han Hsn Hsk). Qed.
Print Assumptions C71_bytes_sign.

(** Strings that decode: the aggregated nonce of two infinite points, the secret nonce (1, 1) with
    a public key of zeros that is not the signer's, and the secret key 1, which owns the only key of the context. *)
Example C71_sign_case : let r := fun _ _ => 1%positive in
  (exists c0 : key_agg_ctx (Secp r), key_agg_new [gen_point] = Ok c0 /\ with_tweaks c0 [] = Ok c0) /\
  is_ok (aggnonce_from_bytes (Pr := Secp r) (zeros 66)) = true /\ is_ok (aggnonce_from_bytes (Pr := Secp r) (repeat xff 66)) = false /\
  is_ok (secnonce_from_bytes (Pr := Secp r) (be_enc 32 1 ++ be_enc 32 1 ++ zeros 33)) = true /\
  In (base_mul (@scalar_one (Secp r))) [gen_point].
Proof.
  intro r. pose proof (Secp_ok r) as Laws. destruct (ProofsSecp.one_key r) as [c0 H]. split; [exists c0; split; [exact H | reflexivity]|].
  split; [reflexivity|]. split; [reflexivity|]. split; [reflexivity|]. left. symmetry. exact (ProofsSecpLimits.gen_is_base (Pr := Secp r)).
Qed.

(** Partial verification on byte strings: out-of-range signature bytes are rejected by both;
    otherwise undecodable nonces or keys are [ValueError]s, and decodable ones give the answer of
    [verify_partial]. *)
Theorem C71_bytes_verify (r : bytes -> nat -> positive) (pks : list (point (Secp r))) (ts : list (scalar (Secp r) * bool)) (c0 c : key_agg_ctx (Secp r)) (anb psig pnb pkb msg : bytes) (Hnew : key_agg_new pks = Ok c0) (Htw : with_tweaks c0 ts = Ok c) (Han : length anb = 66%nat) (Hps : length psig = 32%nat) (Hpn : length pnb = 66%nat) :
  let sc := SessionContext anb (map ser_point pks) (map (fun tx => ser_scalar (sval (fst tx))) ts) (map snd ts) msg in
  py_partial_sig_verify_internal psig pnb pkb sc =
  match aggnonce_from_bytes (Pr := Secp r) anb with
  | Ok an =>
      match parse_mscalar (Pr := Secp r) psig with
      | None => Ret false
      | Some s =>
          match pubnonce_from_bytes (Pr := Secp r) pnb, parse_point (Pr := Secp r) pkb with
          | Ok pn, Some pk =>
              match verify_partial c s an pk pn msg with
              | Ok _ => Ret true
              | Err VE_BadSignature => Ret false
              | Err VE_UnknownKey => ValueError
              | Panic => AssertFailed
              end
          | _, _ => ValueError
          end
      end
  | _ => InvalidContribution None CAggnonce
  end.
Proof. exact (@C71_bytes_verify_proof r pks ts c0 c anb psig pnb pkb msg Hnew Htw Han Hps Hpn). Qed.
Print Assumptions C71_bytes_verify.

(** Decodable and undecodable arguments, for the context of [C71_sign_case]. *)
Example C71_verify_case : let r := fun _ _ => 1%positive in
  (exists c0 : key_agg_ctx (Secp r), key_agg_new [gen_point] = Ok c0 /\ with_tweaks c0 [] = Ok c0) /\
  is_ok (aggnonce_from_bytes (Pr := Secp r) (zeros 66)) = true /\
  parse_mscalar (Pr := Secp r) (be_enc 32 5) <> None /\ parse_mscalar (Pr := Secp r) (repeat xff 32) = None /\
  is_ok (pubnonce_from_bytes (Pr := Secp r) (ser_point (@gen_point (Secp r)) ++ ser_point (@gen_point (Secp r)))) = true /\
  is_ok (pubnonce_from_bytes (Pr := Secp r) (repeat xff 66)) = false.
Proof.
  intro r. destruct (ProofsSecp.one_key r) as [c0 H]. split; [exists c0; split; [exact H | reflexivity]|].
  split; [reflexivity|]. split; [discriminate|]. split; [reflexivity|]. split; [|reflexivity].
  exact (is_ok_pair _ (Secp_ok r) gen_point).
Qed.

(** Aggregating partial signatures on byte strings: the reference blames the first signer whose
    string is not a reduced scalar; otherwise [aggregate_partial_signatures] returns the
    reference's bytes, or an error exactly when those are not a BIP340 signature accepted by
    the reference's [schnorr_verify]. *)
Theorem C71_bytes_aggregate (r : bytes -> nat -> positive) (pks : list (point (Secp r))) (ts : list (scalar (Secp r) * bool)) (c0 c : key_agg_ctx (Secp r)) (anb msg : bytes) (psigs : list bytes) (Hnew : key_agg_new pks = Ok c0) (Htw : with_tweaks c0 ts = Ok c) (Han : length anb = 66%nat) (Hps : Forall (fun b => length b = 32%nat) psigs) :
  let sc := SessionContext anb (map ser_point pks) (map (fun tx => ser_scalar (sval (fst tx))) ts) (map snd ts) msg in
  (is_ok (aggnonce_from_bytes (Pr := Secp r) anb) = false -> py_partial_sig_agg psigs sc = InvalidContribution None CAggnonce) /\
  (forall an, aggnonce_from_bytes (Pr := Secp r) anb = Ok an ->
     (exists i b, nth_error psigs i = Some b /\ parse_mscalar (Pr := Secp r) b = None /\
        (forall j b', (j < i)%nat -> nth_error psigs j = Some b' -> parse_mscalar (Pr := Secp r) b' <> None) /\
        py_partial_sig_agg psigs sc = InvalidContribution (Some i) CPsig) \/
     (exists sigs : list (mscalar (Secp r)), Forall2 (fun b s => parse_mscalar b = Some s) psigs sigs /\
        match aggregate_partial_signatures c an sigs msg with
        | Ok sg => py_partial_sig_agg psigs sc = Ret (lifted_to_bytes sg) /\
            py_schnorr_verify msg (pt_x (aggregated_pubkey c)) (lifted_to_bytes sg) = true
        | Err _ => exists out, py_partial_sig_agg psigs sc = Ret out /\
            py_schnorr_verify msg (pt_x (aggregated_pubkey c)) out = false
        | Panic => False
        end)).
Proof. exact (@C71_bytes_aggregate_proof r pks ts c0 c anb msg psigs Hnew Htw Han Hps). Qed.
Print Assumptions C71_bytes_aggregate.

(** Two reduced scalars, and a list whose second string is too big. *)
Example C71_aggregate_case : let r := fun _ _ => 1%positive in
  (exists c0 : key_agg_ctx (Secp r), key_agg_new [gen_point] = Ok c0 /\ with_tweaks c0 [] = Ok c0) /\
  is_ok (aggnonce_from_bytes (Pr := Secp r) (zeros 66)) = true /\
  Forall (fun b => length b = 32%nat) [be_enc 32 5; repeat xff 32] /\
  map (fun b => match parse_mscalar (Pr := Secp r) b with Some _ => true | None => false end) [be_enc 32 5; repeat xff 32] = [true; false].
Proof.
  intro r. destruct (ProofsSecp.one_key r) as [c0 H]. split; [exists c0; split; [exact H | reflexivity]|].
  split; [reflexivity|]. split; [repeat constructor | reflexivity].
Qed.

(** Nonces on byte strings.  [SecNonce::generate] gives the bytes of the reference's
    [nonce_gen_internal] (with the public key appended), except where the reference fails its
    assertion because a hash is 0 modulo n; where the extra input is too long for its length field the
    crate panics and the reference raises.  On received 66-byte strings the reference's
    [nonce_agg] is [AggNonce::sum] of the decoded nonces, or blames a signer whose string the crate refuses. *)
Theorem C71_bytes_nonces (r : bytes -> nat -> positive) :
  (forall (seed : bytes) (sk : scalar (Secp r)) (aggpk : point (Secp r)) (msg extra : bytes),
     length seed = 32%nat -> zlen msg < 2 ^ 64 ->
     let ref := py_nonce_gen_internal seed (Some (ser_scalar sk)) (ser_point (base_mul sk)) (Some (pt_x aggpk)) (Some msg) (Some extra) in
     match generate seed sk aggpk msg extra with
     | Ok sn => ref = Ret (secnonce_to_bytes sn ++ ser_point (base_mul sk), pubnonce_to_bytes (public_nonce sn)) \/
                ref = AssertFailed /\ (sval (k1 sn) = fone \/ sval (k2 sn) = fone)
     | Err _ => False
     | Panic => 4294967295 < zlen extra /\ ref = AssertFailed
     end) /\
  (forall bs : list bytes, Forall (fun b => length b = 66%nat) bs ->
     (exists pns : list (pub_nonce (Secp r)), Forall2 (fun b pn => pubnonce_from_bytes b = Ok pn) bs pns /\
        py_nonce_agg bs = Ret (aggnonce_to_bytes (agg_sum pns))) \/
     (exists i b, nth_error bs i = Some b /\ pubnonce_from_bytes (Pr := Secp r) b = Err InvalidPoint /\
        py_nonce_agg bs = InvalidContribution (Some i) CPubnonce)).
Proof. exact (@C71_bytes_nonces_proof r). Qed.
Print Assumptions C71_bytes_nonces.

Example C71_nonces_case : let r := fun _ _ => 1%positive in
  Forall (fun b => length b = 66%nat) [ser_point (@gen_point (Secp r)) ++ ser_point (@gen_point (Secp r)); repeat xff 66] /\
  is_ok (pubnonce_from_bytes (Pr := Secp r) (ser_point (@gen_point (Secp r)) ++ ser_point (@gen_point (Secp r)))) = true /\
  is_ok (pubnonce_from_bytes (Pr := Secp r) (repeat xff 66)) = false.
Proof. split; [repeat constructor|]. split; [exact (is_ok_pair _ (Secp_ok _) gen_point) | reflexivity]. Qed.

(** On secp256k1 with SHA-256, the reference functions that the other theorems use (SpecBIP327.v,
    over any curve) are those of reference.py on integers, whatever the arguments. *)
Theorem C71_reference_functions (r : bytes -> nat -> positive) :
  let ctx := fun k : @keyagg (Secp r) => PyKeyAgg (enc (Q_ k)) (gacc k) (tacc k) in
  (forall b, py_individual_pk b = @individual_pk (Secp r) b) /\
  (forall pks tw xo, py_key_agg_and_tweak pks tw xo =
     match @key_agg_and_tweak (Secp r) pks tw xo with
     | Ret k => Ret (ctx k) | ValueError => ValueError
     | InvalidContribution i c => InvalidContribution i c | AssertFailed => AssertFailed
     end) /\
  (forall pns, py_nonce_agg pns = @nonce_agg (Secp r) pns) /\
  (forall sn sk sc, py_sign sn sk sc = @sign (Secp r) sn sk sc) /\
  (forall psig pns pks tw xo msg i, py_partial_sig_verify psig pns pks tw xo msg i = @partial_sig_verify (Secp r) psig pns pks tw xo msg i) /\
  (forall psig pn pk sc, py_partial_sig_verify_internal psig pn pk sc = @partial_sig_verify_internal (Secp r) psig pn pk sc) /\
  (forall psigs sc, py_partial_sig_agg psigs sc = @partial_sig_agg (Secp r) psigs sc) /\
  (forall msg pk sig, py_schnorr_verify msg pk sig = true <-> @schnorr_verify (Secp r) msg pk sig = Ret true).
Proof. exact (@C71_reference_functions_proof r). Qed.
Print Assumptions C71_reference_functions.

(** All outcomes occur on integers: a key, a blamed key and a failed assertion. *)
Example C71_functions_case :
  py_individual_pk (be_enc 32 1) = Ret (ser_point (@gen_point (Secp (fun _ _ => 1%positive)))) /\
  py_individual_pk (zeros 32) = ValueError /\
  py_key_agg [repeat xff 33] = InvalidContribution (Some 0%nat) CPubkey /\
  py_key_agg [] = AssertFailed.
Proof. repeat split; vm_compute; reflexivity. Qed.

(** C60: conversions of signatures to and from other types, and serde. *)
From Coq Require Import String List.
From Verif Require Import Bytes BytesFacts Prims PrimsFacts TaggedHashes Errors SpecTags SpecBIP327
  KeyAgg Nonces Signature Signing SigAgg Bip340 Rounds Deterministic Encoding Conversions SpecHex SpecCtx SpecView SpecSession SpecRounds
  Toy ToyData ToyRounds.
Import ListNotations.
Open Scope list_scope.
Open Scope Z_scope.
From Verif Require Import ProofsConversions.

(** C60.  Every [LiftedSignature] that the crate produces has a nonce point with even
    y-coordinate, so that its 64 bytes determine it. *)
Theorem C60_lifted_signatures_even {Pr : prims} {Laws : prims_ok Pr} :
  (forall R s, has_even_y (l_R (lifted_new (Pr := Pr) R s)) = true) /\
  (forall cs l, lift_nonce (Pr := Pr) cs = Some l -> has_even_y (l_R l) = true) /\
  (forall sg t l, adapt (Pr := Pr) sg t = Some l -> has_even_y (l_R l) = true) /\
  (forall b l, lifted_from_bytes (Pr := Pr) b = Ok l -> has_even_y (l_R l) = true) /\
  (forall c an sigs msg l, aggregate_partial_signatures (Pr := Pr) c an sigs msg = Ok l -> has_even_y (l_R l) = true) /\
  (forall sk msg seed l, sign_solo (Pr := Pr) sk msg seed = Ok l -> has_even_y (l_R l) = true) /\
  (forall r l, sr_finalize (Pr := Pr) r = Ok l -> has_even_y (l_R l) = true) /\
  (forall f l, (forall l', f = FLifted l' -> has_even_y (l_R l') = true) ->
     lifted_of_form (Pr := Pr) f = Ok l -> has_even_y (l_R l) = true) /\
  (forall human w l, lifted_deserialize (Pr := Pr) human w = Ok l -> has_even_y (l_R l) = true).
Proof. exact (@C60_lifted_signatures_even_proof Pr Laws). Qed.
Print Assumptions C60_lifted_signatures_even.

Example C60_even_case : has_even_y (tpt 6) = false /\ has_even_y (l_R (lifted_new (tpt 6) (tsc 20))) = true /\
  ok_and (sign_solo sk_a toy_msg (zeros 32)) (fun l => has_even_y (l_R l)) = true.
Proof. vm_compute. auto. Qed.

(** C60.  Whatever type a signature is requested as, converting it back gives the same
    [LiftedSignature] and the same [CompactSignature]; the byte forms are x(R) || s; and
    verification does not depend on the form. *)
Theorem C60_signature_forms {Pr : prims} {Laws : prims_ok Pr} (l : lifted_sig Pr) (Heven : has_even_y (l_R l) = true) :
  forall f, In f (forms_of_lifted l) ->
    lifted_of_form f = Ok l /\ compact_of_form f = Ok (compact l) /\
    (forall b, f = FArray b \/ f = FSchnorr b \/ f = FWide b -> b = xbytes (l_R l) ++ bytes_from_int (fz (l_s l))) /\
    (forall R s, f = FPair R s -> R = l_R l /\ s = l_s l) /\
    (forall pk msg, bind (map_err (fun _ => VE_BadSignature) (compact_of_form f)) (fun cs => verify_single pk cs msg) =
       verify_single_lifted pk l msg).
Proof. exact (@C60_signature_forms_proof Pr Laws l Heven). Qed.
Print Assumptions C60_signature_forms.

Example C60_forms_case : has_even_y (l_R (lifted_new (tpt 6) (tsc 20))) = true /\
  length (forms_of_lifted (lifted_new (tpt 6) (tsc 20))) = 6%nat.
Proof. vm_compute. auto. Qed.

(** C60.  The same for a [CompactSignature]; it becomes a pair exactly if it lifts, and then
    the pair gives it back. *)
Theorem C60_compact_forms {Pr : prims} {Laws : prims_ok Pr} (cs : compact_sig Pr) (Hc : length (c_rx cs) = 32%nat) :
  (forall f, In f (forms_of_compact cs) -> compact_of_form f = Ok cs /\
     lifted_of_form f = ok_or (lift_nonce cs) InvalidPoint /\
     (forall b, f = FArray b \/ f = FSchnorr b \/ f = FWide b -> b = c_rx cs ++ bytes_from_int (fz (c_s cs)))) /\
  (pair_of_compact cs = None <-> ~ exists R : point Pr, xbytes R = c_rx cs) /\
  (forall R s, pair_of_compact cs = Some (R, s) ->
     compact_of_form (FPair R s) = Ok cs /\ xbytes R = c_rx cs /\ has_even_y R = true /\ s = c_s cs).
Proof. exact (@C60_compact_forms_proof Pr Laws cs Hc). Qed.
Print Assumptions C60_compact_forms.

Example C60_compact_case : length (c_rx (compact_new (tpt 6) (tsc 20))) = 32%nat /\
  match pair_of_compact (compact_new (tpt 6) (tsc 20)) with Some (R, s) => has_even_y R && feqb s (tsc 20) | None => false end = true.
Proof. vm_compute. auto. Qed.

(** C60.  A pair (R, s) is read as the signature with nonce ±R whose y-coordinate is even: it
    is valid exactly if s*G = ±R + e*P' for the even point ±R and P' of the key, so the sign
    of R is not part of the signature, and converting back returns R only if it is even. *)
Theorem C60_pairs {Pr : prims} {Laws : prims_ok Pr} {Tags : tags_ok Pr} (R : point Pr) (s : mscalar Pr) (pk : point Pr) (msg : bytes) :
  (forall R' : point Pr, xbytes R' = xbytes R -> lifted_new R' s = lifted_new R s) /\
  (fst (unzip (lifted_new R s)) = R <-> has_even_y R = true) /\
  compact (lifted_new R s) = compact_new R s /\
  (verify_single_lifted pk (lifted_new R s) msg = Ok tt <->
     exists E P : pt, xbytes E = xbytes R /\ has_even_y E = true /\ E <> pt_O /\ xbytes P = xbytes pk /\ has_even_y P = true /\ P <> pt_O /\
       gmul s = pt_add E (point_mul P (int_from_bytes (tagged_hash "BIP0340/challenge" (xbytes R ++ xbytes pk ++ msg)) mod n_))).
Proof. exact (@C60_pairs_proof Pr Laws Tags R s pk msg). Qed.
Print Assumptions C60_pairs.

Example C60_pairs_case : has_even_y (tpt 6) = false /\
  pt_eqb (fst (unzip (lifted_new (tpt 6) (tsc 20)))) (pt_neg (tpt 6)) = true.
Proof. vm_compute. auto. Qed.

(** C60, serde.  [accepts human w b]: in a human-readable format [w] is a string spelling the bytes
    [b] in hexadecimal, in another format it is the byte string [b].  Each type deserialises
    exactly from what its encoding gives; secret nonces also with 33 bytes more, contexts with any bytes
    that decode. *)
Theorem C60_serde {Pr : prims} {Laws : prims_ok Pr} (human : bool) (w : wire) :
  let accepts := fun b => if human then exists s, w = WStr s /\ spells s b else w = WBytes b in
  (forall x, secnonce_deserialize (Pr := Pr) human w = Ok x <->
     exists tail, (length tail = 0 \/ length tail = 33)%nat /\ accepts (secnonce_to_bytes x ++ tail)) /\
  (forall x, pubnonce_deserialize (Pr := Pr) human w = Ok x <-> accepts (pubnonce_to_bytes x)) /\
  (forall x, aggnonce_deserialize (Pr := Pr) human w = Ok x <-> accepts (aggnonce_to_bytes x)) /\
  (forall x, compact_deserialize (Pr := Pr) human w = Ok x <-> accepts (compact_to_bytes x) /\ length (c_rx x) = 32%nat) /\
  (forall x, lifted_deserialize (Pr := Pr) human w = Ok x <-> accepts (lifted_to_bytes x) /\ has_even_y (l_R x) = true) /\
  (forall x, adaptor_deserialize (Pr := Pr) human w = Ok x <-> accepts (adaptor_to_bytes x)) /\
  (forall tg x, ctx_deserialize (Pr := Pr) tg human w = Ok x <-> exists b, accepts b /\ ctx_from_bytes tg b = Ok x).
Proof. exact (@C60_serde_proof Pr Laws human w). Qed.
Print Assumptions C60_serde.

Example C60_serde_case :
  is_ok (pubnonce_deserialize (Pr := Toy) true (WStr (hex_encode true (pubnonce_to_bytes (toy_pn 0))))) = true /\
  is_ok (secnonce_deserialize (Pr := Toy) false (WBytes (secnonce_to_bytes (mk_sn 7 30) ++ zeros 33))) = true /\
  is_ok (secnonce_deserialize (Pr := Toy) false (WTuple (secnonce_to_bytes (mk_sn 7 30)))) = false.
Proof. vm_compute. auto. Qed.

(** C60, serde.  What a type serialises to, it deserialises from, in both kinds of formats; except that
    if [serdect::array] writes arrays as tuples, then the fixed-size types, which are read back
    as byte strings, do not round trip in binary formats that tell the two apart. *)
Theorem C60_serde_round_trip {Pr : prims} {Laws : prims_ok Pr} (human tup : bool) :
  let back := fun (A : Type) (r : res unit A) x => r = if human || negb tup then Ok x else Err tt in
  let out := serialize_fixed tup human in
  (forall x, back _ (secnonce_deserialize (Pr := Pr) human (out (secnonce_to_bytes x))) x) /\
  (forall x, back _ (pubnonce_deserialize (Pr := Pr) human (out (pubnonce_to_bytes x))) x) /\
  (forall x, back _ (aggnonce_deserialize (Pr := Pr) human (out (aggnonce_to_bytes x))) x) /\
  (forall x, length (c_rx x) = 32%nat -> back _ (compact_deserialize (Pr := Pr) human (out (compact_to_bytes x))) x) /\
  (forall x, has_even_y (l_R x) = true -> back _ (lifted_deserialize (Pr := Pr) human (out (lifted_to_bytes x))) x) /\
  (forall x, back _ (adaptor_deserialize (Pr := Pr) human (out (adaptor_to_bytes x))) x) /\
  (forall tg c, ctx_reachable c -> 64 <= usize_bits tg ->
     ctx_deserialize (Pr := Pr) tg human (serialize_var human (ctx_to_bytes c)) = Ok c).
Proof. exact (@C60_serde_round_trip_proof Pr Laws human tup). Qed.
Print Assumptions C60_serde_round_trip.

Example C60_round_trip_case : ctx_reachable toy_c /\
  is_ok (ctx_deserialize (Pr := Toy) target64 true (serialize_var true (ctx_to_bytes toy_c))) = true /\
  is_ok (adaptor_deserialize (Pr := Toy) false (serialize_fixed false false (adaptor_to_bytes (adaptor_new pt_O (tsc 3))))) = true.
Proof. split; [exact toy_c_reach|]. vm_compute. auto. Qed.

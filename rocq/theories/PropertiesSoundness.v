(** What a valid signature rules out: other values of s (C62), other messages and keys (C63)
    and a second signature with the same nonce (C64); how rarely an invalid batch passes (C65);
    which adaptor points a pre-signature is valid for (C68). *)
From Coq Require Import String List.
From Verif Require Import Bytes BytesFacts Prims PrimsFacts TaggedHashes Errors SpecTags SpecBIP327
  KeyAgg Nonces Signature Signing SigAgg Bip340 SpecCtx SpecView SpecSession SpecBatch Toy ToyData.
Import ListNotations.
Open Scope list_scope.
Open Scope Z_scope.
From Verif Require Import ProofsSoundness.

(** C62.  For one key, message and 32-byte R at most one s is accepted, as bytes: there is no
    second encoding and no negated or shifted s.  Some s is accepted exactly when R is the x
    coordinate of a curve point. *)
Theorem C62_one_s_per_nonce {Pr : prims} {Laws : prims_ok Pr} {Tags : tags_ok Pr} (pk : point Pr) (msg : bytes) (rx : bytes) (Hrx : length rx = 32%nat) :
  (forall s s', verify_single_bytes pk (rx ++ s) msg = Ok tt -> verify_single_bytes pk (rx ++ s') msg = Ok tt -> s = s') /\
  ((exists s, verify_single_bytes pk (rx ++ s) msg = Ok tt) <-> pt_lift rx <> None) /\
  (forall s, verify_single_bytes pk (rx ++ s) msg = Ok tt -> length s = 32%nat /\ int_from_bytes s < n_).
Proof. exact (@C62_one_s_per_nonce_proof Pr Laws Tags pk msg rx Hrx). Qed.
Print Assumptions C62_one_s_per_nonce.

(** The toy signature under key 3: of all 31 values of s only its own is accepted. *)
Example C62_case :
  let sig := match sign_solo (tsc 3) toy_msg (repeat x09 32) with Ok l => lifted_to_bytes l | _ => [] end in
  filter (fun s => is_ok (verify_single_bytes (tpt 3) (firstn 32 sig ++ be_enc 32 s) toy_msg)) (map Z.of_nat (seq 0 64))
  = [int_from_bytes (skipn 32 sig)].
Proof. vm_compute. reflexivity. Qed.

(** The same for pre-signatures, with any R and adaptor point, infinite ones included. *)
Theorem C62_one_s_per_presignature {Pr : prims} {Laws : prims_ok Pr} {Tags : tags_ok Pr} (pk : point Pr) (msg : bytes) (T R : pt) :
  exists s : mscalar Pr, forall s',
    verify_single_adaptor pk {| a_R := R; a_s := s' |} msg T = Ok tt <-> s' = s.
Proof. exact (@C62_one_s_per_presignature_proof Pr Laws Tags pk msg T R). Qed.
Print Assumptions C62_one_s_per_presignature.

Example C62_presignature_case :
  map (fun T => length (filter (fun s => is_ok (verify_single_adaptor (tpt 3) {| a_R := gmul (tsc 4 : mscalar Toy); a_s := of_Z _ s |} toy_msg T))
         (map Z.of_nat (seq 0 31)))) [pt_O; toy_T; pt_neg (gmul (tsc 4 : mscalar Toy))] = [1; 1; 1]%nat.
Proof. vm_compute. reflexivity. Qed.

(** C63.  A valid signature is valid for a second message exactly when the two challenges
    agree modulo n, and for a second key exactly when e*P agrees. *)
Theorem C63_other_message_or_key {Pr : prims} {Laws : prims_ok Pr} {Tags : tags_ok Pr} (pk pk' : point Pr) (sig : bytes) (msg msg' : bytes) (H : verify_single_bytes pk sig msg = Ok tt) :
  let e := fun (P : point Pr) m => int_from_bytes (tagged_hash "BIP0340/challenge" (firstn 32 sig ++ xbytes P ++ m)) mod n_ in
  let even := fun P : point Pr => if has_even_y P then pval P else pt_neg P in
  (verify_single_bytes pk sig msg' = Ok tt <-> e pk msg' = e pk msg) /\
  (verify_single_bytes pk' sig msg' = Ok tt <-> point_mul (even pk') (e pk' msg') = point_mul (even pk) (e pk msg)).
Proof. exact (@C63_other_message_or_key_proof Pr Laws Tags pk pk' sig msg msg' H). Qed.
Print Assumptions C63_other_message_or_key.

(** On the toy curve challenges do collide: the signature of a message under key 3 is valid for
    some of the other 255 one-byte messages, those with the same challenge, and not for others. *)
Example C63_case :
  let sig := match sign_solo (tsc 3) [x05] (repeat x09 32) with Ok l => lifted_to_bytes l | _ => [] end in
  let e := fun m : bytes => int_from_bytes (tagged_hash "BIP0340/challenge" (firstn 32 sig ++ xbytes (tpt 3) ++ m)) mod 31 in
  let ms := map (fun i => [z2b (Z.of_nat i)]) (seq 0 40) in
  filter (fun m => is_ok (verify_single_bytes (tpt 3) sig m)) ms = filter (fun m => e m =? e [x05]) ms /\
  (1 <? length (filter (fun m => is_ok (verify_single_bytes (tpt 3) sig m)) ms))%nat = true.
Proof. vm_compute. auto. Qed.

(** The same for pre-signatures and messages. *)
Theorem C63_presignatures {Pr : prims} {Laws : prims_ok Pr} {Tags : tags_ok Pr} (pk : point Pr) (sg : adaptor_sig Pr) (T : pt) (msg msg' : bytes) (H : verify_single_adaptor pk sg msg T = Ok tt) :
  let e := fun m => int_from_bytes (tagged_hash "BIP0340/challenge" (xbytes (pt_add (a_R sg) T) ++ xbytes pk ++ m)) mod n_ in
  verify_single_adaptor pk sg msg' T = Ok tt <-> e msg' = e msg.
Proof. exact (@C63_presignatures_proof Pr Laws Tags pk sg T msg msg' H). Qed.
Print Assumptions C63_presignatures.

Example C63_presignature_case :
  let sg := sign_solo_adaptor (tsc 5) [x05] (repeat x09 32) toy_T in
  let oks := map (fun i => is_ok (verify_single_adaptor (tpt 5) sg [z2b (Z.of_nat i)] toy_T)) (seq 0 40) in
  nth 5 oks false = true /\ existsb negb oks = true.
Proof. vm_compute. auto. Qed.

(** C64.  Two valid signatures under one key with the same R: the secret key (negated if the
    public key is odd) solves (e - e') * x = s - s', and if the challenges differ every solution
    is that key.  No knowledge of how the signatures were made is used. *)
Theorem C64_two_signatures_reveal_key {Pr : prims} {Laws : prims_ok Pr} {Tags : tags_ok Pr} (pk : point Pr) (sig sig' : bytes) (msg msg' : bytes) (H : verify_single_bytes pk sig msg = Ok tt) (H' : verify_single_bytes pk sig' msg' = Ok tt) (HR : firstn 32 sig = firstn 32 sig') :
  let e := fun m => int_from_bytes (tagged_hash "BIP0340/challenge" (firstn 32 sig ++ xbytes pk ++ m)) mod n_ in
  let P := if has_even_y pk then pval pk else pt_neg pk in
  let D := e msg - e msg' in
  let ds := int_from_bytes (skipn 32 sig) - int_from_bytes (skipn 32 sig') in
  (forall x : scalar Pr, point_mul pt_G (fz x) = P -> (D * fz x) mod n_ = ds mod n_) /\
  (D mod n_ <> 0 -> forall x : scalar Pr, (D * fz x) mod n_ = ds mod n_ -> point_mul pt_G (fz x) = P).
Proof. exact (@C64_two_signatures_reveal_key_proof Pr Laws Tags pk sig sig' msg msg' H H' HR). Qed.
Print Assumptions C64_two_signatures_reveal_key.

(** A signature of another message made with the same secret nonce: the only solution is the key. *)
Example C64_case :
  let l0 := match sign_solo (tsc 3) [x05] (repeat x09 32) with Ok l => lifted_to_bytes l | _ => [] end in
  let rx := firstn 32 l0 in
  let other := match filter (fun s => is_ok (verify_single_bytes (tpt 3) (rx ++ be_enc 32 s) [x06])) (map Z.of_nat (seq 0 31)) with
               | s :: _ => s | [] => 0 end in
  let e := fun m => int_from_bytes (tagged_hash "BIP0340/challenge" (rx ++ xbytes (tpt 3) ++ m)) mod 31 in
  let D := e [x05] - e [x06] in
  is_ok (verify_single_bytes (tpt 3) l0 [x05]) && is_ok (verify_single_bytes (tpt 3) (rx ++ be_enc 32 other) [x06]) = true /\
  (D mod 31 =? 0) = false /\
  filter (fun x => (D * x) mod 31 =? (int_from_bytes (skipn 32 l0) - other) mod 31) (map Z.of_nat (seq 0 31))
  = [if pt_odd (tpt 3) then 28 else 3].
Proof. vm_compute. auto. Qed.

(** Two aggregated signatures for one aggregated key with the same R and different challenges
    give away the aggregated secret key of the group. *)
Theorem C64_two_sessions_reveal_group_key {Pr : prims} {Laws : prims_ok Pr} {Tags : tags_ok Pr} (c c' : key_agg_ctx Pr) (an an' : agg_nonce Pr) (sigs sigs' : list (mscalar Pr)) (msg msg' : bytes) (l l' : lifted_sig Pr) (sks : list (scalar Pr)) (d : scalar Pr) (Hagg : aggregate_partial_signatures c an sigs msg = Ok l) (Hagg' : aggregate_partial_signatures c' an' sigs' msg' = Ok l') (Hkey : aggregated_pubkey c' = aggregated_pubkey c) (HR : xbytes (l_R l) = xbytes (l_R l')) (Hd : aggregated_seckey c sks = Ok d) :
  let Q := aggregated_pubkey c in
  let e := fun m => int_from_bytes (tagged_hash "BIP0340/challenge" (xbytes (l_R l) ++ xbytes Q ++ m)) mod n_ in
  let D := e msg - e msg' in
  let ds := fz (l_s l) - fz (l_s l') in
  let dd := if has_even_y Q then fz d else n_ - fz d in
  (D * dd) mod n_ = ds mod n_ /\
  (D mod n_ <> 0 -> forall x : mscalar Pr, (D * fz x) mod n_ = ds mod n_ -> fz x = dd).
Proof. exact (@C64_two_sessions_reveal_group_key_proof Pr Laws Tags c c' an an' sigs sigs' msg msg' l l' sks d Hagg Hagg' Hkey HR Hd). Qed.
Print Assumptions C64_two_sessions_reveal_group_key.

(** The toy group signs two messages with an aggregated nonce whose second half is infinite,
    so that R does not depend on the message; 19 is the aggregated secret key. *)
Example C64_sessions_case :
  let an := {| aR1 := gmul (tsc 7 : mscalar Toy); aR2 := pt_O |} in
  let sigs := fun m => filter (fun s => is_ok (aggregate_partial_signatures toy_c an [s] m))
                              (map (fun s => of_Z _ (Z.of_nat s)) (seq 0 31)) in
  let run := fun m => match aggregate_partial_signatures toy_c an (sigs m) m with Ok l => (xbytes (l_R l), fz (l_s l)) | _ => ([], -1) end in
  let e := fun m => int_from_bytes (tagged_hash "BIP0340/challenge" (fst (run m) ++ xbytes (aggregated_pubkey toy_c) ++ m)) mod 31 in
  let D := e [x05] - e [x06] in
  map (fun m => length (sigs m)) [[x05]; [x06]] = [1; 1]%nat /\
  fst (run [x05]) = fst (run [x06]) /\ (D mod 31 =? 0) = false /\
  filter (fun x => (D * x) mod 31 =? (snd (run [x05]) - snd (run [x06])) mod 31) (map Z.of_nat (seq 0 31))
  = [if has_even_y (aggregated_pubkey toy_c) then 19 else 12] /\
  match aggregated_seckey toy_c toy_sks with Ok d => fz d | _ => -1 end = 19.
Proof. vm_compute. auto. Qed.

(** C65.  Coefficient vectors that start with 1 and are non-zero elsewhere number (n-1)^(m-1)
    for m rows.  Of these, at most one in n-1 satisfies the batch equation if some row is
    invalid, whichever rows those are and however they were chosen.  The vector that
    [verify_batch] draws is of this form and decides its verdict. *)
Theorem C65_batch_error_rate {Pr : prims} {Laws : prims_ok Pr} {Tags : tags_ok Pr} (rows : list (batch_row Pr)) (Hbad : ~ Forall row_valid rows) :
  let admissible := fun cs : list (mscalar Pr) =>
    length cs = length rows /\ hd_error cs = Some fone /\ Forall (fun a => a <> fzero) cs in
  (admissible (batch_coefficients rows) /\
   (verify_batch rows = Ok tt <-> batch_equation (batch_coefficients rows) rows)) /\
  (forall V, NoDup V -> (forall cs, In cs V -> admissible cs /\ batch_equation cs rows) ->
     (n_ - 1) * Z.of_nat (length V) <= (n_ - 1) ^ (Z.of_nat (length rows) - 1)).
Proof. exact (@C65_batch_error_rate_proof Pr Laws Tags rows Hbad). Qed.
Print Assumptions C65_batch_error_rate.

(** Three toy rows, the second and third invalid: 30 of the 900 vectors satisfy the equation,
    so the bound is attained. *)
Example C65_case :
  let row := fun (k : Z) => {| row_pubkey := tpt 3; row_challenge := of_Z _ 4; row_R := gmul (tsc 5 : mscalar Toy);
                          row_s := of_Z _ k |} in
  let good := of_Z (@ord Toy) (5 + 4 * (if pt_odd (tpt 3) then 28 else 3)) in
  let rows := [row (fz good); row (fz good + 1); row (fz good + 2)] in
  let eq_ := fun cs => pt_eqb (point_mul (pt_G : @pt Toy) (batch_lhs cs rows mod 31)) (batch_rhs cs rows) in
  let u := map (fun i => of_Z (@ord Toy) (Z.of_nat i)) (seq 1 30) in
  length (filter eq_ (flat_map (fun a => map (fun b => [fone; a; b]) u) u)) = 30%nat /\
  eq_ [fone; fone; fone] = false.
Proof. vm_compute. auto. Qed.

(** C68.  The documentation of [adaptor::verify_single] says that a signature "will verify only
    if it is encrypted under the given adaptor point".  When a pre-signature valid for T is
    valid for T' as well: with adapted nonces of the same parity exactly when the two challenges
    agree, and then the hashed nonces differ unless T' = T; with different parities exactly
    when 2R is +-(e' - e)*P, so R is a multiple of the public key. *)
Theorem C68_second_adaptor_point {Pr : prims} {Laws : prims_ok Pr} {Tags : tags_ok Pr} (pk : point Pr) (sg : adaptor_sig Pr) (msg : bytes) (T T' : pt) (H : verify_single_adaptor pk sg msg T = Ok tt) :
  let A := fun X => pt_add (a_R sg) X in
  let e := fun X => int_from_bytes (tagged_hash "BIP0340/challenge" (xbytes (A X) ++ xbytes pk ++ msg)) mod n_ in
  let P := if has_even_y pk then pval pk else pt_neg pk in
  let R := if has_even_y (A T) then a_R sg else pt_neg (a_R sg) in
  (has_even_y (A T') = has_even_y (A T) -> (verify_single_adaptor pk sg msg T' = Ok tt <-> e T' = e T)) /\
  (has_even_y (A T') <> has_even_y (A T) ->
     (verify_single_adaptor pk sg msg T' = Ok tt <-> point_mul P ((e T' - e T) mod n_) = pt_add R R)) /\
  (has_even_y (A T') = has_even_y (A T) -> A T <> pt_O -> A T' <> pt_O ->
     xbytes (A T') = xbytes (A T) -> T' = T).
Proof. exact (@C68_second_adaptor_point_proof Pr Laws Tags pk sg msg T T' H). Qed.
Print Assumptions C68_second_adaptor_point.

(** On the toy curve, one point other than [toy_T] is accepted in each parity class, the other
    28 are not. *)
Example C68_case :
  let sg := sign_solo_adaptor (tsc 5) [x05] (repeat x09 32) toy_T in
  let par := fun X => has_even_y (pt_add (a_R sg) X) in
  let Ts := map (fun k => gmul (of_Z 31 (Z.of_nat k) : mscalar Toy)) (seq 0 31) in
  let oks := fun b X => is_ok (verify_single_adaptor (tpt 5) sg [x05] X) && Bool.eqb (par X) b && negb (pt_eqb X toy_T) in
  is_ok (verify_single_adaptor (tpt 5) sg [x05] toy_T) = true /\
  map (fun b => length (filter (oks b) Ts)) [true; false] = [1; 1]%nat.
Proof. vm_compute. auto. Qed.

(** The documentation adds that a decrypted signature is rejected.  A signature is valid
    exactly when, taken as a pre-signature, it is valid for the adaptor point at infinity; for
    other points the theorem above tells when it is rejected. *)
Theorem C68_decrypted_signature {Pr : prims} {Laws : prims_ok Pr} {Tags : tags_ok Pr} (pk : point Pr) (l : lifted_sig Pr) (msg : bytes) (Heven : has_even_y (l_R l) = true) :
  verify_single_adaptor pk (adaptor_new (l_R l) (l_s l)) msg pt_O = Ok tt <-> verify_single_lifted pk l msg = Ok tt.
Proof. exact (@C68_decrypted_signature_proof Pr Laws Tags pk l msg Heven). Qed.
Print Assumptions C68_decrypted_signature.

Example C68_decrypted_case :
  ok_and (sign_solo (tsc 3) toy_msg (repeat x09 32)) (fun l => has_even_y (l_R l) &&
    is_ok (verify_single_lifted (tpt 3) l toy_msg) && is_ok (verify_single_adaptor (tpt 3) (adaptor_new (l_R l) (l_s l)) toy_msg pt_O) &&
    negb (is_ok (verify_single_adaptor (tpt 3) (adaptor_new (l_R l) (l_s l)) toy_msg toy_T))) = true.
Proof. vm_compute. reflexivity. Qed.

(** The holder of a secret key can always make one pre-signature that is valid for two adaptor
    points whose logarithms they know, and that adapts to two signatures with different nonces.
    Unless two challenges with different nonces collide, R is finite and
    [reveal_secret] returns whichever of the two secrets was used. *)
Theorem C68_two_points_for_one_presignature {Pr : prims} {Laws : prims_ok Pr} {Tags : tags_ok Pr} (sk : scalar Pr) (msg : bytes) (Hn : 3 < @n_ Pr) :
  exists (sg : adaptor_sig Pr) (t t' : mscalar Pr) (l l' : lifted_sig Pr),
    let pk := base_mul sk in
    let e := fun R : point Pr => int_from_bytes (tagged_hash "BIP0340/challenge" (xbytes R ++ xbytes pk ++ msg)) mod n_ in
    t <> t' /\
    verify_single_adaptor pk sg msg (point_mul pt_G (fz t)) = Ok tt /\
    verify_single_adaptor pk sg msg (point_mul pt_G (fz t')) = Ok tt /\
    adapt sg t = Some l /\ adapt sg t' = Some l' /\
    verify_single_lifted pk l msg = Ok tt /\ verify_single_lifted pk l' msg = Ok tt /\
    xbytes (l_R l) <> xbytes (l_R l') /\
    (e (l_R l) <> e (l_R l') ->
       a_R sg <> pt_O /\ reveal_secret sg l = Some t /\ reveal_secret sg l' = Some t').
Proof. exact (@C68_two_points_for_one_presignature_proof Pr Laws Tags sk msg Hn). Qed.
Print Assumptions C68_two_points_for_one_presignature.

(** On the toy curve with key 5 and adapted nonces G and 2G (or their negations), written out:
    the challenges differ and the two secrets are recovered. *)
Example C68_two_points_case : 3 < @n_ Toy /\
  let signed := fun odd k => if Bool.eqb (pt_odd (gmul (of_Z 31 k : mscalar Toy))) odd then k else 31 - k in
  let u := signed false 1 in let v := signed true 2 in
  let e := fun k => int_from_bytes (tagged_hash "BIP0340/challenge" (xbytes (gmul (of_Z 31 k : mscalar Toy)) ++ xbytes (tpt 5) ++ toy_msg)) mod 31 in
  let d := if pt_odd (tpt 5) then 26 else 5 in
  let r := (e v - e u) * 16 * d in
  let sg := {| a_R := gmul (of_Z 31 r : mscalar Toy); a_s := of_Z 31 ((e v + e u) * 16 * d) |} in
  (e u =? e v) = false /\
  forallb (fun k => let t := of_Z 31 (k - r) : mscalar Toy in
     is_ok (verify_single_adaptor (tpt 5) sg toy_msg (gmul t)) &&
     match adapt sg t with
     | Some l => is_ok (verify_single_lifted (tpt 5) l toy_msg) && match reveal_secret sg l with Some t' => feqb t t' | None => false end
     | None => false end) [u; v] = true.
Proof. split; [reflexivity|]. vm_compute. auto. Qed.

(** The control flow of the functions that handle secrets: the functions of KeyAgg.v, Nonces.v,
    Signing.v, Signature.v, Bip340.v and Deterministic.v again, each recording the branches it
    takes, the positions it reads in its tables and the lengths it hashes.  Only the branches and
    lookups written in /repo/src are recorded; operations of the crates it depends on (scalar and
    point arithmetic, [Choice] and [negate_if], hashing, [HashMap], [Option] and [Result]
    adapters that do not return early) are single steps.  Panics record nothing. *)
From Coq Require Import String List.
From Verif Require Import Bytes Prims TaggedHashes Errors KeyAgg Nonces Signature Signing Bip340 Deterministic.
Import ListNotations.
Local Open Scope string_scope.
Local Open Scope list_scope.
Local Open Scope Z_scope.

(** What is recorded, each with its place "file:line" in /repo/src: which way a branch went, which
    position of a table was read, how many bytes were hashed. *)
Inductive event : Type :=
| Branch (place : string) (taken : bool)
| Index (place : string) (position : nat)
| Size (place : string) (bytes_hashed : Z).

(** A result with the events recorded on the way (no counterpart in /repo). *)
Record traced (A : Type) : Type := Traced { trace : list event; value : A }.
Arguments Traced {A} _ _.
Arguments trace {A} _.
Arguments value {A} _.

(** A result without events. *)
Definition ret {A} (a : A) : traced A := Traced [] a.
(** One after the other. *)
Definition next {A B} (m : traced A) (f : A -> traced B) : traced B :=
  let r := f (value m) in Traced (trace m ++ trace r) (value r).
(** An event. *)
Definition see {A} (e : event) (m : traced A) : traced A := Traced (e :: trace m) (value m).
(** The operator [?] at the given place: taken when it returns early. *)
Definition early {E A B} (place : string) (r : res E A) (f : A -> traced (res E B)) : traced (res E B) :=
  match r with
  | Ok a => see (Branch place false) (f a)
  | Err e => see (Branch place true) (ret (Err e))
  | Panic => ret Panic
  end.

Section ControlFlow.
Context {Pr : prims}.

(** src/key_agg.rs:451-454 [key_coefficient]. *)
Definition key_coefficient_t (c : key_agg_ctx Pr) (pk : point Pr) : traced (res Empty_set (option (mscalar Pr))) :=
  match pubkey_index c pk with
  | None => see (Branch "key_agg.rs:452" true) (ret (Ok None))
  | Some i => see (Branch "key_agg.rs:452" false) (see (Index "key_agg.rs:453" i)
      (ret (bind (unwrap (nth_error (key_coefficients c) i)) (fun a => Ok (Some a)))))
  end.

(** src/key_agg.rs:462-465 [effective_pubkey]. *)
Definition effective_pubkey_t (c : key_agg_ctx Pr) (pk : point Pr) : traced (res Empty_set (option pt)) :=
  match pubkey_index c pk with
  | None => see (Branch "key_agg.rs:463" true) (ret (Ok None))
  | Some i => see (Branch "key_agg.rs:463" false) (see (Index "key_agg.rs:464" i)
      (ret (bind (unwrap (nth_error (effective_pubkeys c) i)) (fun a => Ok (Some a)))))
  end.

(** src/nonces.rs:606-624 [nonce_coefficient]. *)
Definition nonce_coefficient_t (n : agg_nonce Pr) (Q : point Pr) (msg : bytes) : traced (mscalar Pr) :=
  see (Size "nonces.rs:619" (zlen msg)) (ret (nonce_coefficient n Q msg)).

(** src/nonces.rs:633-643 [final_nonce]. *)
Definition final_nonce_t (n : agg_nonce Pr) (b : mscalar Pr) : traced (point Pr) :=
  match not_inf (pt_add (aR1 n) (pmul b (aR2 n))) with
  | None => see (Branch "nonces.rs:639" true) (ret gen_point)
  | Some P => see (Branch "nonces.rs:639" false) (ret P)
  end.

(** src/signing.rs:21-35 [compute_challenge_hash_tweak]. *)
Definition challenge_t (nonce_x : bytes) (Q : point Pr) (msg : bytes) : traced (mscalar Pr) :=
  see (Size "signing.rs:30" (zlen msg)) (ret (compute_challenge_hash_tweak nonce_x Q msg)).

(** src/signing.rs:147-189 [verify_partial_adaptor]. *)
Definition verify_partial_adaptor_t (c : key_agg_ctx Pr) (s : mscalar Pr) (an : agg_nonce Pr)
    (T : pt) (pk : point Pr) (pn : pub_nonce Pr) (msg : bytes) : traced (res verify_error unit) :=
  next (effective_pubkey_t c pk) (fun r =>
  early "signing.rs:162" (lookup_or r VE_UnknownKey) (fun eff =>
  let Q := pubkey c in
  next (nonce_coefficient_t an Q msg) (fun b =>
  next (final_nonce_t an b) (fun final =>
  let adapted := pt_add final T in
  let en := pt_add (pR1 pn) (pmul b (pR2 pn)) in
  next (if pt_odd adapted then see (Branch "signing.rs:173" true) (ret (pt_neg en))
        else see (Branch "signing.rs:173" false) (ret en)) (fun en =>
  next (challenge_t (pt_x adapted) Q msg) (fun e =>
  let par := xorb (pt_odd Q) (parity_acc c) in
  let cp := pneg_if par (pmul e eff) in
  if negb (pt_eqb (gmul s) (pt_add en cp))
  then see (Branch "signing.rs:184" true) (ret (Err VE_BadSignature))
  else see (Branch "signing.rs:184" false) (ret (Ok tt)))))))).

(** src/signing.rs:49-102 [sign_partial_adaptor]. *)
Definition sign_partial_adaptor_t (c : key_agg_ctx Pr) (sk : scalar Pr) (sn : sec_nonce Pr)
    (an : agg_nonce Pr) (T : pt) (msg : bytes) : traced (res signing_error (mscalar Pr)) :=
  let pk := base_mul sk in
  next (key_coefficient_t c pk) (fun r =>
  early "signing.rs:65" (lookup_or r SE_UnknownKey) (fun a =>
  let Q := pubkey c in
  let pn := public_nonce sn in
  next (nonce_coefficient_t an Q msg) (fun b =>
  next (final_nonce_t an b) (fun final =>
  let adapted := pt_add final T in
  let d := fneg_if (xorb (pt_odd Q) (parity_acc c)) sk in
  next (challenge_t (pt_x adapted) Q msg) (fun e =>
  let k := fneg_if (pt_odd adapted) (fadd (k1 sn) (fmul b (k2 sn))) in
  let s := fadd k (fmul (fmul e a) d) in
  next (verify_partial_adaptor_t c s an T pk pn msg) (fun v =>
  early "signing.rs:99" (map_err signing_of_verify v) (fun _ =>
  ret (Ok s)))))))).

(** The match on a reduced hash at src/nonces.rs:396-403 and src/bip340.rs:61-64; taken when
    the hash reduces to zero. *)
Definition nonce_scalar_t (place : string) (h : bytes) : traced (scalar Pr) :=
  match not_zero (reduce_from h) with
  | Some k => see (Branch place false) (ret k)
  | None => see (Branch place true) (ret scalar_one)
  end.

(** src/nonces.rs:387-389: the loop over the extra inputs. *)
Fixpoint hash_extras_t (l : list bytes) : traced bytes :=
  match l with
  | [] => ret []
  | e :: l' => see (Size "nonces.rs:388" (zlen e)) (next (hash_extras_t l') (fun t => ret (e ++ t)))
  end.

(** src/nonces.rs:333-405 [build]. *)
Definition build_t (b : builder Pr) : traced (sec_nonce Pr) :=
  next (match b_seckey b with
        | Some sk => see (Branch "nonces.rs:334" true) (ret (ser_scalar sk))
        | None => see (Branch "nonces.rs:334" false) (ret (zeros 32))
        end) (fun skb =>
  next (match b_pubkey b with
        | None => see (Branch "nonces.rs:353" false) (ret [x00])
        | Some pk => see (Branch "nonces.rs:353" true) (ret (x21 :: ser_point pk))
        end) (fun f1 =>
  next (match b_aggregated_pubkey b with
        | None => see (Branch "nonces.rs:361" false) (ret [x00])
        | Some Q => see (Branch "nonces.rs:361" true) (ret (x20 :: pt_x Q))
        end) (fun f2 =>
  next (match b_message b with
        | None => see (Branch "nonces.rs:369" false) (ret [x00])
        | Some m => see (Branch "nonces.rs:369" true)
            (see (Size "nonces.rs:374" (zlen m)) (ret (x01 :: be_enc 8 (zlen m) ++ m)))
        end) (fun f3 =>
  next (match b_extra_inputs b with
        | [] => see (Branch "nonces.rs:379" false) (ret [])
        | l => see (Branch "nonces.rs:379" true)
            (next (hash_extras_t l) (fun t => ret (be_enc 4 (extra_total l) ++ t)))
        end) (fun f4 =>
  let pre := xor_bytes skb (tagged MUSIG_AUX_TAG_DIGEST (nonce_seed_bytes b)) ++ f1 ++ f2 ++ f3 ++ f4 in
  next (nonce_scalar_t "nonces.rs:396" (tagged MUSIG_NONCE_TAG_DIGEST (pre ++ [x00]))) (fun a1 =>
  next (nonce_scalar_t "nonces.rs:400" (tagged MUSIG_NONCE_TAG_DIGEST (pre ++ [x01]))) (fun a2 =>
  ret {| k1 := a1; k2 := a2 |}))))))).

(** src/bip340.rs:31-79 [sign_solo_adaptor]. *)
Definition sign_solo_adaptor_t (sk : scalar Pr) (msg seed : bytes) (T : pt) : traced (adaptor_sig Pr) :=
  let P := base_mul sk in
  let d := fneg_if (pt_odd P) sk in
  let h := tagged BIP0340_AUX_TAG_DIGEST seed in
  let t := xor_bytes h (ser_scalar d) in
  see (Size "bip340.rs:55" (zlen msg)) (
  let rand := tagged BIP0340_NONCE_TAG_DIGEST (t ++ pt_x P ++ msg) in
  next (nonce_scalar_t "bip340.rs:61" rand) (fun prenonce =>
  let R := base_mul prenonce in
  let adapted := pt_add R T in
  let k := fneg_if (pt_odd adapted) prenonce in
  next (challenge_t (pt_x adapted) P msg) (fun e =>
  ret (adaptor_new R (fadd k (fmul e d)))))).

(** src/signature.rs:185-193 [adapt]. *)
Definition adapt_t (sg : adaptor_sig Pr) (t : mscalar Pr) : traced (option (lifted_sig Pr)) :=
  match not_inf (pt_add (a_R sg) (gmul t)) with
  | None => see (Branch "signature.rs:190" true) (ret None)
  | Some N => see (Branch "signature.rs:190" false)
      (ret (Some (lifted_new N (fadd (a_s sg) (fneg_if (pt_odd N) t)))))
  end.

(** src/bip340.rs:92-104 [sign_solo]. *)
Definition sign_solo_t (sk : scalar Pr) (msg seed : bytes) : traced (res Empty_set (lifted_sig Pr)) :=
  next (sign_solo_adaptor_t sk msg seed pt_O) (fun sg =>
  next (adapt_t sg fzero) (fun o => ret (unwrap o))).

(** src/signature.rs:208-222 [reveal_secret]. *)
Definition reveal_secret_t (sg : adaptor_sig Pr) (final : lifted_sig Pr) : traced (option (mscalar Pr)) :=
  let t := fsub (l_s final) (a_s sg) in
  let T := gmul t in
  if pt_eqb T (psub (l_R final) (a_R sg)) then see (Branch "signature.rs:215" true) (ret (Some t))
  else see (Branch "signature.rs:215" false)
    (if pt_eqb T (pt_add (l_R final) (a_R sg)) then see (Branch "signature.rs:217" true) (ret (Some (fneg t)))
     else see (Branch "signature.rs:217" false) (ret None)).

(** src/key_agg.rs:476-479: the loop of [aggregated_seckey]. *)
Fixpoint seckey_loop_t (coeffs : list (mscalar Pr)) (sks : list (scalar Pr)) (acc : mscalar Pr) {struct sks}
  : traced (option (mscalar Pr)) :=
  match sks with
  | [] => ret (Some acc)
  | sk :: sks' =>
      match coeffs with
      | [] => see (Branch "key_agg.rs:477" true) (ret None)
      | a :: coeffs' => see (Branch "key_agg.rs:477" false) (seckey_loop_t coeffs' sks' (fadd acc (fmul sk a)))
      end
  end.

(** src/key_agg.rs:471-489 [aggregated_seckey]. *)
Definition aggregated_seckey_t (c : key_agg_ctx Pr) (sks : list (scalar Pr))
  : traced (res seckeys_error (scalar Pr)) :=
  next (seckey_loop_t (key_coefficients c) sks fzero) (fun o =>
  match o with
  | None => ret (Err InvalidSecretKeysError)
  | Some acc =>
      match not_zero (fadd (fneg_if (parity_acc c) acc) (tweak_acc c)) with
      | None => see (Branch "key_agg.rs:482" true) (ret (Err InvalidSecretKeysError))
      | Some x => see (Branch "key_agg.rs:482" false)
          (if negb (pt_eqb (gmul x) (pubkey c))
           then see (Branch "key_agg.rs:484" true) (ret (Err InvalidSecretKeysError))
           else see (Branch "key_agg.rs:484" false) (ret (Ok x)))
      end
  end).

(** src/deterministic.rs:67-82: the loop, with fuel. *)
Fixpoint rfc6979_loop_t (fuel : nat) (K V : bytes) : traced (option (scalar Pr)) :=
  match fuel with
  | O => ret None
  | S f =>
      let V := hmac_sha256 K V in
      match parse_scalar V with
      | Some k => see (Branch "deterministic.rs:74" true) (ret (Some k))
      | None => see (Branch "deterministic.rs:74" false) (
          let K := hmac_sha256 K (V ++ [x00]) in
          let V := hmac_sha256 K V in
          rfc6979_loop_t f K V)
      end
  end.

(** src/deterministic.rs:34-83 [derive_nonce_rfc6979]. *)
Definition derive_nonce_rfc6979_t (fuel : nat) (sk : scalar Pr) (msg : bytes) : traced (option (scalar Pr)) :=
  see (Size "deterministic.rs:38" (zlen msg))
    (let (K, V) := rfc6979_init sk msg in rfc6979_loop_t fuel K V).

(** src/deterministic.rs:91-99 [adaptor::sign_solo]. *)
Definition det_sign_solo_adaptor_t (fuel : nat) (sk : scalar Pr) (msg : bytes) (T : pt)
  : traced (option (adaptor_sig Pr)) :=
  next (derive_nonce_rfc6979_t fuel sk msg) (fun o =>
  match o with
  | None => ret None
  | Some aux => next (sign_solo_adaptor_t sk msg (ser_scalar aux) T) (fun sg => ret (Some sg))
  end).

(** src/deterministic.rs:103-110 [sign_solo]. *)
Definition det_sign_solo_t (fuel : nat) (sk : scalar Pr) (msg : bytes)
  : traced (option (res Empty_set (lifted_sig Pr))) :=
  next (derive_nonce_rfc6979_t fuel sk msg) (fun o =>
  match o with
  | None => ret None
  | Some aux => next (sign_solo_t sk msg (ser_scalar aux)) (fun sg => ret (Some sg))
  end).

End ControlFlow.

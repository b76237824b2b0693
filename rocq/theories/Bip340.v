(** src/bip340.rs: single-signer signing, verification and batch verification. *)
From Verif Require Import Bytes Prims TaggedHashes Errors Nonces Signature Signing.
Open Scope Z_scope.

Section Bip340.
Context {Pr : prims}.

(** src/bip340.rs:40-64: the nonce scalar, one if the hash reduces to zero; the
    same fallback as in src/nonces.rs. *)
Definition solo_prenonce (sk : scalar Pr) (msg seed : bytes) : scalar Pr :=
  let P := base_mul sk in
  let d := fneg_if (pt_odd P) sk in
  let h := tagged BIP0340_AUX_TAG_DIGEST seed in
  let t := xor_bytes h (ser_scalar d) in
  let rand := tagged BIP0340_NONCE_TAG_DIGEST (t ++ pt_x P ++ msg) in
  nonce_scalar rand.

(** src/bip340.rs:31-79 [sign_solo_adaptor] (the seed has 32 bytes). *)
Definition sign_solo_adaptor (sk : scalar Pr) (msg seed : bytes) (T : pt) : adaptor_sig Pr :=
  let P := base_mul sk in
  let d := fneg_if (pt_odd P) sk in
  let prenonce := solo_prenonce sk msg seed in
  let R := base_mul prenonce in
  let adapted := pt_add R T in
  let k := fneg_if (pt_odd adapted) prenonce in
  let e := compute_challenge_hash_tweak (pt_x adapted) P msg in
  adaptor_new R (fadd k (fmul e d)).

(** src/bip340.rs:92-104 [sign_solo]; the [expect] is a possible panic. *)
Definition sign_solo (sk : scalar Pr) (msg seed : bytes) : res Empty_set (lifted_sig Pr) :=
  unwrap (adapt (sign_solo_adaptor sk msg seed pt_O) fzero).

(** src/bip340.rs:117-143 [verify_single_adaptor]. *)
Definition verify_single_adaptor (pk : point Pr) (sg : adaptor_sig Pr) (msg : bytes) (T : pt)
  : res verify_error unit :=
  let P := even_point pk in
  let adapted := pt_add (a_R sg) T in
  let e := compute_challenge_hash_tweak (pt_x adapted) P msg in
  let en := if negb (pt_odd adapted) then a_R sg else pt_neg (a_R sg) in
  if negb (pt_eqb (gmul (a_s sg)) (pt_add en (pmul e P))) then Err VE_BadSignature else Ok tt.

(** src/bip340.rs:153-180 [verify_single] on a [CompactSignature]. *)
Definition verify_single (pk : point Pr) (sg : compact_sig Pr) (msg : bytes)
  : res verify_error unit :=
  let P := even_point pk in
  let e := compute_challenge_hash_tweak (c_rx sg) P msg in
  match not_inf (psub (gmul (c_s sg)) (pmul e P)) with
  | None => Err VE_BadSignature
  | Some V =>
      if pt_odd V then Err VE_BadSignature
      else if bytes_eqb (pt_x V) (c_rx sg) then Ok tt
      else Err VE_BadSignature
  end.

(** [verify_single] on a byte slice: [signature.try_into().map_err(|_| BadSignature)?]
    (src/bip340.rs:161). *)
Definition verify_single_bytes (pk : point Pr) (sig : bytes) (msg : bytes)
  : res verify_error unit :=
  bind (map_err (fun _ => VE_BadSignature) (compact_from_bytes sig)) (fun sg =>
  verify_single pk sg msg).

(** [verify_single] on a [LiftedSignature] (converted with [compact]).
    (src/bip340.rs:153-182 through [TryInto<CompactSignature>].) *)
Definition verify_single_lifted (pk : point Pr) (sg : lifted_sig Pr) (msg : bytes)
  : res verify_error unit :=
  verify_single pk (compact sg) msg.

(** src/bip340.rs:189-194 [BatchVerificationRow]. *)
Record batch_row : Type := BatchRow {
  row_pubkey : point Pr;
  row_challenge : mscalar Pr;
  row_R : pt;
  row_s : mscalar Pr
}.

(** src/bip340.rs:199-214 [from_signature]. *)
Definition row_from_signature (pk : point Pr) (msg : bytes) (sg : lifted_sig Pr) : batch_row :=
  {| row_pubkey := pk;
     row_challenge := compute_challenge_hash_tweak (pt_x (l_R sg)) pk msg;
     row_R := l_R sg;
     row_s := l_s sg |}.

(** src/bip340.rs:217-246 [from_adaptor_signature]. *)
Definition row_from_adaptor (pk : point Pr) (msg : bytes) (sg : adaptor_sig Pr) (T : pt)
  : batch_row :=
  let adapted := pt_add (a_R sg) T in
  {| row_pubkey := pk;
     row_challenge := compute_challenge_hash_tweak (pt_x adapted) pk msg;
     row_R := if negb (pt_odd adapted) then a_R sg else pt_neg (a_R sg);
     row_s := a_s sg |}.

(** src/bip340.rs:269-283: the RNG seed. *)
Definition batch_seed (rows : list batch_row) : bytes :=
  tagged BIP0340_BATCH_TAG_DIGEST
    (flat_map (fun r => ser_scalar (row_challenge r)) rows
     ++ flat_map (fun r => ser_scalar (row_s r)) rows).

(** src/bip340.rs:289-293: coefficient of row [i]: one for the first row, then
    successive draws. *)
Definition batch_coeff (seed : bytes) (i : nat) : mscalar Pr :=
  match i with O => fone | S j => rng_scalar seed j end.

(** src/bip340.rs:288-300: the loop, from row [i] on. *)
Fixpoint batch_loop (seed : bytes) (i : nat) (rows : list batch_row)
    (lhs : mscalar Pr) (rhs : list pt) : mscalar Pr * list pt :=
  match rows with
  | [] => (lhs, rhs)
  | r :: rows' =>
      let a := batch_coeff seed i in
      let P := even_point (row_pubkey r) in
      batch_loop seed (S i) rows'
        (fadd lhs (fmul (row_s r) a))
        (rhs ++ [pmul a (row_R r); pmul (fmul a (row_challenge r)) P])
  end.

(** src/bip340.rs:267-310 [verify_batch]. *)
Definition verify_batch (rows : list batch_row) : res verify_error unit :=
  let (lhs, rhs) := batch_loop (batch_seed rows) 0 rows fzero [] in
  if pt_eqb (gmul lhs) (psum rhs) then Ok tt else Err VE_BadSignature.

End Bip340.
Arguments batch_row Pr : clear implicits.

(** What the crate hashes and for which purpose: a description of the inputs of its
    tagged hashes, independent of the code.  The formats are those of BIP327 (key list,
    key coefficients, nonce coefficient, nonces), BIP340 (auxiliary randomness, nonce,
    challenge) and BIP341 (TapTweak); the batch format is that of src/bip340.rs:267-283. *)
From Coq Require Import String List.
From Verif Require Import Bytes Prims SpecTags SpecBIP327 SpecNonces.
Import ListNotations.
Open Scope list_scope.
Open Scope Z_scope.

Section SpecHashing.
Context {Pr : prims}.

(** One use of the hash, with the data it is supposed to commit to. *)
Inductive hash_use : Type :=
| UseKeyList (keys : list bytes)
| UseKeyCoefficient (key_list_hash key : bytes)
| UseTapTweak (internal_key merkle_root : bytes)
| UseNonceSeed (seed : bytes)
| UseNonce (request : nonce_request) (counter : byte)
| UseNonceCoefficient (nonce1 nonce2 key message : bytes)
| UseChallenge (nonce key message : bytes)
| UseSoloSeed (seed : bytes)
| UseSoloNonce (masked_key key message : bytes)
| UseBatch (rows : list (bytes * bytes)).

(** The tag of each use. *)
Definition use_tag (u : hash_use) : string :=
  match u with
  | UseKeyList _ => "KeyAgg list"
  | UseKeyCoefficient _ _ => "KeyAgg coefficient"
  | UseTapTweak _ _ => "TapTweak"
  | UseNonceSeed _ => "MuSig/aux"
  | UseNonce _ _ => "MuSig/nonce"
  | UseNonceCoefficient _ _ _ _ => "MuSig/noncecoef"
  | UseChallenge _ _ _ => "BIP0340/challenge"
  | UseSoloSeed _ => "BIP0340/aux"
  | UseSoloNonce _ _ _ => "BIP0340/nonce"
  | UseBatch _ => "BIP0340/batch"
  end.

(** A length-prefixed optional field, absent when [None]. *)
Definition opt_field (width : nat) (f : option bytes) : bytes :=
  match f with None => [] | Some b => be_enc width (zlen b) ++ b end.
(** A length-prefixed field, of length zero when [None]. *)
Definition len_field (width : nat) (f : option bytes) : bytes :=
  match f with None => be_enc width 0 | Some b => be_enc width (zlen b) ++ b end.

(** The bytes following the tag.  The nonce format is the crate's: an absent extra input
    contributes nothing (BIP327 writes a zero length). *)
Definition use_fields (u : hash_use) : bytes :=
  match u with
  | UseKeyList keys => concat keys
  | UseKeyCoefficient l k => l ++ k
  | UseTapTweak k r => k ++ r
  | UseNonceSeed s => s
  | UseNonce rq i =>
      nr_rand rq ++ len_field 1 (nr_pk rq) ++ len_field 1 (nr_aggpk rq)
      ++ (match nr_msg rq with None => [x00] | Some m => [x01] ++ be_enc 8 (zlen m) ++ m end)
      ++ opt_field 4 (nr_extra rq) ++ [i]
  | UseNonceCoefficient a b k m => a ++ b ++ k ++ m
  | UseChallenge r k m => r ++ k ++ m
  | UseSoloSeed s => s
  | UseSoloNonce t k m => t ++ k ++ m
  | UseBatch rows => concat (map fst rows) ++ concat (map snd rows)
  end.

(** The whole string hashed, and its digest. *)
Definition hash_input (u : hash_use) : bytes :=
  sha256 (ascii_bytes (use_tag u)) ++ sha256 (ascii_bytes (use_tag u)) ++ use_fields u.
(** The digest. *)
Definition hash_of (u : hash_use) : bytes := sha256 (hash_input u).
(** The digest as an integer modulo the group order. *)
Definition hash_int (u : hash_use) : Z := int_from_bytes (hash_of u) mod n_.

(** A string of a given length. *)
Definition has_len (n : nat) (b : bytes) : Prop := length b = n.
(** An optional string of a given length. *)
Definition opt_len (n : nat) (o : option bytes) : Prop := match o with None => True | Some b => length b = n end.

(** The lengths the formats prescribe. *)
Definition well_formed (u : hash_use) : Prop :=
  match u with
  | UseKeyList keys => Forall (has_len 33) keys
  | UseKeyCoefficient l k => has_len 32 l /\ has_len 33 k
  | UseTapTweak k _ => has_len 32 k
  | UseNonceSeed _ => True
  | UseNonce rq _ => has_len 32 (nr_rand rq) /\ opt_len 33 (nr_pk rq) /\ opt_len 32 (nr_aggpk rq) /\
      (forall m, nr_msg rq = Some m -> zlen m < 2 ^ 64)
  | UseNonceCoefficient a b k _ => has_len 33 a /\ has_len 33 b /\ has_len 32 k
  | UseChallenge r k _ => has_len 32 r /\ has_len 32 k
  | UseSoloSeed _ => True
  | UseSoloNonce t k _ => has_len 32 t /\ has_len 32 k
  | UseBatch rows => Forall (fun r => has_len 32 (fst r) /\ has_len 32 (snd r)) rows
  end.

(** Two uses whose inputs differ, with the same digest, the same digest modulo the order, or
    the same one with 0 replaced by 1 (the secret nonces).  The colliding strings are named: that
    some pair of strings collides is true of every hash function. *)
Definition collide (u v : hash_use) : Prop := hash_input u <> hash_input v /\ hash_of u = hash_of v.
(** The same with digests modulo the order. *)
Definition collide_mod_n (u v : hash_use) : Prop := hash_input u <> hash_input v /\ hash_int u = hash_int v.
(** The same with digests modulo the order and 0 replaced by 1. *)
Definition collide_nonzero (u v : hash_use) : Prop :=
  hash_input u <> hash_input v /\ Z.max 1 (hash_int u) = Z.max 1 (hash_int v).

End SpecHashing.

(** What nonce generation is supposed to hash, independently of the builder code,
    and the meaning of a sequence of builder calls. *)
From Coq Require Import String List.
From Verif Require Import Bytes Prims TaggedHashes Errors SpecTags SpecBIP327 Nonces.
Import ListNotations.
Open Scope list_scope.
Open Scope Z_scope.

Section SpecNonces.
Context {Pr : prims}.

(** The inputs of a nonce: the masked randomness and four optional fields. *)
Record nonce_request : Type := NonceRequest {
  nr_rand : bytes;
  nr_pk : option bytes;
  nr_aggpk : option bytes;
  nr_msg : option bytes;
  nr_extra : option bytes
}.

(** The randomness masked with the secret key as BIP327 does it; without a secret
    key the crate masks with zeros. *)
Definition masked_seed (seed : bytes) (sk : option (scalar Pr)) : bytes :=
  bytes_xor (match sk with Some k => bytes_from_int (fz (sval k)) | None => zeros 32 end)
            (tagged_hash "MuSig/aux" seed).

(** The inputs a builder stands for. *)
Definition request_of (b : builder Pr) : nonce_request := {|
  nr_rand := masked_seed (nonce_seed_bytes b) (b_seckey b);
  nr_pk := option_map (fun P : point Pr => cbytes P) (b_pubkey b);
  nr_aggpk := option_map (fun P : point Pr => xbytes P) (b_aggregated_pubkey b);
  nr_msg := b_message b;
  nr_extra := match b_extra_inputs b with [] => None | l => Some (concat l) end
|}.

(** reference.py:253-264 and 266-281: the bytes BIP327's [nonce_gen_internal] hashes
    for nonce number [i]. *)
Definition bip327_nonce_input (rand_ : bytes) (sk : option bytes) (pk : bytes)
    (aggpk msg extra_in : option bytes) (i : Z) : bytes :=
  (match sk with
   | Some sk => bytes_xor sk (tagged_hash "MuSig/aux" rand_)
   | None => rand_
   end)
  ++ be_enc 1 (zlen pk) ++ pk
  ++ (let a := match aggpk with None => [] | Some a => a end in be_enc 1 (zlen a) ++ a)
  ++ (match msg with None => [x00] | Some m => [x01] ++ be_enc 8 (zlen m) ++ m end)
  ++ (let e := match extra_in with None => [] | Some e => e end in be_enc 4 (zlen e) ++ e)
  ++ be_enc 1 i.

(** The integer BIP327 derives from such an input. *)
Definition nonce_int (input : bytes) : Z := int_from_bytes (tagged_hash "MuSig/nonce" input) mod n_.

(** BIP327's inputs for a builder whose public key is [pk]: each field of the builder
    is passed as the argument of the same name. *)
Definition bip327_input_of (b : builder Pr) (pk : point Pr) (i : Z) : bytes :=
  bip327_nonce_input (nonce_seed_bytes b)
    (option_map (fun k : scalar Pr => bytes_from_int (fz (sval k))) (b_seckey b)) (cbytes pk)
    (nr_aggpk (request_of b)) (b_message b) (nr_extra (request_of b)) i.
(** The nonce pair that the reference generates from these values. *)
Definition bip327_gen_of (b : builder Pr) (pk : point Pr) : py (bytes * bytes) :=
  nonce_gen_internal (nonce_seed_bytes b)
    (option_map (fun k : scalar Pr => bytes_from_int (fz (sval k))) (b_seckey b)) (cbytes pk)
    (nr_aggpk (request_of b)) (b_message b) (nr_extra (request_of b)).

(** What the nonce number [k] of signer [i] (with key [pk]) in a round over the
    context key [Q] is derived from: the masked seed, the signer's key, the x-only
    aggregated key, the message of the spices, the signer index and the extra inputs. *)
Definition round_nonce_input (seed : bytes) (i : nat) (pk Q : point Pr) (sp : spices Pr) (k : byte) : bytes :=
  masked_seed seed (sp_seckey sp) ++ [x21] ++ cbytes pk ++ [x20] ++ xbytes Q
  ++ (match sp_message sp with None => [x00] | Some m => [x01] ++ be_enc 8 (zlen m) ++ m end)
  ++ be_enc 4 (4 + zlen (concat (sp_extra_inputs sp))) ++ be_enc 4 (Z.of_nat i)
  ++ concat (sp_extra_inputs sp) ++ [k].

(** *** Sequences of builder calls *)

(** The calls that can be made on a [SecNonceBuilder] before [build]. *)
Inductive bcall : Type :=
| BPubkey (pk : point Pr)
| BSeckey (sk : scalar Pr)
| BMessage (m : bytes)
| BAggregated (Q : point Pr)
| BExtra (e : bytes)
| BSpices (s : spices Pr).

(** One call on the builder. *)
Definition bstep (b : builder Pr) (c : bcall) : res Empty_set (builder Pr) :=
  match c with
  | BPubkey pk => Ok (with_pubkey b pk)
  | BSeckey sk => Ok (with_seckey b sk)
  | BMessage m => Ok (with_message b m)
  | BAggregated Q => Ok (with_aggregated_pubkey b Q)
  | BExtra e => with_extra_input b e
  | BSpices s => with_spices b s
  end.
(** The calls in order; a panic ends them. *)
Fixpoint brun (b : builder Pr) (l : list bcall) : res Empty_set (builder Pr) :=
  match l with
  | [] => Ok b
  | c :: l' => bind (bstep b c) (fun b' => brun b' l')
  end.

(** The calls that can be made on a [SecNonceSpices]. *)
Inductive scall : Type :=
| SSeckey (sk : scalar Pr)
| SMessage (m : bytes)
| SExtra (e : bytes).
(** One call on the spices. *)
Definition sstep (s : spices Pr) (c : scall) : res Empty_set (spices Pr) :=
  match c with
  | SSeckey sk => Ok (sp_with_seckey s sk)
  | SMessage m => Ok (sp_with_message s m)
  | SExtra e => sp_with_extra_input s e
  end.
(** The calls in order; a panic ends them. *)
Fixpoint srun (s : spices Pr) (l : list scall) : res Empty_set (spices Pr) :=
  match l with
  | [] => Ok s
  | c :: l' => bind (sstep s c) (fun s' => srun s' l')
  end.

(** The value set by the last call that sets one. *)
Inductive last_set {C A} (f : C -> option A) : list C -> option A -> Prop :=
| last_never l : (forall c, In c l -> f c = None) -> last_set f l None
| last_at l1 c l2 a : f c = Some a -> (forall c', In c' l2 -> f c' = None) ->
    last_set f (l1 ++ c :: l2) (Some a).

(** What each call sets. *)
Definition sets_seckey (c : bcall) : option (scalar Pr) :=
  match c with BSeckey sk => Some sk | BSpices s => sp_seckey s | _ => None end.
(** A secret key sets its public key as well. *)
Definition sets_pubkey (c : bcall) : option (point Pr) :=
  match c with BPubkey pk => Some pk | BSeckey sk => Some (base_mul sk) | _ => None end.
(** The message a call sets. *)
Definition sets_message (c : bcall) : option bytes :=
  match c with BMessage m => Some m | BSpices s => sp_message s | _ => None end.
(** The aggregated key a call sets. *)
Definition sets_aggregated (c : bcall) : option (point Pr) :=
  match c with BAggregated Q => Some Q | _ => None end.
(** The extra inputs a call appends. *)
Definition adds_extra (c : bcall) : list bytes :=
  match c with BExtra e => [e] | BSpices s => sp_extra_inputs s | _ => [] end.

(** What each call on the spices sets. *)
Definition ssets_seckey (c : scall) : option (scalar Pr) :=
  match c with SSeckey sk => Some sk | _ => None end.
(** The message a call sets. *)
Definition ssets_message (c : scall) : option bytes :=
  match c with SMessage m => Some m | _ => None end.
(** The extra inputs a call appends. *)
Definition sadds_extra (c : scall) : list bytes :=
  match c with SExtra e => [e] | _ => [] end.

End SpecNonces.
Arguments bcall Pr : clear implicits.
Arguments scall Pr : clear implicits.

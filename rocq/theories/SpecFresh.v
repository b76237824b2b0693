(** Nonces made from chosen inputs with one secret key: when does a nonce come up twice?

    Specification only: nothing here models code of /repo; the nonces are those of the model's
    [build]. *)
From Coq Require Import String List.
From Verif Require Import Bytes Prims SpecBIP327 Nonces SpecExtract SpecFork.
Import ListNotations.
Local Open Scope Z_scope.

Section Fresh.
Context {Pr : prims}.

(** A builder whose secret key is [sk], seen with another hash function. *)
Definition rebuilder (h : bytes -> bytes) (sk : option (scalar Pr)) (b : builder Pr) : builder (with_hash Pr h) :=
  @SecNonceBuilder (with_hash Pr h) (nonce_seed_bytes b) (option_map (rescalar h) sk)
    (option_map (rehash h) (b_pubkey b)) (option_map (rehash h) (b_aggregated_pubkey b)) (b_message b) (b_extra_inputs b).

(** What the caller gave besides the secret key: the seed, the public key, the x coordinate of the aggregated
    key, the message and the extra inputs written one after the other, each of the last four or nothing. *)
Definition given (b : builder Pr) : list (option bytes) :=
  [Some (nonce_seed_bytes b); option_map (fun P : point Pr => cbytes P) (b_pubkey b);
   option_map (fun Q : point Pr => xbytes Q) (b_aggregated_pubkey b); b_message b;
   match b_extra_inputs b with [] => None | l => Some (concat l) end].
(** The same was given. *)
Fixpoint same_given (l l' : list (option bytes)) : bool :=
  match l, l' with
  | [], [] => true
  | Some a :: l, Some a' :: l' => bytes_eqb a a' && same_given l l'
  | None :: l, None :: l' => same_given l l'
  | _, _ => false
  end.
(** No two builders were given the same. *)
Fixpoint all_different (t : list (builder Pr)) : bool :=
  match t with
  | [] => true
  | b :: t => forallb (fun b' => negb (same_given (given b) (given b'))) t && all_different t
  end.

(** The inputs of the hashes: of the seed, and of a nonce when the former has the digest [a] (src/nonces.rs:333-404 and reference.py:253-286, with
    the crate's treatment of absent fields). *)
Definition aux_question (b : builder Pr) : bytes := tag_twice "MuSig/aux" ++ nonce_seed_bytes b.
(** The input for the nonce number [i]. *)
Definition nonce_question (sk : option (scalar Pr)) (a : bytes) (b : builder Pr) (i : byte) : bytes :=
  tag_twice "MuSig/nonce"
  ++ bytes_xor (match sk with Some k => bytes_from_int (fz (sval k)) | None => zeros 32 end) a
  ++ (match b_pubkey b with None => [x00] | Some pk => x21 :: cbytes pk end)
  ++ (match b_aggregated_pubkey b with None => [x00] | Some Q => x20 :: xbytes Q end)
  ++ (match b_message b with None => [x00] | Some m => x01 :: be_enc 8 (zlen m) ++ m end)
  ++ (match b_extra_inputs b with [] => [] | l => be_enc 4 (zlen (concat l)) ++ concat l end)
  ++ [i].

(** All secret nonces, two for each builder. *)
Definition all_nonces (h : bytes -> bytes) (sk : option (scalar Pr)) (t : list (builder Pr)) : list Z :=
  flat_map (fun b => let n := @build (with_hash Pr h) (rebuilder h sk b) in [fz (sval (k1 n)); fz (sval (k2 n))]) t.
(** One of them comes up twice. *)
Fixpoint twice (l : list Z) : bool :=
  match l with [] => false | z :: l => existsb (Z.eqb z) l || twice l end.

(** The program ends with at most [M] builders that were given different things, with messages short enough for the 8 bytes in
    which their length is written, and a nonce comes up twice. *)
Definition nonce_repeats (M : nat) (sk : option (scalar Pr)) (F : asker (list (builder Pr))) (w : list (bytes * bytes)) : bool :=
  let t := outcome (hash_in w) F in
  Nat.leb (List.length t) M
  && forallb (fun b => match b_message b with Some m => zlen m <? 2 ^ 64 | None => true end) t
  && all_different t && twice (all_nonces (hash_in w) sk t).
(** It asks at most [q] questions and ends with at most [M] builders, and what [build] hashes for them is among the
    inputs whatever the digests. *)
Definition nonces_within (M : nat) (sk : option (scalar Pr)) (inputs digests : list bytes) (q : nat) (F : asker (list (builder Pr))) : Prop :=
  asks_within inputs digests (fun t => (List.length t <= M)%nat /\ forall b, In b t -> In (aux_question b) inputs /\
    forall a, In a digests -> In (nonce_question sk a b x00) inputs /\ In (nonce_question sk a b x01) inputs) q F.
(** Two digests give the same nonce: their residues are equal, 0 counting as 1. *)
Definition same_nonce (d d' : bytes) : bool := Z.max 1 (int_from_bytes d mod n_) =? Z.max 1 (int_from_bytes d' mod n_).
End Fresh.

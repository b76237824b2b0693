(** Properties of functions fed by a random number generator: C70. *)
From Coq Require Import String List.
From Verif Require Import Bytes BytesFacts Prims PrimsFacts TaggedHashes Errors SpecTags SpecBIP327
  KeyAgg Nonces Signature Bip340 Rounds Seeds SpecNonces SpecSeeds Toy ToyData ToyRounds.
Import ListNotations.
Open Scope list_scope.
Open Scope nat_scope.
From Verif Require Import ProofsSeeds.

(** C70.  Calls of the functions taking a seed, made one after the other with one generator,
    return what they return for the successive 32-byte draws of that generator, given as arrays
    or by reference, one draw per call.  Only [FirstRound::new] with an index out of range draws nothing, and its result is
    then the same for every seed. *)
Theorem C70_successive_draws {Pr : prims} (g : generator) (st : gen_state g) (l : list (seed_call Pr)) (Hg : never_panics g) :
  let out := calls_rng g st l in
  length (fst out) = length l /\
  after g st (draws l) (snd out) /\
  forall k x, nth_error l k = Some x ->
    (is_draw x = true -> exists seed, nth_seed g st (draws (firstn k l)) seed) /\
    (is_draw x = true -> forall seed, nth_seed g st (draws (firstn k l)) seed ->
       nth_error (fst out) k = Some (call_array seed x) /\ nth_error (fst out) k = Some (call_ref seed x)) /\
    (is_draw x = false -> forall seed,
       nth_error (fst out) k = Some (call_array seed x) /\ nth_error (fst out) k = Some (call_ref seed x)).
Proof. exact (@C70_successive_draws_proof Pr g st l Hg). Qed.
Print Assumptions C70_successive_draws.

(** Four calls on the toy curve, of which the second draws nothing. *)
Example C70_case :
  never_panics (stream_gen (fun p => z2b (Z.of_nat p))) /\
  let l := [CallFirst toy_c 1 spices_new; CallFirst toy_c 3 spices_new; CallSolo sk_a toy_msg; CallBuilder] in
  draws l = 3 /\ snd (calls_rng (stream_gen (fun p => z2b (Z.of_nat p))) 5 l) = 101 /\
  match fst (calls_rng (stream_gen (fun p => z2b (Z.of_nat p))) 5 l) with
  | [RFirst (Ok _); RFirst (Err _); RSolo (Ok _); RBuilder (Ok b)] =>
      bytes_eqb (nonce_seed_bytes b) (map (fun p => z2b (Z.of_nat p)) (seq 69 32))
  | _ => false end = true.
Proof. split; [intros st n; discriminate|]. vm_compute. auto. Qed.

(** C70.  With a generator that hands out the bytes of a stream, the seed of the k-th call is
    32 successive bytes of it, and different calls use disjoint parts of the stream. *)
Theorem C70_no_byte_twice {Pr : prims} (s : nat -> byte) (p : nat) (l : list (seed_call Pr)) :
  let out := calls_rng (stream_gen s) p l in
  let pos := fun k => p + 32 * draws (firstn k l) in
  snd out = p + 32 * draws l /\
  (forall k x, nth_error l k = Some x -> nth_error (fst out) k = Some (call_array (block s (pos k)) x)) /\
  (forall k x k', nth_error l k = Some x -> is_draw x = true -> k < k' -> pos k + 32 <= pos k').
Proof. exact (@C70_no_byte_twice_proof Pr s p l). Qed.
Print Assumptions C70_no_byte_twice.

(** The third call of the previous example uses bytes 37 to 68 of the stream. *)
Example C70_positions_case :
  let l := [CallFirst toy_c 1 spices_new; CallFirst toy_c 3 spices_new; CallSolo sk_a toy_msg; CallBuilder] in
  map (fun k => 5 + 32 * draws (firstn k l)) [0; 2; 3] = [5; 37; 69].
Proof. vm_compute. reflexivity. Qed.

(** C70.  Two first rounds of one signer, with equal spices, started with a generator in any
    two states: their nonces are hashes of equal strings exactly when the MuSig/aux hashes of
    the two draws agree.  A generator in the same state, as after a clone, gives the same
    round.  The documentation of [FirstRound::new] says that with a generator "there is no
    possibility of reusing the same nonce seed" (src/rounds.rs:93-95). *)
Theorem C70_nonce_reuse {Pr : prims} {Laws : prims_ok Pr} {Tags : tags_ok Pr} (g : generator) (st st' st1 st1' : gen_state g) (c : key_agg_ctx Pr) (i : nat) (sp : spices Pr) (r r' : first_round Pr) (Hr : first_round_new_rng g st c i sp = (Ok r, st1)) (Hr' : first_round_new_rng g st' c i sp = (Ok r', st1')) :
  exists pk seed seed', get_pubkey c i = Some pk /\
    fill_bytes g st 32 = Some (seed, st1) /\ fill_bytes g st' 32 = Some (seed', st1') /\
    (let input := fun sd k => round_nonce_input sd i pk (aggregated_pubkey c) sp k in
     let one := fun h => (if h =? 0 then 1 else h)%Z in
     fz (sval (k1 (fr_secnonce r))) = one (nonce_int (Pr := Pr) (input seed x00)) /\
     fz (sval (k2 (fr_secnonce r))) = one (nonce_int (Pr := Pr) (input seed x01)) /\
     fz (sval (k1 (fr_secnonce r'))) = one (nonce_int (Pr := Pr) (input seed' x00)) /\
     fz (sval (k2 (fr_secnonce r'))) = one (nonce_int (Pr := Pr) (input seed' x01)) /\
     (forall k, input seed k = input seed' k <-> tagged_hash (Pr := Pr) "MuSig/aux" seed = tagged_hash "MuSig/aux" seed')) /\
    (seed = seed' -> r = r') /\ (st = st' -> r = r').
Proof. exact (@C70_nonce_reuse_proof Pr Laws Tags g st st' st1 st1' c i sp r r' Hr Hr'). Qed.
Print Assumptions C70_nonce_reuse.

(** Two rounds drawn from one stream have different nonces on the toy curve. *)
Example C70_reuse_case :
  let g := stream_gen (fun p => z2b (Z.of_nat p)) in
  let round := fun p => match fst (first_round_new_rng g p toy_c 1 spices_new) with Ok r => Some (fr_secnonce r) | _ => None end in
  match round 0, round 32 with Some a, Some b => feqb (k1 a) (k1 b) = false | _, _ => False end.
Proof. vm_compute. reflexivity. Qed.

(** C70.  If the generator panics, so does every call that draws, and nothing is returned. *)
Theorem C70_generator_panics {Pr : prims} (g : generator) (st : gen_state g) (Hg : fill_bytes g st 32 = None) :
  (forall c i sp, i < length (pubkeys c) -> fst (first_round_new_rng g st c i sp) = Panic) /\
  (forall c i sp, length (pubkeys c) <= i ->
     first_round_new_rng g st c i sp = (Err (SignerIndexError i (length (pubkeys c))), st)) /\
  (forall sk msg, fst (sign_solo_rng g st sk msg) = Panic) /\
  (forall sk msg T, fst (sign_solo_adaptor_rng g st sk msg T) = Panic) /\
  (forall sk aggpk msg extra, fst (generate_rng g st sk aggpk msg extra) = Panic) /\
  fst (builder_new_rng (Pr := Pr) g st) = Panic.
Proof. exact (@C70_generator_panics_proof Pr g st Hg). Qed.
Print Assumptions C70_generator_panics.

Example C70_panics_case : fill_bytes {| gen_state := unit; fill_bytes := fun _ _ => None |} tt 32 = None /\ 1 < length (pubkeys toy_c).
Proof. vm_compute. auto. Qed.

Local Open Scope Z_scope.

(** C70.  [SecNonce::random] on a stream: the scalars are the first 32-byte block in [1, n) and
    the first one after it; everything before is out of range and discarded.  It does not stop
    within [fuel] draws per scalar exactly when no block among those is in range. *)
Theorem C70_random_secnonce {Pr : prims} {Laws : prims_ok Pr} (s : nat -> byte) (p : nat) (fuel : nat) :
  let good := fun j => 1 <= int_from_bytes (block s (p + 32 * j)) < n_ (Pr := Pr) in
  match secnonce_random (Pr := Pr) fuel (stream_gen s) p with
  | Some (Ok (sn, q)) => exists i j : nat, (i < fuel)%nat /\ (i < j <= i + fuel)%nat /\
      fz (sval (k1 sn)) = int_from_bytes (block s (p + 32 * i)) /\ good i /\
      fz (sval (k2 sn)) = int_from_bytes (block s (p + 32 * j)) /\ good j /\
      (forall l, (l < j)%nat -> l <> i -> ~ good l) /\ q = (p + 32 * (j + 1))%nat
  | Some _ => False
  | None => (forall j, (j < fuel)%nat -> ~ good j) \/
      exists i, (i < fuel)%nat /\ good i /\ forall j, (j < i)%nat \/ (i < j <= i + fuel)%nat -> ~ good j
  end.
Proof. exact (@C70_random_secnonce_proof Pr Laws s p fuel). Qed.
Print Assumptions C70_random_secnonce.

(** The j-th block of the stream encodes j: block 0 is out of range and the nonces are 1
    and 2.  In a stream of ff bytes no block is in range. *)
Example C70_random_case :
  let s := fun p : nat => if (p mod 32 =? 31)%nat then z2b (Z.of_nat (p / 32)) else x00 in
  match secnonce_random (Pr := Toy) 3 (stream_gen s) 0%nat with
  | Some (Ok (sn, q)) => (fz (sval (k1 sn)) =? 1) && (fz (sval (k2 sn)) =? 2) && (q =? 96)%nat | _ => false end = true /\
  match secnonce_random (Pr := Toy) 3 (stream_gen (fun _ => xff)) 0%nat with None => true | _ => false end = true.
Proof. vm_compute. auto. Qed.

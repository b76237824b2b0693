(** Programs that choose a batch of signatures after asking for digests.

    Specification only: nothing here models code of /repo; the verification used is that of the
    model. *)
From Coq Require Import String List.
From Verif Require Import Bytes Prims Errors SpecBIP327 Signature Bip340 SpecBatch SpecExtract SpecFork.
Import ListNotations.
Local Open Scope Z_scope.

Section BatchForgers.
Context {Pr : prims}.

(** A signature of a batch, with its key and its message. *)
Record entry : Type := { n_key : point Pr; n_msg : bytes; n_sig : lifted_sig Pr }.
(** The same signature, seen with another hash function. *)
Definition relift (h : bytes -> bytes) (sg : lifted_sig Pr) : lifted_sig (with_hash Pr h) :=
  @LiftedSignature (with_hash Pr h) (rehash h (l_R sg)) (l_s sg).

(** The input of the hash that gives its challenge. *)
Definition entry_challenge (e : entry) : bytes := challenge_input (xbytes (l_R (n_sig e))) (xbytes (n_key e)) (n_msg e).
(** The input of the hash that gives the seed of a batch: all challenges, then all s. *)
Definition seed_question (h : bytes -> bytes) (t : list entry) : bytes :=
  tag_twice "BIP0340/batch" ++ concat (map (fun e => bytes_from_int (int_from_bytes (h (entry_challenge e)) mod n_)) t)
    ++ concat (map (fun e => bytes_from_int (fz (l_s (n_sig e)))) t).

(** Batch verification accepts. *)
Definition batch_accepted (h : bytes -> bytes) (t : list entry) : bool :=
  is_ok (@verify_batch (with_hash Pr h) (map (fun e => @row_from_signature (with_hash Pr h) (rehash h (n_key e)) (n_msg e) (relift h (n_sig e))) t)).
(** Every signature verifies on its own. *)
Definition each_accepted (h : bytes -> bytes) (t : list entry) : bool :=
  forallb (fun e => is_ok (@verify_single_lifted (with_hash Pr h) (rehash h (n_key e)) (relift h (n_sig e)) (n_msg e))) t.

(** The program ends with at most [M] signatures, whose nonces have even parity as those of all
    the signatures of the crate (src/signature.rs:49-95); they do not all verify, but batch
    verification accepts them. *)
Definition batch_fooled (M : nat) (F : asker (list entry)) (w : list (bytes * bytes)) : bool :=
  let h := hash_in w in
  let t := outcome h F in
  Nat.leb (List.length t) M && forallb (fun e => has_even_y (l_R (n_sig e))) t && batch_accepted h t && negb (each_accepted h t).
(** It does so after asking for the challenges and the seed itself. *)
Definition batch_fooled_asking (M : nat) (F : asker (list entry)) (w : list (bytes * bytes)) : bool :=
  let h := hash_in w in
  let t := outcome h F in
  batch_fooled M F w && forallb (fun e => existsb (bytes_eqb (entry_challenge e)) (asked h F)) t
  && existsb (bytes_eqb (seed_question h t)) (asked h F).
(** It asks at most [q] questions and ends with at most [M] signatures, the challenges and the seeds of which, whatever the
    digests, are among the inputs. *)
Definition batch_within (M : nat) (inputs digests : list bytes) (q : nat) (F : asker (list entry)) : Prop :=
  asks_within inputs digests (fun t => (List.length t <= M)%nat /\
    (forall e, In e t -> In (entry_challenge e) inputs) /\
    (forall h, (forall m, In (h m) digests) -> In (seed_question h t) inputs)) q F.

(** The coefficients drawn with a given seed: 1, then the draws of the generator. *)
Definition drawn_with (seed : bytes) (k : nat) : list (mscalar Pr) :=
  match k with O => [] | S k' => fone :: map (rng_scalar seed) (seq 0 k') end.
(** The batch equation of given rows with the coefficients drawn with a seed. *)
Definition seed_accepts (rows : list (batch_row Pr)) (seed : bytes) : bool :=
  let cs := drawn_with seed (List.length rows) in
  pt_eqb (point_mul pt_G (batch_lhs cs rows mod n_)) (batch_rhs cs rows).
(** At most [r] of the digests, as seeds, make the equation hold for rows fixed beforehand that are
    not all valid. *)
Definition generator_good (M r : nat) (digests : list bytes) : Prop :=
  forall rows : list (batch_row Pr), (List.length rows <= M)%nat -> ~ Forall row_valid rows -> (count (seed_accepts rows) digests <= r)%nat.
(** Two seeds give the same first draw. *)
Definition same_draw (d d' : bytes) : bool := fz (rng_scalar d 0 : mscalar Pr) =? fz (rng_scalar d' 0 : mscalar Pr).
End BatchForgers.
Arguments entry Pr : clear implicits.

(** A taproot output key and the two things it commits to: the internal key and the merkle root.

    Specification only: nothing here models code of /repo; the output keys are those of the model's
    [with_taproot_tweak]. *)
From Coq Require Import String List.
From Verif Require Import Bytes Prims SpecBIP327 Errors KeyAgg SpecExtract SpecFork.
Import ListNotations.
Local Open Scope Z_scope.

Section Commit.
Context {Pr : prims}.

(** A context, seen with another hash function. *)
Definition recontext (h : bytes -> bytes) (c : key_agg_ctx Pr) : key_agg_ctx (with_hash Pr h) :=
  @KeyAggContext (with_hash Pr h) (rehash h (pubkey c)) (map (rehash h) (ordered_pubkeys c))
    (map (fun pi => (rehash h (fst pi), snd pi)) (pubkey_indexes c)) (key_coefficients c) (effective_pubkeys c) (parity_acc c) (tweak_acc c).

(** An opening: the context of the internal key, however it came about, and a merkle root, which is empty for an
    unspendable script path. *)
Definition opening : Type := key_agg_ctx Pr * bytes.
(** The x coordinate of the output key. *)
Definition output_key (h : bytes -> bytes) (o : opening) : option bytes :=
  match @with_taproot_tweak (with_hash Pr h) (recontext h (fst o)) (snd o) with
  | Ok c => Some (pt_x (pval (pubkey c)))
  | _ => None
  end.
(** Two openings have the same internal key, up to its sign, and the same root. *)
Definition same_opening (o o' : opening) : bool :=
  bytes_eqb (xbytes (pubkey (fst o))) (xbytes (pubkey (fst o'))) && bytes_eqb (snd o) (snd o').
(** What BIP341 hashes (reference.py has no taproot; src/key_agg.rs:267-278). *)
Definition tap_question (o : opening) : bytes := tag_twice "TapTweak" ++ xbytes (pubkey (fst o)) ++ snd o.

(** Two openings that differ have one output key. *)
Definition opened_twice (h : bytes -> bytes) (o o' : opening) : bool :=
  negb (same_opening o o') &&
  match output_key h o, output_key h o' with Some x, Some x' => bytes_eqb x x' | _, _ => false end.
(** The program ends with two such openings. *)
Definition two_openings (F : asker (opening * opening)) (w : list (bytes * bytes)) : bool :=
  let h := hash_in w in opened_twice h (fst (outcome h F)) (snd (outcome h F)).
(** The program ends with another opening of the output key of [o]. *)
Definition other_opening (o : opening) (F : asker opening) (w : list (bytes * bytes)) : bool :=
  let h := hash_in w in opened_twice h o (outcome h F).
End Commit.
Arguments opening Pr : clear implicits.

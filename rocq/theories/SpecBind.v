(** One signature for two messages or two keys.

    Specification only: nothing here models code of /repo; the verification is that of the model's
    [verify_single_bytes]. *)
From Coq Require Import String List.
From Verif Require Import Bytes Prims SpecBIP327 Errors Bip340 SpecExtract SpecFork.
Import ListNotations.
Local Open Scope Z_scope.

Section Bind.
Context {Pr : prims}.

(** What a signature is said to be for: a key and a message. *)
Definition purpose : Type := (point Pr * bytes)%type.
(** The signature verifies for it. *)
Definition serves (h : bytes -> bytes) (sig : bytes) (p : purpose) : bool :=
  is_ok (@verify_single_bytes (with_hash Pr h) (rehash h (fst p)) sig (snd p)).
(** The same key, up to its sign, and the same message. *)
Definition same_purpose (p p' : purpose) : bool :=
  bytes_eqb (xbytes (fst p)) (xbytes (fst p')) && bytes_eqb (snd p) (snd p').
(** The challenge. *)
Definition purpose_question (sig : bytes) (p : purpose) : bytes := challenge_input (firstn 32 sig) (xbytes (fst p)) (snd p).

(** The signature verifies for two keys or messages. *)
Definition serves_both (h : bytes -> bytes) (sig : bytes) (p p' : purpose) : bool :=
  negb (same_purpose p p') && serves h sig p && serves h sig p'.
(** The program ends with such a signature. *)
Definition two_purposes (F : asker (bytes * (purpose * purpose))) (w : list (bytes * bytes)) : bool :=
  let h := hash_in w in let r := outcome h F in serves_both h (fst r) (fst (snd r)) (snd (snd r)).
(** The program ends with a second purpose for a signature given to it. *)
Definition other_purpose (sig : bytes) (p : purpose) (F : asker purpose) (w : list (bytes * bytes)) : bool :=
  let h := hash_in w in serves_both h sig p (outcome h F).
End Bind.
Arguments purpose Pr : clear implicits.

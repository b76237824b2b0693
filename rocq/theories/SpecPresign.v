(** Forgers of pre-signatures for a given adaptor point, as programs that ask for digests.

    Specification only: nothing here models code of /repo; the verification used is that of the model. *)
From Coq Require Import String List.
From Verif Require Import Bytes Prims TaggedHashes Errors SpecTags SpecBIP327 KeyAgg Signature Bip340 SpecExtract SpecFork.
Import ListNotations.
Local Open Scope Z_scope.

Section Presign.
Context {Pr : prims}.

(** What the forger ends with: the two parts of a pre-signature, and a message. *)
Record presigned : Type := { q_R : @pt Pr; q_s : mscalar Pr; q_msg : bytes }.

(** The nonce that is hashed. *)
Definition adapted_nonce (T : @pt Pr) (r : presigned) : pt := pt_add (q_R r) T.
(** 1 or -1, as its y is even or odd. *)
Definition nonce_sign (T : @pt Pr) (r : presigned) : Z := if has_even_y (adapted_nonce T r) then 1 else -1.
(** The input of the challenge. *)
Definition pre_challenge (Q : point Pr) (T : @pt Pr) (r : presigned) : bytes :=
  challenge_input (xbytes (adapted_nonce T r)) (xbytes Q) (q_msg r).

(** The challenge of what it ends with. *)
Definition pre_challenge_in (Q : point Pr) (T : @pt Pr) (F : asker presigned) (w : list (bytes * bytes)) : bytes :=
  pre_challenge Q T (outcome (hash_in w) F).
(** Its questions, and the challenge that whoever verifies asks for in the end. *)
Definition pre_questions (Q : point Pr) (T : @pt Pr) (F : asker presigned) (w : list (bytes * bytes)) : list bytes :=
  asked (hash_in w) F ++ [pre_challenge_in Q T F w].
(** The pre-signature verifies and the adapted nonce is finite. *)
Definition pre_forged (Q : point Pr) (T : @pt Pr) (F : asker presigned) (w : list (bytes * bytes)) : bool :=
  let h := hash_in w in
  let r := outcome h F in
  negb (pt_eqb (adapted_nonce T r) pt_O) &&
  is_ok (@verify_single_adaptor (with_hash Pr h) (rehash h Q) (@AdaptorSignature (with_hash Pr h) (q_R r) (q_s r)) (q_msg r) T).
(** That happens, and happens again when the digest of the challenge is replaced by [d], with the
    same question as challenge and another residue. *)
Definition pre_forks (Q : point Pr) (T : @pt Pr) (F : asker presigned) (w : list (bytes * bytes)) (d : bytes) : bool :=
  let m := pre_challenge_in Q T F w in
  pre_forged Q T F w && pre_forged Q T F (put m d w) &&
  (match place m (pre_questions Q T F w), place (pre_challenge_in Q T F (put m d w)) (pre_questions Q T F (put m d w)) with
   | Some i, Some i' => Nat.eqb i i' | _, _ => false end) &&
  negb (same_residue (hash_in w m) d).

End Presign.
Arguments presigned Pr : clear implicits.

(** Signing sessions, seen as what their nonce is made of: when do two of them have one nonce?

    Specification only: nothing here models code of /repo; the nonce is that of the model's
    [nonce_coefficient] and [final_nonce]. *)
From Coq Require Import String List.
From Verif Require Import Bytes Prims SpecBIP327 Nonces SpecExtract SpecFork.
Import ListNotations.
Local Open Scope Z_scope.

Section Final.
Context {Pr : prims}.

(** The aggregated nonce, the aggregated key and the message of a session. *)
Record sitting : Type := { s_nonce : agg_nonce Pr; s_key : point Pr; s_text : bytes }.
(** The x coordinate of the nonce of the signature, before a point is added to it. *)
Definition sitting_x (h : bytes -> bytes) (s : sitting) : bytes :=
  let an := @AggNonce (with_hash Pr h) (aR1 (s_nonce s)) (aR2 (s_nonce s)) in
  pt_x (pval (@final_nonce (with_hash Pr h) an (@nonce_coefficient (with_hash Pr h) an (rehash h (s_key s)) (s_text s)))).
(** What is hashed for the coefficient of the nonces (reference.py:334). *)
Definition sitting_question (s : sitting) : bytes :=
  tag_twice "MuSig/noncecoef" ++ cbytes_ext (aR1 (s_nonce s)) ++ cbytes_ext (aR2 (s_nonce s)) ++ xbytes (s_key s) ++ s_text s.
(** The same nonces, the same key up to its sign, and the same message. *)
Definition same_sitting (s s' : sitting) : bool :=
  pt_eqb (aR1 (s_nonce s)) (aR1 (s_nonce s')) && pt_eqb (aR2 (s_nonce s)) (aR2 (s_nonce s')) &&
  bytes_eqb (xbytes (s_key s)) (xbytes (s_key s')) && bytes_eqb (s_text s) (s_text s').
(** The second aggregated nonce is not infinite. *)
Definition second_finite (s : sitting) : bool := negb (is_infinite (aR2 (s_nonce s))).

(** The program ends with two such sessions that differ and have one nonce up to its sign. *)
Definition two_sittings (F : asker (sitting * sitting)) (w : list (bytes * bytes)) : bool :=
  let h := hash_in w in let (s, s') := outcome h F in
  second_finite s && second_finite s' && negb (same_sitting s s') && bytes_eqb (sitting_x h s) (sitting_x h s').
(** It asks at most [q] questions, and what is hashed for both coefficients is among the inputs. *)
Definition sittings_within (inputs digests : list bytes) (q : nat) (F : asker (sitting * sitting)) : Prop :=
  asks_within inputs digests (fun r => In (sitting_question (fst r)) inputs /\ In (sitting_question (snd r)) inputs) q F.
End Final.
Arguments sitting Pr : clear implicits.

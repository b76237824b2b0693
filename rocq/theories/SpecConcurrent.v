(** A forger with concurrent sessions as a program that asks for digests: when it says, at each question,
    how the nonce in it is made of the generator, the signer's key and the signer's nonces (SpecAlgebra.v),
    how can the third case of C89 come about, that its signature is made of the answers alone?

    Specification only: nothing here models code of /repo. *)
From Coq Require Import String List.
From Verif Require Import Bytes Prims TaggedHashes Errors SpecTags SpecBIP327 KeyAgg Nonces SpecView SpecSession SpecExtract SpecReuse SpecAlgebra SpecFork.
Import ListNotations.
Local Open Scope list_scope.
Local Open Scope Z_scope.

Section Concurrent.
Context {Pr : prims}.

(** An open session: the key of its group, the coefficient of the signer with the signs of the key and of its tweaks,
    and the adaptor point, infinite for a plain session.  All of these are fixed before the first question. *)
Record opened : Type := Opened { o_key : point Pr; o_factor : Z; o_adaptor : @pt Pr }.
(** How the program ends it: the aggregated nonce and the message. *)
Record ending : Type := Ending { n_R1 : @pt Pr; n_R2 : @pt Pr; n_msg : bytes }.
(** What the program ends with: an end for each session, and the nonce and the message of its forgery. *)
Record attempt : Type := Attempt { t_ends : list ending; t_rx : bytes; t_msg : bytes }.
(** The key to forge for, and what the challenge is multiplied with to give the multiple of the signer's key. *)
Record target : Type := Target { y_key : point Pr; y_factor : Z }.

(** The input of the nonce coefficient (reference.py:333). *)
Definition coef_input (o : opened) (e : ending) : bytes :=
  tag_twice "MuSig/noncecoef" ++ (cbytes_ext (n_R1 e) ++ cbytes_ext (n_R2 e)) ++ xbytes (o_key o) ++ n_msg e.
(** The nonce coefficient. *)
Definition coef (h : bytes -> bytes) (o : opened) (e : ending) : Z := int_from_bytes (h (coef_input o e)) mod n_.
(** The nonce of the group with the adaptor point (reference.py:339-342). *)
Definition group_nonce (h : bytes -> bytes) (o : opened) (e : ending) : pt :=
  let R := pt_add (n_R1 e) (point_mul (n_R2 e) (coef h o e)) in
  pt_add (if negb (is_infinite R) then R else pt_G) (o_adaptor o).
(** The input of the challenge of the session (reference.py:345). *)
Definition end_challenge (h : bytes -> bytes) (o : opened) (e : ending) : bytes :=
  challenge_input (xbytes (group_nonce h o e)) (xbytes (o_key o)) (n_msg e).
(** What the challenge is multiplied with in the w of the session (SpecAlgebra.v). *)
Definition end_factor (h : bytes -> bytes) (o : opened) (e : ending) : Z :=
  (if has_even_y (group_nonce h o e) then 1 else -1) * o_factor o.
(** The challenge of the forgery. *)
Definition new_challenge (Y : target) (t : attempt) : bytes := challenge_input (t_rx t) (xbytes (y_key Y)) (t_msg t).

(** The questions and digests before the first time that [m] is asked. *)
Fixpoint until {A} (h : bytes -> bytes) (m : bytes) (F : asker A) : list (bytes * bytes) :=
  match F with
  | Give _ => []
  | Ask m' k => if bytes_eqb m' m then [] else (m', h m') :: until h m (k (h m'))
  end.

(** The sessions with their ends. *)
Definition ended (O : list opened) (t : attempt) : list (opened * ending) := combine O (t_ends t).
(** The forgery is in order: every session has an end, all its challenges and nonce coefficients have been
    asked for, and its challenge is none of those of the sessions. *)
Definition fresh (O : list opened) (Y : target) (F : asker attempt) (h : bytes -> bytes) : bool :=
  let t := outcome h F in
  let was_asked m := existsb (bytes_eqb m) (asked h F) in
  Nat.eqb (List.length (t_ends t)) (List.length O) && was_asked (new_challenge Y t) &&
  forallb (fun oe => was_asked (coef_input (fst oe) (snd oe)) && was_asked (end_challenge h (fst oe) (snd oe)) &&
                     negb (bytes_eqb (new_challenge Y t) (end_challenge h (fst oe) (snd oe)))) (ended O t).
(** It is in order, and yet nothing is left (SpecAlgebra.v) of the signer's key and nonces in the combination
    that [names] gave for its challenge when that was asked for the first time. *)
Definition lucky (O : list opened) (Y : target) (names : list (bytes * bytes) -> bytes -> rep)
    (F : asker attempt) (h : bytes -> bytes) : bool :=
  let t := outcome h F in
  let m := new_challenge Y t in
  let r := names (until h m F) m in
  fresh O Y F h &&
  forallb (fun je => (on_R2 r (fst je) - on_R1 r (fst je) * coef h (fst (snd je)) (snd (snd je))) mod n_ =? 0)
    (combine (seq 0 (List.length (ended O t))) (ended O t)) &&
  ((on_P r + y_factor Y * int_from_bytes (h m)
    - over (ended O t) (fun j oe => on_R1 r j * (end_factor h (fst oe) (snd oe) * int_from_bytes (h (end_challenge h (fst oe) (snd oe)))))) mod n_ =? 0).

End Concurrent.
Arguments opened Pr : clear implicits.
Arguments ending Pr : clear implicits.
Arguments attempt Pr : clear implicits.
Arguments target Pr : clear implicits.

(** The session of the record [z], on the curve with the hash function [h], is the one described by [o] and [e]. *)
Definition describes {Pr : prims} (h : bytes -> bytes) (P : point Pr) (o : opened Pr) (e : ending Pr) (z : closed (with_hash Pr h)) : Prop :=
  let u := z_use z in
  pval (aggregated_pubkey (use_ctx u)) = pval (o_key o) /\ use_adaptor u = o_adaptor o /\
  aR1 (use_aggnonce u) = n_R1 e /\ aR2 (use_aggnonce u) = n_R2 e /\ use_message u = n_msg e /\
  (@spec_a (with_hash Pr h) (use_ctx u) (rehash h P) * (spec_g (use_values u) * v_gacc (use_values u))) mod @n_ Pr = o_factor o mod @n_ Pr.

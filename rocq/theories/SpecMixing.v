(** A forger that opens sessions with a signer and lets it answer each for one of two adaptor points. *)
From Coq Require Import String List Zpow_facts.
From Verif Require Import Bytes Prims SpecTags SpecBIP327 KeyAgg Nonces Errors Signature Signing SpecCtx SpecView SpecSession SpecExtract SpecReuse SpecAlgebra.
Import ListNotations.
Local Open Scope list_scope.
Local Open Scope Z_scope.

Section Mixing.
Context {Pr : prims}.

(** An open session, as the forger sees it: the group, the signer's public nonce, the aggregated nonce, the message,
    and the two adaptor points that the forger may still ask for. *)
Record offer : Type := Offer {
  o_ctx : key_agg_ctx Pr; o_nonce : pub_nonce Pr; o_aggnonce : agg_nonce Pr; o_message : bytes; o_point : bool -> pt }.
(** The session after the signer has answered [s] for the point number [i]. *)
Definition answered (o : offer) (i : bool) (s : mscalar Pr) : closed Pr :=
  Closed (o_nonce o) (Use (o_ctx o) (o_aggnonce o) (o_point o i) (o_message o) s).
(** What the secret of [P] is multiplied by in the answer, with the nonce counted positive.  The answer
    itself plays no role in it. *)
Definition offer_w (P : point Pr) (o : offer) (i : bool) : Z :=
  let u := z_use (answered o i (of_Z _ 0)) in use_sign u * use_weight P u.
(** The nonce coefficient of the session.  (It is the same for both points.) *)
Definition offer_b (o : offer) : Z := v_b (use_values (z_use (answered o false (of_Z _ 0)))).

(** The inverse modulo n (pow(a, n - 2, n)). *)
Definition inverse (a : Z) : Z := Zpow_mod a (n_ - 2) n_.
(** The multiple of session number [j] in the forgery: exchanging its points moves the multiple of the secret by 2^j. *)
Definition share (P : point Pr) (j : nat) (o : offer) : Z :=
  (2 ^ Z.of_nat j * inverse (offer_w P o true - offer_w P o false)) mod n_.
(** The nonce of the forgery. *)
Definition mixed_R (P : point Pr) (os : list offer) : pt :=
  over_points os (fun j o => point_mul (pt_add (pR1 (o_nonce o)) (point_mul (pR2 (o_nonce o)) (offer_b o))) (share P j o)).
(** 1 or -1 by the parity of a point. *)
Definition sign_of (X : pt) : Z := if has_even_y X then 1 else -1.
(** The challenge of the forgery, for the key [Q] and a message (BIP340). *)
Definition mixed_e (P : point Pr) (os : list offer) (Q : point Pr) (msg : bytes) : Z :=
  int_from_bytes (tagged_hash "BIP0340/challenge" (xbytes (mixed_R P os) ++ xbytes Q ++ msg)).
(** By how much the multiple of the secret must be moved, when Q is [A] * P plus a known point. *)
Definition wanted (P : point Pr) (os : list offer) (Q : point Pr) (A : Z) (msg : bytes) : Z :=
  (sign_of (mixed_R P os) * sign_of Q * mixed_e P os Q msg * A - over os (fun j o => share P j o * offer_w P o false)) mod n_.
(** The point to ask for in session number [j].  No answer is needed to tell. *)
Definition chosen (P : point Pr) (os : list offer) (Q : point Pr) (A : Z) (msg : bytes) (j : nat) : bool :=
  Z.testbit (wanted P os Q A msg) (Z.of_nat j).
(** The forgery, made of the answers. *)
Definition mixed_sig (P : point Pr) (os : list offer) (Q : point Pr) (A k : Z) (msg : bytes) (ss : list (mscalar Pr)) : bytes :=
  xbytes (mixed_R P os) ++
  be_enc 32 ((sign_of (mixed_R P os)
     * over (combine os ss) (fun j os' => share P j (fst os') * (use_sign (z_use (answered (fst os') (chosen P os Q A msg j) (snd os'))) * fz (snd os')))
   + sign_of Q * mixed_e P os Q msg * k) mod n_).

End Mixing.
Arguments offer Pr : clear implicits.

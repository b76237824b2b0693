(** Forgers that know how the points they use are made of the generator, a signer's key and the nonces
    of the sessions with this signer, any number of which may be open at once. *)
From Coq Require Import String List.
From Verif Require Import Bytes Prims SpecTags SpecBIP327 KeyAgg Nonces Errors Signature Signing SpecCtx SpecView SpecSession SpecExtract SpecReuse.
Import ListNotations.
Local Open Scope list_scope.
Local Open Scope Z_scope.

Section Algebra.
Context {Pr : prims}.

(** A session with the signer: the public nonce that was given for it, and what it was used for. *)
Record closed : Type := Closed { z_nonce : pub_nonce Pr; z_use : use Pr }.
(** It was finished: a partial signature that verifies for the signer's key was given.  By C74 that is the
    one the signer gives, who knows the secrets of its key and of the nonces. *)
Definition session_of (P : point Pr) (z : closed) : Prop :=
  let u := z_use z in
  ctx_reachable (use_ctx u) /\ In P (pubkeys (use_ctx u)) /\
  verify_partial_adaptor (use_ctx u) (use_signature u) (use_aggnonce u) (use_adaptor u) P (z_nonce z) (use_message u) = Ok tt.
(** A combination of the generator, the key and the two nonces of each session, by its number. *)
Record rep : Type := Rep { on_G : Z; on_P : Z; on_R1 : nat -> Z; on_R2 : nat -> Z }.

(** A sum over numbered elements. *)
Definition over {A} (l : list A) (f : nat -> A -> Z) : Z :=
  fold_right Z.add 0 (map (fun jz => f (fst jz) (snd jz)) (combine (seq 0 (length l)) l)).
(** A sum of points. *)
Definition over_points {A} (l : list A) (f : nat -> A -> pt) : pt :=
  fold_right pt_add pt_O (map (fun jz => f (fst jz) (snd jz)) (combine (seq 0 (length l)) l)).
(** The combination is the point [X]. *)
Definition stands (P : point Pr) (S : list closed) (r : rep) (X : pt) : Prop :=
  X = pt_add (pt_add (point_mul pt_G (on_G r)) (point_mul P (on_P r)))
        (over_points S (fun j z => pt_add (point_mul (pR1 (z_nonce z)) (on_R1 r j)) (point_mul (pR2 (z_nonce z)) (on_R2 r j)))).

(** The combination of the sum of a group whose members have combinations, by the coefficients of the
    reference. *)
Definition sum_rep (pks : list (point Pr)) (rK : point Pr -> rep) : rep :=
  let sum f := fold_right Z.add 0 (map (fun K => coeff_in pks K * f (rK K)) pks) in
  Rep (sum on_G) (sum on_P) (fun j => sum (fun r => on_R1 r j)) (fun j => sum (fun r => on_R2 r j)).
(** r + E * k. *)
Definition plus (r : rep) (E : Z) (k : rep) : rep :=
  Rep (on_G r + E * on_G k) (on_P r + E * on_P k) (fun j => on_R1 r j + E * on_R1 k j) (fun j => on_R2 r j + E * on_R2 k j).

(** The challenge of a signature (BIP340), and its sign for the sum of the group. *)
Definition forged_e (c : key_agg_ctx Pr) (sig msg : bytes) : Z :=
  int_from_bytes (tagged_hash "BIP0340/challenge" (firstn 32 sig ++ xbytes (aggregated_pubkey c) ++ msg)).
(** 1 or -1 by the parity of the key. *)
Definition key_sign (c : key_agg_ctx Pr) : Z := if has_even_y (aggregated_pubkey c) then 1 else -1.
(** What the sum of the group is multiplied by in the signature. *)
Definition forged_E (c : key_agg_ctx Pr) (sig msg : bytes) : Z :=
  forged_e c sig msg * key_sign c * (if parity_acc c then -1 else 1).

(** What is left of the key, and of the second nonce of a session, in a combination when the first nonces
    are expressed by the partial signatures: R1 = +-s*G - b*R2 - w*P. *)
Definition left_P (m : rep) (ws : list Z) : Z := on_P m - over ws (fun j w => on_R1 m j * w).
(** The second nonce. *)
Definition left_R2 (m : rep) (bs : list Z) (j : nat) : Z := on_R2 m j - on_R1 m j * nth j bs 0.
(** Nothing is left. *)
Definition nothing_left (m : rep) (ws bs : list Z) : Prop :=
  left_P m ws mod n_ = 0 /\ forall j, (j < length bs)%nat -> left_R2 m bs j mod n_ = 0.

(** The w of the sessions. *)
Definition weights (P : point Pr) (S : list closed) : list Z :=
  map (fun z => use_sign (z_use z) * use_weight P (z_use z)) S.
(** The b of the sessions. *)
Definition coefs (S : list closed) : list Z := map (fun z => v_b (use_values (z_use z))) S.
(** The known part of the signature: from the generator, the partial signatures and the tweaks. *)
Definition known (S : list closed) (c : key_agg_ctx Pr) (sig msg : bytes) (m : rep) : Z :=
  on_G m + over S (fun j z => on_R1 m j * (use_sign (z_use z) * fz (use_signature (z_use z))))
  + forged_e c sig msg * key_sign c * fz (tweak_acc c).
(** The whole signature, for logarithms [x] of the key and [y] of the second nonces. *)
Definition whole (P : point Pr) (S : list closed) (c : key_agg_ctx Pr) (sig msg : bytes) (m : rep) (x : Z) (y : nat -> Z) : Z :=
  known S c sig msg m + left_P m (weights P S) * x + over S (fun j _ => left_R2 m (coefs S) j * y j).

End Algebra.
Arguments closed Pr : clear implicits.

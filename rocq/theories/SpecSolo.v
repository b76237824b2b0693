(** Signatures of a single signer for chosen messages and seeds: when do two of them share a nonce?

    Specification only: nothing here models code of /repo; the signatures are those of the model's
    [sign_solo_adaptor] and [sign_solo]. *)
From Coq Require Import String List.
From Verif Require Import Bytes Prims SpecBIP327 Errors Signature Bip340 SpecExtract SpecFork.
Import ListNotations.
Local Open Scope Z_scope.

Section Solo.
Context {Pr : prims}.

(** What a signer is asked to sign, with which seed, and under which adaptor point; without one it is a plain signature. *)
Record order_ : Type := { o_seed : bytes; o_msg : bytes; o_point : option (@pt Pr) }.
(** The x coordinate of the nonce of the signature. *)
Definition nonce_of (h : bytes -> bytes) (sk : scalar Pr) (o : order_) : bytes :=
  match o_point o with
  | Some T => pt_x (a_R (@sign_solo_adaptor (with_hash Pr h) (rescalar h sk) (o_msg o) (o_seed o) T))
  | None => match @sign_solo (with_hash Pr h) (rescalar h sk) (o_msg o) (o_seed o) with Ok l => pt_x (pval (l_R l)) | _ => [] end
  end.
(** The same seed and the same message. *)
Definition same_order (o o' : order_) : bool := bytes_eqb (o_seed o) (o_seed o') && bytes_eqb (o_msg o) (o_msg o').
(** No two of them are the same. *)
Fixpoint orders_differ (t : list order_) : bool :=
  match t with [] => true | o :: t => forallb (fun o' => negb (same_order o o')) t && orders_differ t end.
(** A string comes up twice. *)
Fixpoint comes_twice (l : list bytes) : bool :=
  match l with [] => false | x :: l => existsb (bytes_eqb x) l || comes_twice l end.

(** What BIP340 hashes (its default signing is not in reference.py; src/bip340.rs:40-58). *)
Definition seed_input (o : order_) : bytes := tag_twice "BIP0340/aux" ++ o_seed o.
(** The same, for the nonce, when the seed has the digest [a]. *)
Definition nonce_input (sk : scalar Pr) (a : bytes) (o : order_) : bytes :=
  let P := point_mul pt_G (fz sk) in
  let d := if has_even_y P then fz sk else n_ - fz sk in
  tag_twice "BIP0340/nonce" ++ bytes_xor (bytes_from_int d) a ++ xbytes P ++ o_msg o.

(** The program ends with at most [M] orders that differ, and two of the signatures share a nonce up to its sign. *)
Definition nonce_shared (M : nat) (sk : scalar Pr) (F : asker (list order_)) (w : list (bytes * bytes)) : bool :=
  let t := outcome (hash_in w) F in
  Nat.leb (List.length t) M && orders_differ t && comes_twice (map (nonce_of (hash_in w) sk) t).
(** It asks at most [q] questions and ends with at most [M] orders, and what signing hashes for the nonces is among the
    inputs whatever the digests. *)
Definition orders_within (M : nat) (sk : scalar Pr) (inputs digests : list bytes) (q : nat) (F : asker (list order_)) : Prop :=
  asks_within inputs digests (fun t => (List.length t <= M)%nat /\ forall o, In o t -> In (seed_input o) inputs /\
    forall a, In a digests -> In (nonce_input sk a o) inputs) q F.
(** Two digests give the same nonce up to its sign: their residues, 0 counting as 1, are equal or add up to the order. *)
Definition same_up_to_sign (d d' : bytes) : bool :=
  let v := Z.max 1 (int_from_bytes d mod n_) in let v' := Z.max 1 (int_from_bytes d' mod n_) in (v =? v') || (v + v' =? n_).
End Solo.
Arguments order_ Pr : clear implicits.

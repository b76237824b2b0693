(** Forgers on the toy curve, for the examples of PropertiesFork.v, PropertiesGroupFork.v and
    PropertiesSecondFork.v. *)
From Coq Require Import String List.
From Verif Require Import Bytes Prims TaggedHashes Errors SpecTags SpecBIP327 KeyAgg Bip340 SpecExtract SpecFork Toy ToyData.
Import ListNotations.
Local Open Scope Z_scope.

(** The x of the nonce 9*G, taken with its even y, and the secret of that point. *)
Definition toy_rx : bytes := Eval vm_compute in @xbytes Toy (pval (tpt 9)).
(** The secret of the even one of two opposite points. *)
Definition toy_even (k : Z) : Z := if @has_even_y Toy (@point_mul Toy (@pt_G Toy) k) then k else 31 - k.
(** A signature with that nonce for the secret key [sk] and the challenge digest [d]. *)
Definition toy_forgery (sk : Z) (d : bytes) : bytes :=
  (toy_rx ++ be_enc 32 ((toy_even 9 + int_from_bytes d * toy_even sk) mod 31))%list.
(** Digests for the residues below [k]. *)
Definition toy_digests (k : nat) : list bytes := map (fun i => be_enc 32 (Z.of_nat i)) (seq 0 k).

(** It knows the secret of 5*G, asks for its challenge, and gives up when the residue is 2. *)
Definition toy_forger : asker (bytes * bytes) :=
  Ask (@challenge_input Toy toy_rx (@xbytes Toy (pval (tpt 5))) toy_msg)
      (fun d => Give (toy_rx ++ skipn 32 (toy_forgery (if int_from_bytes d =? 2 then 6 else 5) d), toy_msg)%list).

(** A group of 3*G and 5*G, with one tweak. *)
Definition toy_group (sig : bytes) : group_forgery Toy :=
  {| g_keys := [tpt 3; tpt 5]; g_tweaks := [(tsc 4, true)]; g_sig := sig; g_msg := toy_msg |}.
(** The coefficient of 3*G. *)
Definition toy_coefficient : bytes := Eval vm_compute in @coefficient_input Toy (@sha256 Toy (@list_input Toy [tpt 3; tpt 5])) (tpt 3).
(** The hash function with the digest [a] for it. *)
Definition toy_hash (a : bytes) (m : bytes) : bytes := if bytes_eqb m toy_coefficient then a else @sha256 Toy m.
(** The challenge for the nonce above. *)
Definition toy_challenge (a : bytes) : bytes := group_challenge (toy_group toy_rx) (toy_hash a).
(** It knows both secrets, asks for the coefficient and for the challenge, and signs. *)
Definition toy_group_forger : asker (group_forgery Toy) :=
  Ask toy_coefficient (fun a =>
  Ask (toy_challenge a) (fun d =>
  Give (toy_group (match forged_group (toy_group toy_rx) (toy_hash a) with
    | Some c => toy_forgery (((if parity_acc c then -1 else 1) * (int_from_bytes a * 3 + 5) + fz (tweak_acc c)) mod 31) d
    | None => [] end)))).

(** A group of 5*G and 3*G, where 3*G is the second key. *)
Definition toy_second_group (sig : bytes) : group_forgery Toy :=
  {| g_keys := [tpt 5; tpt 3]; g_tweaks := [(tsc 4, true)]; g_sig := sig; g_msg := toy_msg |}.
(** The coefficient of 5*G. *)
Definition toy_other : bytes := Eval vm_compute in @coefficient_input Toy (@sha256 Toy (@list_input Toy [tpt 5; tpt 3])) (tpt 5).
(** The hash function with the digest [a] for it. *)
Definition toy_second_hash (a : bytes) (m : bytes) : bytes := if bytes_eqb m toy_other then a else @sha256 Toy m.
(** The challenge for the nonce above. *)
Definition toy_second_challenge (a : bytes) : bytes := group_challenge (toy_second_group toy_rx) (toy_second_hash a).
(** It knows both secrets and asks for the coefficient.  When that is 6 or 30, it asks for the challenge and signs. *)
Definition toy_second_forger : asker (group_forgery Toy) :=
  Ask toy_other (fun a =>
  if existsb (Z.eqb (int_from_bytes a)) [6; 30] then
    Ask (toy_second_challenge a) (fun d =>
    Give (toy_second_group (match forged_group (toy_second_group toy_rx) (toy_second_hash a) with
      | Some c => toy_forgery (((if parity_acc c then -1 else 1) * (int_from_bytes a * 5 + 3) + fz (tweak_acc c)) mod 31) d
      | None => [] end)))
  else Give (toy_second_group [])).
(** The questions it may ask. *)
Definition toy_second_inputs : list bytes :=
  Eval vm_compute in [toy_other; toy_second_challenge (be_enc 32 6); toy_second_challenge (be_enc 32 30)].
(** A world: the coefficient, and 7 for both challenges. *)
Definition toy_second_world (a : Z) : list (bytes * bytes) :=
  combine toy_second_inputs [be_enc 32 a; be_enc 32 7; be_enc 32 7].

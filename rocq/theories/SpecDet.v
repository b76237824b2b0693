(** Deterministic signatures of a single signer for chosen messages: when do two of them share a nonce?

    Specification only: nothing here models code of /repo; the signatures are those of the model's
    [det_sign_solo_adaptor] and [det_sign_solo]. *)
From Coq Require Import String List.
From Verif Require Import Bytes Prims SpecBIP327 SpecRfc6979 Errors Signature Bip340 Deterministic SpecExtract SpecFork SpecSolo.
Import ListNotations.
Local Open Scope Z_scope.

Section Det.
Context {Pr : prims}.

(** HMAC (RFC 2104) as a program that asks for its digests, for a key of 32 bytes. *)
Definition ask_hmac {A} (key text : bytes) (go_on : bytes -> asker A) : asker A :=
  Ask (rfc_xor (key ++ zeros 32) 54 ++ text) (fun i => Ask (rfc_xor (key ++ zeros 32) 92 ++ i) go_on).
(** Step h of section 3.2 of RFC 6979, for at most [fuel] candidates. *)
Fixpoint ask_candidates {A} (fuel : nat) (K V : bytes) (go_on : option bytes -> asker A) : asker A :=
  match fuel with
  | O => go_on None
  | S f => ask_hmac K V (fun T =>
      if (1 <=? int_from_bytes T) && (int_from_bytes T <? n_) then go_on (Some T)
      else ask_hmac K (T ++ [x00]) (fun K' => ask_hmac K' T (fun V' => ask_candidates f K' V' go_on)))
  end.
(** Section 3.2 of RFC 6979, but with the digest itself in place of bits2octets of it. *)
Definition ask_seed {A} (fuel : nat) (sk : scalar Pr) (msg : bytes) (go_on : option bytes -> asker A) : asker A :=
  let x := bytes_from_int (fz sk) in let V := repeat x01 32 in
  Ask msg (fun z => ask_hmac (zeros 32) (V ++ [x00] ++ x ++ z) (fun K1 => ask_hmac K1 V (fun V1 =>
    ask_hmac K1 (V1 ++ [x01] ++ x ++ z) (fun K2 => ask_hmac K2 V1 (fun V2 => ask_candidates fuel K2 V2 go_on))))).

(** A message, and the adaptor point if there is one. *)
Definition det_order : Type := (bytes * option (@pt Pr))%type.
(** The order with a seed. *)
Definition with_seed (o : det_order) (s : bytes) : order_ Pr := {| o_seed := s; o_msg := fst o; o_point := snd o |}.
(** Everything that is hashed, up to the nonce, for a deterministic signature. *)
Definition signing (fuel : nat) (sk : scalar Pr) (o : det_order) : asker unit :=
  ask_seed fuel sk (fst o) (fun s => match s with
    | None => Give tt
    | Some s => Ask (seed_input (with_seed o s)) (fun a => Ask (nonce_input sk a (with_seed o s)) (fun _ => Give tt))
    end).
(** With digests from [digests] it asks for nothing outside [inputs]. *)
Fixpoint only_asks {A} (inputs digests : list bytes) (F : asker A) : Prop :=
  match F with Give _ => True | Ask m k => In m inputs /\ forall d, In d digests -> only_asks inputs digests (k d) end.

(** The x coordinate of the nonce of the signature; nothing if none of the first [fuel] candidates will do. *)
Definition det_nonce (fuel : nat) (h : bytes -> bytes) (sk : scalar Pr) (o : det_order) : list bytes :=
  match snd o with
  | Some T => match @det_sign_solo_adaptor (with_hash Pr h) fuel (rescalar h sk) (fst o) T with Some s => [pt_x (a_R s)] | None => [] end
  | None => match @det_sign_solo (with_hash Pr h) fuel (rescalar h sk) (fst o) with Some (Ok l) => [pt_x (pval (l_R l))] | _ => [] end
  end.
(** The program ends with at most [M] orders for different messages, and two of the signatures share a nonce up to its sign. *)
Definition det_shared (fuel M : nat) (sk : scalar Pr) (F : asker (list det_order)) (w : list (bytes * bytes)) : bool :=
  let t := outcome (hash_in w) F in
  Nat.leb (List.length t) M && negb (comes_twice (map fst t)) && comes_twice (flat_map (det_nonce fuel (hash_in w) sk) t).
(** It asks at most [q] questions and ends with at most [M] orders, and what signing hashes is among the inputs whatever the digests. *)
Definition det_within (fuel M : nat) (sk : scalar Pr) (inputs digests : list bytes) (q : nat) (F : asker (list det_order)) : Prop :=
  asks_within inputs digests (fun t => (List.length t <= M)%nat /\ forall o, In o t -> only_asks inputs digests (signing fuel sk o)) q F.
End Det.
Arguments det_order Pr : clear implicits.

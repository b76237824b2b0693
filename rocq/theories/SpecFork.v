(** Forgers as programs that ask for digests, and what changing one digest does to them.

    Specification only: nothing here models code of /repo; the verification and the key
    aggregation used are those of the model. *)
From Coq Require Import String List.
From Verif Require Import Bytes Prims TaggedHashes Errors SpecTags SpecBIP327 KeyAgg Bip340 SpecExtract.
Import ListNotations.
Local Open Scope Z_scope.

(** A program that asks for digests of inputs of its choice, and ends with a result.  It may
    do anything else: it is any function of the digests it was given. *)
Inductive asker (A : Type) : Type :=
| Give (a : A)
| Ask (m : bytes) (go_on : bytes -> asker A).
Arguments Give {A} a.
Arguments Ask {A} m go_on.

(** What it ends with, and what it asks, in order, when the digests are those of [h]. *)
Fixpoint outcome {A} (h : bytes -> bytes) (F : asker A) : A :=
  match F with Give a => a | Ask m k => outcome h (k (h m)) end.
(** The questions. *)
Fixpoint asked {A} (h : bytes -> bytes) (F : asker A) : list bytes :=
  match F with Give _ => [] | Ask m k => m :: asked h (k (h m)) end.

(** With digests from [digests] it asks at most [q] questions, all of them in [inputs], and
    ends with a result for which [fin] holds. *)
Fixpoint asks_within {A} (inputs digests : list bytes) (fin : A -> Prop) (q : nat) (F : asker A) {struct F} : Prop :=
  match F with
  | Give a => fin a
  | Ask m k => match q with
               | O => False
               | S q' => In m inputs /\ forall d, In d digests -> asks_within inputs digests fin q' (k d)
               end
  end.

(** All the ways to assign to each of the [inputs] one of the [digests]. *)
Fixpoint worlds (inputs digests : list bytes) : list (list (bytes * bytes)) :=
  match inputs with
  | [] => [[]]
  | m :: ms => flat_map (fun d => map (cons (m, d)) (worlds ms digests)) digests
  end.
(** The digest assigned to an input. *)
Fixpoint assigned (w : list (bytes * bytes)) (m : bytes) : option bytes :=
  match w with [] => None | (m', d) :: w' => if bytes_eqb m m' then Some d else assigned w' m end.
(** The same assignment but for one input. *)
Fixpoint put (m d : bytes) (w : list (bytes * bytes)) : list (bytes * bytes) :=
  match w with
  | [] => []
  | (m', d') :: w' => if bytes_eqb m m' then (m', d) :: w' else (m', d') :: put m d w'
  end.
(** The first place of an input in a list of questions. *)
Fixpoint place (m : bytes) (l : list bytes) : option nat :=
  match l with [] => None | m' :: l' => if bytes_eqb m m' then Some O else option_map S (place m l') end.
(** How many elements pass a test. *)
Definition count {A} (f : A -> bool) (l : list A) : nat := List.length (filter f l).

Section Forgers.
Context {Pr : prims}.

(** The hash function of a world: that of [Pr] where the world assigns no digest. *)
Definition hash_in (w : list (bytes * bytes)) (m : bytes) : bytes :=
  match assigned w m with Some d => d | None => sha256 m end.
(** The integers modulo the order of two digests are equal. *)
Definition same_residue (d d' : bytes) : bool := int_from_bytes d mod n_ =? int_from_bytes d' mod n_.

(** The inputs of the three hashes of an aggregated key and of a signature for it
    (reference.py:30-32, 190-205; BIP340). *)
Definition tag_twice (tag : string) : bytes := sha256 (ascii_bytes tag) ++ sha256 (ascii_bytes tag).
(** The challenge of a signature. *)
Definition challenge_input (rx xQ msg : bytes) : bytes := tag_twice "BIP0340/challenge" ++ rx ++ xQ ++ msg.
(** The hash of the list of keys. *)
Definition list_input (pks : list (point Pr)) : bytes :=
  tag_twice "KeyAgg list" ++ concat (map (fun K : point Pr => cbytes K) pks).
(** The coefficient of a member. *)
Definition coefficient_input (L : bytes) (P : point Pr) : bytes := tag_twice "KeyAgg coefficient" ++ L ++ cbytes P.

(** *** A forger for one given key: it ends with a signature and a message. *)

(** The challenge of what it ends with. *)
Definition forged_challenge (Q : point Pr) (F : asker (bytes * bytes)) (w : list (bytes * bytes)) : bytes :=
  let '(sig, msg) := outcome (hash_in w) F in challenge_input (firstn 32 sig) (xbytes Q) msg.
(** Its questions, and the challenge that whoever verifies asks for in the end. *)
Definition questions (Q : point Pr) (F : asker (bytes * bytes)) (w : list (bytes * bytes)) : list bytes :=
  asked (hash_in w) F ++ [forged_challenge Q F w].
(** The signature verifies. *)
Definition forged (Q : point Pr) (F : asker (bytes * bytes)) (w : list (bytes * bytes)) : bool :=
  let '(sig, msg) := outcome (hash_in w) F in
  is_ok (@verify_single_bytes (with_hash Pr (hash_in w)) (rehash (hash_in w) Q) sig msg).
(** It forges, and forges again when the digest of its challenge is replaced by [d], with the
    same question as challenge and another residue. *)
Definition forks (Q : point Pr) (F : asker (bytes * bytes)) (w : list (bytes * bytes)) (d : bytes) : bool :=
  let m := forged_challenge Q F w in
  forged Q F w && forged Q F (put m d w) &&
  (match place m (questions Q F w), place (forged_challenge Q F (put m d w)) (questions Q F (put m d w)) with
   | Some i, Some i' => Nat.eqb i i' | _, _ => false end) &&
  negb (same_residue (hash_in w m) d).

(** *** A forger that chooses the members of the group: it ends with keys, tweaks, a signature
    and a message. *)

(** A scalar, seen with another hash function. *)
Definition rescalar (h : bytes -> bytes) (t : scalar Pr) : scalar (with_hash Pr h) :=
  @Scalar_ (with_hash Pr h) (sval t) (s_nz t).
(** What it ends with. *)
Record group_forgery : Type := {
  g_keys : list (point Pr); g_tweaks : list (scalar Pr * bool); g_sig : bytes; g_msg : bytes }.
(** The context of the group it ends with. *)
Definition forged_group (g : group_forgery) (h : bytes -> bytes) : option (key_agg_ctx (with_hash Pr h)) :=
  match @key_agg_new (with_hash Pr h) (map (rehash h) (g_keys g)) with
  | Ok c => match @with_tweaks (with_hash Pr h) c
              (map (fun tx => (rescalar h (fst tx), snd tx)) (g_tweaks g)) with Ok c' => Some c' | _ => None end
  | _ => None
  end.
(** The coefficient of [P] in that group. *)
Definition group_coefficient (P : point Pr) (g : group_forgery) (h : bytes -> bytes) : bytes :=
  coefficient_input (h (list_input (g_keys g))) P.
(** The challenge of the signature for its key. *)
Definition group_challenge (g : group_forgery) (h : bytes -> bytes) : bytes :=
  match forged_group g h with
  | Some c => challenge_input (firstn 32 (g_sig g)) (@xbytes Pr (pval (aggregated_pubkey c))) (g_msg g)
  | None => []
  end.
(** [P] is a member, but not the second key of the list, and the signature verifies for the
    aggregated and tweaked key: the places among the questions of the coefficient of [P] and of the
    challenge. *)
Definition group_forged (P : point Pr) (F : asker group_forgery) (w : list (bytes * bytes)) : option (nat * nat) :=
  let h := hash_in w in
  let g := outcome h F in
  match forged_group g h with
  | None => None
  | Some c =>
      if existsb (same P) (g_keys g)
         && negb (bytes_eqb (get_second_key (map (fun K : point Pr => cbytes K) (g_keys g))) (cbytes P))
         && is_ok (@verify_single_bytes (with_hash Pr h) (aggregated_pubkey c) (g_sig g) (g_msg g))
      then match place (group_coefficient P g h) (asked h F), place (group_challenge g h) (asked h F) with
           | Some i, Some j => Some (i, j)
           | _, _ => None
           end
      else None
  end.
(** The challenge and the coefficient of what it ends with in a world. *)
Definition challenge_of (F : asker group_forgery) (w : list (bytes * bytes)) : bytes := group_challenge (outcome (hash_in w) F) (hash_in w).
(** The coefficient. *)
Definition coefficient_of (P : point Pr) (F : asker group_forgery) (w : list (bytes * bytes)) : bytes :=
  group_coefficient P (outcome (hash_in w) F) (hash_in w).
(** It forges, and forges again when the digest of its challenge is replaced by [d], with the
    same question as challenge and another residue: the place of the coefficient. *)
Definition group_forks (P : point Pr) (F : asker group_forgery) (w : list (bytes * bytes)) (d : bytes) : option nat :=
  let m := challenge_of F w in
  match group_forged P F w, group_forged P F (put m d w) with
  | Some (i, j), Some (_, j') =>
      if Nat.eqb j j' && negb (same_residue (hash_in w m) d) then Some i else None
  | _, _ => None
  end.
(** That happens, and happens again when the digest of the coefficient is replaced by [a], with
    another residue. *)
Definition group_forks_twice (P : point Pr) (F : asker group_forgery) (w : list (bytes * bytes)) (d a : bytes) : bool :=
  let m := coefficient_of P F w in
  match group_forks P F w d, group_forks P F (put m a w) d with
  | Some i, Some i' => Nat.eqb i i' && negb (same_residue (hash_in w m) a)
  | _, _ => false
  end.

(** *** The same when [P] is the second key of the list, which has the coefficient 1. *)

(** The digests that encode the integers below the order, and the factors modulo the order. *)
Definition residues : list bytes := map (fun i => be_enc 32 (Z.of_nat i)) (seq 0 (Z.to_nat n_)).
(** The factors. *)
Definition factors : list Z := map Z.of_nat (seq 1 (Z.to_nat n_ - 1)).
(** An input for the coefficient of some key in a list with the digest [L]. *)
Definition is_coefficient (L m : bytes) : bool := bytes_eqb (firstn 96 m) (tag_twice "KeyAgg coefficient" ++ L).
(** The world in which all coefficients for [L] are multiplied by [g]. *)
Definition scale (L : bytes) (g : Z) (w : list (bytes * bytes)) : list (bytes * bytes) :=
  map (fun e => if is_coefficient L (fst e) then (fst e, be_enc 32 ((g * be_dec (snd e)) mod n_)) else e) w.
(** The first question for such a coefficient. *)
Fixpoint place_of (L : bytes) (l : list bytes) : option nat :=
  match l with [] => None | m :: l' => if is_coefficient L m then Some O else option_map S (place_of L l') end.
(** The digest of the list it ends with. *)
Definition list_digest (F : asker group_forgery) (w : list (bytes * bytes)) : bytes :=
  hash_in w (list_input (g_keys (outcome (hash_in w) F))).
(** [P] is the second key of the list, the signature verifies, and it has asked for the
    coefficients of all the other keys: the places of the first question for a coefficient
    and of the challenge. *)
Definition second_forged (P : point Pr) (F : asker group_forgery) (w : list (bytes * bytes)) : option (nat * nat) :=
  let h := hash_in w in
  let g := outcome h F in
  match forged_group g h with
  | None => None
  | Some c =>
      if existsb (same P) (g_keys g)
         && bytes_eqb (get_second_key (map (fun K : point Pr => cbytes K) (g_keys g))) (cbytes P)
         && is_ok (@verify_single_bytes (with_hash Pr h) (aggregated_pubkey c) (g_sig g) (g_msg g))
         && forallb (fun K => same P K || existsb (bytes_eqb (coefficient_input (list_digest F w) K)) (asked h F)) (g_keys g)
      then match place_of (list_digest F w) (asked h F), place (group_challenge g h) (asked h F) with
           | Some i, Some j => Some (i, j)
           | _, _ => None
           end
      else None
  end.
(** As [group_forks]. *)
Definition second_forks (P : point Pr) (F : asker group_forgery) (w : list (bytes * bytes)) (d : bytes) : option nat :=
  let m := challenge_of F w in
  match second_forged P F w, second_forged P F (put m d w) with
  | Some (i, j), Some (_, j') =>
      if Nat.eqb j j' && negb (same_residue (hash_in w m) d) then Some i else None
  | _, _ => None
  end.
(** That happens, and happens again when all the coefficients of the list are multiplied by [g]. *)
Definition second_forks_twice (P : point Pr) (F : asker group_forgery) (w : list (bytes * bytes)) (d : bytes) (g : Z) : bool :=
  match second_forks P F w d, second_forks P F (scale (list_digest F w) g w) d with
  | Some i, Some i' => Nat.eqb i i' && negb (g =? 1)
  | _, _ => false
  end.

(** The two sides of the equation D * y = Y, modulo the order, for the logarithm y of the
    untweaked sum of the group, that a fork of the challenge in [w] gives: D. *)
Definition fork_D (F : asker group_forgery) (w : list (bytes * bytes)) (d : bytes) : Z :=
  int_from_bytes (hash_in w (challenge_of F w)) - int_from_bytes d.
(** Y. *)
Definition fork_Y (F : asker group_forgery) (w : list (bytes * bytes)) (d : bytes) : Z :=
  let h := hash_in w in
  let g := outcome h F in
  let g' := outcome (hash_in (put (challenge_of F w) d w)) F in
  match forged_group g h with
  | Some c => (if parity_acc c then -1 else 1) *
      ((if @has_even_y Pr (pval (aggregated_pubkey c)) then 1 else -1)
         * (int_from_bytes (skipn 32 (g_sig g)) - int_from_bytes (skipn 32 (g_sig g')))
       - fork_D F w d * fz (tweak_acc c))
  | None => 0
  end.
End Forgers.
Arguments group_forgery : clear implicits.

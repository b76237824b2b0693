(** Two builders on the toy curve, for the example of PropertiesFresh.v. *)
From Coq Require Import List.
From Verif Require Import Bytes BytesFacts Prims SpecBIP327 Nonces SpecFork SpecFresh Toy ToyData ToyFork.
Import ListNotations.
Local Open Scope Z_scope.

(** A builder that is given a seed of zeros, the key 3*G and a message. *)
Definition fresh_builder (m : bytes) : builder Toy :=
  {| nonce_seed_bytes := zeros 32; b_seckey := None; b_pubkey := Some (base_mul sk_a); b_aggregated_pubkey := None; b_message := Some m; b_extra_inputs := [] |}.
(** One seed and two messages; nothing is asked for. *)
Definition fresh_pair : list (builder Toy) := [fresh_builder [x01]; fresh_builder [x02]].
Definition fresh_program : asker (list (builder Toy)) := Give fresh_pair.
(** The hash of the seed, and what is hashed for the four nonces when it has one of the 31 digests. *)
Definition fresh_inputs : list bytes :=
  aux_question (fresh_builder []) ::
  flat_map (fun a => flat_map (fun b => [nonce_question (Some sk_a) a b x00; nonce_question (Some sk_a) a b x01]) fresh_pair) (@residues Toy).
Lemma fresh_aux m : aux_question (fresh_builder m) = aux_question (fresh_builder []).
Proof. unfold aux_question, fresh_builder. cbn [nonce_seed_bytes]. reflexivity. Qed.
Lemma fresh_within : nonces_within 2 (Some sk_a) fresh_inputs (@residues Toy) 0 fresh_program.
Proof.
  split; [apply le_n|]. intros b Hb. split.
  - unfold fresh_inputs. left. destruct Hb as [<- | [<- | []]]; symmetry; apply fresh_aux.
  - intros a Ha. unfold fresh_inputs. split; right; apply in_flat_map; exists a; (split; [exact Ha|]); apply in_flat_map; exists b; (split; [exact Hb|]); [left | right; left]; reflexivity.
Qed.
(** The world in which everything has the digest 5. *)
Definition fresh_constant : list (bytes * bytes) := map (fun x => (x, be_enc 32 5)) fresh_inputs.
(** A world in which the digest is told by the message and the number of the nonce. *)
Definition fresh_varied : list (bytes * bytes) :=
  (aux_question (fresh_builder []), be_enc 32 4) ::
  flat_map (fun a => flat_map (fun b =>
    let m := match b_message b with Some m => int_from_bytes m | None => 0 end in
    [(nonce_question (Some sk_a) a b x00, be_enc 32 (2 * m)); (nonce_question (Some sk_a) a b x01, be_enc 32 (2 * m + 1))]) fresh_pair) (@residues Toy).
Lemma fresh_few : forall d, In d (@residues Toy) -> (count (@same_nonce Toy d) (@residues Toy) <= 2)%nat.
Proof.
  assert (E : forallb (fun d => Nat.leb (count (@same_nonce Toy d) (@residues Toy)) 2) (@residues Toy) = true) by (vm_compute; reflexivity).
  rewrite forallb_forall in E. intros d Hd. apply PeanoNat.Nat.leb_le, E, Hd.
Qed.

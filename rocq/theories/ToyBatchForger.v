(** A program on the toy curve that chooses a batch, for the examples of PropertiesBatchForger.v. *)
From Coq Require Import List.
From Verif Require Import Bytes BytesFacts Prims SpecBIP327 Signature Bip340 SpecBatch SpecFork SpecBatchForger Toy ToyData ToyFork.
Import ListNotations.
Local Open Scope Z_scope.

(** The nonce: 5*G or its negation, whichever is even; its discrete logarithm, and that of 3*G made even. *)
Definition bat_R : point Toy := even_point (tpt 5).
Definition bat_r : Z := if pt_odd (tpt 5 : point Toy) then 26 else 5.
Definition bat_x : Z := if pt_odd (tpt 3 : point Toy) then 28 else 3.
(** A signature that is wrong by [err] when its challenge has the digest [d]. *)
Definition bat_entry (d : bytes) (err : Z) : entry Toy :=
  {| n_key := tpt 3; n_msg := [x01]; n_sig := {| l_R := bat_R; l_s := of_Z _ (bat_r + int_from_bytes d * bat_x + err) |} |}.
(** The first draw of a generator seeded with 7. *)
Definition bat_draw : Z := Eval vm_compute in fz (rng_scalar (be_enc 32 7) 0 : mscalar Toy).
(** Two signatures for one challenge, with the errors that this draw cancels. *)
Definition bat_batch (d : bytes) : list (entry Toy) := [bat_entry d (- bat_draw); bat_entry d 1].
(** The challenge, and the seed when the challenge has the digest [d]. *)
Definition bat_challenge : bytes := Eval vm_compute in entry_challenge (bat_entry [] 0).
Definition bat_seed (d : bytes) : bytes := seed_question (fun _ => d) (bat_batch d).
(** It asks for both and ends with the two signatures. *)
Definition bat_forger : asker (list (entry Toy)) := Ask bat_challenge (fun d => Ask (bat_seed d) (fun _ => Give (bat_batch d))).
(** The questions it may ask. *)
Definition bat_inputs : list bytes := bat_challenge :: map bat_seed (@residues Toy).
Lemma bat_within : asks_within bat_inputs (@residues Toy) (fun _ => True) 2 bat_forger.
Proof. split; [left; reflexivity|]. intros d Hd. split; [right; apply in_map, Hd|]. intros; exact I. Qed.
(** The world in which the challenge has the digest 4 and the seeds have the digest [z]. *)
Definition bat_world (z : Z) : list (bytes * bytes) := (bat_challenge, be_enc 32 4) :: map (fun d => (bat_seed d, be_enc 32 z)) (@residues Toy).

(** The seed of the batch made for the digest 4 when its challenge has the digest [d]. *)
Definition bat_blind_seed (d : bytes) : bytes := seed_question (fun _ => d) (bat_batch (be_enc 32 4)).
(** The questions of whoever verifies that batch. *)
Definition bat_blind_inputs : list bytes := bat_challenge :: map bat_blind_seed (@residues Toy).
Lemma seed_pair {Pr : prims} (h : bytes -> bytes) (a b : entry Pr) : entry_challenge b = entry_challenge a -> seed_question h [a; b] = seed_question (fun _ => h (entry_challenge a)) [a; b].
Proof. intro H. unfold seed_question. cbn [map]. rewrite H. reflexivity. Qed.
Lemma bat_same_challenge d err err' : entry_challenge (bat_entry d err) = entry_challenge (bat_entry d err').
Proof. unfold entry_challenge, bat_entry. cbn [n_key n_msg n_sig l_R]. reflexivity. Qed.
Lemma bat_blind_within : batch_within 2 bat_blind_inputs (@residues Toy) 0 (Give (bat_batch (be_enc 32 4))).
Proof.
  unfold batch_within. cbn [asks_within]. split; [apply le_n|]. split.
  - intros e [<- | [<- | []]]; left; vm_compute; reflexivity.
  - intros h Hh. right. apply in_map_iff. exists (h (entry_challenge (bat_entry (be_enc 32 4) (- bat_draw)))). split; [|apply Hh].
    symmetry. exact (seed_pair h (bat_entry (be_enc 32 4) (- bat_draw)) (bat_entry (be_enc 32 4) 1) (bat_same_challenge _ _ _)).
Qed.
(** The world in which the challenge has the digest [y] and the seeds have the digest [z]. *)
Definition bat_blind_world (y z : Z) : list (bytes * bytes) := (bat_challenge, be_enc 32 y) :: map (fun d => (bat_blind_seed d, be_enc 32 z)) (@residues Toy).

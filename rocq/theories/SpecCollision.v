(** When a program that chooses the members of a group is forked twice (SpecFork.v): do its two lists agree?

    Specification only: nothing here models code of /repo. *)
From Coq Require Import List.
From Verif Require Import Bytes Prims SpecExtract SpecFork.
Import ListNotations.

Section Collision.
Context {Pr : prims}.

(** Two lists have the same keys in the same order. *)
Fixpoint same_keys (l l' : list (point Pr)) : bool :=
  match l, l' with
  | [], [] => true
  | K :: l, K' :: l' => same K K' && same_keys l l'
  | _, _ => false
  end.
(** The list that the program ends with in a world. *)
Definition ends_with (F : asker (group_forgery Pr)) (w : list (bytes * bytes)) : list (point Pr) := g_keys (outcome (hash_in w) F).
(** It is forked twice (C87) and has the same list in both worlds. *)
Definition forks_alike (P : point Pr) (F : asker (group_forgery Pr)) (w : list (bytes * bytes)) (d a : bytes) : bool :=
  group_forks_twice P F w d a && same_keys (ends_with F w) (ends_with F (put (coefficient_of P F w) a w)).
(** It is forked twice with [P] as the second key (C88) and has the same list in both worlds. *)
Definition second_forks_alike (P : point Pr) (F : asker (group_forgery Pr)) (w : list (bytes * bytes)) (d : bytes) (g : Z) : bool :=
  second_forks_twice P F w d g && same_keys (ends_with F w) (ends_with F (scale (list_digest F w) g w)).
(** Every list that it can end with is among the inputs of the hash function. *)
Definition lists_within (inputs digests : list bytes) (q : nat) (F : asker (group_forgery Pr)) : Prop :=
  asks_within inputs digests (fun g => In (list_input (g_keys g)) inputs) q F.
End Collision.

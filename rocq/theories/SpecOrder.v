(** Independent specification: the order of byte strings, as Python's [<] on [bytes] and hence
    [key_sort] of /repo/reference.py:183-185 have it. *)
From Coq Require Export Permutation.
From Verif Require Import Bytes.
Open Scope Z_scope.

(** The strings share a prefix, after which the first one ends or has the smaller byte. *)
Definition lex_lt (a b : bytes) : Prop :=
  exists p a' b', a = p ++ a' /\ b = p ++ b' /\
    match a', b' with
    | [], _ :: _ => True
    | x :: _, y :: _ => b2z x < b2z y
    | _, [] => False
    end.
(** In ascending order: nothing is followed by something smaller. *)
Fixpoint ascending (l : list bytes) : Prop :=
  match l with
  | [] => True
  | a :: l' => (forall b, In b l' -> ~ lex_lt b a) /\ ascending l'
  end.
(** reference.py:183-185, [pubkeys.sort()]: [l'] has the elements of [l] in ascending order. *)
Definition key_sorted (l l' : list bytes) : Prop := Permutation l l' /\ ascending l'.

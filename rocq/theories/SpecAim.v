(** Lists of public keys chosen so that their aggregated key is a given one, or so that there is none.

    Specification only: nothing here models code of /repo; the aggregated key is that of the
    model's [key_agg_new]. *)
From Coq Require Import List.
From Verif Require Import Bytes Prims KeyAgg SpecExtract SpecFork SpecCollision SpecGroupKey.
Import ListNotations.

Section Aim.
Context {Pr : prims}.

(** The program ends with a list whose aggregated key has the x coordinate [x]. *)
Definition aimed (x : bytes) (F : asker (list (point Pr))) (w : list (bytes * bytes)) : bool :=
  let h := hash_in w in match agg_x h (outcome h F) with Some x' => bytes_eqb x x' | None => false end.
(** The program ends with a list that aggregation refuses with an error. *)
Definition refused (F : asker (list (point Pr))) (w : list (bytes * bytes)) : bool :=
  let h := hash_in w in match @key_agg_new (with_hash Pr h) (map (rehash h) (outcome h F)) with Err _ => true | _ => false end.
(** It asks at most [q] questions and ends with a list of at most [u] keys, whose questions are among the inputs. *)
Definition key_list_within (inputs digests : list bytes) (q u : nat) (F : asker (list (point Pr))) : Prop :=
  asks_within inputs digests (list_covered inputs digests u) q F.
End Aim.

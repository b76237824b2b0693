(** Lists of public keys and the aggregated key they give: when do two lists give one key?

    Specification only: nothing here models code of /repo; the aggregated key is that of the
    model's [key_agg_new]. *)
From Coq Require Import List.
From Verif Require Import Bytes Prims KeyAgg SpecExtract SpecFork SpecCollision.
Import ListNotations.

Section GroupKey.
Context {Pr : prims}.

(** The x coordinate of the aggregated key of a list, if it has one. *)
Definition agg_x (h : bytes -> bytes) (pks : list (point Pr)) : option bytes :=
  match @key_agg_new (with_hash Pr h) (map (rehash h) pks) with
  | Ok c => Some (pt_x (pval (@aggregated_pubkey (with_hash Pr h) c)))
  | _ => None
  end.
(** The program ends with two different lists with one aggregated key up to its sign. *)
Definition one_group_key (F : asker (list (point Pr) * list (point Pr))) (w : list (bytes * bytes)) : bool :=
  let h := hash_in w in let (l, l') := outcome h F in
  negb (same_keys l l') && match agg_x h l, agg_x h l' with Some x, Some x' => bytes_eqb x x' | _, _ => false end.
(** A list of at most [u] keys; what is hashed for it and for its coefficients (reference.py:212-230) is
    among the inputs, whatever the digest of the list. *)
Definition list_covered (inputs digests : list bytes) (u : nat) (pks : list (point Pr)) : Prop :=
  (length pks <= u)%nat /\ In (list_input pks) inputs /\
  forall L K, In L digests -> In K pks -> In (coefficient_input L K) inputs.
(** It asks at most [q] questions and ends with such lists. *)
Definition key_lists_within (inputs digests : list bytes) (q u : nat) (F : asker (list (point Pr) * list (point Pr))) : Prop :=
  asks_within inputs digests (fun r => list_covered inputs digests u (fst r) /\ list_covered inputs digests u (snd r)) q F.
End GroupKey.

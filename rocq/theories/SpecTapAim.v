(** Groups and merkle roots chosen so that their taproot output key is a given one, or so that there is none.

    Specification only: nothing here models code of /repo; keys and tweaks are those of the model's
    [key_agg_new] and [with_taproot_tweak]. *)
From Coq Require Import List ZArith Bool.
From Verif Require Import Bytes Prims KeyAgg SpecExtract SpecFork SpecGroupKey SpecGroupTap.
Import ListNotations.
Local Open Scope Z_scope.

Section TapAim.
Context {Pr : prims}.

(** The program ends with a group and a root whose output key has the x coordinate [x]. *)
Definition tap_aimed (x : bytes) (F : asker (funded Pr)) (w : list (bytes * bytes)) : bool :=
  let h := hash_in w in match funded_output h (outcome h F) with Some x' => bytes_eqb x x' | None => false end.
(** The program ends with a group that has a key and a root for which the tweak is refused. *)
Definition tap_refused (F : asker (funded Pr)) (w : list (bytes * bytes)) : bool :=
  let h := hash_in w in let g := outcome h F in
  match @key_agg_new (with_hash Pr h) (map (rehash h) (fst g)) with
  | Ok c => match @with_taproot_tweak (with_hash Pr h) c (snd g) with Err _ => true | _ => false end
  | _ => false
  end.
(** Digests that are no secret keys. *)
Definition no_scalar (d : bytes) : bool := (be_dec d =? 0) || (Zpos (@ord Pr) <=? be_dec d).
(** It asks at most [q] questions and ends with a group of at most [u] keys, whose questions are among the inputs. *)
Definition one_funded_within (inputs digests : list bytes) (q u : nat) (F : asker (funded Pr)) : Prop :=
  asks_within inputs digests (funded_covered inputs digests u) q F.
End TapAim.

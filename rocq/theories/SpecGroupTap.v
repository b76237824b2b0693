(** Groups with a merkle root and the taproot output key they give: when do two of them give one key?

    Specification only: nothing here models code of /repo; the output key is that of the model's
    [key_agg_new] and [with_taproot_tweak]. *)
From Coq Require Import String List.
From Verif Require Import Bytes Prims SpecBIP327 KeyAgg SpecExtract SpecFork SpecCollision SpecGroupKey.
Import ListNotations.

Section GroupTap.
Context {Pr : prims}.

(** A list of keys and a merkle root, which is empty for an unspendable script path. *)
Definition funded : Type := list (point Pr) * bytes.
(** The x coordinate of the output key, if there is one. *)
Definition funded_output (h : bytes -> bytes) (g : funded) : option bytes :=
  match @key_agg_new (with_hash Pr h) (map (rehash h) (fst g)) with
  | Ok c => match @with_taproot_tweak (with_hash Pr h) c (snd g) with
            | Ok c' => Some (pt_x (pval (@aggregated_pubkey (with_hash Pr h) c')))
            | _ => None
            end
  | _ => None
  end.
(** The program ends with two groups or roots that differ and have one output key up to its sign. *)
Definition one_output (F : asker (funded * funded)) (w : list (bytes * bytes)) : bool :=
  let h := hash_in w in let (g, g') := outcome h F in
  negb (same_keys (fst g) (fst g') && bytes_eqb (snd g) (snd g')) &&
  match funded_output h g, funded_output h g' with Some x, Some x' => bytes_eqb x x' | _, _ => false end.
(** What is hashed for the list, its coefficients and, whatever the digests, the taproot tweak
    (src/key_agg.rs:267-278) is among the inputs. *)
Definition funded_covered (inputs digests : list bytes) (u : nat) (g : funded) : Prop :=
  list_covered inputs digests u (fst g) /\
  forall h x, (forall m, In (h m) digests) -> agg_x h (fst g) = Some x -> In (tag_twice "TapTweak" ++ x ++ snd g) inputs.
(** It asks at most [q] questions and ends with such groups. *)
Definition funded_within (inputs digests : list bytes) (q u : nat) (F : asker (funded * funded)) : Prop :=
  asks_within inputs digests (fun r => funded_covered inputs digests u (fst r) /\ funded_covered inputs digests u (snd r)) q F.
End GroupTap.
Arguments funded Pr : clear implicits.

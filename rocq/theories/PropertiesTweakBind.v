(** What a tweak that is not made of the key commits to: C108. *)
From Coq Require Import String List.
From Verif Require Import Bytes BytesFacts Prims PrimsFacts TaggedHashes Errors SpecTags SpecBIP327
  KeyAgg SpecCtx Toy ToyData ToyFork.
Import ListNotations.
Open Scope list_scope.
Open Scope Z_scope.
From Verif Require Import ProofsTweakBind.

(** C108.  A tweak is added to the aggregated key, or for an x-only tweak to that of the two points with its x coordinate which is even.  Every other key Q is reached from every context by exactly one tweak, and who knows the logarithms of both finds it by a subtraction:
    a tweak commits the key to its value only within one context, not among contexts, whatever their members. *)
Theorem C108_tweak_to_any_key {Pr : prims} {Laws : prims_ok Pr} (c : key_agg_ctx Pr) (Q : point Pr) (xonly : bool) :
  let start := if xonly && pt_odd (aggregated_pubkey c) then pt_neg (aggregated_pubkey c) else aggregated_pubkey c in
  (pval Q <> start -> exists (t : scalar Pr) (c' : key_agg_ctx Pr), with_tweak c t xonly = Ok c' /\ aggregated_pubkey c' = Q /\
     (forall t' c'', with_tweak c t' xonly = Ok c'' -> aggregated_pubkey c'' = Q -> t' = t) /\
     (forall d e, start = point_mul pt_G d -> pval Q = point_mul pt_G e -> fz t = (e - d) mod n_)) /\
  (pval Q = start -> forall t c', with_tweak c t xonly = Ok c' -> aggregated_pubkey c' <> Q).
Proof. exact (@C108_tweak_to_any_key_proof Pr Laws c Q xonly). Qed.
Print Assumptions C108_tweak_to_any_key.

(** On the toy curve the group of 3*G and 5*G has the key 30*G; the tweak 2 brings it to G, and 3 to the key 2*G of the group of 4*G and 3*G. *)
Example C108_case : match key_agg_new [tpt 3; tpt 5], key_agg_new [tpt 4; tpt 3] with
  | Ok c, Ok c' => pt_eqb (aggregated_pubkey c) (pval (tpt 30)) && pt_eqb (aggregated_pubkey c') (pval (tpt 2)) &&
      match with_tweak c (tsc 3) false with Ok c1 => pt_eqb (aggregated_pubkey c1) (aggregated_pubkey c') | _ => false end
  | _, _ => false end = true.
Proof. vm_compute. reflexivity. Qed.

(** C108, refutation.  The documentation of [with_tweak] says that signatures made with the tweaked context "will be bound to this tweak value" (src/key_agg.rs:153-154).  Two groups with no common key list and different tweaks have one tweaked key, so that each signature of one is one of the other. *)

Theorem C108_bound_to_tweak_refuted :
  exists (pks pks' : list (point Toy)) (t t' : scalar Toy) (c0 c0' c c' : key_agg_ctx Toy),
    key_agg_new pks = Ok c0 /\ key_agg_new pks' = Ok c0' /\ with_tweak c0 t false = Ok c /\ with_tweak c0' t' false = Ok c' /\
    pks <> pks' /\ t <> t' /\ aggregated_pubkey c = aggregated_pubkey c'.
Proof. exact C108_bound_to_tweak_refuted_proof. Qed.
Print Assumptions C108_bound_to_tweak_refuted.

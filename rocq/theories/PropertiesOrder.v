(** Properties of orders and sorted keys: C72. *)
From Coq Require Import List ZArith Permutation.
From Verif Require Import Bytes Prims PrimsFacts SpecTags SpecBIP327 KeyAgg Nonces Order SpecOrder Toy ToyData.
Import ListNotations.
Open Scope list_scope.
From Verif Require Import ProofsOrder.

(** C72.  The derived orders of [PubNonce] and [AggNonce], and that of points, are the
    lexicographic order of the encodings, and compare as equal exactly equal values. *)
Theorem C72_order_of_encodings {Pr : prims} {Laws : prims_ok Pr} :
  let order_of := fun (A : Type) (cmp : A -> A -> comparison) (enc : A -> bytes) => forall a b : A,
    (cmp a b = Lt <-> lex_lt (enc a) (enc b)) /\ (cmp a b = Gt <-> lex_lt (enc b) (enc a)) /\ (cmp a b = Eq <-> a = b) in
  order_of (point Pr) point_cmp ser_point /\
  order_of pt mpoint_cmp ser_mpoint /\
  order_of (pub_nonce Pr) pubnonce_cmp pubnonce_to_bytes /\
  order_of (agg_nonce Pr) aggnonce_cmp aggnonce_to_bytes.
Proof. exact (@C72_order_of_encodings_proof Pr Laws). Qed.
Print Assumptions C72_order_of_encodings.

(** Infinity comes first; the second field decides where the first agrees. *)
Example C72_order_case :
  aggnonce_cmp (AggNonce (pt_O (prims := Toy)) (pval (tpt 5))) (AggNonce (pval (tpt 4)) pt_O) = Lt /\
  aggnonce_cmp (AggNonce (pval (tpt 4)) (pval (tpt 5))) (AggNonce (pval (tpt 4)) pt_O) = Gt /\
  pubnonce_cmp (PubNonce (tpt 2) (tpt 4)) (PubNonce (tpt 4) (tpt 4)) = Gt.
Proof. vm_compute. auto. Qed.

(** Sorting the keys gives the only list whose encodings the reference's [key_sort] can return. *)
Theorem C72_sort_is_key_sort {Pr : prims} {Laws : prims_ok Pr} (pks pks' : list (point Pr)) :
  key_sorted (map ser_point pks) (map ser_point pks') <-> pks' = sort_keys pks.
Proof. exact (@C72_sort_is_key_sort_proof Pr Laws pks pks'). Qed.
Print Assumptions C72_sort_is_key_sort.

(** Odd points come after even ones. *)
Example C72_sort_case : map (@pt_odd Toy) (map pval (sort_keys (map tpt [2; 4; 3; 5]%positive))) = [false; false; true; true] /\
  map ser_point (map tpt [2; 4]%positive) <> map ser_point (sort_keys (map tpt [2; 4]%positive)).
Proof. split; [vm_compute; reflexivity | vm_compute; discriminate]. Qed.

(** The recommendation to sort keys works: whoever holds the same keys, in whatever order,
    gets the same result from [KeyAggContext::new] after sorting, and it is the reference's
    [key_agg] of its [key_sort]. *)
Theorem C72_sorted_contexts_agree {Pr : prims} {Laws : prims_ok Pr} {Tags : tags_ok Pr} (pks pks' : list (point Pr)) (Hperm : Permutation pks pks') :
  key_agg_new (sort_keys pks) = key_agg_new (sort_keys pks') /\
  (key_agg_new (sort_keys pks) = Panic <-> key_agg_new pks = Panic) /\
  (forall c bs, key_agg_new (sort_keys pks) = Ok c -> key_sorted (map ser_point pks') bs ->
     exists k, key_agg bs = Ret k /\ Q_ k = aggregated_pubkey c /\ map ser_point (pubkeys c) = bs).
Proof. exact (@C72_sorted_contexts_agree_proof Pr Laws Tags pks pks' Hperm). Qed.
Print Assumptions C72_sorted_contexts_agree.

Example C72_contexts_case : Permutation (map tpt [5; 3; 4]%positive) (map tpt [3; 4; 5]%positive) /\
  is_ok (key_agg_new (sort_keys (map tpt [5; 3; 4]%positive))) = true.
Proof.
  split; [|vm_compute; reflexivity]. apply Permutation_map.
  apply perm_trans with [3; 5; 4]%positive; [apply perm_swap | apply perm_skip, perm_swap].
Qed.

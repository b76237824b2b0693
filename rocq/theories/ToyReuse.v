(** Sessions on the toy curve in which a secret nonce is used several times. *)
From Coq Require Import List.
From Verif Require Import Bytes Prims PrimsFacts KeyAgg Nonces Signing SpecBIP327 SpecSession SpecCtx SpecReuse Toy ToyData.
Import ListNotations.
Local Open Scope Z_scope.

(** Two keys whose aggregated key has even y. *)
Definition reuse_keys : list (point Toy) := [base_mul (tsc 3); base_mul (tsc 13)].
(** Their context. *)
Definition reuse_c : key_agg_ctx Toy := ok_val (key_agg_new reuse_keys) ltac:(vm_compute; reflexivity).
Lemma reuse_c_reach : ctx_reachable reuse_c.
Proof. apply (reach_new reuse_keys), ok_val_eq. Qed.

(** An aggregated nonce. *)
Definition reuse_an (i j : Z) : agg_nonce Toy :=
  {| aR1 := gmul (of_Z 31 i : mscalar Toy); aR2 := gmul (of_Z 31 j : mscalar Toy) |}.

Lemma ok_fz {E} (r : res E (mscalar Toy)) (z : Z) :
  ok_and r (fun s => fz s =? z) = true -> z mod 31 = z -> r = Ok (of_Z 31 z).
Proof.
  destruct r as [s| |]; cbn [ok_and]; try discriminate. intros H Hz. f_equal. apply fe_ext.
  rewrite fz_of_Z. apply Z.eqb_eq in H. rewrite H. symmetry. exact Hz.
Qed.

Lemma sign_14 : sign_partial reuse_c (tsc 3) (mk_sn 7 11) (reuse_an 2 2) toy_msg = Ok (of_Z 31 14).
Proof. apply ok_fz; vm_compute; reflexivity. Qed.
Lemma sign_7 : sign_partial reuse_c (tsc 3) (mk_sn 7 11) (reuse_an 8 5) toy_msg = Ok (of_Z 31 7).
Proof. apply ok_fz; vm_compute; reflexivity. Qed.

(** One use of the nonces 7 and 11 in [toy_c0]. *)
Definition reuse_use (i s : Z) : use Toy := Use toy_c0 (reuse_an i 5) pt_O toy_msg (of_Z 31 s).
(** Three uses. *)
Definition reuse_uses : list (use Toy) := [reuse_use 1 24; reuse_use 4 30; reuse_use 7 14].
Lemma reuse_uses_ok u : In u reuse_uses ->
  ctx_reachable (use_ctx u) /\
  sign_partial_adaptor (use_ctx u) sk_a (mk_sn 7 11) (use_aggnonce u) (use_adaptor u) (use_message u) = Ok (use_signature u).
Proof.
  intros [<- | [<- | [<- | []]]]; (split; [exact toy_c0_reach | apply ok_fz; vm_compute; reflexivity]).
Qed.
Lemma reuse_not_on_line : ~ exists p q, forall u, In u reuse_uses -> on_line (base_mul sk_a) p q u.
Proof.
  intros (p & q & H).
  pose proof (H _ (or_introl eq_refl)) as H1. pose proof (H _ (or_intror (or_introl eq_refl))) as H2.
  pose proof (H _ (or_intror (or_intror (or_introl eq_refl)))) as H3. clear H. unfold on_line in H1, H2, H3.
  assert (E1 : (use_sign (reuse_use 1 24) * use_weight (base_mul sk_a) (reuse_use 1 24)) mod n_ = 5) by (vm_compute; reflexivity).
  assert (E2 : (use_sign (reuse_use 4 30) * use_weight (base_mul sk_a) (reuse_use 4 30)) mod n_ = 4) by (vm_compute; reflexivity).
  assert (E3 : (use_sign (reuse_use 7 14) * use_weight (base_mul sk_a) (reuse_use 7 14)) mod n_ = 20) by (vm_compute; reflexivity).
  assert (B1 : v_b (use_values (reuse_use 1 24)) = 3) by (vm_compute; reflexivity).
  assert (B2 : v_b (use_values (reuse_use 4 30)) = 1) by (vm_compute; reflexivity).
  assert (B3 : v_b (use_values (reuse_use 7 14)) = 29) by (vm_compute; reflexivity).
  rewrite E1, B1 in H1. rewrite E2, B2 in H2. rewrite E3, B3 in H3.
  change (@n_ Toy) with 31 in *. clear E1 E2 E3 B1 B2 B3.
  Z.to_euclidean_division_equations. Lia.lia.
Qed.

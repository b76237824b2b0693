(** Proofs of the theorems of PropertiesSimulation.v. *)
From Coq Require Import String List.
From Verif Require Import Bytes BytesFacts Prims PrimsFacts TaggedHashes Errors SpecTags SpecBIP327
  KeyAgg Nonces Signature Signing SigAgg SpecCtx SpecView SpecSession SpecSimulate Toy ToyData.
Import ListNotations.
Open Scope list_scope.
Open Scope Z_scope.
From Coq Require Import Lia.
From Verif Require Import CodecFacts KeyAggFacts KeyAggCodec SigningFacts SpecFacts SpecSigning SessionFacts ProofsSigning.
Open Scope Z_scope.

Section Simulation.
Context {Pr : prims} {Laws : prims_ok Pr} {Tags : tags_ok Pr}.
Add Ring fring0 : (fe_ring_theory (n := @ord Pr)).

(** The logarithm of the simulated nonce. *)
Definition sim_log (c : key_agg_ctx Pr) (sk : scalar Pr) an T msg (s k : mscalar Pr) : mscalar Pr :=
  fsub (fneg_if (pt_odd (sess_A c an T msg))
          (fsub s (fmul (fmul (sess_e c an T msg) (coeff_of (ordered_pubkeys c) (base_mul sk))) (fneg_if (sess_par c) sk))))
       (fmul (sess_b c an msg) k).

Lemma sim_nonce_log c sk an T msg (s k : mscalar Pr) :
  sim_nonce c (base_mul sk) (spec_b c an msg) (v_e (spec_values c an T msg))
    (has_even_y (pt_add (v_R (spec_values c an T msg)) T)) (fz s) (fz k)
  = gmul (sim_log c sk an T msg s k).
Proof.
  unfold sim_nonce. rewrite spec_values_eq, spec_b_eq, spec_a_eq. cbn [v_e v_R]. fold (sess_A c an T msg).
  unfold aggregated_pubkey. rewrite !even_if, !point_mul_Z, base_mul_val.
  rewrite !of_Z_mul, of_Z_gacc, !of_Z_fz. unfold sim_log, sess_par.
  set (A := fmul (sess_e c an T msg) (coeff_of (ordered_pubkeys c) (base_mul sk))).
  set (b := sess_b c an msg). clearbody A b.
  assert (G : of_Z ord (if pt_odd (pubkey c) then -1 else 1) = fneg_if (pt_odd (pubkey c)) fone :> mscalar Pr).
  { destruct (pt_odd (pubkey c)); cbn [fneg_if]; [change (-1) with (- (1)); apply of_Z_opp | reflexivity]. }
  rewrite G. change (@pmul Pr ?k pt_G) with (gmul k). destruct (pt_odd (sess_A c an T msg)), (pt_odd (pubkey c)), (parity_acc c);
    cbn [xorb fneg_if]; repeat first [rewrite <- gmul_add | rewrite <- gmul_neg | rewrite <- gmul_mul]; apply f_equal; ring.
Qed.

Lemma sim_log_iff c sk sn an T msg (s : mscalar Pr) :
  psig_value c sk sn an T msg = s <-> (k1 sn : mscalar Pr) = sim_log c sk an T msg s (k2 sn).
Proof.
  unfold psig_value, sim_log. set (A := fmul (sess_e c an T msg) _). clearbody A.
  destruct (pt_odd (sess_A c an T msg)); cbn [fneg_if]; split.
  - intros <-. ring.
  - intros ->. ring.
  - intros <-. ring.
  - intros ->. ring.
Qed.

Lemma sign_value_iff c sk sn an T msg (s : mscalar Pr) : ctx_reachable c -> In (base_mul sk) (pubkeys c) ->
  sign_partial_adaptor c sk sn an T msg = Ok s <-> psig_value c sk sn an T msg = s.
Proof.
  intros Hc Hm. rewrite (proj1 (C11_sign_is_bip327_sign_proof c sk sn an T msg Hc) s), spec_psig_eq. split.
  - intros [_ H]. symmetry. apply fe_ext. exact H.
  - intros <-. split; [exact Hm | reflexivity].
Qed.
End Simulation.

Section C74_valid_is_honest.
Context {Pr : prims}.
Add Ring ring_C74_valid_is_honest : (fe_ring_theory (n := @ord Pr)).
Lemma C74_valid_is_honest_proof {Laws : prims_ok Pr} {Tags : tags_ok Pr} (c : key_agg_ctx Pr) (sk : scalar Pr) (an : agg_nonce Pr) (T : pt) (msg : bytes) (pn : pub_nonce Pr) (Hc : ctx_reachable c) (Hm : In (base_mul sk) (pubkeys c)) :
  exists sn, public_nonce sn = pn /\ (forall sn', public_nonce sn' = pn -> sn' = sn) /\
    forall s, verify_partial_adaptor c s an T (base_mul sk) pn msg = Ok tt <-> sign_partial_adaptor c sk sn an T msg = Ok s.
Proof.
  assert (L : forall P : point Pr, exists k : scalar Pr, base_mul k = P).
  { intro P. destruct (dlog P) as [k Hk].
    assert (N : k <> fzero) by (intros ->; apply (point_fin P); rewrite Hk; apply gmul_0).
    destruct (not_zero k) as [k'|] eqn:E; [|apply not_zero_None in E; contradiction].
    apply not_zero_Some in E. exists k'. apply point_ext. rewrite base_mul_val, <- E. symmetry. exact Hk. }
  destruct (L (pR1 pn)) as [a Ha], (L (pR2 pn)) as [b Hb].
  assert (E : public_nonce (SecNonce a b) = pn) by (destruct pn; unfold public_nonce; cbn in *; congruence).
  exists (SecNonce a b). split; [exact E|]. split.
  - intros sn' E'. rewrite <- E in E'. destruct sn' as [a' b']. unfold public_nonce in E'. cbn [k1 k2] in E'.
    pose proof (f_equal pR1 E') as E1. pose proof (f_equal pR2 E') as E2. cbn [pR1 pR2] in E1, E2.
    f_equal; apply base_mul_inj; assumption.
  - intro s. rewrite sign_value_iff by assumption. rewrite verify_member_iff; [|apply reachable_wf; exact Hc | exact Hm].
    pose proof (psig_value_eq c sk (SecNonce a b) an T msg) as V. rewrite E in V. split.
    + intro H. apply (partial_eq_unique _ _ _ _ _ _ _ _ V H).
    + intros <-. exact V.
Qed.
End C74_valid_is_honest.

Section C74_simulation.
Context {Pr : prims}.
Add Ring ring_C74_simulation : (fe_ring_theory (n := @ord Pr)).
Lemma C74_simulation_proof {Laws : prims_ok Pr} {Tags : tags_ok Pr} (c : key_agg_ctx Pr) (sk : scalar Pr) (an : agg_nonce Pr) (T : pt) (msg : bytes) (b e : Z) (even : bool) (Hc : ctx_reachable c) (Hm : In (base_mul sk) (pubkeys c)) (Hb : spec_b c an msg = b) (He : v_e (spec_values c an T msg) = e) (Heven : has_even_y (pt_add (v_R (spec_values c an T msg)) T) = even) (s : mscalar Pr) (k : scalar Pr) :
  let R := sim_nonce c (base_mul sk) b e even (fz s) (fz k) in
  (R <> pt_O <-> exists sn, k2 sn = k /\ sign_partial_adaptor c sk sn an T msg = Ok s) /\
  (forall sn, k2 sn = k -> (sign_partial_adaptor c sk sn an T msg = Ok s <-> pval (pR1 (public_nonce sn)) = R)) /\
  (forall sn sn', k2 sn = k -> k2 sn' = k -> sign_partial_adaptor c sk sn an T msg = Ok s ->
     sign_partial_adaptor c sk sn' an T msg = Ok s -> sn = sn') /\
  (forall P : point Pr, verify_partial_adaptor c s an T (base_mul sk) {| pR1 := P; pR2 := base_mul k |} msg = Ok tt <-> pval P = R).
Proof.
  cbv zeta. subst b e even. rewrite sim_nonce_log.
  assert (I : forall sn, k2 sn = k -> (sign_partial_adaptor c sk sn an T msg = Ok s <-> (k1 sn : mscalar Pr) = sim_log c sk an T msg s k)).
  { intros sn Hk. rewrite sign_value_iff by assumption. rewrite sim_log_iff, Hk. reflexivity. }
  split; [|split; [|split]].
  - split.
    + intro N. assert (N' : sim_log c sk an T msg s k <> fzero) by (intro F; apply N; rewrite F; apply gmul_0).
      destruct (not_zero (sim_log c sk an T msg s k)) as [a|] eqn:E; [|apply not_zero_None in E; contradiction].
      apply not_zero_Some in E. exists (SecNonce a k). split; [reflexivity|]. apply I; [reflexivity|]. symmetry. exact E.
    + intros (sn & Hk & Hs). apply I in Hs; [|exact Hk]. rewrite <- Hs, <- base_mul_val. apply point_fin.
  - intros sn Hk. rewrite (I sn Hk). cbn [public_nonce pR1]. rewrite base_mul_val. split.
    + intros ->. reflexivity.
    + apply gmul_inj.
  - intros sn sn' Hk Hk' Hs Hs'. apply I in Hs; [|exact Hk]. apply I in Hs'; [|exact Hk'].
    destruct sn as [a d], sn' as [a' d']. cbn [k1 k2] in *. subst. f_equal. apply scalar_ext. congruence.
  - intro P. destruct (C74_valid_is_honest_proof c sk an T msg {| pR1 := P; pR2 := base_mul k |} Hc Hm) as (sn & E & _ & V).
    rewrite V. assert (Hk : k2 sn = k) by (apply base_mul_inj; exact (f_equal pR2 E)).
    rewrite (I sn Hk). assert (E1 : base_mul (k1 sn) = P) by exact (f_equal pR1 E). rewrite <- E1, base_mul_val. split.
    + intros ->. reflexivity.
    + apply gmul_inj.
Qed.
End C74_simulation.

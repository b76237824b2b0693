(** The session specification of SpecSession.v against the lemmas of SigningFacts.v. *)
From Coq Require Import String.
From Coq Require Import List.
From Verif Require Import Bytes BytesFacts Prims PrimsFacts CodecFacts TaggedHashes Errors SpecTags SpecBIP327 SpecView SpecSession
  KeyAgg SpecCtx KeyAggFacts KeyAggCodec Nonces Signature Signing SigAgg Bip340 SigningFacts SpecFacts SpecSigning.
Import ListNotations.
Open Scope list_scope.
Open Scope Z_scope.

Section SessionFacts.
Context {Pr : prims} {Ok_ : prims_ok Pr} {Tags : tags_ok Pr}.
Add Ring fring : (fe_ring_theory (n := @ord Pr)).

Lemma spec_b_eq c an msg : spec_b c an msg = fz (sess_b c an msg).
Proof. apply (noncecoef_eq c an msg). Qed.

Lemma spec_R_raw_eq c an msg : spec_R_raw c an msg = raw_nonce c an msg.
Proof. unfold spec_R_raw. rewrite spec_b_eq. reflexivity. Qed.

Lemma spec_values_eq c an T msg :
  spec_values c an T msg =
  Values (pval (pubkey c)) (gacc_of (parity_acc c)) (fz (tweak_acc c))
         (fz (sess_b c an msg)) (pval (sess_R c an msg)) (fz (sess_e c an T msg)).
Proof.
  unfold spec_values. rewrite spec_b_eq, spec_R_raw_eq, ref_R_eq. unfold aggregated_pubkey.
  rewrite challenge_ref. reflexivity.
Qed.

Lemma spec_g_eq c an T msg : spec_g (spec_values c an T msg) = gacc_of (pt_odd (pubkey c)).
Proof. rewrite spec_values_eq. apply g_eq. Qed.

Lemma spec_a_eq c pk : spec_a c pk = fz (coeff_of (ordered_pubkeys c) pk).
Proof. apply coeff_eq. Qed.

Lemma even_if {A} (P : pt) (x y : A) : (if has_even_y P then x else y) = if pt_odd P then y else x.
Proof. unfold has_even_y. destruct (pt_odd P); reflexivity. Qed.

Lemma psig_valid_eq c an T msg pk pn s :
  psig_valid c an T msg pk pn s <-> partial_eq c an T msg pk pn s.
Proof.
  unfold psig_valid. rewrite spec_g_eq, spec_values_eq, spec_a_eq. cbn [v_b v_R v_e v_gacc].
  unfold partial_eq. fold (sess_A c an T msg).
  rewrite even_if, point_mul_G, gacc_mul.
  assert (H1 : point_mul (pR2 pn) (fz (sess_b c an msg)) = pmul (sess_b c an msg) (pR2 pn)) by reflexivity.
  rewrite H1.
  assert (H2 : point_mul pk (fz (sess_e c an T msg) * fz (coeff_of (ordered_pubkeys c) pk) * gacc_of (xorb (pt_odd (pubkey c)) (parity_acc c)) mod n_)
     = pneg_if (sess_par c) (pmul (sess_e c an T msg) (pmul (coeff_of (ordered_pubkeys c) pk) pk))).
  { rewrite mod_n, point_mul_Z, !of_Z_fz, !of_Z_mul, !of_Z_fz, of_Z_gacc, <- pmul_mul.
    unfold sess_par. destruct (xorb _ _); cbn [fneg_if pneg_if]; rewrite <- ?pmul_neg; f_equal; ring. }
  rewrite H2, if_neg_pneg. reflexivity.
Qed.

Lemma spec_psig_eq c sk sn an T msg : spec_psig c sk sn an T msg = fz (psig_value c sk sn an T msg).
Proof.
  unfold spec_psig. rewrite spec_g_eq, spec_values_eq, spec_a_eq. cbn [v_b v_R v_e v_gacc].
  fold (sess_A c an T msg). unfold has_even_y. rewrite mod_n. f_equal.
  rewrite !of_Z_add, !of_Z_mul, !mod_n, !of_Z_fz, !of_Z_mul, !neg_scalar_Z, !of_Z_gacc, !of_Z_fz.
  unfold psig_value, sess_par.
  destruct (pt_odd (sess_A c an T msg)), (pt_odd (pubkey c)), (parity_acc c); cbn [xorb fneg_if]; ring.
Qed.

Lemma of_Z_sum (sigs : list (mscalar Pr)) : of_Z ord (fold_right Z.add 0 (map fz sigs)) = fsum sigs.
Proof.
  induction sigs as [|s sigs IH]; [reflexivity|]. cbn [map fold_right].
  rewrite of_Z_add, of_Z_fz, IH, fsum_cons. reflexivity.
Qed.

Lemma spec_agg_s_eq c an T sigs msg : spec_agg_s c an T sigs msg = fz (agg_s c an T sigs msg).
Proof.
  unfold spec_agg_s. rewrite spec_g_eq, spec_values_eq. cbn [v_e v_tacc].
  rewrite mod_n. f_equal. rewrite of_Z_add, of_Z_sum, !of_Z_mul, !of_Z_fz, of_Z_gacc.
  unfold agg_s. destruct (pt_odd (pubkey c)); cbn [fneg_if]; ring.
Qed.

Lemma presig_valid_eq (pk : point Pr) msg T R s :
  presig_valid pk msg T R s <->
  gmul s = pt_add (pneg_if (pt_odd (pt_add R T)) R) (pmul (chal (pt_add R T) pk msg) (even_point pk)).
Proof.
  unfold presig_valid. rewrite point_mul_G, !even_if, !if_neg_pneg, challenge_ref, even_pneg.
  reflexivity.
Qed.

End SessionFacts.

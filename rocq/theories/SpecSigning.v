(** The model agrees with the transcription of reference.py: nonces, signing,
    verification and aggregation. *)
From Coq Require Import String.
From Verif Require Import Bytes BytesFacts Prims PrimsFacts CodecFacts TaggedHashes Errors SpecTags SpecBIP327 SpecView
  KeyAgg SpecCtx KeyAggFacts KeyAggCodec Nonces Signature Signing SigAgg Bip340 SigningFacts SpecFacts.
Open Scope Z_scope.

Section SpecSigning.
Context {Pr : prims} {Ok_ : prims_ok Pr} {Tags : tags_ok Pr}.
Add Ring fring : (fe_ring_theory (n := @ord Pr)).

(** *** Nonces *)

Lemma nonce_agg_loop_1 (pns : list (pub_nonce Pr)) i R :
  nonce_agg_loop 0 i (map pubnonce_to_bytes pns) R
  = Ret (pt_add R (psum (map (fun n => pval (pR1 n)) pns))).
Proof.
  revert i R. induction pns as [|pn pns IH]; intros i R; cbn [map nonce_agg_loop].
  - rewrite psum_nil, add_O_r. reflexivity.
  - cbn [Nat.mul skipn]. unfold pubnonce_to_bytes at 1. rewrite firstn_app_exact by apply ser_point_len.
    rewrite cpoint_ser. cbn [py_blame py_bind]. rewrite IH, psum_cons, add_assoc. reflexivity.
Qed.
Lemma skipn_pubnonce (pn : pub_nonce Pr) : firstn 33 (skipn 33 (pubnonce_to_bytes pn)) = ser_point (pR2 pn).
Proof.
  unfold pubnonce_to_bytes. rewrite skipn_app_exact by apply ser_point_len.
  apply firstn_all2. rewrite ser_point_len. lia.
Qed.
Lemma nonce_agg_loop_2 (pns : list (pub_nonce Pr)) i R :
  nonce_agg_loop 1 i (map pubnonce_to_bytes pns) R
  = Ret (pt_add R (psum (map (fun n => pval (pR2 n)) pns))).
Proof.
  revert i R. induction pns as [|pn pns IH]; intros i R; cbn [map nonce_agg_loop].
  - rewrite psum_nil, add_O_r. reflexivity.
  - change (1 * 33)%nat with 33%nat. rewrite skipn_pubnonce.
    rewrite cpoint_ser. cbn [py_blame py_bind]. rewrite IH, psum_cons, add_assoc. reflexivity.
Qed.

Lemma nonce_agg_eq (pns : list (pub_nonce Pr)) :
  nonce_agg (map pubnonce_to_bytes pns) = Ret (aggnonce_to_bytes (agg_sum pns)).
Proof.
  unfold nonce_agg. rewrite nonce_agg_loop_1, nonce_agg_loop_2. cbn [py_bind].
  rewrite !add_O_l, !cbytes_ext_ser. reflexivity.
Qed.

Lemma xor_byte_lxor a b : z2b (Z.lxor (b2z a) (b2z b)) = xor_byte a b.
Proof.
  apply b2z_inj. rewrite b2z_z2b. unfold b2z at 3. rewrite xor_byte_to_N.
  assert (E : Z.lxor (b2z a) (b2z b) = Z.of_N (N.lxor (Byte.to_N a) (Byte.to_N b))).
  { unfold b2z. destruct (Byte.to_N a), (Byte.to_N b); reflexivity. }
  rewrite E. apply Z.mod_small. rewrite <- xor_byte_to_N. apply b2z_range.
Qed.
Lemma bytes_xor_eq a b : bytes_xor a b = xor_bytes a b.
Proof.
  revert b. induction a as [|x a IH]; intros [|y b]; try reflexivity.
  unfold bytes_xor. cbn [combine map fst snd xor_bytes]. rewrite xor_byte_lxor. f_equal. apply IH.
Qed.

(** What the reference hashes for nonce number [i]. *)
Definition ref_nonce_input (rand pk aggpk msg_prefixed extra_in : bytes) (i : byte) : bytes :=
  rand ++ be_enc 1 (zlen pk) ++ pk ++ be_enc 1 (zlen aggpk) ++ aggpk
  ++ msg_prefixed ++ be_enc 4 (zlen extra_in) ++ extra_in ++ [i].

Lemma generate_preimage seed (sk : scalar Pr) aggpk msg extra b :
  with_extra_input
    (with_message (with_aggregated_pubkey (with_seckey (builder_new seed) sk) aggpk) msg) extra = Ok b ->
  forall i, nonce_preimage b ++ [i] =
    ref_nonce_input (bytes_xor (ser_scalar sk) (tagged_hash "MuSig/aux" seed))
      (ser_point (base_mul sk)) (pt_x aggpk) ([x01] ++ be_enc 8 (zlen msg) ++ msg) extra i.
Proof.
  unfold with_extra_input. destruct (extra_input_ok _); [|discriminate].
  intro H; injection H as <-. intro i. unfold nonce_preimage, ref_nonce_input.
  cbn [seckey_bytes b_seckey b_pubkey b_aggregated_pubkey b_message b_extra_inputs set_extra_inputs
       with_message with_aggregated_pubkey with_seckey builder_new nonce_seed_bytes app].
  rewrite bytes_xor_eq. unfold tagged_hash, tagged. rewrite tag_musig_aux.
  unfold zlen at 2 3. rewrite ser_point_len, x_len.
  change (be_enc 1 (Z.of_nat 33)) with [x21]. change (be_enc 1 (Z.of_nat 32)) with [x20].
  unfold seckey_bytes. cbn [b_seckey]. unfold extra_total. cbn [concat]. rewrite app_nil_r.
  do 4 (rewrite <- ?app_assoc; cbn [app]). reflexivity.
Qed.

Lemma nonce_scalar_eq h : reduce_from h <> fzero :> mscalar Pr -> sval (nonce_scalar h) = reduce_from h.
Proof.
  intro H. unfold nonce_scalar. destruct (not_zero (reduce_from h)) as [k|] eqn:E.
  - apply not_zero_Some in E. auto.
  - apply not_zero_None in E. contradiction.
Qed.
Lemma nonce_scalar_zero h : reduce_from h = fzero :> mscalar Pr -> nonce_scalar h = scalar_one.
Proof. intro H. unfold nonce_scalar. rewrite (proj2 (not_zero_None _) H). reflexivity. Qed.

Lemma nonce_hash_eq rand pk aggpk (i : Z) mp ex : 
  nonce_hash rand pk aggpk i mp ex mod n_
  = fz (reduce_from (Pr := Pr) (tagged MUSIG_NONCE_TAG_DIGEST (ref_nonce_input rand pk aggpk mp ex (z2b i)))).
Proof.
  unfold nonce_hash, tagged_hash, tagged. rewrite tag_musig_nonce. reflexivity.
Qed.

Lemma fz_zero (a : mscalar Pr) : (fz a =? 0) = true <-> a = fzero.
Proof.
  rewrite Z.eqb_eq. split; [intro H; apply fe_ext; rewrite H; reflexivity | intros ->; reflexivity].
Qed.

Lemma generate_ref seed (sk : scalar Pr) aggpk msg extra sn :
  generate seed sk aggpk msg extra = Ok sn ->
  match nonce_gen_internal seed (Some (ser_scalar sk)) (ser_point (base_mul sk)) (Some (pt_x aggpk))
          (Some msg) (Some extra) with
  | Ret (secnonce, pubnonce) =>
      secnonce = secnonce_to_bytes sn ++ ser_point (base_mul sk) /\
      pubnonce = pubnonce_to_bytes (public_nonce sn)
  | AssertFailed => k1 sn = scalar_one \/ k2 sn = scalar_one
  | _ => False
  end.
Proof.
  unfold generate.
  destruct (with_extra_input _ extra) as [b| |] eqn:E; cbn [bind]; try discriminate.
  intro H; injection H as <-. pose proof (generate_preimage _ _ _ _ _ _ E) as Hp.
  unfold nonce_gen_internal. rewrite !nonce_hash_eq.
  change (z2b 0) with x00. change (z2b 1) with x01. rewrite <- !Hp.
  unfold build. set (h1 := tagged MUSIG_NONCE_TAG_DIGEST (nonce_preimage b ++ [x00])).
  set (h2 := tagged MUSIG_NONCE_TAG_DIGEST (nonce_preimage b ++ [x01])). clearbody h1 h2.
  destruct (fe_eq_dec (reduce_from h1) fzero) as [Z1|Z1].
  { rewrite (proj2 (fz_zero _) Z1). cbn [negb py_assert k1]. left. apply nonce_scalar_zero, Z1. }
  destruct (fe_eq_dec (reduce_from h2) fzero) as [Z2|Z2].
  { rewrite (proj2 (fz_zero (reduce_from h2)) Z2). destruct (fz (reduce_from h1) =? 0) eqn:E1.
    { apply fz_zero in E1. contradiction. }
    cbn [negb py_assert k2]. right. apply nonce_scalar_zero, Z2. }
  rewrite <- (nonce_scalar_eq h1 Z1), <- (nonce_scalar_eq h2 Z2).
  destruct (fz (nonce_scalar h1) =? 0) eqn:E1.
  { apply fz_zero in E1. destruct (scalar_nz _ E1). }
  destruct (fz (nonce_scalar h2) =? 0) eqn:E2.
  { apply fz_zero in E2. destruct (scalar_nz _ E2). }
  cbn [negb py_assert]. rewrite !point_mul_G, <- !base_mul_val, !is_infinite_point.
  cbn [negb py_assert]. rewrite !cbytes_ser, !bytes_from_fz.
  unfold secnonce_to_bytes, pubnonce_to_bytes, public_nonce. cbn [k1 k2 pR1 pR2].
  rewrite <- app_assoc. auto.
Qed.

(** *** Sessions *)

Section InSession.
Context (pks : list (point Pr)) (ts : list (scalar Pr * bool)) (c0 c : key_agg_ctx Pr)
  (an : agg_nonce Pr) (msg : bytes)
  (Hnew : key_agg_new pks = Ok c0) (Htw : with_tweaks c0 ts = Ok c).

Lemma sess_wf : ctx_wf c /\ ordered_pubkeys c = pks.
Proof.
  apply key_agg_new_Ok in Hnew as (_ & _ & Hwf & Hp & _).
  destruct (tweaks_wf c0 ts c Hwf Htw) as [H1 H2]. split; [assumption|]. congruence.
Qed.

Lemma noncecoef_eq :
  int_from_bytes (tagged_hash "MuSig/noncecoef" (aggnonce_to_bytes an ++ xbytes (pubkey c) ++ msg)) mod n_
  = fz (sess_b c an msg).
Proof.
  rewrite reduce_mod. unfold sess_b, nonce_coefficient, aggnonce_to_bytes, tagged_hash, tagged.
  rewrite tag_musig_noncecoef, <- !app_assoc. reflexivity.
Qed.

Lemma challenge_ref nx (Q : point Pr) m :
  int_from_bytes (tagged_hash "BIP0340/challenge" (nx ++ xbytes Q ++ m)) mod n_
  = fz (compute_challenge_hash_tweak nx Q m).
Proof.
  rewrite reduce_mod. unfold compute_challenge_hash_tweak, tagged_hash, tagged.
  rewrite tag_bip340_challenge. reflexivity.
Qed.

Lemma ref_R_eq :
  (if negb (is_infinite (raw_nonce c an msg)) then raw_nonce c an msg else pt_G) = pval (sess_R c an msg).
Proof.
  destruct (pt_eq_dec (raw_nonce c an msg) pt_O) as [E|E].
  - rewrite (sess_R_inf _ _ _ E), (proj2 (is_infinite_O _) E). reflexivity.
  - rewrite (sess_R_raw _ _ _ E), (proj2 (is_infinite_fin _) E). reflexivity.
Qed.

Lemma session_values_eq :
  get_session_values (ref_session an pks ts msg) =
  Ret (Values (pval (pubkey c)) (gacc_of (parity_acc c)) (fz (tweak_acc c))
         (fz (sess_b c an msg)) (pval (sess_R c an msg)) (fz (sess_e c an pt_O msg))).
Proof.
  unfold get_session_values, ref_session. cbn [s_pubkeys s_tweaks s_is_xonly s_aggnonce s_msg].
  rewrite (key_agg_and_tweak_eq pks c0 ts Hnew), Htw. cbn [py_bind].
  unfold ref_ctx, aggregated_pubkey. cbn [Q_ gacc tacc]. rewrite noncecoef_eq.
  replace (firstn 33 (aggnonce_to_bytes an)) with (ser_mpoint (aR1 an))
    by (symmetry; apply firstn_app_exact, ser_mpoint_len).
  replace (firstn 33 (skipn 33 (aggnonce_to_bytes an))) with (ser_mpoint (aR2 an))
    by (unfold aggnonce_to_bytes; rewrite skipn_app_exact by apply ser_mpoint_len;
        symmetry; apply firstn_all2; rewrite ser_mpoint_len; lia).
  rewrite !cpoint_ext_ser. cbn [py_blame py_bind]. rewrite point_mul_pmul.
  fold (raw_nonce c an msg). rewrite ref_R_eq, challenge_ref.
  unfold sess_e, sess_A. rewrite add_O_r. reflexivity.
Qed.

Lemma member_ref pk : existsb (bytes_eqb (ser_point pk)) (map ser_point pks) = true <-> In pk pks.
Proof.
  rewrite existsb_exists. split.
  - intros (b & Hb & He). apply in_map_iff in Hb as (q & <- & Hq). rewrite ser_point_eqb in He.
    apply point_eqb_eq in He. congruence.
  - intro H. exists (ser_point pk). split; [apply in_map, H | apply bytes_eqb_refl].
Qed.

Lemma session_coeff_in pk : In pk pks ->
  get_session_key_agg_coeff (ref_session an pks ts msg) (pval pk) = Ret (fz (coeff_of pks pk)).
Proof.
  intro H. unfold get_session_key_agg_coeff, ref_session. cbn [s_pubkeys].
  rewrite cbytes_ser, (proj2 (member_ref pk) H). cbn [py_check]. rewrite coeff_eq. reflexivity.
Qed.
Lemma session_coeff_out pk : ~ In pk pks ->
  get_session_key_agg_coeff (ref_session an pks ts msg) (pval pk) = ValueError.
Proof.
  intro H. unfold get_session_key_agg_coeff, ref_session. cbn [s_pubkeys].
  rewrite cbytes_ser. destruct (existsb _ _) eqn:E; [|reflexivity].
  apply member_ref in E. contradiction.
Qed.

Lemma g_eq : (if has_even_y (pubkey c) then 1 else n_ - 1) = gacc_of (pt_odd (pubkey c)).
Proof. unfold has_even_y. destruct (pt_odd (pubkey c)); reflexivity. Qed.

Lemma verify_ref (s : mscalar Pr) pn pk :
  partial_sig_verify_internal (ser_scalar s) (pubnonce_to_bytes pn) (ser_point pk) (ref_session an pks ts msg)
  = match verify_partial c s an pk pn msg with
    | Ok _ => Ret true
    | Err VE_BadSignature => Ret false
    | Err VE_UnknownKey => ValueError
    | Panic => AssertFailed
    end.
Proof.
  destruct sess_wf as [Hwf Hpk].
  unfold partial_sig_verify_internal. rewrite session_values_eq. cbn [py_bind v_Q v_gacc v_tacc v_b v_R v_e].
  rewrite int_ser, (proj2 (Z.leb_gt n_ (fz s))) by apply fz_n.
  replace (firstn 33 (pubnonce_to_bytes pn)) with (ser_point (pR1 pn))
    by (symmetry; apply firstn_app_exact, ser_point_len).
  rewrite skipn_pubnonce, !cpoint_ser. cbn [py_bind].
  unfold verify_partial. destruct (in_pks_dec pk pks) as [Hin|Hin].
  - rewrite session_coeff_in by assumption. cbn [py_bind].
    rewrite verify_member by (try assumption; rewrite Hpk; assumption).
    unfold sess_A. rewrite add_O_r, Hpk.
    rewrite g_eq, gacc_mul. fold (sess_par c).
    replace (fz (sess_e c an pt_O msg) * fz (coeff_of pks pk) * gacc_of (sess_par c) mod n_)
      with (fz (fneg_if (sess_par c) (fmul (sess_e c an pt_O msg) (coeff_of pks pk)))).
    2:{ rewrite mod_n, !of_Z_mul, of_Z_gacc, !of_Z_fz. f_equal. destruct (sess_par c); cbn [fneg_if]; ring. }
    rewrite point_mul_G, !point_mul_pmul, <- pneg_if_pmul_l, pmul_mul.
    unfold has_even_y. rewrite if_even_pneg.
    destruct (pt_eqb _ _); reflexivity.
  - rewrite session_coeff_out by assumption. cbn [py_bind].
    rewrite verify_nonmember by (try assumption; rewrite Hpk; assumption). reflexivity.
Qed.

(** Signature bytes that do not encode a scalar are never accepted. *)
Lemma verify_ref_range psig pnb pkb : n_ <= be_dec psig ->
  partial_sig_verify_internal psig pnb pkb (ref_session an pks ts msg) = Ret false.
Proof.
  intro H. unfold partial_sig_verify_internal. rewrite session_values_eq. cbn [py_bind].
  unfold int_from_bytes. rewrite (proj2 (Z.leb_le _ _) H). reflexivity.
Qed.

Lemma scalar_range (k : scalar Pr) : (0 <? fz k) && (fz k <? n_) = true.
Proof.
  rewrite (proj2 (Z.ltb_lt (fz k) n_)) by apply fz_n. rewrite andb_true_r. apply Z.ltb_lt.
  pose proof (fz_range k). enough (fz k <> 0) by lia. intro Hz. destruct (scalar_nz k).
  apply fe_ext. rewrite Hz. reflexivity.
Qed.

Lemma neg_scalar_Z (o : bool) (k : mscalar Pr) :
  of_Z ord (if negb o then fz k else n_ - fz k) = fneg_if o k.
Proof.
  destruct o; cbn [negb fneg_if].
  - unfold n_. rewrite of_Z_sub, of_Z_n, of_Z_fz. ring.
  - apply of_Z_fz.
Qed.

Lemma sign_ref (sk : scalar Pr) sn :
  sign (secnonce_to_bytes sn ++ ser_point (base_mul sk)) (ser_scalar sk) (ref_session an pks ts msg)
  = match sign_partial c sk sn an msg with
    | Ok s => Ret (ser_scalar s)
    | Err SE_UnknownKey => ValueError
    | _ => AssertFailed
    end.
Proof.
  destruct sess_wf as [Hwf Hpk].
  unfold sign. rewrite session_values_eq. cbn [py_bind v_Q v_gacc v_tacc v_b v_R v_e].
  unfold secnonce_to_bytes. rewrite <- !app_assoc.
  rewrite firstn_app_exact, skipn_app_exact, firstn_app_exact by apply ser_scalar_len.
  rewrite app_assoc, skipn_app_exact by (rewrite app_length, !ser_scalar_len; reflexivity).
  replace (firstn 33 (ser_point (base_mul sk))) with (ser_point (base_mul sk))
    by (symmetry; apply firstn_all2; rewrite ser_point_len; lia).
  rewrite !int_ser, !scalar_range. cbn [py_check]. rewrite !point_mul_G, <- !base_mul_val, !is_infinite_point.
  cbn [negb py_assert]. rewrite !cbytes_ser, bytes_eqb_refl. cbn [py_check].
  unfold sign_partial.
  destruct (in_pks_dec (base_mul sk) pks) as [Hin|Hin].
  - rewrite session_coeff_in by assumption. cbn [py_bind].
    rewrite g_eq.
    rewrite sign_member by (try assumption; rewrite Hpk; assumption).
    set (s := psig_value c sk sn an pt_O msg).
    match goal with |- context [bytes_from_int ?z] => replace z with (fz s) end.
    2:{ unfold s, psig_value, has_even_y. rewrite !mod_n.
        rewrite !of_Z_add, !of_Z_mul, !neg_scalar_Z, ?of_Z_fz, ?of_Z_mul, ?of_Z_gacc, ?of_Z_fz.
        f_equal. unfold sess_A. rewrite add_O_r, Hpk. unfold sess_par.
        destruct (pt_odd (sess_R c an msg)), (pt_odd (pubkey c)), (parity_acc c);
          cbn [xorb fneg_if]; ring. }
    rewrite bytes_from_fz.
    replace (ser_point (base_mul (k1 sn)) ++ ser_point (base_mul (k2 sn)))
      with (pubnonce_to_bytes (public_nonce sn)) by reflexivity.
    rewrite verify_ref. unfold verify_partial.
    rewrite (proj2 (verify_member_iff c s an pt_O (base_mul sk) (public_nonce sn) msg Hwf
      ltac:(rewrite Hpk; assumption)) (psig_value_eq c sk sn an pt_O msg)).
    reflexivity.
  - rewrite session_coeff_out by assumption. cbn [py_bind].
    rewrite sign_nonmember by (try assumption; rewrite Hpk; assumption). reflexivity.
Qed.

Lemma psig_sum_eq (sigs : list (mscalar Pr)) i (a : mscalar Pr) :
  psig_sum i (map ser_scalar sigs) (fz a) = Ret (fz (fadd a (fsum sigs))).
Proof.
  revert i a. induction sigs as [|s sigs IH]; intros i a; cbn [map psig_sum].
  - rewrite fsum_nil. do 2 f_equal. ring.
  - rewrite int_ser, (proj2 (Z.leb_gt n_ (fz s))) by apply fz_n.
    rewrite mod_n. change (of_Z ord (fz a + fz s)) with (fadd a s). rewrite IH, fsum_cons.
    do 2 f_equal. ring.
Qed.

(** What the reference returns, without any check. *)
Lemma partial_sig_agg_eq (sigs : list (mscalar Pr)) :
  partial_sig_agg (map ser_scalar sigs) (ref_session an pks ts msg)
  = Ret (pt_x (sess_R c an msg) ++ ser_scalar (agg_s c an pt_O sigs msg)).
Proof.
  unfold partial_sig_agg. rewrite session_values_eq. cbn [py_bind v_Q v_gacc v_tacc v_b v_R v_e].
  pose proof (psig_sum_eq sigs 0 fzero) as Hs. change (fz (fzero : mscalar Pr)) with 0 in Hs.
  rewrite Hs. cbn [py_bind]. rewrite g_eq.
  match goal with |- context [bytes_from_int ?z] => replace z with (fz (agg_s c an pt_O sigs msg)) end;
    [reflexivity|].
  rewrite mod_n, of_Z_add, !of_Z_mul, of_Z_gacc, !of_Z_fz. f_equal. unfold agg_s.
  destruct (pt_odd (pubkey c)); cbn [fneg_if]; ring.
Qed.

Lemma aggregate_ref sigs sg :
  aggregate_partial_signatures c an sigs msg = Ok sg ->
  partial_sig_agg (map ser_scalar sigs) (ref_session an pks ts msg) = Ret (lifted_to_bytes sg).
Proof.
  rewrite partial_sig_agg_eq. unfold aggregate_partial_signatures.
  destruct (aggregate_partial_adaptor_signatures c an pt_O sigs msg) as [a| |] eqn:E; cbn [bind]; try discriminate.
  rewrite (aggregate_adapt_zero _ _ _ _ _ _ E). cbn [unwrap]. intro H; injection H as <-.
  apply aggregate_Ok_iff in E as [-> _].
  unfold lifted_to_bytes, compact, compact_to_bytes, compact_new, lifted_new. cbn [l_R l_s c_rx c_s a_s].
  rewrite even_point_val, to_even_y_x. reflexivity.
Qed.

End InSession.

(** *** BIP340 *)

Lemma schnorr_verify_ref (pk : point Pr) (sig msg : bytes) :
  schnorr_verify msg (pt_x pk) sig =
  if (List.length sig =? 64)%nat then Ret (is_ok (verify_single_bytes pk sig msg)) else ValueError.
Proof.
  unfold schnorr_verify. rewrite x_len. cbn [Nat.eqb py_check].
  destruct (Nat.eqb_spec (List.length sig) 64) as [L|L]; [|reflexivity]. cbn [py_check].
  rewrite (proj2 (lift_spec (pt_x pk) (even_point pk))).
  2:{ rewrite even_point_val, to_even_y_x. split; [rewrite to_even_y_eq_O; apply point_fin|].
      split; [apply to_even_y_odd, point_fin | reflexivity]. }
  unfold verify_single_bytes, compact_from_bytes. rewrite L. cbn [Nat.eqb negb].
  assert (L2 : List.length (skipn 32 sig) = 32%nat) by (rewrite skipn_length; lia).
  rewrite (firstn_all2 (skipn 32 sig)) by lia.
  unfold parse_mscalar. rewrite L2. cbn [Nat.eqb andb]. unfold int_from_bytes at 1.
  destruct (Z.leb_spec n_ (be_dec (skipn 32 sig))) as [Hs|Hs].
  { rewrite (proj2 (Z.ltb_ge _ _)) by (unfold n_ in Hs; lia). reflexivity. }
  rewrite (proj2 (Z.ltb_lt (be_dec (skipn 32 sig)) (Zpos ord))) by (unfold n_ in Hs; lia).
  cbn [map_err bind].
  unfold verify_single. cbn [c_rx c_s]. rewrite challenge_even.
  change (firstn 32 sig ++ pt_x pk ++ msg) with (firstn 32 sig ++ xbytes pk ++ msg).
  rewrite challenge_ref. set (e := compute_challenge_hash_tweak (firstn 32 sig) pk msg).
  set (V := psub _ _).
  match goal with |- context [is_infinite ?X] => replace X with V end.
  2:{ unfold V, psub. unfold gmul. rewrite pmul_of_Z. unfold point_mul. f_equal.
      rewrite <- pmul_neg, <- (pmul_of_Z (n_ - fz e)). f_equal. unfold n_. rewrite of_Z_sub, of_Z_n, of_Z_fz. ring. }
  unfold has_even_y, xbytes.
  destruct (not_inf V) as [W|] eqn:E.
  - apply not_inf_Some in E. rewrite E, is_infinite_point. cbn [negb andb].
    destruct (pt_odd W); cbn [negb andb]; [reflexivity|]. destruct (bytes_eqb _ _); reflexivity.
  - apply not_inf_None in E. rewrite (proj2 (is_infinite_O _) E). reflexivity.
Qed.

Lemma schnorr_sign_ref (sk : scalar Pr) (aux msg : bytes) sg :
  sign_solo sk msg aux = Ok sg ->
  schnorr_sign (ser_scalar sk) aux msg = Ret (lifted_to_bytes sg) \/
  (schnorr_sign (ser_scalar sk) aux msg = ValueError /\ solo_prenonce sk msg aux = scalar_one).
Proof.
  unfold sign_solo, schnorr_sign. intro H.
  rewrite int_ser, scalar_range. cbn [py_check]. rewrite point_mul_G, <- base_mul_val.
  set (P := base_mul sk) in *.
  assert (Hd : bytes_from_int (if has_even_y P then fz sk else n_ - fz sk) = ser_scalar (fneg_if (pt_odd P) sk)).
  { unfold has_even_y. destruct (pt_odd P) eqn:Eo; cbn [negb fneg_if]; [|reflexivity].
    unfold bytes_from_int, ser_scalar. f_equal. unfold fneg. rewrite fz_of_Z.
    pose proof (fz_range sk). pose proof (scalar_range sk) as Hr. apply andb_true_iff in Hr as [Hr _].
    apply Z.ltb_lt in Hr. rewrite Z_mod_nz_opp_full.
    - rewrite Z.mod_small by lia. reflexivity.
    - rewrite Z.mod_small by lia. lia. }
  rewrite Hd.
  assert (Hpre : solo_prenonce sk msg aux =
    nonce_scalar (tagged_hash "BIP0340/nonce" (bytes_xor (ser_scalar (fneg_if (pt_odd P) sk))
                    (tagged_hash "BIP0340/aux" aux) ++ xbytes P ++ msg))).
  { unfold solo_prenonce. fold P. rewrite bytes_xor_eq. unfold tagged_hash, tagged.
    rewrite tag_bip340_nonce, tag_bip340_aux, (xor_bytes_comm (ser_scalar _)). reflexivity. }
  unfold sign_solo_adaptor in H. rewrite Hpre in *. clear Hpre. fold P in H.
  set (h := tagged_hash "BIP0340/nonce" _) in *. clearbody h.
  rewrite reduce_mod.
  destruct (fz (reduce_from h) =? 0) eqn:Ez; cbn [negb py_check].
  { right. split; [reflexivity|]. apply fz_zero in Ez. apply nonce_scalar_zero, Ez. }
  left. assert (Hz : reduce_from h <> fzero) by (intro Hz; apply fz_zero in Hz; congruence).
  rewrite <- (nonce_scalar_eq h Hz). rewrite !point_mul_G, <- !base_mul_val.
  set (k := nonce_scalar h) in *. 
  destruct (adapt _ _) as [l|] eqn:Ea; [|discriminate]. cbn [unwrap] in H. injection H as <-.
  apply adapt_Some in Ea as (_ & HR & Hs). cbn [adaptor_new a_R a_s] in HR, Hs.
  rewrite gmul_0, !add_O_r in HR, Hs.
  rewrite challenge_ref. unfold lifted_to_bytes, compact, compact_new, compact_to_bytes. cbn [c_rx c_s].
  rewrite HR, to_even_y_x. unfold xbytes. f_equal. f_equal.
  rewrite <- bytes_from_fz. f_equal. rewrite mod_n, Hs. f_equal.
  unfold has_even_y. rewrite of_Z_add, of_Z_mul, !neg_scalar_Z, of_Z_fz.
  generalize (compute_challenge_hash_tweak (pt_x (base_mul k)) P msg). intro e.
  destruct (pt_odd (base_mul k)), (pt_odd P); cbn [fneg_if]; ring.
Qed.

End SpecSigning.

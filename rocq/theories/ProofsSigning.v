(** Proofs of the theorems of PropertiesSigning.v. *)
From Coq Require Import String List Permutation.
From Verif Require Import Bytes BytesFacts Prims PrimsFacts TaggedHashes Errors SpecTags SpecBIP327
  KeyAgg Nonces Signature Signing SigAgg Bip340 SpecCtx SpecView SpecSession Toy ToyData.
Import ListNotations.
Open Scope list_scope.
Open Scope Z_scope.
From Verif Require Import CodecFacts KeyAggFacts KeyAggCodec SigningFacts SignatureFacts SpecFacts SpecSigning SessionFacts.

Section Helpers.
Context {Pr : prims} {Ok_ : prims_ok Pr} {Tags : tags_ok Pr}.
Add Ring fring0 : (fe_ring_theory (n := @ord Pr)).

Lemma verify_spec_iff c s an T pk pn msg : ctx_reachable c ->
  (verify_partial_adaptor c s an T pk pn msg = Ok tt <-> In pk (pubkeys c) /\ psig_valid c an T msg pk pn s).
Proof.
  intro Hc. apply reachable_wf in Hc. rewrite psig_valid_eq. unfold pubkeys. split.
  - apply verify_Ok_member, Hc.
  - intros [H1 H2]. apply verify_member_iff; assumption.
Qed.

Lemma verify_cases c s an T pk pn msg : ctx_reachable c ->
  (In pk (pubkeys c) /\ (verify_partial_adaptor c s an T pk pn msg = Ok tt \/
                         verify_partial_adaptor c s an T pk pn msg = Err VE_BadSignature)) \/
  (~ In pk (pubkeys c) /\ verify_partial_adaptor c s an T pk pn msg = Err VE_UnknownKey).
Proof.
  intro Hc. apply reachable_wf in Hc. unfold pubkeys.
  destruct (in_pks_dec pk (ordered_pubkeys c)) as [H|H].
  - left. split; [assumption|]. rewrite verify_member by assumption. destruct (pt_eqb _ _); auto.
  - right. split; [assumption|]. apply verify_nonmember; assumption.
Qed.

Lemma lifted_len (sg : lifted_sig Pr) : length (lifted_to_bytes sg) = 64%nat.
Proof. unfold lifted_to_bytes, compact_to_bytes, compact, compact_new. cbn [c_rx c_s]. rewrite app_length, x_len, ser_scalar_len. reflexivity. Qed.
End Helpers.

Section C11_sign_is_bip327_sign.
Context {Pr : prims}.
Add Ring ring_C11_sign_is_bip327_sign : (fe_ring_theory (n := @ord Pr)).
Lemma C11_sign_is_bip327_sign_proof {Laws : prims_ok Pr} {Tags : tags_ok Pr} (c : key_agg_ctx Pr) (sk : scalar Pr) (sn : sec_nonce Pr) (an : agg_nonce Pr) (T : pt) (msg : bytes) (Hc : ctx_reachable c) :
  (forall s, sign_partial_adaptor c sk sn an T msg = Ok s <->
     In (base_mul sk) (pubkeys c) /\ fz s = spec_psig c sk sn an T msg) /\
  (sign_partial_adaptor c sk sn an T msg = Err SE_UnknownKey <-> ~ In (base_mul sk) (pubkeys c)) /\
  sign_partial_adaptor c sk sn an T msg <> Err SE_SelfVerifyFail /\
  sign_partial_adaptor c sk sn an T msg <> Panic /\
  sign_partial c sk sn an msg = sign_partial_adaptor c sk sn an pt_O msg.
Proof.
  apply reachable_wf in Hc. unfold pubkeys.
  destruct (in_pks_dec (base_mul sk) (ordered_pubkeys c)) as [H|H].
  - rewrite sign_member by assumption. rewrite spec_psig_eq. split; [|split; [|split; [discriminate|split; [discriminate|reflexivity]]]].
    + intro s. split; [intro E; injection E as <-; auto|]. intros [_ E]. f_equal. apply fe_ext. congruence.
    + split; [discriminate|contradiction].
  - rewrite sign_nonmember by assumption. split; [|split; [|split; [discriminate|split; [discriminate|reflexivity]]]].
    + intro s. split; [discriminate|]. intros [H1 _]. contradiction.
    + split; auto.
Qed.
End C11_sign_is_bip327_sign.

Section C11_sign_reference_bytes.
Context {Pr : prims}.
Add Ring ring_C11_sign_reference_bytes : (fe_ring_theory (n := @ord Pr)).
Lemma C11_sign_reference_bytes_proof {Laws : prims_ok Pr} {Tags : tags_ok Pr} (pks : list (point Pr)) (ts : list (scalar Pr * bool)) (c0 : key_agg_ctx Pr) (c : key_agg_ctx Pr) (sk : scalar Pr) (sn : sec_nonce Pr) (an : agg_nonce Pr) (msg : bytes) (Hnew : key_agg_new pks = Ok c0) (Htw : with_tweaks c0 ts = Ok c) :
  sign (secnonce_to_bytes sn ++ ser_point (base_mul sk)) (ser_scalar sk) (ref_session an pks ts msg)
  = match sign_partial c sk sn an msg with
    | Ok s => Ret (ser_scalar s)
    | Err SE_UnknownKey => ValueError
    | _ => AssertFailed
    end.
Proof.
  exact (sign_ref pks ts c0 c an msg Hnew Htw sk sn).
Qed.
End C11_sign_reference_bytes.

Section C12_verify_is_bip327_verify.
Context {Pr : prims}.
Add Ring ring_C12_verify_is_bip327_verify : (fe_ring_theory (n := @ord Pr)).
Lemma C12_verify_is_bip327_verify_proof {Laws : prims_ok Pr} {Tags : tags_ok Pr} (c : key_agg_ctx Pr) (an : agg_nonce Pr) (T : pt) (pk : point Pr) (pn : pub_nonce Pr) (msg : bytes) (Hc : ctx_reachable c) :
  (forall s, verify_partial_adaptor c s an T pk pn msg = Ok tt <->
     In pk (pubkeys c) /\ psig_valid c an T msg pk pn s) /\
  (forall s, verify_partial_adaptor c s an T pk pn msg = Err VE_UnknownKey <-> ~ In pk (pubkeys c)) /\
  (forall s, verify_partial_adaptor c s an T pk pn msg <> Panic) /\
  (forall s, verify_partial c s an pk pn msg = verify_partial_adaptor c s an pt_O pk pn msg) /\
  (In pk (pubkeys c) -> exists s, forall s', verify_partial_adaptor c s' an T pk pn msg = Ok tt <-> s' = s).
Proof.
  split; [intro s; apply verify_spec_iff, Hc|]. split; [|split; [|split; [reflexivity|]]].
  - intro s. destruct (verify_cases c s an T pk pn msg Hc) as [[H1 [H2|H2]]|[H1 H2]]; rewrite H2.
    + split; [discriminate | contradiction].
    + split; [discriminate | contradiction].
    + tauto.
  - intro s. destruct (verify_cases c s an T pk pn msg Hc) as [[H1 [H2|H2]]|[H1 H2]]; rewrite H2; discriminate.
  - intro Hin. destruct (partial_eq_exists c an T msg pk pn) as [s Hs]. exists s. intro s'.
    rewrite verify_spec_iff by assumption. rewrite psig_valid_eq. split.
    + intros [_ H]. eapply partial_eq_unique; eassumption.
    + intros ->. auto.
Qed.
End C12_verify_is_bip327_verify.

Section C12_verify_reference_bytes.
Context {Pr : prims}.
Add Ring ring_C12_verify_reference_bytes : (fe_ring_theory (n := @ord Pr)).
Lemma C12_verify_reference_bytes_proof {Laws : prims_ok Pr} {Tags : tags_ok Pr} (pks : list (point Pr)) (ts : list (scalar Pr * bool)) (c0 : key_agg_ctx Pr) (c : key_agg_ctx Pr) (pk : point Pr) (pn : pub_nonce Pr) (an : agg_nonce Pr) (msg : bytes) (Hnew : key_agg_new pks = Ok c0) (Htw : with_tweaks c0 ts = Ok c) :
  (forall s : mscalar Pr,
   partial_sig_verify_internal (ser_scalar s) (pubnonce_to_bytes pn) (ser_point pk) (ref_session an pks ts msg)
   = match verify_partial c s an pk pn msg with
     | Ok _ => Ret true
     | Err VE_BadSignature => Ret false
     | Err VE_UnknownKey => ValueError
     | Panic => AssertFailed
     end) /\
  (forall psig : bytes, length psig = 32%nat -> parse_mscalar (Pr := Pr) psig = None ->
   partial_sig_verify_internal psig (pubnonce_to_bytes pn) (ser_point pk) (ref_session an pks ts msg) = Ret false).
Proof.
  split.
  - intro s. exact (verify_ref pks ts c0 c an msg Hnew Htw s pn pk).
  - intros psig HL H. apply parse_mscalar_None in H as [H|H]; [contradiction|].
    exact (verify_ref_range pks ts c0 c an msg Hnew Htw psig _ _ H).
Qed.
End C12_verify_reference_bytes.

Section C13_valid_partials_aggregate.
Context {Pr : prims}.
Add Ring ring_C13_valid_partials_aggregate : (fe_ring_theory (n := @ord Pr)).
Lemma C13_valid_partials_aggregate_proof {Laws : prims_ok Pr} {Tags : tags_ok Pr} (c : key_agg_ctx Pr) (pns : list (pub_nonce Pr)) (T : pt) (sigs : list (mscalar Pr)) (msg : bytes) (Hc : ctx_reachable c) (Hpn : length pns = length (pubkeys c)) (Hs : length sigs = length (pubkeys c)) (Hv : forall i pk pn s, nth_error (pubkeys c) i = Some pk -> nth_error pns i = Some pn -> nth_error sigs i = Some s -> verify_partial_adaptor c s (agg_sum pns) T pk pn msg = Ok tt) :
  (spec_R_raw c (agg_sum pns) msg <> pt_O ->
     exists sg, aggregate_partial_adaptor_signatures c (agg_sum pns) T sigs msg = Ok sg /\
       a_R sg = spec_R_raw c (agg_sum pns) msg /\ fz (a_s sg) = spec_agg_s c (agg_sum pns) T sigs msg) /\
  (spec_R_raw c (agg_sum pns) msg = pt_O ->
     aggregate_partial_adaptor_signatures c (agg_sum pns) T sigs msg = Err VE_BadSignature).
Proof.
  apply reachable_wf in Hc.
  assert (HV : forall i pk pn s, nth_error (ordered_pubkeys c) i = Some pk -> nth_error pns i = Some pn ->
     nth_error sigs i = Some s -> partial_eq c (agg_sum pns) T msg pk pn s).
  { intros i pk pn s H1 H2 H3. apply (verify_Ok_member c s (agg_sum pns) T pk pn msg Hc). eapply Hv; eassumption. }
  pose proof (aggregate_valid_iff c pns T msg sigs Hc Hpn Hs HV) as H. rewrite spec_R_raw_eq. split; intro HR.
  - apply H in HR as Hok. destruct (aggregate_partial_adaptor_signatures c (agg_sum pns) T sigs msg) as [sg| |] eqn:E;
      try discriminate. exists sg. split; [reflexivity|]. apply aggregate_Ok_iff in E as [E _]. subst sg. cbn [a_R a_s].
    rewrite spec_agg_s_eq. split; [apply sess_R_raw, HR | reflexivity].
  - rewrite aggregate_eq in *. destruct (pt_eqb _ _); [|reflexivity]. exfalso. destruct H as [H _]. apply H; [reflexivity | exact HR].
Qed.
End C13_valid_partials_aggregate.

Lemma C13_guarantee_refuted_proof :
  exists (c : key_agg_ctx Toy) (sns : list (sec_nonce Toy)) (sigs : list (mscalar Toy)) (msg : bytes),
    ctx_reachable c /\
    length sns = length (pubkeys c) /\ length sigs = length (pubkeys c) /\
    (forall i pk sn s, nth_error (pubkeys c) i = Some pk -> nth_error sns i = Some sn ->
       nth_error sigs i = Some s ->
       verify_partial c s (agg_sum (map public_nonce sns)) pk (public_nonce sn) msg = Ok tt) /\
    aggregate_partial_signatures c (agg_sum (map public_nonce sns)) sigs msg = Err VE_BadSignature.
Proof.
  exists toy_c, toy_bad_sns, (sign_all toy_c toy_bad_sns pt_O toy_msg), toy_msg.
  split; [exact toy_c_reach|]. split; [vm_compute; reflexivity|]. split; [vm_compute; reflexivity|]. split.
  - assert (HA : forallb (fun i => match nth_error (pubkeys toy_c) i, nth_error toy_bad_sns i,
         nth_error (sign_all toy_c toy_bad_sns pt_O toy_msg) i with
       | Some pk, Some sn, Some s =>
           is_ok (verify_partial toy_c s (agg_sum (map public_nonce toy_bad_sns)) pk (public_nonce sn) toy_msg)
       | _, _, _ => true end) (seq 0 3) = true) by (vm_compute; reflexivity).
    intros i pk sn s H1 H2 H3. rewrite forallb_forall in HA. specialize (HA i).
    rewrite H1, H2, H3 in HA.
    assert (Hi : In i (seq 0 3)).
    { apply in_seq. assert (nth_error toy_bad_sns i <> None) by congruence.
      apply nth_error_Some in H. cbn in H. lia. }
    specialize (HA Hi).
    destruct (verify_partial _ _ _ _ _ _) as [[]| |]; [reflexivity | discriminate | discriminate].
  - apply err_of_eq. vm_compute. reflexivity.
Qed.

Section C14_aggregate_valid.
Context {Pr : prims}.
Add Ring ring_C14_aggregate_valid : (fe_ring_theory (n := @ord Pr)).
Lemma C14_aggregate_valid_proof {Laws : prims_ok Pr} {Tags : tags_ok Pr} (c : key_agg_ctx Pr) (an : agg_nonce Pr) (sigs : list (mscalar Pr)) (msg : bytes) :
  (forall sg, aggregate_partial_signatures c an sigs msg = Ok sg ->
     verify_single_lifted (aggregated_pubkey c) sg msg = Ok tt /\
     verify_single_bytes (aggregated_pubkey c) (lifted_to_bytes sg) msg = Ok tt /\
     schnorr_verify msg (xbytes (aggregated_pubkey c)) (lifted_to_bytes sg) = Ret true /\
     pt_odd (l_R sg) = false /\ fz (l_s sg) = spec_agg_s c an pt_O sigs msg) /\
  aggregate_partial_signatures c an sigs msg <> Panic /\
  (forall sigs', Permutation sigs sigs' ->
     aggregate_partial_signatures c an sigs' msg = aggregate_partial_signatures c an sigs msg).
Proof.
  split; [|split].
  - intros sg H. destruct (aggregate_plain_verifies c an sigs msg sg H) as [H1 H2]. split; [exact H1|].
    assert (HB : verify_single_bytes (aggregated_pubkey c) (lifted_to_bytes sg) msg = Ok tt).
    { unfold verify_single_bytes. rewrite compact_of_lifted_bytes. cbn [map_err bind]. exact H1. }
    split; [exact HB|]. split.
    { unfold xbytes. rewrite schnorr_verify_ref, HB.
      replace (length (lifted_to_bytes sg)) with 64%nat; [reflexivity|]. symmetry. apply lifted_len. }
    split; [exact H2|]. rewrite spec_agg_s_eq. unfold aggregate_partial_signatures in H.
    destruct (aggregate_partial_adaptor_signatures c an pt_O sigs msg) as [a| |] eqn:E; cbn [bind] in H; try discriminate.
    rewrite (aggregate_adapt_zero c an pt_O sigs msg a E) in H. cbn [unwrap] in H. injection H as <-.
    apply aggregate_Ok_iff in E as [E _]. subst a. reflexivity.
  - apply aggregate_plain_no_panic.
  - intros sigs' HP. unfold aggregate_partial_signatures, aggregate_partial_adaptor_signatures.
    rewrite (fsum_perm _ _ HP). reflexivity.
Qed.
End C14_aggregate_valid.

Section C14_aggregate_reference_bytes.
Context {Pr : prims}.
Add Ring ring_C14_aggregate_reference_bytes : (fe_ring_theory (n := @ord Pr)).
Lemma C14_aggregate_reference_bytes_proof {Laws : prims_ok Pr} {Tags : tags_ok Pr} (pks : list (point Pr)) (ts : list (scalar Pr * bool)) (c0 : key_agg_ctx Pr) (c : key_agg_ctx Pr) (an : agg_nonce Pr) (sigs : list (mscalar Pr)) (msg : bytes) (Hnew : key_agg_new pks = Ok c0) (Htw : with_tweaks c0 ts = Ok c) :
  exists out, partial_sig_agg (map ser_scalar sigs) (ref_session an pks ts msg) = Ret out /\
    (schnorr_verify msg (xbytes (aggregated_pubkey c)) out = Ret true ->
       exists sg, aggregate_partial_signatures c an sigs msg = Ok sg /\ lifted_to_bytes sg = out) /\
    (schnorr_verify msg (xbytes (aggregated_pubkey c)) out <> Ret true ->
       aggregate_partial_signatures c an sigs msg = Err VE_BadSignature).
Proof.
  exists (pt_x (sess_R c an msg) ++ ser_scalar (agg_s c an pt_O sigs msg)).
  split; [exact (partial_sig_agg_eq pks ts c0 c an msg Hnew Htw sigs)|].
  set (out := _ ++ _).
  assert (HL : length out = 64%nat) by (unfold out; rewrite app_length, x_len, ser_scalar_len; reflexivity).
  unfold xbytes. rewrite schnorr_verify_ref, HL. cbn [Nat.eqb].
  assert (Hiff : is_ok (verify_single_bytes (aggregated_pubkey c) out msg) = true <->
                 exists sg, aggregate_partial_signatures c an sigs msg = Ok sg /\ lifted_to_bytes sg = out).
  { split.
    - intro HB.
      assert (HB' : verify_single (aggregated_pubkey c) (compact_new (sess_R c an msg) (agg_s c an pt_O sigs msg)) msg = Ok tt).
      { destruct (verify_single_cases (aggregated_pubkey c) (compact_new (sess_R c an msg) (agg_s c an pt_O sigs msg)) msg) as [H|H]; [exact H|].
        exfalso. unfold verify_single_bytes in HB. unfold out in HB. rewrite compact_from_parts in HB by apply x_len. cbn [map_err bind] in HB.
        unfold compact_new in H. rewrite H in HB. discriminate. }
      apply verify_single_iff in HB' as (R & HR1 & HR2 & HR3). cbn [c_rx c_s compact_new] in HR2, HR3.
      assert (HRe : pval R = to_even_y (sess_R c an msg)).
      { destruct (x_inj R (sess_R c an msg) (point_fin R) (point_fin _) HR2) as [E|E].
        - rewrite E in *. symmetry. apply to_even_y_even. exact HR1.
        - rewrite E. rewrite E, odd_neg in HR1 by apply point_fin. unfold to_even_y.
          destruct (pt_odd (sess_R c an msg)); [reflexivity | discriminate]. }
      assert (HA : sess_A c an pt_O msg = sess_R c an msg :> pt) by apply add_O_r.
      assert (E : aggregate_partial_adaptor_signatures c an pt_O sigs msg
         = Ok {| a_R := sess_R c an msg; a_s := agg_s c an pt_O sigs msg |}).
      { apply aggregate_Ok_iff. split; [reflexivity|]. rewrite HR3, HRe, HA. unfold sess_e. rewrite HA. reflexivity. }
      exists (lifted_new (sess_R c an msg) (agg_s c an pt_O sigs msg)).
      unfold aggregate_partial_signatures. rewrite E. cbn [bind].
      rewrite (aggregate_adapt_zero c an pt_O sigs msg _ E). split; [reflexivity|].
      unfold lifted_to_bytes, lifted_new, compact, compact_new, compact_to_bytes, out. cbn [l_R l_s a_s c_rx c_s]. rewrite even_point_val, to_even_y_x. reflexivity.
    - intros (sg & H1 & H2). destruct (aggregate_plain_verifies c an sigs msg sg H1) as [H3 _].
      rewrite <- H2. unfold verify_single_bytes. rewrite compact_of_lifted_bytes. cbn [map_err bind].
      unfold verify_single_lifted in H3. unfold aggregated_pubkey. rewrite H3. reflexivity. }
  split.
  - intro H. apply Hiff. injection H as H. exact H.
  - intro H. destruct (aggregate_partial_signatures c an sigs msg) as [sg| |] eqn:E.
    + exfalso. apply H. f_equal. apply Hiff. exists sg. split; [reflexivity|].
      pose proof (aggregate_ref pks ts c0 c an msg Hnew Htw sigs sg E) as HR.
      rewrite (partial_sig_agg_eq pks ts c0 c an msg Hnew Htw sigs) in HR. injection HR as HR. symmetry. exact HR.
    + destruct e; [|reflexivity]. exfalso. unfold aggregate_partial_signatures in E. rewrite aggregate_eq in E.
      destruct (pt_eqb _ _); cbn [bind] in E; [destruct (adapt _ _)|]; discriminate.
    + destruct (aggregate_plain_no_panic c an sigs msg E).
Qed.
End C14_aggregate_reference_bytes.

Section C15_adaptor_aggregate_valid.
Context {Pr : prims}.
Add Ring ring_C15_adaptor_aggregate_valid : (fe_ring_theory (n := @ord Pr)).
Lemma C15_adaptor_aggregate_valid_proof {Laws : prims_ok Pr} {Tags : tags_ok Pr} (c : key_agg_ctx Pr) (an : agg_nonce Pr) (t : mscalar Pr) (sigs : list (mscalar Pr)) (msg : bytes) (sg : adaptor_sig Pr) (Hagg : aggregate_partial_adaptor_signatures c an (gmul t) sigs msg = Ok sg) :
  presig_valid (aggregated_pubkey c) msg (gmul t) (a_R sg) (a_s sg) /\
  verify_single_adaptor (aggregated_pubkey c) sg msg (gmul t) = Ok tt /\
  (forall l, adapt sg t = Some l ->
     verify_single_lifted (aggregated_pubkey c) l msg = Ok tt /\
     schnorr_verify msg (xbytes (aggregated_pubkey c)) (lifted_to_bytes l) = Ret true) /\
  (adapt sg t = None <-> pt_add (a_R sg) (gmul t) = pt_O).
Proof.
  pose proof (aggregate_verifies c an (gmul t) sigs msg sg Hagg) as HV.
  split; [apply presig_valid_eq, verify_adaptor_iff, HV|]. split; [exact HV|]. split.
  - intros l Hl. pose proof (verified_adapt _ _ _ _ _ HV Hl) as HL. split; [exact HL|].
    unfold xbytes. rewrite schnorr_verify_ref. unfold verify_single_bytes. rewrite compact_of_lifted_bytes. cbn [map_err bind].
    unfold verify_single_lifted in HL. unfold aggregated_pubkey. rewrite HL.
    replace (length (lifted_to_bytes l)) with 64%nat; [reflexivity|]. symmetry. apply lifted_len.
  - apply adapt_None.
Qed.
End C15_adaptor_aggregate_valid.

Section C46_nonce_reuse_two_sessions.
Context {Pr : prims}.
Add Ring ring_C46_nonce_reuse_two_sessions : (fe_ring_theory (n := @ord Pr)).
Lemma C46_nonce_reuse_two_sessions_proof {Laws : prims_ok Pr} {Tags : tags_ok Pr} (c : key_agg_ctx Pr) (sk : scalar Pr) (sn : sec_nonce Pr) (an : agg_nonce Pr) (T1 : pt) (T2 : pt) (msg : bytes) (s1 : mscalar Pr) (s2 : mscalar Pr) (Hc : ctx_reachable c) (H1 : sign_partial_adaptor c sk sn an T1 msg = Ok s1) (H2 : sign_partial_adaptor c sk sn an T2 msg = Ok s2) :
  let v1 := spec_values c an T1 msg in
  let v2 := spec_values c an T2 msg in
  let sigma1 := if has_even_y (pt_add (v_R v1) T1) then 1 else -1 in
  let sigma2 := if has_even_y (pt_add (v_R v2) T2) then 1 else -1 in
  let D := (sigma1 * v_e v1 - sigma2 * v_e v2) * spec_a c (base_mul sk) * (spec_g v1 * v_gacc v1) in
  (D * fz sk) mod n_ = (sigma1 * fz s1 - sigma2 * fz s2) mod n_ /\
  (D mod n_ <> 0 -> forall x : scalar Pr,
     (D * fz x) mod n_ = (sigma1 * fz s1 - sigma2 * fz s2) mod n_ -> x = sk).
Proof.
  cbv zeta. apply reachable_wf in Hc.
  assert (Hin : In (base_mul sk) (ordered_pubkeys c)).
  { destruct (in_pks_dec (base_mul sk) (ordered_pubkeys c)) as [H|H]; [assumption|].
    rewrite sign_nonmember in H1 by assumption. discriminate. }
  rewrite sign_member in H1, H2 by assumption. apply Ok_inj in H1, H2. subst s1 s2.
  rewrite !spec_g_eq, !spec_values_eq, !spec_a_eq. cbn [v_e v_R v_gacc].
  fold (sess_A c an T1 msg) (sess_A c an T2 msg). rewrite !even_if, !mod_n.
  assert (HS : forall (o : bool) z, of_Z ord ((if o then -1 else 1) * z) = fneg_if o (of_Z ord z) :> mscalar Pr).
  { intros o z. destruct o; cbn [fneg_if]; [|rewrite Z.mul_1_l; reflexivity]. rewrite <- of_Z_opp. replace (-1 * z) with (- z) by lia. reflexivity. }
  set (D := _ * (gacc_of _ * gacc_of _)).
  assert (HD : of_Z ord D = fmul (fmul (fsub (fneg_if (pt_odd (sess_A c an T1 msg)) (sess_e c an T1 msg))
       (fneg_if (pt_odd (sess_A c an T2 msg)) (sess_e c an T2 msg))) (coeff_of (ordered_pubkeys c) (base_mul sk)))
       (fneg_if (sess_par c) fone) :> mscalar Pr).
  { unfold D. rewrite !of_Z_mul, of_Z_sub, !HS, !of_Z_fz, !of_Z_gacc. unfold sess_par.
    destruct (pt_odd (pubkey c)), (parity_acc c); cbn [xorb fneg_if]; ring. }
  assert (HE : of_Z ord (D * fz sk) = of_Z ord ((if pt_odd (sess_A c an T1 msg) then -1 else 1) * fz (psig_value c sk sn an T1 msg)
     - (if pt_odd (sess_A c an T2 msg) then -1 else 1) * fz (psig_value c sk sn an T2 msg)) :> mscalar Pr).
  { rewrite of_Z_mul, of_Z_sub, !HS, !of_Z_fz, HD. unfold psig_value.
    destruct (pt_odd (sess_A c an T1 msg)), (pt_odd (sess_A c an T2 msg)), (sess_par c); cbn [fneg_if]; ring. }
  split; [rewrite HE; reflexivity|]. intros Hnz x Hx. rewrite <- HE in Hx.
  rewrite ?mod_n in Hx. apply fe_ext in Hx. rewrite !of_Z_mul, !of_Z_fz in Hx. apply scalar_ext.
  apply fmul_cancel_l in Hx; [exact Hx | apply ord_prime |].
  intro E. apply Hnz. rewrite ?mod_n, E. reflexivity.
Qed.
End C46_nonce_reuse_two_sessions.

Section C46_nonce_reuse_three_sessions.
Context {Pr : prims}.
Add Ring ring_C46_nonce_reuse_three_sessions : (fe_ring_theory (n := @ord Pr)).
Lemma C46_nonce_reuse_three_sessions_proof {Laws : prims_ok Pr} {Tags : tags_ok Pr} (c : key_agg_ctx Pr) (sk : scalar Pr) (sn : sec_nonce Pr) (an : nat -> agg_nonce Pr) (T : nat -> pt) (msg : nat -> bytes) (s : nat -> mscalar Pr) (Hc : ctx_reachable c) (H : forall i, (i < 3)%nat -> sign_partial_adaptor c sk sn (an i) (T i) (msg i) = Ok (s i)) :
  let v := fun i => spec_values c (an i) (T i) (msg i) in
  let sigma := fun i => if has_even_y (pt_add (v_R (v i)) (T i)) then 1 else -1 in
  let b := fun i => sigma i * v_b (v i) in
  let w := fun i => v_e (v i) * spec_a c (base_mul sk) * (spec_g (v i) * v_gacc (v i)) in
  let det := fun col : nat -> Z =>
       sigma 0%nat * (b 1%nat * col 2%nat - b 2%nat * col 1%nat)
     - sigma 1%nat * (b 0%nat * col 2%nat - b 2%nat * col 0%nat)
     + sigma 2%nat * (b 0%nat * col 1%nat - b 1%nat * col 0%nat) in
  (det w * fz sk) mod n_ = det (fun i => fz (s i)) mod n_ /\
  (det w mod n_ <> 0 -> forall x : scalar Pr, (det w * fz x) mod n_ = det (fun i => fz (s i)) mod n_ -> x = sk).
Proof.
  cbv beta zeta. apply reachable_wf in Hc.
  assert (Hin : In (base_mul sk) (ordered_pubkeys c)).
  { destruct (in_pks_dec (base_mul sk) (ordered_pubkeys c)) as [Hi|Hi]; [assumption|].
    specialize (H 0%nat ltac:(lia)). rewrite sign_nonmember in H by assumption. discriminate. }
  assert (Hs : forall i, (i < 3)%nat -> s i = psig_value c sk sn (an i) (T i) (msg i)).
  { intros i Hi. specialize (H i Hi). rewrite sign_member in H by assumption. apply Ok_inj in H. congruence. }
  rewrite !Hs by lia. rewrite !spec_g_eq, !spec_values_eq, !spec_a_eq. cbn [v_e v_R v_b v_gacc].
  fold (sess_A c (an 0%nat) (T 0%nat) (msg 0%nat)) (sess_A c (an 1%nat) (T 1%nat) (msg 1%nat)) (sess_A c (an 2%nat) (T 2%nat) (msg 2%nat)).
  rewrite !even_if, !mod_n.
  set (o0 := pt_odd (sess_A c (an 0%nat) _ _)). set (o1 := pt_odd (sess_A c (an 1%nat) _ _)). set (o2 := pt_odd (sess_A c (an 2%nat) _ _)).
  set (e0 := sess_e c (an 0%nat) _ _). set (e1 := sess_e c (an 1%nat) _ _). set (e2 := sess_e c (an 2%nat) _ _).
  set (b0 := sess_b c (an 0%nat) _). set (b1 := sess_b c (an 1%nat) _). set (b2 := sess_b c (an 2%nat) _).
  set (a := coeff_of _ _).
  set (D := _ + _).
  match goal with |- context[_ = fz (of_Z ord ?X) /\ _] => set (N := X) end.
  assert (HS : forall (o : bool) z, of_Z ord ((if o then -1 else 1) * z) = fneg_if o (of_Z ord z) :> mscalar Pr).
  { intros o z. destruct o; cbn [fneg_if]; [|rewrite Z.mul_1_l; reflexivity]. rewrite <- of_Z_opp. replace (-1 * z) with (- z) by lia. reflexivity. }
  assert (HE : of_Z ord (D * fz sk) = of_Z ord N :> mscalar Pr).
  { unfold D, N. rewrite of_Z_mul, !of_Z_add, !of_Z_sub, !HS, !of_Z_sub, !of_Z_mul.
    assert (HS1 : forall o : bool, of_Z ord (if o then -1 else 1) = fneg_if o fone :> mscalar Pr).
    { intro o. rewrite <- (Z.mul_1_r (if o then -1 else 1)), HS. reflexivity. }
    rewrite !HS1, !of_Z_gacc, !of_Z_fz. unfold psig_value, sess_par.
    fold o0 o1 o2 e0 e1 e2 b0 b1 b2 a.
    generalize (sval (k1 sn)) (sval (k2 sn)) (sval sk). clear. intros x y d.
    destruct o0, o1, o2, (pt_odd (pubkey c)), (parity_acc c); cbn [xorb fneg_if]; ring. }
  split; [rewrite HE; reflexivity|]. intros Hnz x Hx. rewrite <- HE in Hx.
  rewrite ?mod_n in Hx. apply fe_ext in Hx. rewrite !(of_Z_mul _ (fz _)), !of_Z_fz in Hx. apply scalar_ext.
  apply fmul_cancel_l in Hx; [exact Hx | apply ord_prime |].
  intro E. apply Hnz. rewrite ?mod_n, E. reflexivity.
Qed.
End C46_nonce_reuse_three_sessions.

Section C47_pipeline_reference.
Context {Pr : prims}.
Add Ring ring_C47_pipeline_reference : (fe_ring_theory (n := @ord Pr)).
Lemma C47_pipeline_reference_proof {Laws : prims_ok Pr} {Tags : tags_ok Pr} (pks : list (point Pr)) (ts : list (scalar Pr * bool)) (c0 : key_agg_ctx Pr) (c : key_agg_ctx Pr) (pns : list (pub_nonce Pr)) (msg : bytes) (Hnew : key_agg_new pks = Ok c0) (Htw : with_tweaks c0 ts = Ok c) (Hlen : length pns = length pks) :
  let tw := map (fun tx : scalar Pr * bool => ser_scalar (fst tx)) ts in
  let xo := map snd ts in
  let an := agg_sum pns in
  let sc := SessionContext (aggnonce_to_bytes an) (map ser_point pks) tw xo msg in
  key_agg_and_tweak (map ser_point pks) tw xo = Ret (ref_ctx c) /\
  nonce_agg (map pubnonce_to_bytes pns) = Ret (aggnonce_to_bytes an) /\
  (forall sk sn, In (base_mul sk) pks ->
     exists s, sign_partial c sk sn an msg = Ok s /\
       sign (secnonce_to_bytes sn ++ ser_point (base_mul sk)) (ser_scalar sk) sc = Ret (ser_scalar s)) /\
  (forall i pk pn s, nth_error pks i = Some pk -> nth_error pns i = Some pn ->
     partial_sig_verify (ser_scalar s) (map pubnonce_to_bytes pns) (map ser_point pks) tw xo msg i
     = Ret (is_ok (verify_partial c s an pk pn msg))) /\
  (forall sigs sg, aggregate_partial_signatures c an sigs msg = Ok sg ->
     partial_sig_agg (map ser_scalar sigs) sc = Ret (lifted_to_bytes sg)).
Proof.
  cbv zeta. destruct (sess_wf pks ts c0 c Hnew Htw) as [Hwf Hpks].
  split; [|split; [|split; [|split]]].
  - rewrite (key_agg_and_tweak_eq pks c0 ts Hnew), Htw. reflexivity.
  - apply nonce_agg_eq.
  - intros sk sn Hin. exists (psig_value c sk sn (agg_sum pns) pt_O msg).
    assert (Hs : sign_partial c sk sn (agg_sum pns) msg = Ok (psig_value c sk sn (agg_sum pns) pt_O msg)).
    { apply sign_member; [assumption|]. rewrite Hpks. assumption. }
    split; [exact Hs|].
    pose proof (sign_ref pks ts c0 c (agg_sum pns) msg Hnew Htw sk sn) as HR. rewrite Hs in HR. exact HR.
  - intros i pk pn s Hi Hj. unfold partial_sig_verify. rewrite !map_length, Hlen, !Nat.eqb_refl. cbn [py_check].
    rewrite nonce_agg_eq. cbn [py_bind].
    rewrite (map_nth_error _ _ _ Hi), (map_nth_error _ _ _ Hj).
    pose proof (verify_ref pks ts c0 c (agg_sum pns) msg Hnew Htw s pn pk) as HR. unfold ref_session in HR. rewrite HR.
    assert (Hin : In pk (ordered_pubkeys c)) by (rewrite Hpks; eapply nth_error_In; eassumption).
    unfold verify_partial. rewrite verify_member by assumption. destruct (pt_eqb _ _); reflexivity.
  - intros sigs sg H. exact (aggregate_ref pks ts c0 c (agg_sum pns) msg Hnew Htw sigs sg H).
Qed.
End C47_pipeline_reference.

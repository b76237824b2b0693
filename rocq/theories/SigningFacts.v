(** Algebra of partial signing, aggregation, adaptation and verification. *)
From Verif Require Import Bytes BytesFacts Prims PrimsFacts CodecFacts TaggedHashes Errors KeyAgg
  SpecCtx KeyAggFacts Nonces Signature Signing SigAgg Bip340.
Open Scope Z_scope.

Section SigningFacts.
Context {Pr : prims} {Ok_ : prims_ok Pr}.
Add Ring fring : (fe_ring_theory (n := @ord Pr)).

(** Push a point equation over multiples of G to scalars. *)
Ltac to_g := unfold psub; repeat first
  [ rewrite <- gmul_add | rewrite <- gmul_neg | rewrite <- gmul_mul | rewrite pneg_if_gmul ].

Lemma ok_tt {E} (b : bool) (e : E) : (if negb b then Err e else Ok tt) = Ok tt <-> b = true.
Proof. destruct b; cbn; split; congruence. Qed.

Lemma pneg_if_swap c d (P : pt) : pneg_if c (pneg_if d P) = pneg_if d (pneg_if c P).
Proof. destruct c, d; cbn; reflexivity. Qed.
Lemma pneg_if_inj c (P Q : pt) : pneg_if c P = pneg_if c Q -> P = Q.
Proof. destruct c; cbn; [apply neg_inj | auto]. Qed.
Lemma if_neg_pneg (c : bool) (P : pt) : (if c then pt_neg P else P) = pneg_if c P.
Proof. reflexivity. Qed.
Lemma if_even_pneg (c : bool) (P : pt) : (if negb c then P else pt_neg P) = pneg_if c P.
Proof. destruct c; reflexivity. Qed.
Lemma add_cancel_r P Q R : pt_add P R = pt_add Q R -> P = Q.
Proof. rewrite !(add_comm _ R). apply add_cancel_l. Qed.
Lemma pneg_if_neg c (P : pt) : pneg_if c (pt_neg P) = pt_neg (pneg_if c P).
Proof. destruct c; reflexivity. Qed.
Lemma even_pneg (P : point Pr) : pval (even_point P) = pneg_if (pt_odd P) P.
Proof. apply even_point_val. Qed.

(** *** Session values *)

(** The nonce coefficient of a session (src/signing.rs:70). *)
Definition sess_b (c : key_agg_ctx Pr) an msg := nonce_coefficient an (pubkey c) msg.
(** R1 + b*R2, possibly infinity. *)
Definition raw_nonce (c : key_agg_ctx Pr) (an : agg_nonce Pr) msg : pt :=
  pt_add (aR1 an) (pmul (sess_b c an msg) (aR2 an)).
(** Its final nonce (src/signing.rs:71). *)
Definition sess_R (c : key_agg_ctx Pr) an msg : point Pr := final_nonce an (sess_b c an msg).
(** The adapted nonce R + T (src/signing.rs:72). *)
Definition sess_A (c : key_agg_ctx Pr) an T msg : pt := pt_add (sess_R c an msg) T.
(** Its challenge (src/signing.rs:78-79). *)
Definition sess_e (c : key_agg_ctx Pr) an T msg : mscalar Pr :=
  compute_challenge_hash_tweak (pt_x (sess_A c an T msg)) (pubkey c) msg.
(** Whether signing negates the secret key (src/signing.rs:76). *)
Definition sess_par (c : key_agg_ctx Pr) : bool := xorb (pt_odd (pubkey c)) (parity_acc c).

Lemma sess_R_raw c an msg : raw_nonce c an msg <> pt_O -> pval (sess_R c an msg) = raw_nonce c an msg.
Proof.
  intro H. unfold sess_R, final_nonce. fold (raw_nonce c an msg).
  destruct (not_inf_fin _ H) as [Q [E1 E2]]. rewrite E1. exact E2.
Qed.
Lemma sess_R_inf c an msg : raw_nonce c an msg = pt_O -> sess_R c an msg = gen_point.
Proof.
  intro H. unfold sess_R, final_nonce. fold (raw_nonce c an msg).
  rewrite (proj2 (not_inf_None _) H). reflexivity.
Qed.
Lemma sess_R_iff c an msg : pval (sess_R c an msg) = raw_nonce c an msg <-> raw_nonce c an msg <> pt_O.
Proof.
  split; [|apply sess_R_raw]. intros H E. rewrite (sess_R_inf _ _ _ E) in H.
  cbn [gen_point pval] in H. apply G_nz. congruence.
Qed.

(** *** Partial verification *)

(** The equation a partial signature must satisfy. *)
Definition partial_eq (c : key_agg_ctx Pr) an T msg (pk : point Pr) (pn : pub_nonce Pr) (s : mscalar Pr) : Prop :=
  gmul s = pt_add
    (pneg_if (pt_odd (sess_A c an T msg)) (pt_add (pR1 pn) (pmul (sess_b c an msg) (pR2 pn))))
    (pneg_if (sess_par c) (pmul (sess_e c an T msg) (pmul (coeff_of (ordered_pubkeys c) pk) pk))).

Lemma verify_member c s an T pk pn msg : ctx_wf c -> In pk (ordered_pubkeys c) ->
  verify_partial_adaptor c s an T pk pn msg =
  if pt_eqb (gmul s) (pt_add
    (pneg_if (pt_odd (sess_A c an T msg)) (pt_add (pR1 pn) (pmul (sess_b c an msg) (pR2 pn))))
    (pneg_if (sess_par c) (pmul (sess_e c an T msg) (pmul (coeff_of (ordered_pubkeys c) pk) pk))))
  then Ok tt else Err VE_BadSignature.
Proof.
  intros Hwf Hin. unfold verify_partial_adaptor. rewrite effective_pubkey_in by assumption.
  cbn [lookup_or bind].
  change (final_nonce an (nonce_coefficient an (pubkey c) msg)) with (sess_R c an msg).
  change (nonce_coefficient an (pubkey c) msg) with (sess_b c an msg).
  change (pt_add (sess_R c an msg) T) with (sess_A c an T msg).
  rewrite if_neg_pneg.
  change (compute_challenge_hash_tweak (pt_x (sess_A c an T msg)) (pubkey c) msg) with (sess_e c an T msg).
  change (xorb (pt_odd (pubkey c)) (parity_acc c)) with (sess_par c).
  destruct (pt_eqb _ _); reflexivity.
Qed.

Lemma verify_member_iff c s an T pk pn msg : ctx_wf c -> In pk (ordered_pubkeys c) ->
  (verify_partial_adaptor c s an T pk pn msg = Ok tt <-> partial_eq c an T msg pk pn s).
Proof.
  intros Hwf Hin. rewrite verify_member by assumption. unfold partial_eq.
  destruct (pt_eqb _ _) eqn:E.
  - apply pt_eqb_eq in E. tauto.
  - apply pt_eqb_neq in E. split; [discriminate | contradiction].
Qed.

Lemma verify_nonmember c s an T pk pn msg : ctx_wf c -> ~ In pk (ordered_pubkeys c) ->
  verify_partial_adaptor c s an T pk pn msg = Err VE_UnknownKey.
Proof.
  intros Hwf Hin. unfold verify_partial_adaptor. rewrite effective_pubkey_out by assumption. reflexivity.
Qed.

Lemma verify_Ok_member c s an T pk pn msg : ctx_wf c ->
  verify_partial_adaptor c s an T pk pn msg = Ok tt ->
  In pk (ordered_pubkeys c) /\ partial_eq c an T msg pk pn s.
Proof.
  intros Hwf H. destruct (in_pks_dec pk (ordered_pubkeys c)) as [Hin|Hin].
  - split; [assumption|]. apply verify_member_iff in H; assumption.
  - rewrite verify_nonmember in H by assumption. discriminate.
Qed.

(** Exactly one scalar satisfies the equation. *)
Lemma partial_eq_unique c an T msg pk pn s s' :
  partial_eq c an T msg pk pn s -> partial_eq c an T msg pk pn s' -> s = s'.
Proof. unfold partial_eq. intros H H'. apply gmul_inj. congruence. Qed.
Lemma partial_eq_exists c an T msg pk pn : exists s, partial_eq c an T msg pk pn s.
Proof. unfold partial_eq. destruct (dlog (pt_add (pneg_if (pt_odd (sess_A c an T msg))
   (pt_add (pR1 pn) (pmul (sess_b c an msg) (pR2 pn))))
    (pneg_if (sess_par c) (pmul (sess_e c an T msg) (pmul (coeff_of (ordered_pubkeys c) pk) pk))))) as [s Hs].
  exists s. congruence. Qed.

(** *** Partial signing *)

(** The partial signature as a formula (src/signing.rs:86-89). *)
Definition psig_value (c : key_agg_ctx Pr) (sk : scalar Pr) (sn : sec_nonce Pr) an T msg : mscalar Pr :=
  fadd (fneg_if (pt_odd (sess_A c an T msg)) (fadd (k1 sn) (fmul (sess_b c an msg) (k2 sn))))
       (fmul (fmul (sess_e c an T msg) (coeff_of (ordered_pubkeys c) (base_mul sk)))
             (fneg_if (sess_par c) sk)).

Lemma psig_value_eq c sk sn an T msg :
  partial_eq c an T msg (base_mul sk) (public_nonce sn) (psig_value c sk sn an T msg).
Proof.
  unfold partial_eq, psig_value, public_nonce. cbn [pR1 pR2]. rewrite !base_mul_val.
  to_g. f_equal. destruct (pt_odd _), (sess_par c); cbn [fneg_if]; ring.
Qed.

Lemma sign_member c sk sn an T msg : ctx_wf c -> In (base_mul sk) (ordered_pubkeys c) ->
  sign_partial_adaptor c sk sn an T msg = Ok (psig_value c sk sn an T msg).
Proof.
  intros Hwf Hin. unfold sign_partial_adaptor. rewrite key_coefficient_in by assumption.
  cbn [lookup_or bind].
  change (final_nonce an (nonce_coefficient an (pubkey c) msg)) with (sess_R c an msg).
  change (nonce_coefficient an (pubkey c) msg) with (sess_b c an msg).
  change (pt_add (sess_R c an msg) T) with (sess_A c an T msg).
  change (compute_challenge_hash_tweak (pt_x (sess_A c an T msg)) (pubkey c) msg) with (sess_e c an T msg).
  change (xorb (pt_odd (pubkey c)) (parity_acc c)) with (sess_par c).
  fold (psig_value c sk sn an T msg).
  rewrite (proj2 (verify_member_iff c _ an T _ _ msg Hwf Hin) (psig_value_eq c sk sn an T msg)).
  reflexivity.
Qed.

Lemma sign_nonmember c sk sn an T msg : ctx_wf c -> ~ In (base_mul sk) (ordered_pubkeys c) ->
  sign_partial_adaptor c sk sn an T msg = Err SE_UnknownKey.
Proof.
  intros Hwf Hin. unfold sign_partial_adaptor. rewrite key_coefficient_out by assumption. reflexivity.
Qed.

(** *** Aggregation *)

Lemma Forall3_partial_sum c an T msg pks pns sigs :
  length pns = length pks -> length sigs = length pks ->
  (forall i pk pn s, nth_error pks i = Some pk -> nth_error pns i = Some pn -> nth_error sigs i = Some s ->
     partial_eq c an T msg pk pn s) ->
  gmul (fsum sigs) =
  pt_add
    (pneg_if (pt_odd (sess_A c an T msg))
       (pt_add (psum (map (fun n => pval (pR1 n)) pns))
               (pmul (sess_b c an msg) (psum (map (fun n => pval (pR2 n)) pns)))))
    (pneg_if (sess_par c) (pmul (sess_e c an T msg)
       (psum (map (fun pk => pmul (coeff_of (ordered_pubkeys c) pk) (pval pk)) pks)))).
Proof.
  revert pns sigs. induction pks as [|pk pks IH]; intros [|pn pns] [|s sigs] Hl1 Hl2 H;
    cbn [length] in *; try discriminate.
  - cbn [map]. rewrite fsum_nil, !psum_nil, !pmul_O, add_O_l, !pneg_if_O, add_O_l. apply gmul_0.
  - cbn [map]. rewrite fsum_cons, !psum_cons, gmul_add.
    rewrite (IH pns sigs) by (try lia; intros i pk' pn' s' H1 H2 H3;
      apply (H (S i)); assumption).
    pose proof (H 0%nat pk pn s eq_refl eq_refl eq_refl) as H0. unfold partial_eq in H0. rewrite H0.
    rewrite !pmul_add_r, !pneg_if_add, !add_assoc.
    (* reorder *)
    generalize (pneg_if (pt_odd (sess_A c an T msg)) (pR1 pn))
               (pneg_if (pt_odd (sess_A c an T msg)) (pmul (sess_b c an msg) (pR2 pn))).
    intros A B. rewrite <- !add_assoc. 
    assert (Hc : forall A B C D E F : pt,
      pt_add (pt_add (pt_add (pt_add (pt_add A B) C) D) E) F = pt_add (pt_add (pt_add (pt_add (pt_add A D) B) E) C) F).
    { clear -Ok_. intros A B C D E F.
      destruct (dlog A) as [? ->], (dlog B) as [? ->], (dlog C) as [? ->], (dlog D) as [? ->],
        (dlog E) as [? ->], (dlog F) as [? ->]. to_g. f_equal. ring. }
    apply Hc.
Qed.

(** The value computed by aggregation. *)
Definition agg_s (c : key_agg_ctx Pr) an T sigs msg : mscalar Pr :=
  fadd (fsum sigs) (fneg_if (pt_odd (pubkey c)) (fmul (sess_e c an T msg) (tweak_acc c))).

Lemma aggregate_eq c an T sigs msg :
  aggregate_partial_adaptor_signatures c an T sigs msg =
  if pt_eqb (gmul (agg_s c an T sigs msg))
            (pt_add (pneg_if (pt_odd (sess_A c an T msg)) (sess_R c an msg))
                    (pmul (sess_e c an T msg) (even_point (pubkey c))))
  then Ok {| a_R := sess_R c an msg; a_s := agg_s c an T sigs msg |}
  else Err VE_BadSignature.
Proof.
  unfold aggregate_partial_adaptor_signatures.
  change (final_nonce an (nonce_coefficient an (pubkey c) msg)) with (sess_R c an msg).
  change (pt_add (sess_R c an msg) T) with (sess_A c an T msg).
  change (compute_challenge_hash_tweak (pt_x (sess_A c an T msg)) (pubkey c) msg) with (sess_e c an T msg).
  fold (agg_s c an T sigs msg).
  replace (pval (if negb (pt_odd (sess_A c an T msg)) then sess_R c an msg else neg_point (sess_R c an msg)))
    with (pneg_if (pt_odd (sess_A c an T msg)) (sess_R c an msg))
    by (destruct (pt_odd (sess_A c an T msg)); cbn [negb pneg_if]; [rewrite neg_point_val|]; reflexivity).
  destruct (pt_eqb _ _); reflexivity.
Qed.

Lemma aggregate_Ok_iff c an T sigs msg sg :
  aggregate_partial_adaptor_signatures c an T sigs msg = Ok sg <->
  sg = {| a_R := sess_R c an msg; a_s := agg_s c an T sigs msg |} /\
  gmul (agg_s c an T sigs msg)
  = pt_add (pneg_if (pt_odd (sess_A c an T msg)) (sess_R c an msg))
           (pmul (sess_e c an T msg) (even_point (pubkey c))).
Proof.
  rewrite aggregate_eq. destruct (pt_eqb _ _) eqn:E.
  - apply pt_eqb_eq in E. split; [intro H; injection H as <-; auto | intros [-> _]; reflexivity].
  - apply pt_eqb_neq in E. split; [discriminate | intros [_ H]; contradiction].
Qed.

(** Valid partial signatures for every signer: the raw equation. *)
Lemma valid_sum c pns T msg sigs : ctx_wf c ->
  length pns = length (ordered_pubkeys c) -> length sigs = length (ordered_pubkeys c) ->
  (forall i pk pn s, nth_error (ordered_pubkeys c) i = Some pk -> nth_error pns i = Some pn ->
     nth_error sigs i = Some s -> partial_eq c (agg_sum pns) T msg pk pn s) ->
  gmul (agg_s c (agg_sum pns) T sigs msg)
  = pt_add (pneg_if (pt_odd (sess_A c (agg_sum pns) T msg)) (raw_nonce c (agg_sum pns) msg))
           (pmul (sess_e c (agg_sum pns) T msg) (even_point (pubkey c))).
Proof.
  intros Hwf H1 H2 H3. unfold agg_s. rewrite gmul_add.
  rewrite (Forall3_partial_sum c (agg_sum pns) T msg (ordered_pubkeys c) pns sigs H1 H2 H3).
  unfold raw_nonce. cbn [agg_sum aR1 aR2]. rewrite add_assoc. f_equal.
  fold (agg_sum_of (ordered_pubkeys c)).
  rewrite even_pneg. unfold sess_par.
  set (o := pt_odd (pubkey c)). rewrite (wf_key c Hwf).
  rewrite pneg_if_xorb, pneg_if_add, pmul_add_r, <- pneg_if_gmul, gmul_mul, !pneg_if_pmul.
  reflexivity.
Qed.

Lemma aggregate_valid_iff c pns T msg sigs : ctx_wf c ->
  length pns = length (ordered_pubkeys c) -> length sigs = length (ordered_pubkeys c) ->
  (forall i pk pn s, nth_error (ordered_pubkeys c) i = Some pk -> nth_error pns i = Some pn ->
     nth_error sigs i = Some s -> partial_eq c (agg_sum pns) T msg pk pn s) ->
  (is_ok (aggregate_partial_adaptor_signatures c (agg_sum pns) T sigs msg) = true
   <-> raw_nonce c (agg_sum pns) msg <> pt_O).
Proof.
  intros Hwf H1 H2 H3. rewrite aggregate_eq, (valid_sum c pns T msg sigs) by assumption.
  rewrite <- sess_R_iff.
  destruct (pt_eqb _ _) eqn:E; cbn [is_ok].
  - apply pt_eqb_eq in E. apply add_cancel_r, pneg_if_inj in E. split; auto.
  - apply pt_eqb_neq in E. split; [discriminate|]. intro H. destruct E. congruence.
Qed.

(** *** Challenges do not depend on the parity of the key *)
Lemma challenge_x nx (P Q : point Pr) msg : pt_x P = pt_x Q ->
  compute_challenge_hash_tweak nx P msg = compute_challenge_hash_tweak nx Q msg.
Proof. intro H. unfold compute_challenge_hash_tweak. rewrite H. reflexivity. Qed.
Lemma challenge_even nx (P : point Pr) msg :
  compute_challenge_hash_tweak nx (even_point P) msg = compute_challenge_hash_tweak nx P msg.
Proof. apply challenge_x. rewrite even_point_val, to_even_y_x. reflexivity. Qed.

(** *** Verification equations *)

(** The challenge of a nonce, key and message. *)
Definition chal (A : pt) (pk : point Pr) msg := compute_challenge_hash_tweak (pt_x A) pk msg.

Lemma verify_adaptor_iff pk sg msg T :
  verify_single_adaptor pk sg msg T = Ok tt <->
  gmul (a_s sg) = pt_add (pneg_if (pt_odd (pt_add (a_R sg) T)) (a_R sg))
                         (pmul (chal (pt_add (a_R sg) T) pk msg) (even_point pk)).
Proof.
  unfold verify_single_adaptor. rewrite if_even_pneg, challenge_even, ok_tt, pt_eqb_eq. reflexivity.
Qed.

Lemma verify_adaptor_cases pk sg msg T :
  verify_single_adaptor pk sg msg T = Ok tt \/ verify_single_adaptor pk sg msg T = Err VE_BadSignature.
Proof. unfold verify_single_adaptor. destruct (negb _); auto. Qed.

Lemma verify_single_cases pk sg msg :
  verify_single pk sg msg = Ok tt \/ verify_single pk sg msg = Err VE_BadSignature.
Proof.
  unfold verify_single. destruct (not_inf _); [|auto]. destruct (pt_odd _); [auto|].
  destruct (bytes_eqb _ _); auto.
Qed.

Lemma verify_single_iff pk sg msg :
  verify_single pk sg msg = Ok tt <->
  exists R : point Pr, pt_odd R = false /\ pt_x R = c_rx sg /\
    gmul (c_s sg) = pt_add R (pmul (compute_challenge_hash_tweak (c_rx sg) pk msg) (even_point pk)).
Proof.
  unfold verify_single. rewrite challenge_even.
  set (e := compute_challenge_hash_tweak (c_rx sg) pk msg).
  assert (Hadd : forall R : pt, psub (gmul (c_s sg)) (pmul e (even_point pk)) = R <->
            gmul (c_s sg) = pt_add R (pmul e (even_point pk))).
  { intro R. unfold psub. split; [intros <- | intros ->]; rewrite add_assoc, ?add_neg_l, ?add_neg_r, add_O_r; reflexivity. }
  destruct (not_inf _) as [V|] eqn:E.
  - apply not_inf_Some in E. split.
    + destruct (pt_odd V) eqn:Eo; [discriminate|]. destruct (bytes_eqb _ _) eqn:Eb; [|discriminate].
      intros _. apply bytes_eqb_eq in Eb. exists V. apply Hadd in E. auto.
    + intros (R & Ho & Hx & Hg). apply Hadd in Hg. assert (V = R) by (apply point_ext; congruence).
      subst V. rewrite Ho, Hx, bytes_eqb_refl. reflexivity.
  - apply not_inf_None in E. split; [discriminate|]. intros (R & Ho & Hx & Hg).
    apply Hadd in Hg. destruct (point_fin R). congruence.
Qed.

Lemma verify_lifted_iff pk sg msg : pt_odd (l_R sg) = false ->
  (verify_single_lifted pk sg msg = Ok tt <->
   gmul (l_s sg) = pt_add (l_R sg) (pmul (chal (l_R sg) pk msg) (even_point pk))).
Proof.
  intro Ho. unfold verify_single_lifted. rewrite verify_single_iff. cbn [compact compact_new c_rx c_s].
  split.
  - intros (R & Ho' & Hx & Hg). assert (pval R = pval (l_R sg)).
    { apply even_x_eq; auto using point_fin. }
    rewrite H in Hg. exact Hg.
  - intro Hg. exists (l_R sg). auto.
Qed.

(** *** Adapting *)

Lemma adapt_None sg t : adapt sg t = None <-> pt_add (a_R sg) (gmul t) = pt_O :> pt.
Proof.
  unfold adapt. destruct (not_inf _) as [N|] eqn:E.
  - apply not_inf_Some in E. split; [discriminate|]. intro H. destruct (point_fin N). congruence.
  - apply not_inf_None in E. tauto.
Qed.

Lemma adapt_Some sg t (l : lifted_sig Pr) : adapt sg t = Some l <->
  pt_add (a_R sg) (gmul t) <> pt_O /\
  pval (l_R l) = to_even_y (pt_add (a_R sg) (gmul t)) /\
  l_s l = fadd (a_s sg) (fneg_if (pt_odd (pt_add (a_R sg) (gmul t))) t).
Proof.
  unfold adapt. destruct (not_inf _) as [N|] eqn:E.
  - apply not_inf_Some in E. rewrite E. split.
    + intro H; injection H as <-. cbn [lifted_new l_R l_s]. rewrite even_point_val.
      auto using point_fin.
    + intros (_ & H1 & H2). f_equal. destruct l as [R s]. cbn [l_R l_s] in *. unfold lifted_new.
      rewrite H2. f_equal. apply point_ext. rewrite even_point_val. auto.
  - apply not_inf_None in E. split; [discriminate|]. intros (H & _). contradiction.
Qed.

Lemma adapt_even sg t (l : lifted_sig Pr) : adapt sg t = Some l -> pt_odd (l_R l) = false.
Proof. intro H. apply adapt_Some in H as (H1 & H2 & _). rewrite H2. apply to_even_y_odd. assumption. Qed.

(** A verified adaptor signature adapts to a valid signature. *)
Lemma verified_adapt pk sg msg t l :
  verify_single_adaptor pk sg msg (gmul t) = Ok tt -> adapt sg t = Some l ->
  verify_single_lifted pk l msg = Ok tt.
Proof.
  intros Hv Ha. apply verify_lifted_iff; [eapply adapt_even; eassumption|].
  apply verify_adaptor_iff in Hv. apply adapt_Some in Ha as (H1 & H2 & H3).
  set (N := pt_add (a_R sg) (gmul t)) in *.
  unfold chal in *. rewrite H3, H2, gmul_add, to_even_y_x, Hv. unfold to_even_y.
  rewrite add_assoc, (add_comm (pmul _ _)), <- add_assoc. f_equal.
  rewrite <- pneg_if_gmul, <- pneg_if_add. reflexivity.
Qed.

(** Conversely, adapting with the right secret gives a valid signature only if
    the adaptor signature verifies. *)
Lemma adapt_verified pk sg msg t l :
  verify_single_lifted pk l msg = Ok tt -> adapt sg t = Some l ->
  verify_single_adaptor pk sg msg (gmul t) = Ok tt.
Proof.
  intros Hv Ha. apply verify_lifted_iff in Hv; [|eapply adapt_even; eassumption].
  apply verify_adaptor_iff. apply adapt_Some in Ha as (H1 & H2 & H3).
  set (N := pt_add (a_R sg) (gmul t)) in *.
  unfold chal in *. rewrite H3, H2, gmul_add, to_even_y_x in Hv. unfold to_even_y in Hv.
  apply (add_cancel_r _ _ (gmul (fneg_if (pt_odd N) t))). rewrite Hv.
  rewrite add_assoc, (add_comm (pmul _ _)), <- add_assoc. f_equal.
  rewrite <- pneg_if_gmul, <- pneg_if_add. reflexivity.
Qed.

(** Aggregated adaptor signatures verify. *)
Lemma aggregate_verifies c an T sigs msg sg :
  aggregate_partial_adaptor_signatures c an T sigs msg = Ok sg ->
  verify_single_adaptor (pubkey c) sg msg T = Ok tt.
Proof.
  intro H. apply aggregate_Ok_iff in H as [-> H]. apply verify_adaptor_iff. exact H.
Qed.

Lemma aggregate_plain_verifies c an sigs msg sg :
  aggregate_partial_signatures c an sigs msg = Ok sg ->
  verify_single_lifted (pubkey c) sg msg = Ok tt /\ pt_odd (l_R sg) = false.
Proof.
  unfold aggregate_partial_signatures.
  destruct (aggregate_partial_adaptor_signatures c an pt_O sigs msg) as [a| |] eqn:E; cbn [bind]; try discriminate.
  destruct (adapt a fzero) as [l|] eqn:Ea; cbn [unwrap]; [|discriminate].
  intro H; injection H as <-. split; [|eapply adapt_even; eassumption].
  eapply verified_adapt; [|eassumption]. rewrite gmul_0.
  eapply aggregate_verifies; eassumption.
Qed.

Lemma aggregate_adapt_zero c an T sigs msg sg :
  aggregate_partial_adaptor_signatures c an T sigs msg = Ok sg ->
  adapt sg fzero = Some (lifted_new (sess_R c an msg) (a_s sg)).
Proof.
  intro H. apply aggregate_Ok_iff in H as [-> H]. apply adapt_Some. cbn [a_R a_s lifted_new l_R l_s].
  rewrite gmul_0, add_O_r. split; [apply point_fin|]. split; [apply even_point_val|].
  destruct (pt_odd (sess_R c an msg)); cbn [fneg_if]; ring.
Qed.

Lemma aggregate_plain_no_panic c an sigs msg : aggregate_partial_signatures c an sigs msg <> Panic.
Proof.
  unfold aggregate_partial_signatures.
  destruct (aggregate_partial_adaptor_signatures c an pt_O sigs msg) as [a| |] eqn:E; cbn [bind]; try discriminate.
  - rewrite (aggregate_adapt_zero _ _ _ _ _ _ E). discriminate.
  - rewrite aggregate_eq in E. destruct (pt_eqb _ _); discriminate.
Qed.

End SigningFacts.

(** Proofs of the theorems of PropertiesAdaptor.v. *)
From Coq Require Import String List Permutation.
From Verif Require Import Bytes BytesFacts Prims PrimsFacts TaggedHashes Errors SpecTags SpecBIP327
  KeyAgg Nonces Signature Signing SigAgg Bip340 SpecCtx SpecView SpecSession Toy ToyData.
Import ListNotations.
Open Scope list_scope.
Open Scope Z_scope.
From Verif Require Import CodecFacts KeyAggFacts KeyAggCodec SigningFacts SignatureFacts SpecFacts SpecSigning SessionFacts.

Section Helpers.
Context {Pr : prims} {Laws : prims_ok Pr} {Tags : tags_ok Pr}.
Add Ring fring0 : (fe_ring_theory (n := @ord Pr)).

Lemma verify_presig pk (sg : adaptor_sig Pr) msg T :
  verify_single_adaptor pk sg msg T = Ok tt <-> presig_valid pk msg T (a_R sg) (a_s sg).
Proof. rewrite presig_valid_eq. apply verify_adaptor_iff. Qed.

Lemma lifted_ref pk (l : lifted_sig Pr) msg : verify_single_lifted pk l msg = Ok tt <->
  schnorr_verify msg (pt_x pk) (lifted_to_bytes l) = Ret true.
Proof.
  rewrite schnorr_verify_ref. unfold verify_single_bytes. rewrite compact_of_lifted_bytes. cbn [map_err bind].
  replace (length (lifted_to_bytes l)) with 64%nat
    by (unfold lifted_to_bytes, compact_to_bytes, compact, compact_new; cbn [c_rx c_s]; rewrite app_length, x_len, ser_scalar_len; reflexivity).
  cbn [Nat.eqb]. unfold verify_single_lifted.
  destruct (verify_single_cases pk (compact l) msg) as [E|E]; rewrite E; cbn [is_ok]; split; congruence.
Qed.

Lemma sum_gmul (ts : list (scalar Pr)) :
  fold_right pt_add pt_O (map (fun u : scalar Pr => point_mul pt_G (fz u)) ts) = gmul (fsum (map sval ts)).
Proof.
  induction ts as [|t ts IH]; cbn [map fold_right]; [rewrite fsum_nil, gmul_0; reflexivity|].
  rewrite fsum_cons, gmul_add, IH, point_mul_G. reflexivity.
Qed.
Lemma is_ok_tt {E} (r : res E unit) : is_ok r = true -> r = Ok tt.
Proof. destruct r as [[]| |]; cbn [is_ok]; congruence. Qed.
Lemma lifted_bad pk (l : lifted_sig Pr) msg : is_ok (verify_single_lifted pk l msg) = false ->
  verify_single_lifted pk l msg = Err VE_BadSignature.
Proof.
  unfold verify_single_lifted. destruct (verify_single_cases pk (compact l) msg) as [H|H]; rewrite H; cbn [is_ok]; congruence.
Qed.

Lemma reveal_inf (t : scalar Pr) (s : mscalar Pr) : pt_odd (gmul t) = true ->
  exists l, adapt {| a_R := pt_O; a_s := s |} t = Some l /\ has_even_y (l_R l) = true /\
    reveal_secret {| a_R := pt_O; a_s := s |} l = Some (fneg t) /\
    reveal_secret {| a_R := pt_O; a_s := s |} l <> Some (sval t).
Proof.
  intro Hk. set (sg := {| a_R := pt_O; a_s := s |}).
  destruct (adapt sg t) as [l|] eqn:E.
  2:{ apply adapt_None in E. unfold sg in E. cbn [a_R] in E. rewrite add_O_l in E.
      apply gmul_eq_O in E. destruct (scalar_nz t E). }
  exists l. split; [reflexivity|].
  pose proof (adapt_even _ _ _ E) as Ho. split; [unfold has_even_y; rewrite Ho; reflexivity|].
  assert (HR : reveal_secret sg l = Some (fneg t)).
  { apply adapt_Some in E as (H1 & H2 & H3). unfold sg in *. cbn [a_R a_s] in *.
    rewrite add_O_l in *. rewrite Hk in H3. cbn [fneg_if] in H3.
    unfold reveal_secret. cbn [a_R a_s].
    assert (Hd : fsub (l_s l) s = fneg t) by (rewrite H3; ring).
    rewrite Hd, H2. unfold psub. rewrite neg_O, add_O_r.
    unfold to_even_y. rewrite Hk. cbn [pneg_if]. rewrite gmul_neg.
    rewrite (proj2 (pt_eqb_eq _ _)) by reflexivity. reflexivity. }
  split; [exact HR|]. rewrite HR. intro H. assert (H' : fneg t = sval t) by congruence.
  apply (double_nz t). rewrite <- H' at 1. ring.
Qed.
End Helpers.

Section C16_verified_adaptor_adapts.
Context {Pr : prims}.
Add Ring ring_C16_verified_adaptor_adapts : (fe_ring_theory (n := @ord Pr)).
Lemma C16_verified_adaptor_adapts_proof {Laws : prims_ok Pr} {Tags : tags_ok Pr} (pk : point Pr) (sg : adaptor_sig Pr) (msg : bytes) (t : mscalar Pr) :
  (forall T, verify_single_adaptor pk sg msg T = Ok tt <-> presig_valid pk msg T (a_R sg) (a_s sg)) /\
  (forall T, verify_single_adaptor pk sg msg T <> Ok tt -> verify_single_adaptor pk sg msg T = Err VE_BadSignature) /\
  (adapt sg t = None <-> pt_add (a_R sg) (point_mul pt_G (fz t)) = pt_O) /\
  (forall l, adapt sg t = Some l ->
     has_even_y (l_R l) = true /\
     (verify_single_adaptor pk sg msg (point_mul pt_G (fz t)) = Ok tt <-> verify_single_lifted pk l msg = Ok tt) /\
     (verify_single_adaptor pk sg msg (point_mul pt_G (fz t)) = Ok tt <->
      schnorr_verify msg (pt_x pk) (lifted_to_bytes l) = Ret true)).
Proof.
  split; [intro T; apply verify_presig|].
  split; [intros T H; destruct (verify_adaptor_cases pk sg msg T); [contradiction|assumption]|].
  rewrite point_mul_G. split; [apply adapt_None|]. intros l Hl.
  split; [unfold has_even_y; rewrite (adapt_even _ _ _ Hl); reflexivity|].
  rewrite <- lifted_ref.
  assert (H : verify_single_adaptor pk sg msg (gmul t) = Ok tt <-> verify_single_lifted pk l msg = Ok tt).
  { split; intro H; [eapply verified_adapt | eapply adapt_verified]; eassumption. }
  tauto.
Qed.
End C16_verified_adaptor_adapts.

Section C17_reveal_inverts_adapt.
Context {Pr : prims}.
Add Ring ring_C17_reveal_inverts_adapt : (fe_ring_theory (n := @ord Pr)).
Lemma C17_reveal_inverts_adapt_proof {Laws : prims_ok Pr} (sg : adaptor_sig Pr) (final : lifted_sig Pr) (Heven : has_even_y (l_R final) = true) :
  (forall x, reveal_secret sg final = Some x -> adapt sg x = Some final) /\
  (reveal_secret sg final = None <-> forall t, adapt sg t <> Some final) /\
  (forall t, a_R sg <> pt_O -> (adapt sg t = Some final <-> reveal_secret sg final = Some t)) /\
  (forall t, a_R sg = pt_O -> adapt sg t = Some final ->
     reveal_secret sg final = Some t \/ reveal_secret sg final = Some (fneg t)).
Proof.
  assert (Ho : pt_odd (l_R final) = false) by (unfold has_even_y in Heven; destruct (pt_odd (l_R final)); [discriminate|reflexivity]).
  split; [intros x; apply reveal_sound, Ho|]. split; [apply reveal_None, Ho|]. split.
  - intros t Hne. split.
    + intro H. destruct (reveal_complete _ _ _ H) as [E|[E _]]; [exact E|contradiction].
    + apply reveal_sound, Ho.
  - intros t _ H. destruct (reveal_complete _ _ _ H) as [E|[_ E]]; auto.
Qed.
End C17_reveal_inverts_adapt.

Lemma C17_infinite_nonce_refuted_proof :
  exists (sg : adaptor_sig Toy) (t : scalar Toy) (final : lifted_sig Toy),
    a_R sg = pt_O /\ adapt sg t = Some final /\ has_even_y (l_R final) = true /\
    reveal_secret sg final = Some (fneg (sval t)) /\ reveal_secret sg final <> Some (sval t).
Proof.
  assert (E : exists k, pt_odd (gmul (sval (tsc k))) = true) by (first [exists 4%positive; vm_compute; reflexivity | exists 3%positive; vm_compute; reflexivity | exists 5%positive; vm_compute; reflexivity]).
  destruct E as [k Hk]. destruct (reveal_inf (tsc k) (tsc 9) Hk) as (l & H1 & H2 & H3 & H4).
  exists {| a_R := pt_O; a_s := tsc 9 |}, (tsc k), l. auto.
Qed.

Section C18_encrypt_then_adapt.
Context {Pr : prims}.
Add Ring ring_C18_encrypt_then_adapt : (fe_ring_theory (n := @ord Pr)).
Lemma C18_encrypt_then_adapt_proof {Laws : prims_ok Pr} {Tags : tags_ok Pr} (pk : point Pr) (sg : lifted_sig Pr) (msg : bytes) (t : scalar Pr) (ts : list (scalar Pr)) (Heven : has_even_y (l_R sg) = true) :
  let enc := fold_left adaptor_encrypt ts (lifted_encrypt sg t) in
  let points := map (fun u : scalar Pr => point_mul pt_G (fz u)) (t :: ts) in
  adapt enc (fsum (map sval (t :: ts))) = Some sg /\
  (verify_single_adaptor pk enc msg (fold_right pt_add pt_O points) = Ok tt <-> verify_single_lifted pk sg msg = Ok tt) /\
  (forall t' ts', Permutation (t :: ts) (t' :: ts') ->
     fold_left adaptor_encrypt ts' (lifted_encrypt sg t') = enc).
Proof.
  intros enc points.
  assert (Ho : pt_odd (l_R sg) = false) by (unfold has_even_y in Heven; destruct (pt_odd (l_R sg)); [discriminate|reflexivity]).
  assert (He : forall v vs, fold_left adaptor_encrypt vs (lifted_encrypt sg v)
                = fold_left adaptor_encrypt (v :: vs) (adaptor_new (l_R sg) (l_s sg))) by reflexivity.
  assert (HA : adapt enc (fsum (map sval (t :: ts))) = Some sg) by (unfold enc; rewrite He; apply encrypt_adapt, Ho).
  split; [exact HA|]. split.
  - assert (HP : fold_right pt_add pt_O points = gmul (fsum (map sval (t :: ts)))).
    { apply sum_gmul. }
    rewrite HP. split; intro H; [eapply verified_adapt | eapply adapt_verified]; eassumption.
  - intros t' ts' HP. unfold enc. rewrite !He, !encrypt_fold.
    rewrite (fsum_perm (map sval (t' :: ts')) (map sval (t :: ts))) by (apply Permutation_map; symmetry; exact HP). reflexivity.
Qed.
End C18_encrypt_then_adapt.

Section C19_reencryption.
Context {Pr : prims}.
Add Ring ring_C19_reencryption : (fe_ring_theory (n := @ord Pr)).
Lemma C19_reencryption_proof {Laws : prims_ok Pr} {Tags : tags_ok Pr} (pk : point Pr) (sg : adaptor_sig Pr) (msg : bytes) (t : mscalar Pr) (u : scalar Pr) (l : lifted_sig Pr) (Hl : adapt sg t = Some l) :
  let A := pt_add (a_R sg) (point_mul pt_G (fz t)) in
  let T' := pt_add (point_mul pt_G (fz t)) (point_mul pt_G (fz u)) in
  exists l', adapt (adaptor_encrypt sg u) (fadd t u) = Some l' /\ l_R l' = l_R l /\
    (l' = l <-> has_even_y A = true) /\
    (has_even_y A = false -> verify_single_adaptor pk sg msg (point_mul pt_G (fz t)) = Ok tt ->
       schnorr_verify msg (pt_x pk) (lifted_to_bytes l') = Ret false /\
       verify_single_adaptor pk (adaptor_encrypt sg u) msg T' = Err VE_BadSignature).
Proof.
  intros A T'. pose proof (reencrypt_adapt sg t u) as HR. rewrite Hl in HR.
  destruct (adapt (adaptor_encrypt sg u) (fadd t u)) as [l'|] eqn:E'; [|contradiction].
  destruct HR as [HR Hs]. exists l'. split; [reflexivity|]. split; [exact HR|].
  unfold A, T'. rewrite !point_mul_G. unfold has_even_y.
  destruct (pt_odd (pt_add (a_R sg) (gmul t))) eqn:Eo; cbn [negb].
  - assert (Hne : l_s l' <> l_s l).
    { rewrite Hs. intro H. apply (double_nz u). replace (fadd (sval u) u) with (fsub (l_s l) (fsub (l_s l) (fadd (sval u) u))) by ring.
      rewrite H. ring. }
    split; [split; [intros ->; contradiction | discriminate]|]. intros _ Hv.
    assert (Hbad : ~ verify_single_lifted pk l' msg = Ok tt).
    { intro Hv'. apply (verified_adapt _ _ _ _ l) in Hv; [|assumption].
      apply verify_lifted_iff in Hv; [|eapply adapt_even; eassumption].
      apply verify_lifted_iff in Hv'; [|eapply adapt_even; eassumption].
      rewrite HR, <- Hv in Hv'. apply gmul_inj in Hv'. contradiction. }
    split.
    + rewrite lifted_ref in Hbad. rewrite schnorr_verify_ref in *.
      assert (HL : length (lifted_to_bytes l') = 64%nat)
        by (unfold lifted_to_bytes, compact_to_bytes, compact, compact_new; cbn [c_rx c_s]; rewrite app_length, x_len, ser_scalar_len; reflexivity).
      rewrite HL in *. cbn [Nat.eqb] in *. destruct (is_ok _); [destruct Hbad; reflexivity | reflexivity].
    + rewrite <- gmul_add. destruct (verify_adaptor_cases pk (adaptor_encrypt sg u) msg (gmul (fadd t u))) as [E|E]; [|exact E].
      destruct Hbad. eapply verified_adapt; eassumption.
  - split; [|discriminate]. split; [reflexivity|]. intros _. destruct l as [R s], l' as [R' s']. cbn [l_R l_s] in *.
    rewrite HR, Hs. f_equal. ring.
Qed.
End C19_reencryption.

Lemma C19_reencryption_refuted_proof :
  exists (sk : scalar Toy) (msg seed : bytes) (t u : scalar Toy) (l' : lifted_sig Toy),
    let sg := sign_solo_adaptor sk msg seed (gmul t) in
    verify_single_adaptor (base_mul sk) sg msg (gmul t) = Ok tt /\
    adapt (adaptor_encrypt sg u) (fadd (sval t) u) = Some l' /\
    verify_single_lifted (base_mul sk) l' msg = Err VE_BadSignature.
Proof.
  assert (E : exists k u : positive,
    is_ok (verify_single_adaptor (tpt 3) (sign_solo_adaptor (tsc 3) toy_msg (repeat x00 32) (gmul (sval (tsc k)))) toy_msg (gmul (sval (tsc k)))) = true /\
    match adapt (adaptor_encrypt (sign_solo_adaptor (tsc 3) toy_msg (repeat x00 32) (gmul (sval (tsc k)))) (tsc u)) (fadd (sval (tsc k)) (sval (tsc u))) with
    | Some l => is_ok (verify_single_lifted (tpt 3) l toy_msg) | None => true end = false).
  { first [exists 4%positive, 7%positive; split; vm_compute; reflexivity | exists 5%positive, 7%positive; split; vm_compute; reflexivity
      | exists 6%positive, 7%positive; split; vm_compute; reflexivity | exists 8%positive, 7%positive; split; vm_compute; reflexivity
      | exists 9%positive, 7%positive; split; vm_compute; reflexivity]. }
  destruct E as (k & u & E1 & E2).
  destruct (adapt (adaptor_encrypt (sign_solo_adaptor (tsc 3) toy_msg (repeat x00 32) (gmul (sval (tsc k)))) (tsc u)) (fadd (sval (tsc k)) (sval (tsc u)))) as [l'|] eqn:E; [|discriminate].
  exists (tsc 3), toy_msg, (repeat x00 32), (tsc k), (tsc u), l'. cbv zeta.
  change (base_mul (tsc 3)) with (tpt 3).
  split; [apply is_ok_tt, E1 | split; [exact E | apply lifted_bad, E2]].
Qed.

Section C44_compact_lifted.
Context {Pr : prims}.
Add Ring ring_C44_compact_lifted : (fe_ring_theory (n := @ord Pr)).
Lemma C44_compact_lifted_proof {Laws : prims_ok Pr} (cs : compact_sig Pr) (sg : lifted_sig Pr) (pk : point Pr) (msg : bytes) :
  (has_even_y (l_R sg) = true -> lift_nonce (compact sg) = Some sg) /\
  (lift_nonce cs = Some sg -> compact sg = cs /\ has_even_y (l_R sg) = true) /\
  (lift_nonce cs = None <-> ~ exists R : point Pr, pt_x R = c_rx cs) /\
  (verify_single pk cs msg = Ok tt -> exists l, lift_nonce cs = Some l /\ verify_single_lifted pk l msg = Ok tt) /\
  (length (c_rx cs) = 32%nat -> verify_single pk cs msg = verify_single_bytes pk (compact_to_bytes cs) msg) /\
  verify_single_lifted pk sg msg = verify_single_bytes pk (lifted_to_bytes sg) msg.
Proof.
  assert (Hc : forall l, lift_nonce cs = Some l -> compact l = cs /\ has_even_y (l_R l) = true).
  { intros l H. apply lift_nonce_Some in H as (H1 & H2 & H3). split.
    - destruct cs as [rx s]. unfold compact, compact_new. cbn [c_rx c_s] in *. congruence.
    - unfold has_even_y. rewrite H1. reflexivity. }
  split; [|split; [apply Hc|split; [|split; [|split]]]].
  - intro H. apply lift_nonce_Some. unfold has_even_y in H. destruct (pt_odd (l_R sg)); [discriminate|]. auto.
  - split.
    + intros H [R HR]. 
      assert (HH : lift_nonce cs = Some {| l_R := even_point R; l_s := c_s cs |}).
      { apply lift_nonce_Some. cbn [l_R l_s]. rewrite even_point_val, to_even_y_x.
        split; [apply to_even_y_odd, point_fin|]. auto. }
      congruence.
    + intro H. destruct (lift_nonce cs) as [l|] eqn:E; [|reflexivity]. destruct H. exists (l_R l).
      apply lift_nonce_Some in E as (_ & E & _). auto.
  - intro H. pose proof H as H0. apply verify_single_iff in H as (R & H1 & H2 & _).
    exists {| l_R := R; l_s := c_s cs |}.
    assert (HL : lift_nonce cs = Some {| l_R := R; l_s := c_s cs |}) by (apply lift_nonce_Some; cbn [l_R l_s]; auto).
    split; [exact HL|]. unfold verify_single_lifted. rewrite (proj1 (Hc _ HL)). exact H0.
  - intro H. unfold verify_single_bytes. rewrite (proj2 (compact_decode _ cs)) by auto. reflexivity.
  - unfold verify_single_bytes, verify_single_lifted. rewrite compact_of_lifted_bytes. reflexivity.
Qed.
End C44_compact_lifted.

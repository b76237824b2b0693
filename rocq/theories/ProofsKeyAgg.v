(** Proofs of the theorems of PropertiesKeyAgg.v. *)
From Coq Require Import String List Permutation.
From Verif Require Import Bytes BytesFacts Prims PrimsFacts TaggedHashes Errors SpecTags SpecBIP327
  KeyAgg Nonces SpecCtx SpecView Toy ToyData.
Import ListNotations.
Open Scope list_scope.
Open Scope Z_scope.
From Verif Require Import CodecFacts KeyAggFacts KeyAggCodec SpecFacts.

Section Helpers.
Context {Pr : prims} {Ok_ : prims_ok Pr}.
Add Ring fring0 : (fe_ring_theory (n := @ord Pr)).

Lemma seckey_weighted (pks : list (point Pr)) sks (f : point Pr -> mscalar Pr) :
  map base_mul sks = pks ->
  psum (map (fun pk => pmul (f pk) (pval pk)) pks)
  = gmul (fsum (map (fun p => fmul (fst p) (sval (snd p))) (combine (map f pks) sks))).
Proof.
  intros <-. induction sks as [|sk sks IH]; cbn [map combine].
  - rewrite psum_nil, fsum_nil, gmul_0. reflexivity.
  - rewrite psum_cons, fsum_cons, gmul_add, IH, base_mul_val. cbn [fst snd]. rewrite gmul_mul. reflexivity.
Qed.

Lemma weighted_ref {Tags : tags_ok Pr} (pks l : list (point Pr)) sks :
  of_Z ord (fold_right Z.add 0
    (map (fun p : point Pr * scalar Pr =>
            key_agg_coeff (map ser_point pks) (ser_point (fst p)) * fz (sval (snd p))) (combine l sks)))
  = fsum (map (fun p => fmul (fst p) (sval (snd p))) (combine (map (coeff_of pks) l) sks)) :> mscalar Pr.
Proof.
  revert sks. induction l as [|pk l IH]; intros [|sk sks]; try reflexivity.
  cbn [map combine fold_right]. rewrite of_Z_add, IH, fsum_cons. cbn [fst snd].
  rewrite coeff_eq, of_Z_mul, !of_Z_fz. reflexivity.
Qed.

Lemma fneg_if_one (par : bool) (a : mscalar Pr) : fmul (fneg_if par fone) a = fneg_if par a.
Proof. destruct par; cbn [fneg_if]; ring. Qed.

Lemma low_bits h : b2z h mod 4 = (if Z.testbit (b2z h) 1 then 2 else 0) + (if Z.testbit (b2z h) 0 then 1 else 0).
Proof. destruct h; reflexivity. Qed.
Lemma header_val c : b2z (header_byte (Pr := Pr) c) = (if negb (feqb (tweak_acc c) fzero) then 2 else 0) + (if parity_acc c then 1 else 0).
Proof. unfold header_byte. destruct (negb _), (parity_acc c); reflexivity. Qed.

Lemma points_eqb_eq (l m : list (point Pr)) : points_eqb l m = true <-> l = m.
Proof.
  revert m. induction l as [|P l IH]; intros [|Q m]; cbn [points_eqb]; split; intro H; try discriminate; auto.
  - apply andb_true_iff in H as [H1 H2]. apply point_eqb_eq in H1. apply IH in H2. congruence.
  - injection H as <- <-. rewrite point_eqb_refl. apply IH. reflexivity.
Qed.

Lemma wide64 : wide target64.
Proof. unfold wide, target64. cbn. lia. Qed.

End Helpers.

Section C01_new_is_bip327_keyagg.
Context {Pr : prims}.
Add Ring ring_C01_new_is_bip327_keyagg : (fe_ring_theory (n := @ord Pr)).
Lemma C01_new_is_bip327_keyagg_proof {Laws : prims_ok Pr} {Tags : tags_ok Pr} (pks : list (point Pr)) :
  (forall c, key_agg_new pks = Ok c ->
     key_agg (map ser_point pks) = Ret (KeyAggCtx (aggregated_pubkey c) 1 0) /\
     pubkeys c = pks /\ parity_acc c = false /\ tweak_acc c = fzero) /\
  ((exists c, key_agg_new pks = Ok c) <->
     pks <> [] /\ zlen pks <= u32_max /\ exists k, key_agg (map ser_point pks) = Ret k) /\
  (key_agg_new pks = Err KeyAggError <->
     pks <> [] /\ zlen pks <= u32_max /\ key_agg (map ser_point pks) = AssertFailed) /\
  (key_agg_new pks = Panic <-> pks = [] \/ u32_max < zlen pks).
Proof.
  split; [|split; [|split]].
  - intros c H. pose proof (key_agg_new_ref _ _ H) as Hr. apply key_agg_new_Ok in H as (_ & _ & _ & H1 & H2 & H3).
    rewrite Hr. unfold ref_ctx. rewrite H2, H3. auto.
  - split.
    + intros [c H]. destruct (key_agg_new_domain _ _ H) as [H1 H2]; [discriminate|].
      split; [assumption|]. split; [assumption|]. eexists. apply key_agg_new_ref, H.
    + intros (H1 & H2 & k & Hk). destruct (key_agg_new pks) as [c|e|] eqn:E.
      * exists c. reflexivity.
      * rewrite (key_agg_new_ref_Err _ _ E) in Hk. discriminate.
      * apply key_agg_new_Panic in E. destruct E; [contradiction | lia].
  - split.
    + intro H. destruct (key_agg_new_domain _ _ H) as [H1 H2]; [discriminate|].
      split; [assumption|]. split; [assumption|]. eapply key_agg_new_ref_Err, H.
    + intros (H1 & H2 & Hk). destruct (key_agg_new pks) as [c|[]|] eqn:E.
      * rewrite (key_agg_new_ref _ _ E) in Hk. discriminate.
      * reflexivity.
      * apply key_agg_new_Panic in E. destruct E; [contradiction | lia].
  - apply key_agg_new_Panic.
Qed.
End C01_new_is_bip327_keyagg.

Section C02_member_lookup.
Context {Pr : prims}.
Add Ring ring_C02_member_lookup : (fe_ring_theory (n := @ord Pr)).
Lemma C02_member_lookup_proof {Laws : prims_ok Pr} {Tags : tags_ok Pr} (c : key_agg_ctx Pr) (pk : point Pr) (Hc : ctx_reachable c) :
  (pubkey_index c pk = None <-> ~ In pk (pubkeys c)) /\
  (forall i, pubkey_index c pk = Some i <->
     nth_error (pubkeys c) i = Some pk /\ forall j, (i < j)%nat -> nth_error (pubkeys c) j <> Some pk) /\
  (forall i, get_pubkey c i = nth_error (pubkeys c) i) /\
  (In pk (pubkeys c) -> exists a : mscalar Pr,
     fz a = key_agg_coeff (map ser_point (pubkeys c)) (ser_point pk) /\
     key_coefficient c pk = Ok (Some a) /\
     effective_pubkey c pk = Ok (Some (point_mul pk (fz a)))) /\
  (~ In pk (pubkeys c) -> key_coefficient c pk = Ok None /\ effective_pubkey c pk = Ok None).
Proof.
  apply reachable_wf in Hc. unfold pubkeys. split; [apply nonmember_index, Hc|].
  split; [unfold pubkey_index; rewrite (wf_idx c Hc); intro i; apply build_indexes_Some|].
  split; [reflexivity|]. split.
  - intro Hin. exists (coeff_of (ordered_pubkeys c) pk). rewrite coeff_eq.
    rewrite key_coefficient_in, effective_pubkey_in by assumption. auto.
  - intro Hout. rewrite key_coefficient_out, effective_pubkey_out by assumption. auto.
Qed.
End C02_member_lookup.

Section C03_tweaks_are_apply_tweak.
Context {Pr : prims}.
Add Ring ring_C03_tweaks_are_apply_tweak : (fe_ring_theory (n := @ord Pr)).
Lemma C03_tweaks_are_apply_tweak_proof {Laws : prims_ok Pr} {Tags : tags_ok Pr} (c : key_agg_ctx Pr) (Hc : ctx_reachable c) :
  (forall (t : scalar Pr) (x : bool),
     (if x then with_xonly_tweak c t else with_plain_tweak c t) = with_tweak c t x /\
     match with_tweak c t x with
     | Ok c' => apply_tweak (ref_ctx c) (ser_scalar t) x = Ret (ref_ctx c') /\ pubkeys c' = pubkeys c
     | Err TweakError => apply_tweak (ref_ctx c) (ser_scalar t) x = ValueError
     | Panic => False
     end) /\
  (forall ts : list (scalar Pr * bool),
     match with_tweaks c ts with
     | Ok c' => apply_tweaks (ref_ctx c) (ref_tweaks ts) = Ret (ref_ctx c') /\ pubkeys c' = pubkeys c
     | Err TweakError => apply_tweaks (ref_ctx c) (ref_tweaks ts) = ValueError
     | Panic => False
     end).
Proof.
  apply reachable_wf in Hc. split.
  - intros t x. split; [reflexivity|]. rewrite apply_tweak_eq.
    destruct (with_tweak c t x) as [c'|[]|] eqn:E; [|reflexivity|exact (with_tweak_no_panic _ _ _ E)].
    split; [reflexivity|]. apply (tweak_wf c t x c' Hc E).
  - intros ts. rewrite apply_tweaks_eq.
    destruct (with_tweaks c ts) as [c'|[]|] eqn:E; [|reflexivity|exact (with_tweaks_no_panic _ _ E)].
    split; [reflexivity|]. apply (tweaks_wf c ts c' Hc E).
Qed.
End C03_tweaks_are_apply_tweak.

Section C04_untweaked_key.
Context {Pr : prims}.
Add Ring ring_C04_untweaked_key : (fe_ring_theory (n := @ord Pr)).
Lemma C04_untweaked_key_proof {Laws : prims_ok Pr} (c : key_agg_ctx Pr) (Hc : ctx_reachable c) :
  exists c0, key_agg_new (pubkeys c) = Ok c0 /\
    aggregated_pubkey_untweaked c = Ok (aggregated_pubkey c0) /\
    pval (aggregated_pubkey c) =
      pt_add (if parity_acc c then pt_neg (aggregated_pubkey c0) else aggregated_pubkey c0)
             (gmul (tweak_acc c)) /\
    (forall t, tweak_sum c = Some t <-> sval t = tweak_acc c) /\
    (tweak_sum c = None <-> tweak_acc c = fzero) /\
    (tweak_sum c = None ->
       pval (aggregated_pubkey c) = aggregated_pubkey c0 \/
       pval (aggregated_pubkey c) = pt_neg (aggregated_pubkey c0)).
Proof.
  apply reachable_wf in Hc. destruct (new_of_wf c Hc) as (c0 & H1 & H2). exists c0.
  assert (HQ : pval (aggregated_pubkey c) =
      pt_add (if parity_acc c then pt_neg (aggregated_pubkey c0) else aggregated_pubkey c0)
             (gmul (tweak_acc c))).
  { unfold aggregated_pubkey. rewrite (wf_key c Hc) at 1. rewrite <- H2. reflexivity. }
  split; [exact H1|]. split.
  { destruct (untweaked_Ok c Hc) as (Q0 & E1 & E2). rewrite E1. f_equal. apply point_ext.
    unfold aggregated_pubkey. congruence. }
  split; [exact HQ|]. split; [intro t; unfold tweak_sum; rewrite not_zero_Some; split; congruence|].
  split; [apply not_zero_None|].
  intro Ht. apply not_zero_None in Ht. rewrite HQ, Ht, gmul_0, add_O_r. destruct (parity_acc c); auto.
Qed.
End C04_untweaked_key.

Section C05_taproot_tweak_is_bip341.
Context {Pr : prims}.
Add Ring ring_C05_taproot_tweak_is_bip341 : (fe_ring_theory (n := @ord Pr)).
Lemma C05_taproot_tweak_is_bip341_proof {Laws : prims_ok Pr} {Tags : tags_ok Pr} (c : key_agg_ctx Pr) (root : bytes) :
  let t := int_from_bytes (tagged_hash "TapTweak"%string (pt_x (aggregated_pubkey c) ++ root)) in
  (forall c', with_taproot_tweak c root = Ok c' ->
     taproot_tweak_pubkey (pt_x (aggregated_pubkey c)) root = Ret (pval (aggregated_pubkey c')) /\
     1 <= t < n_ /\ exists ts : scalar Pr, fz ts = t /\ with_xonly_tweak c ts = Ok c') /\
  (with_taproot_tweak c root = Err TweakError <->
     t = 0 \/ forall Q, taproot_tweak_pubkey (pt_x (aggregated_pubkey c)) root <> Ret Q) /\
  with_taproot_tweak c root <> Panic /\
  with_unspendable_taproot_tweak c = with_taproot_tweak c [].
Proof.
  cbv zeta. unfold with_taproot_tweak, with_unspendable_taproot_tweak, with_taproot_tweak_internal.
  assert (Ht : tagged_hash "TapTweak"%string (pt_x (aggregated_pubkey c) ++ root)
      = tagged TAPROOT_TWEAK_TAG_DIGEST (pt_x (pubkey c) ++ root))
    by (unfold tagged_hash, tagged; rewrite tag_taptweak; reflexivity).
  assert (HL : length (tagged TAPROOT_TWEAK_TAG_DIGEST (pt_x (pubkey c) ++ root)) = 32%nat) by apply sha_len.
  unfold taproot_tweak_pubkey. rewrite Ht. set (h := tagged TAPROOT_TWEAK_TAG_DIGEST _) in *. clearbody h.
  clear Ht.
  rewrite (proj2 (lift_spec (pt_x (aggregated_pubkey c)) (to_even_y (pubkey c)))).
  2:{ rewrite to_even_y_eq_O, to_even_y_x. split; [apply point_fin|]. split; [apply to_even_y_odd, point_fin | reflexivity]. }
  assert (Hx : forall ts : scalar Pr, with_xonly_tweak c ts =
    match not_inf (pt_add (to_even_y (pubkey c)) (gmul ts)) with
    | None => Err TweakError
    | Some Q => Ok (ctx_update c Q (xorb (pt_odd (pubkey c)) (parity_acc c)) (fadd ts (fneg_if (pt_odd (pubkey c)) (tweak_acc c))))
    end).
  { intro ts. exact (with_tweak_gen c ts true). }
  assert (Hlen : 0 <= be_dec h) by apply be_dec_range.
  unfold int_from_bytes.
  destruct (parse_scalar h) as [ts|] eqn:E.
  - apply parse_scalar_Some in E. subst h. rewrite be_dec_ser_scalar in *.
    assert (Hn : (n_ <=? fz ts) = false) by (apply Z.leb_gt, fz_n). rewrite Hn.
    assert (Hr : 1 <= fz ts < n_).
    { pose proof (fz_n ts). split; [|assumption]. enough (fz ts <> 0) by lia. intro E0.
      destruct (scalar_nz ts). apply fe_ext. rewrite E0. reflexivity. }
    rewrite point_mul_G, Hx.
    destruct (not_inf (pt_add (to_even_y (pubkey c)) (gmul ts))) as [Q|] eqn:EQ.
    + apply not_inf_Some in EQ. rewrite EQ, is_infinite_point. cbn [negb py_assert].
      split; [|split; [|split; [discriminate | reflexivity]]].
      * intros c' H. injection H as <-. cbn [aggregated_pubkey ctx_update pubkey]. split; [reflexivity|].
        split; [assumption|]. exists ts. split; [reflexivity|]. rewrite Hx, EQ, not_inf_point. reflexivity.
      * split; [discriminate|]. intros [H|H]; [lia|]. exfalso. apply (H Q). reflexivity.
    + apply not_inf_None in EQ. rewrite (proj2 (is_infinite_O _) EQ). cbn [negb py_assert].
      split; [discriminate|]. split; [|split; [discriminate | reflexivity]]. split; [|reflexivity]. intros _. right. discriminate.
  - split; [discriminate|]. split; [|split; [discriminate | reflexivity]]. split; [|reflexivity]. intros _.
    apply parse_scalar_None in E as [E|[E|E]].
    + contradiction.
    + left. exact E.
    + right. intro Q. rewrite (proj2 (Z.leb_le n_ (be_dec h))) by exact E. discriminate.
Qed.
End C05_taproot_tweak_is_bip341.

Section C06_aggregated_seckey.
Context {Pr : prims}.
Add Ring ring_C06_aggregated_seckey : (fe_ring_theory (n := @ord Pr)).
Lemma C06_aggregated_seckey_proof {Laws : prims_ok Pr} {Tags : tags_ok Pr} (c : key_agg_ctx Pr) (sks : list (scalar Pr)) (Hc : ctx_reachable c) :
  (forall x, aggregated_seckey c sks = Ok x <->
     (length sks <= length (pubkeys c))%nat /\
     fz x = (gacc_of (parity_acc c) * ref_seckey_sum (pubkeys c) sks + fz (tweak_acc c)) mod n_ /\
     base_mul x = aggregated_pubkey c) /\
  (map base_mul sks = pubkeys c -> exists x, aggregated_seckey c sks = Ok x) /\
  (aggregated_seckey c sks = Err InvalidSecretKeysError <-> forall x, aggregated_seckey c sks <> Ok x) /\
  aggregated_seckey c sks <> Panic.
Proof.
  apply reachable_wf in Hc. unfold pubkeys, aggregated_pubkey, aggregated_seckey.
  rewrite seckey_loop_spec, (wf_coeffs c Hc), map_length.
  set (w := fsum _).
  assert (Hw : of_Z ord (ref_seckey_sum (ordered_pubkeys c) sks) = w).
  { unfold w, ref_seckey_sum. apply weighted_ref. }
  assert (Hv : forall x : scalar Pr,
     fz x = (gacc_of (parity_acc c) * ref_seckey_sum (ordered_pubkeys c) sks + fz (tweak_acc c)) mod n_
     <-> sval x = fadd (fneg_if (parity_acc c) (fadd fzero w)) (tweak_acc c)).
  { intro x. rewrite <- Hw. transitivity (sval x = of_Z ord (gacc_of (parity_acc c) * ref_seckey_sum (ordered_pubkeys c) sks + fz (tweak_acc c))).
    - split; intro H; [apply fe_ext; rewrite fz_of_Z; exact H | rewrite H, fz_of_Z; reflexivity].
    - rewrite of_Z_add, of_Z_mul, of_Z_fz, of_Z_gacc. rewrite fneg_if_one.
      rewrite (Radd_0_l (fe_ring_theory (n := @ord Pr))). tauto. }
  assert (Hok : forall x : scalar Pr, base_mul x = pubkey c <-> gmul x = pval (pubkey c)).
  { intro x. split; intro H; [rewrite <- H, base_mul_val; reflexivity | apply point_ext; rewrite base_mul_val; exact H]. }
  destruct (Nat.leb_spec (length sks) (length (ordered_pubkeys c))) as [Hl|Hl].
  2:{ split; [intro x; split; [discriminate | lia]|]. split; [|split; [split; [discriminate | reflexivity] | discriminate]].
      intro H. rewrite <- H, map_length in Hl. lia. }
  set (v := fadd (fneg_if _ _) _) in *.
  destruct (not_zero v) as [y|] eqn:Ey.
  - apply not_zero_Some in Ey. destruct (pt_eqb (gmul y) (pubkey c)) eqn:Eq; cbn [negb].
    + apply pt_eqb_eq in Eq. split; [|split; [|split; [|discriminate]]].
      * intro x. rewrite Hv, Hok. split.
        { intro H; injection H as <-. auto. }
        { intros (_ & H1 & _). apply f_equal, scalar_ext. congruence. }
      * intros _. exists y. reflexivity.
      * split; [discriminate|]. intro H. destruct (H y eq_refl).
    + apply pt_eqb_neq in Eq. split; [|split; [|split; [split; [discriminate | reflexivity] | discriminate]]].
      * intro x. rewrite Hv, Hok. split; [discriminate|]. intros (_ & H1 & H2). exfalso. apply Eq.
        rewrite <- Ey, <- H1. exact H2.
      * intro H. exfalso. apply Eq. rewrite <- Ey. rewrite (wf_key c Hc). unfold agg_sum_of.
        rewrite (seckey_weighted _ sks _ H). fold w. unfold v.
        rewrite gmul_add. rewrite (Radd_0_l (fe_ring_theory (n := @ord Pr))).
        destruct (parity_acc c); cbn [fneg_if pneg_if]; rewrite ?gmul_neg; reflexivity.
  - apply not_zero_None in Ey. split; [|split; [|split; [split; [discriminate | reflexivity] | discriminate]]].
    + intro x. rewrite Hv, Ey. split; [discriminate|]. intros (_ & H1 & _). destruct (scalar_nz x H1).
    + intro H. exfalso. destruct (point_fin (pubkey c)). rewrite (wf_key c Hc). unfold agg_sum_of.
      rewrite (seckey_weighted _ sks _ H). fold w.
      rewrite <- gmul_0, <- Ey. unfold v. rewrite gmul_add. rewrite (Radd_0_l (fe_ring_theory (n := @ord Pr))).
      destruct (parity_acc c); cbn [fneg_if pneg_if]; rewrite ?gmul_neg; reflexivity.
Qed.
End C06_aggregated_seckey.

Lemma C06_misaligned_rejected_refuted_proof :
  exists (c : key_agg_ctx Toy) (sks : list (scalar Toy)) (x : scalar Toy),
    ctx_reachable c /\ map base_mul sks <> pubkeys c /\ aggregated_seckey c sks = Ok x.
Proof.
  destruct (is_ok_ex (aggregated_seckey toy_c [tsc 4; tsc 2; tsc 3])) as [x Hx]; [vm_compute; reflexivity|].
  exists toy_c, [tsc 4; tsc 2; tsc 3], x. split; [exact toy_c_reach|]. split; [|exact Hx].
  intro H. apply points_eqb_eq in H. vm_compute in H. discriminate.
Qed.

Section C07_context_roundtrip.
Context {Pr : prims}.
Add Ring ring_C07_context_roundtrip : (fe_ring_theory (n := @ord Pr)).
Lemma C07_context_roundtrip_proof {Laws : prims_ok Pr} (c : key_agg_ctx Pr) (tg : target) (Hc : ctx_reachable c) (Htg : 64 <= usize_bits tg) :
  ctx_from_bytes tg (ctx_to_bytes c) = Ok c.
Proof.
  apply decode_encode; [unfold wide; lia | apply reachable_wf, Hc].
Qed.
End C07_context_roundtrip.

Lemma skipn_plus {A} (a b : nat) (l : list A) : skipn (a + b) l = skipn a (skipn b l).
Proof. revert l. induction b as [|b IH]; intro l; [rewrite Nat.add_0_r; reflexivity|]. rewrite Nat.add_succ_r. destruct l; [rewrite !skipn_nil; reflexivity|]. cbn [skipn]. apply IH. Qed.

Section C07_documented_layout.
Context {Pr : prims}.
Add Ring ring_C07_documented_layout : (fe_ring_theory (n := @ord Pr)).
Lemma C07_documented_layout_proof {Laws : prims_ok Pr} (c : key_agg_ctx Pr) (Hc : ctx_reachable c) :
  let b := ctx_to_bytes c in
  let tacc := fz (tweak_acc c) in
  let o := if tacc =? 0 then 1%nat else 33%nat in
  length b = (o + 4 + 33 * length (pubkeys c))%nat /\
  int_from_bytes (firstn 1 b) = (if parity_acc c then 1 else 0) + (if tacc =? 0 then 0 else 2) /\
  (tacc <> 0 -> int_from_bytes (firstn 32 (skipn 1 b)) = tacc) /\
  int_from_bytes (firstn 4 (skipn o b)) = Z.of_nat (length (pubkeys c)) /\
  (forall i pk, nth_error (pubkeys c) i = Some pk -> firstn 33 (skipn (o + 4 + 33 * i) b) = cbytes pk).
Proof.
  intros b tacc o. apply reachable_wf in Hc. pose proof (wf_len _ Hc) as Hlen.
  assert (Ht : feqb (tweak_acc c) fzero = (tacc =? 0)) by reflexivity.
  pose (w := if tacc =? 0 then [] else ser_scalar (tweak_acc c)).
  assert (Hw : length w = (o - 1)%nat) by (unfold w, o; destruct (tacc =? 0); [reflexivity | apply ser_scalar_len]).
  assert (Ho : (1 <= o)%nat) by (unfold o; destruct (tacc =? 0); lia).
  pose (h := z2b ((if negb (tacc =? 0) then 2 else 0) + (if parity_acc c then 1 else 0))).
  assert (Eb : b = (h :: w) ++ be_enc 4 (zlen (pubkeys c)) ++ flat_map ser_point (pubkeys c)).
  { unfold b, ctx_to_bytes. rewrite Ht. fold h. unfold w, pubkeys. destruct (tacc =? 0); reflexivity. }
  assert (Hhw : length (h :: w) = o) by (cbn [length]; lia).
  clearbody b. split; [|split; [|split; [|split]]].
  - rewrite Eb, !app_length, be_enc_length, flat_map_ser_length, Hhw. lia.
  - rewrite Eb. cbn [app firstn]. change (int_from_bytes [h]) with (0 * 256 + b2z h). unfold h.
    destruct (tacc =? 0), (parity_acc c); reflexivity.
  - intro Hnz. rewrite Eb. cbn [app skipn]. unfold w. apply Z.eqb_neq in Hnz as Hnz'. rewrite Hnz'.
    rewrite firstn_app_exact by apply ser_scalar_len. apply be_dec_ser_scalar.
  - rewrite Eb, skipn_app_exact by exact Hhw. rewrite firstn_app_exact by apply be_enc_length.
    unfold int_from_bytes. rewrite be_dec_enc_small; [reflexivity|]. unfold zlen, pubkeys, u32_max in *. lia.
  - intros i pk Hi. rewrite Eb.
    assert (E : (o + 4 + 33 * i)%nat = (33 * i + (4 + o))%nat) by lia. rewrite E, !skipn_plus.
    rewrite skipn_app_exact by exact Hhw. rewrite skipn_app_exact by apply be_enc_length.
    rewrite cbytes_ser. clear - Hi Laws. revert i Hi. induction (pubkeys c) as [|P l IH]; intros [|i] Hi; try discriminate.
    + injection Hi as ->. cbn [Nat.mul skipn flat_map]. apply firstn_app_exact, ser_point_len.
    + cbn [nth_error] in Hi. assert (E : (33 * S i)%nat = (33 * i + 33)%nat) by lia. rewrite E, skipn_plus.
      cbn [flat_map]. rewrite skipn_app_exact by apply ser_point_len. apply IH, Hi.
Qed.
End C07_documented_layout.

Section C08_decoding_total_and_almost_canonical.
Context {Pr : prims}.
Add Ring ring_C08_decoding_total_and_almost_canonical : (fe_ring_theory (n := @ord Pr)).
Lemma C08_decoding_total_and_almost_canonical_proof {Laws : prims_ok Pr} (tg : target) (b : bytes) (Htg : 64 <= usize_bits tg) :
  ctx_from_bytes (Pr := Pr) tg b <> Panic /\
  (forall c, ctx_from_bytes tg b = Ok c <->
     ctx_reachable c /\
     exists h h0 rest, b = h :: rest /\ ctx_to_bytes c = h0 :: rest /\ b2z h mod 4 = b2z h0).
Proof.
  assert (Hw : wide tg) by (unfold wide; lia). split; [apply decode_no_panic, Hw|].
  intro c. split.
  - intro H. destruct (decode_Ok_bytes tg b c Hw H) as (h & H1 & H2 & H3).
    split; [eapply reach_decoded; exact H|]. exists h. rewrite ctx_to_bytes_parts in *. cbn [tl] in H1.
    eexists. eexists. split; [exact H1|]. split; [reflexivity|].
    rewrite (low_bits h), H2, H3. symmetry. apply header_val.
  - intros (Hc & h & h0 & rest & -> & H1 & H2). apply reachable_wf in Hc.
    pose proof (decode_encode_gen tg c h Hw Hc) as HH.
    rewrite H1 in HH. cbn [tl] in HH. apply HH.
    + rewrite (low_bits h) in H2. rewrite ctx_to_bytes_parts in H1. injection H1 as H1 _. rewrite <- H1, header_val in H2.
      destruct (Z.testbit (b2z h) 0), (Z.testbit (b2z h) 1), (parity_acc c), (negb (feqb (tweak_acc c) fzero)); try reflexivity; discriminate H2.
    + rewrite (low_bits h) in H2. rewrite ctx_to_bytes_parts in H1. injection H1 as H1 _. rewrite <- H1, header_val in H2.
      destruct (Z.testbit (b2z h) 0), (Z.testbit (b2z h) 1), (parity_acc c), (negb (feqb (tweak_acc c) fzero)); try reflexivity; discriminate H2.
Qed.
End C08_decoding_total_and_almost_canonical.

Lemma C08_canonical_refuted_proof :
  exists (b : bytes) (c : key_agg_ctx Toy), ctx_from_bytes target64 b = Ok c /\ ctx_to_bytes c <> b.
Proof.
  exists (xf7 :: tl (ctx_to_bytes toy_c)), toy_c. split.
  - apply decode_encode_gen; [apply wide64 | apply reachable_wf, toy_c_reach | vm_compute; reflexivity | vm_compute; reflexivity].
  - rewrite ctx_to_bytes_parts. intro H. apply (f_equal (hd x00)) in H. vm_compute in H. discriminate.
Qed.

Section C09_overflow_check_panics.
Context {Pr : prims}.
Add Ring ring_C09_overflow_check_panics : (fe_ring_theory (n := @ord Pr)).
Lemma C09_overflow_check_panics_proof :
  exists b, length b = 38%nat /\ ctx_from_bytes (Pr := Pr) (Target 32 true) b = Panic.
Proof.
  exists (x00 :: [x07; xc1; xf0; x7d] ++ zeros 33). split; reflexivity.
Qed.
End C09_overflow_check_panics.

Section C09_wrapping_panics.
Context {Pr : prims}.
Add Ring ring_C09_wrapping_panics : (fe_ring_theory (n := @ord Pr)).
Lemma C09_wrapping_panics_proof {Laws : prims_ok Pr} :
  exists b, length b = 66%nat /\ ctx_from_bytes (Pr := Pr) (Target 32 false) b = Panic.
Proof.
  exists (x02 :: ser_scalar (Pr := Pr) scalar_one ++ [x07; xc1; xf0; x7d] ++ zeros 29).
  assert (HL := ser_scalar_len (Pr := Pr) scalar_one). split.
  - cbn [length]. rewrite app_length, HL. reflexivity.
  - unfold ctx_from_bytes.
    destruct (_ <? _)%nat eqn:E1.
    { apply Nat.ltb_lt in E1. cbn [length] in E1. rewrite app_length, HL in E1. cbn in E1. lia. }
    clear E1. change (Z.testbit (b2z x02) 1) with true. cbv iota.
    destruct (ser_scalar scalar_one) as [|s0 s] eqn:Es; [discriminate HL|].
    do 31 (destruct s as [|? s]; [discriminate HL|]). destruct s; [|discriminate HL].
    unfold slice at 1. cbn [length app Nat.leb andb firstn skipn Nat.sub bind].
    rewrite <- Es, parse_scalar_ser. cbn [bind].
    unfold slice. cbn [length app Nat.leb andb firstn skipn Nat.sub Nat.add bind zeros repeat]. reflexivity.
Qed.
End C09_wrapping_panics.

Lemma C09_wrapping_accepts_wrong_count_proof :
  exists (b : bytes) (c : key_agg_ctx Toy),
    ctx_from_bytes (Target 32 false) b = Ok c /\
    be_dec (firstn 4 (skipn 1 b)) <> zlen (pubkeys c) /\
    ctx_from_bytes (Pr := Toy) target64 b = Err (BadLength (length b)).
Proof.
  pose (n := 67 * 1041204193 mod 2 ^ 32).
  pose (b := x00 :: be_enc 4 n ++ ser_point (tpt 3) ++ ser_point (tpt 3) ++ [xff]).
  destruct (is_ok_ex (ctx_from_bytes (Pr := Toy) (Target 32 false) b)) as [c Hc]; [vm_compute; reflexivity|].
  exists b, c. split; [exact Hc|]. split; [|apply err_of_eq; vm_compute; reflexivity].
  assert (Hl : zlen (pubkeys c) = 2).
  { enough (H : match ctx_from_bytes (Target 32 false) b with Ok c' => zlen (pubkeys c') | _ => 0 end = 2)
      by (rewrite Hc in H; exact H). vm_compute. reflexivity. }
  rewrite Hl. vm_compute. discriminate.
Qed.

Section C10_equality_is_identity.
Context {Pr : prims}.
Add Ring ring_C10_equality_is_identity : (fe_ring_theory (n := @ord Pr)).
Lemma C10_equality_is_identity_proof {Laws : prims_ok Pr} (c : key_agg_ctx Pr) (d : key_agg_ctx Pr) (Hc : ctx_reachable c) (Hd : ctx_reachable d) :
  ctx_eqb c d = true <-> c = d.
Proof.
  apply reachable_wf in Hc. apply reachable_wf in Hd. unfold ctx_eqb. split.
  - intro H. apply andb_true_iff in H as [H H3]. apply andb_true_iff in H as [H1 H2].
    apply points_eqb_eq in H1. apply eqb_prop in H2. apply feqb_eq in H3. apply ctx_wf_ext; assumption.
  - intros <-. rewrite (proj2 (points_eqb_eq _ _) eq_refl), feqb_refl, eqb_reflx. reflexivity.
Qed.
End C10_equality_is_identity.

Section C69_same_keys_in_another_order.
Context {Pr : prims}.
Add Ring ring_C69_same_keys_in_another_order : (fe_ring_theory (n := @ord Pr)).
Lemma C69_same_keys_in_another_order_proof {Laws : prims_ok Pr} {Tags : tags_ok Pr} (pks pks' : list (point Pr)) (c c' : key_agg_ctx Pr) (Hperm : Permutation pks pks') (Hc : key_agg_new pks = Ok c) (Hc' : key_agg_new pks' = Ok c') :
  let a := fun L (P : point Pr) => key_agg_coeff (map ser_point L) (ser_point P) in
  aggregated_pubkey c = aggregated_pubkey c' <->
  fold_right pt_add pt_O (map (fun P : point Pr => point_mul P ((a pks P - a pks' P) mod n_)) pks) = pt_O.
Proof.
  cbv zeta.
  apply key_agg_new_Ok in Hc as (_ & _ & W & Hp & Hpar & Ht), Hc' as (_ & _ & W' & Hp' & Hpar' & Ht').
  pose proof (wf_key _ W) as K. pose proof (wf_key _ W') as K'. unfold aggregated_pubkey.
  rewrite Hp, Hpar, Ht, gmul_0, add_O_r in K. rewrite Hp', Hpar', Ht', gmul_0, add_O_r in K'. cbn [pneg_if] in K, K'.
  assert (E : fold_right pt_add pt_O (map (fun P : point Pr => point_mul P
      ((key_agg_coeff (map ser_point pks) (ser_point P) - key_agg_coeff (map ser_point pks') (ser_point P)) mod n_)) pks)
    = psub (agg_sum_of pks) (agg_sum_of pks')).
  { unfold agg_sum_of. rewrite <- (psum_perm _ _ (Permutation_map (fun pk : point Pr => pmul (coeff_of pks' pk) pk) Hperm)).
    rewrite (map_ext _ (fun P : point Pr => psub (pmul (coeff_of pks P) P) (pmul (coeff_of pks' P) P))).
    - generalize (coeff_of pks), (coeff_of pks'). intros f g. generalize pks. intro l. induction l as [|P l IH]; [symmetry; apply psub_eq_O; reflexivity|].
      cbn [map fold_right]. rewrite !psum_cons, IH. unfold psub. rewrite neg_add, !add_assoc. f_equal.
      rewrite (add_comm (pt_neg _) (pt_add _ _)), !add_assoc. f_equal. apply add_comm.
    - intro P. rewrite !coeff_eq, <- pmul_sub, <- point_mul_pmul. reflexivity. }
  rewrite E, psub_eq_O, <- K, <- K'. split; [intros ->; reflexivity | apply point_ext].
Qed.
End C69_same_keys_in_another_order.

Lemma C69_order_matters_refuted_proof :
  exists (pks pks' : list (point Toy)) (c c' : key_agg_ctx Toy), Permutation pks pks' /\ pks <> pks' /\
    key_agg_new pks = Ok c /\ key_agg_new pks' = Ok c' /\ aggregated_pubkey c = aggregated_pubkey c'.
Proof.
  destruct (is_ok_ex (key_agg_new [tpt 4; tpt 7])) as [c Hc]; [vm_compute; reflexivity|].
  destruct (is_ok_ex (key_agg_new [tpt 7; tpt 4])) as [c' Hc']; [vm_compute; reflexivity|].
  exists [tpt 4; tpt 7], [tpt 7; tpt 4], c, c'. split; [apply perm_swap|]. split.
  - intro H. apply points_eqb_eq in H. vm_compute in H. discriminate.
  - split; [exact Hc|]. split; [exact Hc'|]. apply point_ext, pt_eqb_eq.
    assert (E : match key_agg_new [tpt 4; tpt 7], key_agg_new [tpt 7; tpt 4] with
                | Ok x, Ok y => pt_eqb (aggregated_pubkey x) (aggregated_pubkey y) | _, _ => false end = true) by (vm_compute; reflexivity).
    rewrite Hc, Hc' in E. exact E.
Qed.

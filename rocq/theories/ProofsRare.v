(** Proofs of the theorems of PropertiesRare.v. *)
From Coq Require Import String List.
From Verif Require Import Bytes BytesFacts Prims PrimsFacts TaggedHashes Errors SpecTags SpecBIP327
  KeyAgg Nonces Signature Signing SigAgg Bip340 SpecCtx SpecView SpecExtract Toy ToyData.
Import ListNotations.
Open Scope list_scope.
Open Scope Z_scope.
From Coq Require Import Lia.
From Verif Require Import CodecFacts KeyAggFacts SignatureFacts SpecFacts SpecSigning SessionFacts ProofsSoundness ProofsExtraction.
Open Scope Z_scope.

Section Rare.
Context {Pr : prims} {Laws : prims_ok Pr}.
Add Ring fring0 : (fe_ring_theory (n := @ord Pr)).

(** Adding k times a finite point gives any given point for exactly one k. *)
Lemma one_multiple (A B P : pt) : P <> pt_O ->
  exists k : mscalar Pr, forall b : mscalar Pr, pt_add A (pmul b P) = B <-> b = k.
Proof.
  intro HP. destruct (dlog A) as [a ->], (dlog B) as [d ->], (dlog P) as [p Ep]. subst P.
  assert (Hp : p <> fzero) by (intro F; apply HP; rewrite F; apply gmul_0).
  destruct (finv_exists ord_prime p Hp) as [q Hq].
  assert (I : forall b, pt_add (gmul a) (pmul b (gmul p)) = gmul (fadd a (fmul b p))) by (intro; now rewrite gmul_add, gmul_mul).
  exists (fmul (fsub d a) q). intro b. rewrite I. split.
  - intro H. apply gmul_inj in H. rewrite <- H. transitivity (fmul b (fmul p q)); [rewrite Hq; ring | ring].
  - intros ->. f_equal. transitivity (fadd a (fmul (fsub d a) (fmul p q))); [ring | rewrite Hq; ring].
Qed.
Lemma plain_none (c : key_agg_ctx Pr) t : with_plain_tweak c t = Err TweakError <-> pt_add (pubkey c) (gmul t) = pt_O.
Proof.
  unfold with_plain_tweak. destruct (not_inf _) as [Q|] eqn:E.
  - split; [discriminate|]. intro F. rewrite F in E. rewrite (proj2 (not_inf_None pt_O) eq_refl) in E. discriminate.
  - apply not_inf_None in E. tauto.
Qed.
Lemma xonly_none (c : key_agg_ctx Pr) t : with_xonly_tweak c t = Err TweakError <-> pt_add (to_even_y (pubkey c)) (gmul t) = pt_O.
Proof.
  unfold with_xonly_tweak, to_even_y. destruct (pt_odd (pubkey c)); cbn [negb pneg_if]; [|apply plain_none].
  unfold psub. rewrite add_comm. destruct (not_inf _) as [Q|] eqn:E.
  - split; [discriminate|]. intro F. rewrite F in E. rewrite (proj2 (not_inf_None pt_O) eq_refl) in E. discriminate.
  - apply not_inf_None in E. tauto.
Qed.
Lemma tweak_none (c : key_agg_ctx Pr) t x :
  with_tweak c t x = Err TweakError <-> pt_add (if x then to_even_y (pubkey c) else pubkey c) (gmul t) = pt_O.
Proof. destruct x; [apply xonly_none | apply plain_none]. Qed.
Lemma second_rehash h (pks : list (point Pr)) :
  @second_pubkey (with_hash Pr h) (map (rehash h) pks) = option_map (rehash h) (second_pubkey pks).
Proof.
  unfold second_pubkey. destruct pks as [|p0 rest]; [reflexivity|]. cbn [map]. induction rest as [|q l IH]; [reflexivity|].
  cbn [map find]. change (@point_eqb (with_hash Pr h) (rehash h q) (rehash h p0)) with (point_eqb q p0).
  destruct (negb (point_eqb q p0)); [reflexivity | exact IH].
Qed.
Lemma flat_rehash h (pks : list (point Pr)) :
  flat_map (@ser_point (with_hash Pr h)) (map (rehash h) pks) = flat_map (@ser_point Pr) pks.
Proof. induction pks as [|q l IH]; [reflexivity|]. cbn [map flat_map]. rewrite IH. reflexivity. Qed.
Lemma flat_len (pks : list (point Pr)) : length (flat_map (@ser_point Pr) pks) = (33 * length pks)%nat.
Proof. induction pks as [|q l IH]; [reflexivity|]. cbn [flat_map length]. rewrite app_length, IH, ser_point_len. lia. Qed.
(** The weighted sum of the keys: that of the others, and the part of [P]. *)
Lemma sum_split (P : point Pr) pks (f : point Pr -> mscalar Pr) (a x : mscalar Pr) : pval P = gmul x ->
  psum (map (fun K : point Pr => pmul (if same P K then a else f K) (pval K)) pks)
  = pt_add (psum (map (fun K => pmul (if same P K then fzero else f K) (pval K)) pks))
           (pmul a (gmul (fmul (of_Z ord (copies P pks)) x))).
Proof.
  intro Hx. unfold copies. induction pks as [|K l IH]; cbn [map filter].
  - cbn [List.length]. change (Z.of_nat 0) with 0. change (of_Z ord 0) with (fzero : mscalar Pr).
    rewrite !psum_nil, add_O_l, <- gmul_mul, <- gmul_0. apply f_equal. ring.
  - rewrite !psum_cons, IH. destruct (same P K) eqn:E.
    + apply same_iff in E as ->. cbn [List.length]. rewrite Nat2Z.inj_succ. unfold Z.succ. rewrite of_Z_add.
      change (of_Z ord 1) with (fone : mscalar Pr). rewrite pmul_0, add_O_l, Hx.
      set (A := psum _). rewrite (add_comm (pmul a (gmul x))), add_assoc. f_equal. rewrite <- !gmul_mul, <- gmul_add. apply f_equal. ring.
    + rewrite add_assoc. reflexivity.
Qed.
(** All digests but that of [P]'s coefficient being given, the sum of the weighted keys is an
    affine function of that digest. *)
Lemma world_sum {Tags : tags_ok Pr} (pks : list (point Pr)) (P : point Pr) (HP : In P pks)
  (Hsnd : get_second_key (map cbytes (map (@pval Pr) pks)) <> cbytes P) (Hcop : copies P pks mod n_ <> 0) :
  let L := tagged_hash "KeyAgg list" (concat (map cbytes (map (@pval Pr) pks))) in
  let input := sha256 (ascii_bytes "KeyAgg coefficient") ++ sha256 (ascii_bytes "KeyAgg coefficient") ++ L ++ cbytes P in
  exists A W : pt, W <> pt_O /\ forall v, length v = 32%nat ->
    let h := fun m => if bytes_eqb m input then v else sha256 m in
    prims_ok (with_hash Pr h) /\
    @agg_sum_of (with_hash Pr h) (map (rehash h) pks) = pt_add A (pmul (of_Z ord (be_dec v)) W) :> @pt Pr.
Proof.
  cbv beta zeta.
  set (input := _ ++ _).
  assert (Hin : input = KEYAGG_COEFF_TAG_DIGEST ++ KEYAGG_COEFF_TAG_DIGEST ++ hash_pubkeys pks ++ ser_point P).
  { unfold input. rewrite tag_keyagg_coeff, cbytes_ser. unfold tagged_hash, hash_pubkeys, tagged. rewrite tag_keyagg_list, flat_map_concat_map.
    do 4 f_equal. do 3 f_equal. rewrite map_map. apply map_ext. intro K. apply cbytes_ser. }
  clearbody input. destruct (dlog P) as [x Hx]. assert (Hx0 : x <> fzero) by (intros ->; apply (point_fin P); rewrite Hx; apply gmul_0).
  set (w := of_Z ord (copies P pks) : mscalar Pr).
  assert (Hw : w <> fzero) by (intro F; apply Hcop; rewrite mod_n; fold w; rewrite F; reflexivity).
  exists (psum (map (fun K => pmul (if same P K then fzero else coeff_of pks K) (pval K)) pks)), (gmul (fmul w x)).
  split; [intro F; apply gmul_eq_O in F; apply (fmul_integral ord_prime) in F; tauto|]. intros v Hv.
  set (h := fun m => if bytes_eqb m input then v else sha256 m).
  assert (LI : prims_ok (with_hash Pr h)).
  { apply with_hash_ok. intro m. unfold h. destruct (bytes_eqb m input); [exact Hv | apply sha_len]. }
  assert (Hne : pks <> []) by (intros ->; destruct HP).
  assert (Hh : forall m, @sha256 (with_hash Pr h) m = if bytes_eqb m input then v else sha256 m) by reflexivity.
  (* the coefficients in the world of [h] *)
  assert (HL : @hash_pubkeys (with_hash Pr h) (map (rehash h) pks) = hash_pubkeys pks).
  { unfold hash_pubkeys, tagged at 1. rewrite flat_rehash, Hh.
    destruct (bytes_eqb _ input) eqn:E; [|reflexivity]. exfalso. apply bytes_eqb_eq in E. apply (f_equal (@length byte)) in E.
    rewrite Hin, !app_length in E. change (length KEYAGG_LIST_TAG_DIGEST) with 32%nat in E. change (length KEYAGG_COEFF_TAG_DIGEST) with 32%nat in E.
    unfold hash_pubkeys, tagged in E. rewrite sha_len in E. rewrite ser_point_len in E.
    rewrite flat_len in E. lia. }
  assert (HC : forall K, @coeff_of (with_hash Pr h) (map (rehash h) pks) (rehash h K) = if same P K then of_Z ord (be_dec v) else coeff_of pks K).
  { intro K. unfold coeff_of, compute_key_aggregation_coefficient. rewrite second_rehash, HL.
    assert (SK : (match option_map (rehash h) (second_pubkey pks) with Some q => @point_eqb (with_hash Pr h) (rehash h K) q | None => false end)
      = match second_pubkey pks with Some q => point_eqb K q | None => false end) by (destruct (second_pubkey pks); reflexivity).
    rewrite SK. destruct (same P K) eqn:ES.
    - apply same_iff in ES as ->.
      assert (N : match second_pubkey pks with Some q => point_eqb P q | None => false end = false).
      { destruct (second_pubkey pks) as [q|] eqn:E2; [|reflexivity]. apply point_eqb_neq. intros ->. apply Hsnd.
        rewrite map_map, (map_ext _ ser_point) by (intro; apply cbytes_ser). rewrite second_key_eq, E2, cbytes_ser. reflexivity. }
      rewrite N. unfold reduce_from, tagged. change (@ser_point (with_hash Pr h) (rehash h P)) with (ser_point P).
      rewrite Hh, <- Hin, bytes_eqb_refl. reflexivity.
    - destruct (match second_pubkey pks with Some q => point_eqb K q | None => false end); [reflexivity|].
      unfold reduce_from, tagged. change (@ser_point (with_hash Pr h) (rehash h K)) with (ser_point K). rewrite Hh.
      destruct (bytes_eqb _ input) eqn:E; [|reflexivity]. exfalso. apply bytes_eqb_eq in E. rewrite Hin in E.
      do 3 apply app_inv_head in E. apply ser_point_inj in E. subst K. assert (same P P = true) by (apply same_iff; reflexivity). congruence. }
  assert (HA : @agg_sum_of (with_hash Pr h) (map (rehash h) pks)
    = @pt_add Pr (@psum Pr (map (fun K => @pmul Pr (if same P K then fzero else @coeff_of Pr pks K) (pval K)) pks)) (@pmul Pr (of_Z ord (be_dec v)) (@gmul Pr (fmul w x)))).
  { unfold agg_sum_of. rewrite map_map.
    transitivity (@psum Pr (map (fun K : point Pr => @pmul Pr (if same P K then of_Z ord (be_dec v) else coeff_of pks K) (pval K)) pks)).
    { change (@psum (with_hash Pr h)) with (@psum Pr). f_equal. apply map_ext. intro K. rewrite HC. reflexivity. }
    exact (sum_split P pks (@coeff_of Pr pks) (of_Z (@ord Pr) (be_dec v)) x Hx). }
  split; [exact LI | exact HA].
Qed.
End Rare.

Section C79_tweaks.
Context {Pr : prims}.
Add Ring ring_C79_tweaks : (fe_ring_theory (n := @ord Pr)).
Lemma C79_tweaks_proof {Laws : prims_ok Pr} {Tags : tags_ok Pr} (c : key_agg_ctx Pr) :
  let Q := aggregated_pubkey c in
  let even := if has_even_y Q then pval Q else pt_neg Q in
  exists plain xonly : Z, 1 <= plain < n_ /\ 1 <= xonly < n_ /\
    point_mul pt_G (n_ - plain) = Q /\ point_mul pt_G (n_ - xonly) = even /\
    (forall t : scalar Pr, with_plain_tweak c t = Err TweakError <-> fz t = plain) /\
    (forall t : scalar Pr, with_xonly_tweak c t = Err TweakError <-> fz t = xonly) /\
    (forall root, let d := int_from_bytes (tagged_hash "TapTweak" (xbytes Q ++ root)) in
       with_taproot_tweak c root = Err TweakError <-> d = 0 \/ n_ <= d \/ d = xonly).
Proof.
  cbv zeta. unfold aggregated_pubkey.
  assert (K : forall P : pt, P <> pt_O -> exists k : Z, 1 <= k < n_ /\ point_mul pt_G (n_ - k) = P /\
    forall t : mscalar Pr, pt_add P (gmul t) = pt_O <-> fz t = k).
  { intros P HP. destruct (dlog P) as [p ->]. exists (fz (fneg p)).
    assert (N : fz (fneg p) <> 0).
    { intro F. apply HP. apply gmul_eq_O. replace p with (fneg (fneg p)) by ring. apply fe_ext.
      replace (fneg p) with (fzero : mscalar Pr) by (symmetry; apply fe_ext; rewrite F; reflexivity). reflexivity. }
    pose proof (fz_range (fneg p)) as Rg. split; [unfold n_; lia|]. split.
    - rewrite point_mul_gmul_Z, of_Z_sub, of_Z_fz. f_equal. unfold n_. rewrite of_Z_n. ring.
    - intro t. rewrite <- gmul_add, gmul_eq_O. split.
      + intro F. f_equal. replace t with (fadd (fadd p t) (fneg p)) by ring. rewrite F. ring.
      + intro F. apply fe_ext in F. rewrite F. ring. }
  destruct (K (pubkey c) (point_fin _)) as (k & H1 & H2 & H3).
  destruct (K (to_even_y (pubkey c))) as (j & J1 & J2 & J3).
  { intro F. exact (point_fin _ (proj1 (to_even_y_eq_O _) F)). }
  exists k, j. split; [exact H1|]. split; [exact J1|]. split; [exact H2|].
  split. { rewrite J2. unfold to_even_y, has_even_y. destruct (pt_odd (pubkey c)); reflexivity. }
  split; [intro t; rewrite plain_none; apply H3|]. assert (X : forall t : scalar Pr, with_xonly_tweak c t = Err TweakError <-> fz t = j)
    by (intro t; rewrite xonly_none; apply J3).
  split; [exact X|]. intro root. unfold with_taproot_tweak, with_taproot_tweak_internal.
  assert (Ht : tagged_hash "TapTweak" (xbytes (pubkey c) ++ root) = tagged TAPROOT_TWEAK_TAG_DIGEST (pt_x (pubkey c) ++ root))
    by (unfold tagged_hash, tagged; rewrite tag_taptweak; reflexivity).
  assert (HL : length (tagged TAPROOT_TWEAK_TAG_DIGEST (pt_x (pubkey c) ++ root)) = 32%nat) by apply sha_len.
  rewrite Ht. set (h := tagged TAPROOT_TWEAK_TAG_DIGEST _) in *. clearbody h. clear Ht. unfold int_from_bytes, n_ in *.
  destruct (parse_scalar h) as [ts|] eqn:E.
  - apply parse_scalar_Some in E. subst h. rewrite be_dec_ser_scalar, X. pose proof (fz_range ts) as Rg.
    assert (fz ts <> 0) by (intro F; apply (scalar_nz ts), fe_ext; rewrite F; reflexivity). lia.
  - apply parse_scalar_None in E. split; [|reflexivity]. intros _. lia.
Qed.
End C79_tweaks.

Section C79_adapt.
Context {Pr : prims}.
Add Ring ring_C79_adapt : (fe_ring_theory (n := @ord Pr)).
Lemma C79_adapt_proof {Laws : prims_ok Pr} (sg : adaptor_sig Pr) :
  exists bad : Z, 0 <= bad < n_ /\ point_mul pt_G (- bad) = a_R sg /\
    forall t : mscalar Pr, adapt sg t = None <-> fz t = bad.
Proof.
  destruct (dlog (a_R sg)) as [r Hr]. exists (fz (fneg r)). split; [apply fz_range|]. split.
  - rewrite point_mul_gmul_Z, of_Z_opp, of_Z_fz, Hr. f_equal. ring.
  - intro t. unfold adapt. rewrite Hr, <- gmul_add. destruct (not_inf _) as [N|] eqn:E.
    + split; [discriminate|]. intro F. apply fe_ext in F. rewrite F in E.
      replace (fadd r (fneg r)) with (fzero : mscalar Pr) in E by ring. rewrite gmul_0 in E.
      rewrite (proj2 (not_inf_None pt_O) eq_refl) in E. discriminate.
    + apply not_inf_None, gmul_eq_O in E. split; [|reflexivity]. intros _. f_equal.
      replace t with (fadd (fadd r t) (fneg r)) by ring. rewrite E. ring.
Qed.
End C79_adapt.

Section C79_final_nonce.
Context {Pr : prims}.
Add Ring ring_C79_final_nonce : (fe_ring_theory (n := @ord Pr)).
Lemma C79_final_nonce_proof {Laws : prims_ok Pr} (an : agg_nonce Pr) :
  (aR2 an <> pt_O -> exists bad one : Z, 0 <= bad < n_ /\ 0 <= one < n_ /\ bad <> one /\ forall b : mscalar Pr,
     (pt_add (aR1 an) (point_mul (aR2 an) (fz b)) = pt_O <-> fz b = bad) /\
     (pval (final_nonce an b) = pt_G <-> fz b = bad \/ fz b = one) /\
     (fz b <> bad -> pval (final_nonce an b) = pt_add (aR1 an) (point_mul (aR2 an) (fz b)))) /\
  (aR2 an = pt_O -> forall b : mscalar Pr,
     pval (final_nonce an b) = (if pt_eqb (aR1 an) pt_O then pt_G else aR1 an)).
Proof.
  assert (F : forall b : mscalar Pr, pval (final_nonce an b) =
    if pt_eqb (pt_add (aR1 an) (pmul b (aR2 an))) pt_O then pt_G else pt_add (aR1 an) (pmul b (aR2 an))).
  { intro b. unfold final_nonce. destruct (not_inf _) as [N|] eqn:E.
    - apply not_inf_Some in E. rewrite E. rewrite (proj2 (pt_eqb_neq _ _) (point_fin N)). reflexivity.
    - apply not_inf_None in E. rewrite E, pt_eqb_refl. reflexivity. }
  split.
  - intro H2. destruct (one_multiple (aR1 an) pt_O (aR2 an) H2) as [k Hk], (one_multiple (aR1 an) pt_G (aR2 an) H2) as [j Hj].
    exists (fz k), (fz j). split; [apply fz_range|]. split; [apply fz_range|].
    assert (N : k <> j).
    { intros ->. pose proof (proj2 (Hk j) eq_refl) as A. pose proof (proj2 (Hj j) eq_refl) as B. rewrite A in B.
      apply G_nz. symmetry. exact B. }
    split; [intro E; apply N, fe_ext, E|]. intro b. rewrite point_mul_pmul, F, !fz_inj_iff.
    destruct (pt_eqb _ pt_O) eqn:E.
    + apply pt_eqb_eq in E. pose proof (proj1 (Hk b) E) as ->. split; [tauto|]. split; [split; auto | congruence].
    + apply pt_eqb_neq in E. split; [apply Hk|]. split; [|reflexivity]. rewrite Hj. split; [auto|].
      intros [-> | ->]; [|reflexivity]. destruct E. apply Hk. reflexivity.
  - intros H2 b. rewrite F, H2, pmul_O, add_O_r. reflexivity.
Qed.
End C79_final_nonce.

Section C79_key_aggregation.
Context {Pr : prims}.
Add Ring ring_C79_key_aggregation : (fe_ring_theory (n := @ord Pr)).
Lemma C79_key_aggregation_proof {Laws : prims_ok Pr} {Tags : tags_ok Pr} (pks : list (point Pr)) (P : point Pr) (Hlen : zlen pks <= 4294967295%Z) (HP : In P pks) (Hsnd : get_second_key (map cbytes (map (@pval Pr) pks)) <> cbytes P) (Hcop : copies P pks mod n_ <> 0) :
  let L := tagged_hash "KeyAgg list" (concat (map cbytes (map (@pval Pr) pks))) in
  let input := sha256 (ascii_bytes "KeyAgg coefficient") ++ sha256 (ascii_bytes "KeyAgg coefficient") ++ L ++ cbytes P in
  let h := fun digest m => if bytes_eqb m input then digest else sha256 m in
  exists bad : Z, 0 <= bad < n_ /\ forall digest, length digest = 32%nat ->
    (@key_agg_new (with_hash Pr (h digest)) (map (rehash (h digest)) pks) = Err KeyAggError <-> int_from_bytes digest mod n_ = bad) /\
    @key_agg_new (with_hash Pr (h digest)) (map (rehash (h digest)) pks) <> Panic.
Proof.
  cbv zeta.
  destruct (world_sum pks P HP Hsnd Hcop) as (A & W & HW & HA). cbv zeta in HA.
  set (input := sha256 (ascii_bytes "KeyAgg coefficient") ++ _) in *. clearbody input.
  destruct (one_multiple A pt_O W HW) as [k Hk].
  exists (fz k). split; [apply fz_range|]. intros v Hv. destruct (HA v Hv) as [LI HA']. clear HA. rename HA' into HA.
  set (h := fun m => if bytes_eqb m input then v else sha256 m) in *.
  assert (Hne : pks <> []) by (intros ->; destruct HP).
  assert (Hz : zlen (map (rehash h) pks) <= 4294967295%Z) by (unfold zlen in *; rewrite map_length; exact Hlen).
  assert (Hne' : map (rehash h) pks <> []) by (destruct pks; [congruence | discriminate]).
  change ((@key_agg_new (with_hash Pr h) (map (rehash h) pks) = Err KeyAggError <-> int_from_bytes v mod n_ = fz k) /\
    @key_agg_new (with_hash Pr h) (map (rehash h) pks) <> Panic).
  rewrite (@key_agg_new_eq (with_hash Pr h) _ Hne' Hz).
  destruct (@not_inf (with_hash Pr h) _) as [Q|] eqn:EQ.
  - split; [|discriminate]. split; [discriminate|]. intro F. exfalso. apply (@not_inf_Some (with_hash Pr h)) in EQ. rewrite HA in EQ.
    apply (@point_fin (with_hash Pr h) LI Q). change (@pt_O (with_hash Pr h)) with (@pt_O Pr). rewrite <- EQ. apply Hk. apply fe_ext. rewrite fz_of_Z. exact F.
  - split; [|discriminate]. split; [|reflexivity]. intros _. apply (@not_inf_None (with_hash Pr h)) in EQ. rewrite HA in EQ.
    apply Hk in EQ. rewrite <- EQ, fz_of_Z. reflexivity.
    all: exact LI.
Qed.
End C79_key_aggregation.

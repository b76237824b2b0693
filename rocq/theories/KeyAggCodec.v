(** Encoding and decoding of key aggregation contexts. *)
From Verif Require Import Bytes BytesFacts Prims PrimsFacts CodecFacts TaggedHashes Errors KeyAgg SpecCtx KeyAggFacts.
Open Scope Z_scope.

Lemma chunks_fuel_app fuel k (a : bytes) b :
  (length a = k)%nat -> (0 < k)%nat ->
  chunks_exact_fuel (S fuel) k (a ++ b) = a :: chunks_exact_fuel fuel k b.
Proof.
  intros Ha Hk. cbn [chunks_exact_fuel]. rewrite app_length.
  destruct (Nat.ltb_spec (length a + length b) k); [lia|].
  rewrite firstn_app_exact, skipn_app_exact by assumption. reflexivity.
Qed.

Lemma chunks_fuel_concat k l fuel :
  (0 < k)%nat -> Forall (fun x : bytes => length x = k) l -> (length l <= fuel)%nat ->
  chunks_exact_fuel fuel k (concat l) = l.
Proof.
  intros Hk. revert fuel. induction l as [|a l IH]; intros fuel Hl Hf.
  - destruct fuel; [reflexivity|]. cbn [concat chunks_exact_fuel length].
    destruct k; [lia|]. reflexivity.
  - apply Forall_cons_iff in Hl as [Ha Hl]. cbn [length] in Hf. destruct fuel as [|fuel]; [lia|].
    cbn [concat]. rewrite chunks_fuel_app by assumption. f_equal. apply IH; [assumption|lia].
Qed.

Lemma concat_length_const k (l : list bytes) :
  Forall (fun x => length x = k) l -> length (concat l) = (length l * k)%nat.
Proof.
  induction 1 as [|a l Ha Hl IH]; [reflexivity|]. cbn [concat length]. rewrite app_length, Ha, IH. lia.
Qed.

Lemma chunks_exact_concat k (l : list bytes) :
  (0 < k)%nat -> Forall (fun x => length x = k) l -> chunks_exact k (concat l) = l.
Proof.
  intros Hk Hl. unfold chunks_exact. apply chunks_fuel_concat; [assumption|assumption|].
  rewrite (concat_length_const k) by assumption. nia.
Qed.

(** Splitting a string whose length is a multiple of [k]. *)
Lemma split_chunks k m (b : bytes) : (0 < k)%nat -> length b = (m * k)%nat ->
  exists l, b = concat l /\ Forall (fun x => length x = k) l /\ length l = m.
Proof.
  intro Hk. revert b. induction m as [|m IH]; intros b Hb.
  - exists []. destruct b; [|discriminate]. auto.
  - destruct (IH (skipn k b)) as (l & H1 & H2 & H3); [rewrite skipn_length; lia|].
    exists (firstn k b :: l). cbn [concat length]. rewrite <- H1, firstn_skipn.
    repeat split; auto. constructor; [|assumption]. rewrite firstn_length. lia.
Qed.

(** The optional tweak field of src/key_agg.rs:569-571 as bytes. *)
Definition opt_bytes (ot : option bytes) : bytes :=
  match ot with Some tb => tb | None => [] end.

Section KeyAggCodec.
Context {Pr : prims} {Ok_ : prims_ok Pr}.

Lemma flat_map_ser_concat (pks : list (point Pr)) : flat_map ser_point pks = concat (map ser_point pks).
Proof. apply flat_map_concat_map. Qed.

Lemma map_ser_len (pks : list (point Pr)) : Forall (fun x => length x = 33%nat) (map ser_point pks).
Proof. apply Forall_map, Forall_forall. intros. apply ser_point_len. Qed.

Lemma flat_map_ser_length (pks : list (point Pr)) :
  length (flat_map ser_point pks) = (length pks * 33)%nat.
Proof. rewrite flat_map_ser_concat, (concat_length_const 33), map_length by apply map_ser_len. reflexivity. Qed.

Lemma flat_map_ser_inj (p q : list (point Pr)) : flat_map ser_point p = flat_map ser_point q -> p = q.
Proof.
  revert q. induction p as [|a p IH]; intros [|b q]; intro H.
  - reflexivity.
  - apply (f_equal (@length byte)) in H. cbn in H. discriminate.
  - apply (f_equal (@length byte)) in H. cbn in H. discriminate.
  - cbn [flat_map] in H. apply app_inj_len in H as [H1 H2]; [|rewrite !ser_point_len; reflexivity].
    apply ser_point_inj in H1. apply IH in H2. congruence.
Qed.

Lemma parse_points_Ok l (ps : list (point Pr)) : parse_points l = Ok ps <-> l = map ser_point ps.
Proof.
  revert ps. induction l as [|b l IH]; intros ps; cbn [parse_points].
  - destruct ps; cbn [map]; split; intro H; congruence.
  - destruct (parse_point b) as [P|] eqn:E.
    + apply parse_point_Some in E. split.
      * destruct (parse_points l) as [ps'| |]; cbn [bind]; try discriminate.
        intro H; injection H as <-. cbn [map]. f_equal; [assumption|]. apply IH. reflexivity.
      * destruct ps as [|Q ps]; cbn [map]; [discriminate|]. intro H; injection H as H1 H2.
        apply IH in H2. rewrite H2. cbn [bind]. do 2 f_equal. apply ser_point_inj. congruence.
    + split; [discriminate|]. destruct ps as [|Q ps]; cbn [map]; [discriminate|].
      intro H; injection H as H1 H2. rewrite H1, parse_point_ser in E. discriminate.
Qed.

Lemma parse_points_cases (l : list bytes) :
  (exists ps : list (point Pr), parse_points l = Ok ps) \/ parse_points (Pr := Pr) l = Err InvalidPoint.
Proof.
  induction l as [|b l IH]; cbn [parse_points]; [left; exists []; reflexivity|].
  destruct (parse_point b) as [P|]; [|right; reflexivity].
  destruct IH as [[ps ->] | ->]; cbn [bind]; [left; eexists; reflexivity | right; reflexivity].
Qed.

(** The header byte. *)
Definition header_byte (c : key_agg_ctx Pr) : byte :=
  z2b ((if negb (feqb (tweak_acc c) fzero) then 2 else 0) + (if parity_acc c then 1 else 0)).

Lemma header_bits (tb pb : bool) :
  Z.testbit (b2z (z2b ((if tb then 2 else 0) + (if pb then 1 else 0)))) 0 = pb /\
  Z.testbit (b2z (z2b ((if tb then 2 else 0) + (if pb then 1 else 0)))) 1 = tb.
Proof. destruct tb, pb; split; reflexivity. Qed.

(** Targets on which the product of src/key_agg.rs:609 cannot overflow: 2^32 * 33 < 2^38. *)
Definition wide (tg : target) : Prop := 38 <= usize_bits tg.

Lemma usize_mul_wide tg nb : wide tg -> length nb = 4%nat ->
  usize_mul tg (be_dec nb) 33 = Ok (be_dec nb * 33).
Proof.
  intros Hw Hn. unfold usize_mul. pose proof (be_dec_range nb) as Hr. unfold zlen in Hr. rewrite Hn in Hr.
  change (256 ^ Z.of_nat 4) with 4294967296 in Hr.
  assert (2 ^ 38 <= 2 ^ usize_bits tg) by (apply Z.pow_le_mono_r; [lia | exact Hw]).
  change (2 ^ 38) with 274877906944 in H.
  rewrite (proj2 (Z.ltb_lt _ _)) by lia. reflexivity.
Qed.

(** Parsing the optional tweak field, src/key_agg.rs:595-602. *)
Definition opt_tweak (ot : option bytes) : option (option (scalar Pr)) :=
  match ot with
  | Some tb => match parse_scalar tb with Some t => Some (Some t) | None => None end
  | None => Some None
  end.

(** Decoding, after the length check, of an input split into its parts. *)
Lemma from_bytes_parts tg h (ot : option bytes) nb rest :
  wide tg -> length nb = 4%nat ->
  match ot with Some tb => Z.testbit (b2z h) 1 = true /\ length tb = 32%nat
              | None => Z.testbit (b2z h) 1 = false end ->
  let b := h :: opt_bytes ot ++ nb ++ rest in
  (38 <= length b)%nat ->
  ctx_from_bytes tg b =
  match opt_tweak ot with
  | None => Err InvalidScalar
  | Some tw =>
    if negb (zlen rest =? be_dec nb * 33) then Err (BadLength (length b)) else
    bind (parse_points (chunks_exact 33 rest)) (fun pks =>
    bind (map_err decode_of_key_agg (key_agg_new pks)) (fun c =>
    let c := ctx_update c (if Z.testbit (b2z h) 0 then neg_point (pubkey c) else pubkey c)
                        (Z.testbit (b2z h) 0) (tweak_acc c) in
    match tw with
    | None => Ok c
    | Some t => map_err decode_of_tweak (with_plain_tweak c t)
    end))
  end.
Proof.
  intros Hw Hn Hot b Hb. unfold ctx_from_bytes.
  destruct (Nat.ltb_spec (length b) 38); [lia|].
  unfold b at 1. cbv iota.
  destruct ot as [tb|].
  - destruct Hot as [Hh Ht]. rewrite Hh.
    assert (Hs : @slice decode_error b 1 33 = Ok tb).
    { unfold slice. change (1 <=? 33)%nat with true.
      rewrite (proj2 (Nat.leb_le 33 (length b))) by lia. cbn [andb].
      unfold b. cbn [skipn opt_bytes]. rewrite firstn_app_exact by lia. reflexivity. }
    rewrite Hs. cbn [bind opt_tweak].
    destruct (parse_scalar tb) as [t|]; [|reflexivity]. cbn [bind].
    assert (Hs2 : @slice decode_error b 33 (33 + 4) = Ok nb).
    { unfold slice. change (33 <=? 33 + 4)%nat with true.
      rewrite (proj2 (Nat.leb_le _ (length b))) by lia. cbn [andb].
      unfold b. cbn [opt_bytes]. change (h :: tb ++ nb ++ rest) with ((h :: tb) ++ nb ++ rest).
      rewrite skipn_app_exact by (cbn; lia). rewrite firstn_app_exact by lia. reflexivity. }
    rewrite Hs2. cbn [bind]. rewrite usize_mul_wide by assumption. cbn [bind].
    replace (skipn (33 + 4) b) with rest.
    2:{ unfold b. cbn [opt_bytes]. change (h :: tb ++ nb ++ rest) with ((h :: tb) ++ nb ++ rest).
        rewrite app_assoc, skipn_app_exact; [reflexivity|]. rewrite app_length. cbn [length]. lia. }
    replace (zlen b - Z.of_nat (33 + 4)) with (zlen rest).
    2:{ unfold zlen, b. cbn [length opt_bytes]. rewrite !app_length. lia. }
    reflexivity.
  - rewrite Hot. cbn [bind].
    assert (Hs2 : @slice decode_error b 1 (1 + 4) = Ok nb).
    { unfold slice. change (1 <=? 1 + 4)%nat with true.
      rewrite (proj2 (Nat.leb_le _ (length b))) by lia. cbn [andb].
      unfold b. cbn [skipn app opt_bytes]. rewrite firstn_app_exact by lia. reflexivity. }
    rewrite Hs2. cbn [bind]. rewrite usize_mul_wide by assumption. cbn [bind].
    replace (skipn (1 + 4) b) with rest.
    2:{ unfold b. cbn [app Nat.add skipn opt_bytes]. symmetry. apply (skipn_app_exact nb rest 4). assumption. }
    replace (zlen b - Z.of_nat (1 + 4)) with (zlen rest).
    2:{ unfold zlen, b. cbn [length app opt_bytes]. rewrite app_length. lia. }
    reflexivity.
Qed.

(** Every long enough input splits that way. *)
Lemma split_input h b' : (38 <= length (h :: b'))%nat ->
  exists ot nb rest, length nb = 4%nat /\
    match ot with Some tb => Z.testbit (b2z h) 1 = true /\ length tb = 32%nat
                | None => Z.testbit (b2z h) 1 = false end /\
    b' = opt_bytes ot ++ nb ++ rest.
Proof.
  cbn [length]. intro Hl. destruct (Z.testbit (b2z h) 1) eqn:E.
  - exists (Some (firstn 32 b')), (firstn 4 (skipn 32 b')), (skipn 4 (skipn 32 b')).
    cbn [opt_bytes]. rewrite !firstn_length, skipn_length, !firstn_skipn. repeat split; lia.
  - exists None, (firstn 4 b'), (skipn 4 b').
    rewrite firstn_length. cbn [opt_bytes app]. rewrite firstn_skipn. repeat split; lia.
Qed.

Lemma ctx_to_bytes_parts c :
  ctx_to_bytes c =
  header_byte c :: (match not_zero (tweak_acc c) with Some t => ser_scalar t | None => [] end)
    ++ be_enc 4 (zlen (ordered_pubkeys c)) ++ flat_map ser_point (ordered_pubkeys c).
Proof.
  unfold ctx_to_bytes, header_byte. cbn [app]. f_equal. f_equal.
  destruct (not_zero (tweak_acc c)) as [t|] eqn:E.
  - apply not_zero_Some in E. rewrite E.
    rewrite (proj2 (feqb_neq _ _)) by apply scalar_nz. reflexivity.
  - apply not_zero_None in E. rewrite E, feqb_refl. reflexivity.
Qed.

Lemma update_pubkey_parity c0 (par : bool) :
  ctx_wf c0 -> parity_acc c0 = false -> tweak_acc c0 = fzero ->
  ctx_wf (ctx_update c0 (if par then neg_point (pubkey c0) else pubkey c0) par (tweak_acc c0)).
Proof.
  intros Hwf Hp Ht. destruct par; [apply neg_ctx_wf; assumption|].
  rewrite <- Hp. destruct c0; exact Hwf.
Qed.

(** The result of the final two steps of decoding is the context with the given
    keys, parity and tweak. *)
Lemma rebuild c : ctx_wf c ->
  exists c0, key_agg_new (ordered_pubkeys c) = Ok c0 /\
    let c1 := ctx_update c0 (if parity_acc c then neg_point (pubkey c0) else pubkey c0)
                         (parity_acc c) (tweak_acc c0) in
    match not_zero (tweak_acc c) with
    | None => Ok c1
    | Some t => map_err decode_of_tweak (with_plain_tweak c1 t)
    end = Ok c.
Proof.
  intro Hwf. destruct (new_of_wf c Hwf) as [c0 [E0 _]]. exists c0. split; [assumption|].
  apply key_agg_new_Ok in E0 as (_ & _ & Hwf0 & Hpk & Hp & Ht). cbv zeta.
  pose proof (update_pubkey_parity c0 (parity_acc c) Hwf0 Hp Ht) as Hwf1.
  set (c1 := ctx_update c0 (if parity_acc c then _ else _) _ _) in *.
  destruct (not_zero (tweak_acc c)) as [t|] eqn:E.
  - apply not_zero_Some in E.
    unfold with_plain_tweak.
    assert (Ek : pt_add (pubkey c1) (gmul t) = pubkey c).
    { rewrite (wf_key c1 Hwf1), (wf_key c Hwf), E. unfold c1. cbn [ctx_update parity_acc tweak_acc ordered_pubkeys].
      rewrite Ht, gmul_0, add_O_r, Hpk. reflexivity. }
    rewrite Ek, not_inf_point. cbn [map_err]. f_equal.
    apply ctx_wf_ext; try assumption; try reflexivity.
    + apply ctx_update_wf; [assumption|]. rewrite (wf_key c Hwf). unfold c1.
      cbn [ctx_update parity_acc tweak_acc ordered_pubkeys]. rewrite Ht, Hpk, E.
      do 2 f_equal. apply fe_ext. unfold fadd. rewrite fz_of_Z. unfold fzero at 1. rewrite fz_of_Z.
      rewrite Z.mod_0_l, Z.add_0_l by lia. symmetry. apply Z.mod_small. apply fz_range.
    + unfold c1. cbn [ctx_update parity_acc tweak_acc ordered_pubkeys]. rewrite Ht, E.
      apply fe_ext. unfold fadd. rewrite fz_of_Z. unfold fzero at 1. rewrite fz_of_Z.
      rewrite Z.mod_0_l, Z.add_0_l by lia. apply Z.mod_small. apply fz_range.
  - apply not_zero_None in E. f_equal.
    apply ctx_wf_ext; try assumption; unfold c1; cbn [ctx_update parity_acc tweak_acc ordered_pubkeys]; congruence.
Qed.

Lemma pks_len_bound (pks : list (point Pr)) : zlen pks <= u32_max ->
  be_dec (be_enc 4 (zlen pks)) = zlen pks.
Proof.
  intro H. apply be_dec_enc_small. change (256 ^ Z.of_nat 4) with 4294967296.
  unfold u32_max in H. unfold zlen in *. lia.
Qed.

(** Round trip, header bits 2-7 arbitrary. *)
Lemma decode_encode_gen tg c h : wide tg -> ctx_wf c ->
  Z.testbit (b2z h) 0 = parity_acc c ->
  Z.testbit (b2z h) 1 = negb (feqb (tweak_acc c) fzero) ->
  ctx_from_bytes tg (h :: tl (ctx_to_bytes c)) = Ok c.
Proof.
  intros Hw Hwf H0 H1.
  set (ot := match not_zero (tweak_acc c) with Some t => Some (ser_scalar (sval t)) | None => None end).
  assert (Hb : tl (ctx_to_bytes c) =
     opt_bytes ot
       ++ be_enc 4 (zlen (ordered_pubkeys c)) ++ flat_map ser_point (ordered_pubkeys c)).
  { rewrite ctx_to_bytes_parts. unfold ot. destruct (not_zero (tweak_acc c)); reflexivity. }
  rewrite Hb.
  refine (eq_trans (from_bytes_parts tg h ot _ _ _ _ _ _) _).
  5:{ unfold zlen at 1. rewrite flat_map_ser_length.
    rewrite pks_len_bound by apply (wf_len c Hwf). unfold zlen.
    rewrite Nat2Z.inj_mul. change (Z.of_nat 33) with 33. rewrite Z.eqb_refl. cbn [negb].
    rewrite flat_map_ser_concat, chunks_exact_concat by (try lia; apply map_ser_len).
    rewrite (proj2 (parse_points_Ok _ (ordered_pubkeys c)) eq_refl). cbn [bind].
    destruct (rebuild c Hwf) as [c0 [E0 E1]]. rewrite E0. cbn [map_err bind]. rewrite H0.
    cbv zeta in E1. unfold ot. destruct (not_zero (tweak_acc c)) as [t|].
    + unfold opt_tweak. rewrite parse_scalar_ser. exact E1.
    + exact E1. }
  - exact Hw.
  - apply be_enc_length.
  - unfold ot. destruct (not_zero (tweak_acc c)) as [t|] eqn:E.
    + apply not_zero_Some in E. rewrite H1, E, (proj2 (feqb_neq _ _)) by apply scalar_nz.
      split; [reflexivity | apply ser_scalar_len].
    + apply not_zero_None in E. rewrite H1, E, feqb_refl. reflexivity.
  - cbn [length]. rewrite !app_length, be_enc_length, flat_map_ser_length.
    pose proof (wf_nonempty c Hwf). destruct (ordered_pubkeys c); [congruence|]. cbn [length].
    lia.
Qed.

Lemma decode_encode tg c : wide tg -> ctx_wf c -> ctx_from_bytes tg (ctx_to_bytes c) = Ok c.
Proof.
  intros Hw Hwf.
  destruct (header_bits (negb (feqb (tweak_acc c) fzero)) (parity_acc c)) as [H0 H1].
  refine (eq_trans _ (decode_encode_gen tg c (header_byte c) Hw Hwf H0 H1)).
  reflexivity.
Qed.

Lemma wf_reachable c : ctx_wf c -> ctx_reachable c.
Proof.
  intro Hwf. apply (reach_decoded target64 (ctx_to_bytes c)). apply decode_encode; [|assumption].
  unfold wide, target64. cbn. lia.
Qed.

(** What acceptance says about the input. *)
Lemma decode_Ok_bytes tg b c : wide tg -> ctx_from_bytes tg b = Ok c ->
  exists h, b = h :: tl (ctx_to_bytes c) /\
    Z.testbit (b2z h) 0 = parity_acc c /\ Z.testbit (b2z h) 1 = negb (feqb (tweak_acc c) fzero).
Proof.
  intros Hw H. pose proof (from_bytes_wf tg b c H) as Hwf.
  destruct (Nat.lt_ge_cases (length b) 38) as [Hl|Hl].
  { unfold ctx_from_bytes in H. rewrite (proj2 (Nat.ltb_lt _ _)) in H by lia. discriminate. }
  destruct b as [|h b']; [cbn in Hl; lia|].
  destruct (split_input h b' Hl) as (ot & nb & rest & Hn & Hot & Hb'). subst b'.
  rewrite (from_bytes_parts tg h ot nb rest Hw Hn Hot Hl) in H.
  destruct (opt_tweak ot) as [tw'|] eqn:Etw; [|discriminate].
  destruct (Z.eqb_spec (zlen rest) (be_dec nb * 33)) as [Hz|]; cbn [negb] in H; [|discriminate].
  destruct (parse_points (chunks_exact 33 rest)) as [pks| |] eqn:Ep; cbn [bind] in H; try discriminate.
  apply parse_points_Ok in Ep.
  destruct (key_agg_new pks) as [c0| |] eqn:E0; cbn [bind map_err] in H; try discriminate.
  apply key_agg_new_Ok in E0 as (Hne & Hlen & Hwf0 & Hpk & Hp & Ht).
  set (c1 := ctx_update c0 _ _ _) in H.
  pose proof (be_dec_range nb) as Hnb.
  destruct (split_chunks 33 (Z.to_nat (be_dec nb)) rest ltac:(lia)) as (l & Hl1 & Hl2 & Hl3).
  { unfold zlen in Hz. lia. }
  assert (Hl4 : l = map ser_point pks).
  { rewrite <- Ep, Hl1. symmetry. apply chunks_exact_concat; [lia|assumption]. }
  assert (Hrest : rest = flat_map ser_point pks) by (rewrite Hl1, Hl4, flat_map_ser_concat; reflexivity).
  assert (Hnbe : nb = be_enc 4 (zlen pks)).
  { rewrite <- (be_enc_dec' 4 nb Hn). f_equal. unfold zlen.
    assert (length pks = Z.to_nat (be_dec nb)) by (rewrite <- Hl3, Hl4; symmetry; apply map_length). lia. }
  assert (Hc : ordered_pubkeys c = pks /\ parity_acc c = Z.testbit (b2z h) 0 /\
               tweak_acc c = match tw' with Some t => sval t | None => fzero end).
  { destruct tw' as [t|].
    - unfold with_plain_tweak in H. destruct (not_inf _) as [Q|]; [|discriminate].
      cbn [map_err] in H. injection H as <-. unfold c1. cbn [ctx_update ordered_pubkeys parity_acc tweak_acc].
      rewrite Ht. repeat split; try assumption.
      apply fe_ext. unfold fadd. rewrite fz_of_Z. unfold fzero at 1. rewrite fz_of_Z.
      rewrite Z.mod_0_l, Z.add_0_l by lia. apply Z.mod_small. apply fz_range.
    - injection H as <-. unfold c1. cbn [ctx_update ordered_pubkeys parity_acc tweak_acc]. auto. }
  destruct Hc as (Hc1 & Hc2 & Hc3).
  exists h. rewrite ctx_to_bytes_parts. cbn [tl]. rewrite Hc1, Hc2, Hc3, Hrest, Hnbe.
  destruct ot as [tb|].
  - destruct Hot as [Hh Htb]. unfold opt_tweak in Etw. destruct (parse_scalar tb) as [t|] eqn:Et; [|discriminate].
    injection Etw as <-. apply parse_scalar_Some in Et.
    rewrite not_zero_scalar, Et, (proj2 (feqb_neq _ _)) by apply scalar_nz. auto.
  - injection Etw as <-. rewrite (proj2 (not_zero_None fzero)) by reflexivity.
    rewrite feqb_refl. auto.
Qed.

(** No panic on wide targets. *)
Lemma decode_no_panic tg b : wide tg -> ctx_from_bytes (Pr := Pr) tg b <> Panic.
Proof.
  intros Hw H.
  destruct (Nat.lt_ge_cases (length b) 38) as [Hl|Hl].
  { unfold ctx_from_bytes in H. rewrite (proj2 (Nat.ltb_lt _ _)) in H by lia. discriminate. }
  destruct b as [|h b']; [cbn in Hl; lia|].
  destruct (split_input h b' Hl) as (ot & nb & rest & Hn & Hot & Hb'). subst b'.
  rewrite (from_bytes_parts tg h ot nb rest Hw Hn Hot Hl) in H.
  destruct (opt_tweak ot) as [tw'|] eqn:Etw; [|discriminate].
  destruct (Z.eqb_spec (zlen rest) (be_dec nb * 33)) as [Hz|]; cbn [negb] in H; [|discriminate].
  pose proof (be_dec_range nb) as Hnb. unfold zlen in Hnb. rewrite Hn in Hnb.
  change (256 ^ Z.of_nat 4) with 4294967296 in Hnb.
  destruct (parse_points_cases (chunks_exact 33 rest)) as [[pks Ep] | Ep]; rewrite Ep in H; cbn [bind] in H; [|discriminate].
  apply parse_points_Ok in Ep.
  destruct (split_chunks 33 (Z.to_nat (be_dec nb)) rest ltac:(lia)) as (l & Hl1 & Hl2 & Hl3).
  { unfold zlen in Hz. lia. }
  assert (Hl4 : l = map ser_point pks).
  { rewrite <- Ep, Hl1. symmetry. apply chunks_exact_concat; [lia|assumption]. }
  assert (Hlp : zlen pks = be_dec nb).
  { unfold zlen.
    assert (length pks = Z.to_nat (be_dec nb)) by (rewrite <- Hl3, Hl4; symmetry; apply map_length). lia. }
  destruct (key_agg_new pks) as [c0| |] eqn:E0; cbn [bind map_err] in H; try discriminate.
  - destruct tw' as [t|]; [|discriminate].
    unfold with_plain_tweak in H. destruct (not_inf _); discriminate.
  - apply key_agg_new_Panic in E0 as [E0|E0]; [|unfold u32_max in E0; lia].
    subst pks. unfold zlen in *. cbn [length] in *.
    cbn [length] in Hl. rewrite !app_length in Hl. destruct ot as [tb|]; cbn [length opt_bytes] in Hl; [destruct Hot|]; lia.
Qed.

End KeyAggCodec.

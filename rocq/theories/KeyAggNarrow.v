(** Decoding of key aggregation contexts on targets of any width. *)
From Verif Require Import Bytes BytesFacts Prims PrimsFacts CodecFacts TaggedHashes Errors KeyAgg SpecCtx KeyAggFacts KeyAggCodec.
Open Scope Z_scope.

Section Narrow.
Context {Pr : prims} {Laws : prims_ok Pr}.

(** The key count times 33 in [usize]; [None] when the multiplication panics. *)
Definition prod33 (tg : target) (k : Z) : option Z :=
  if k * 33 <? 2 ^ usize_bits tg then Some (k * 33)
  else if overflow_checks tg then None
  else Some ((k * 33) mod 2 ^ usize_bits tg).

Lemma usize_mul_prod tg k : usize_mul tg k 33 = match prod33 tg k with Some p => Ok p | None => Panic end.
Proof. unfold usize_mul, prod33. destruct (_ <? _); [reflexivity|]. destruct (overflow_checks tg); reflexivity. Qed.

Lemma parts_any tg h (ot : option bytes) nb rest :
  length nb = 4%nat ->
  match ot with Some tb => Z.testbit (b2z h) 1 = true /\ length tb = 32%nat
              | None => Z.testbit (b2z h) 1 = false end ->
  let b := h :: opt_bytes ot ++ nb ++ rest in
  (38 <= length b)%nat ->
  ctx_from_bytes tg b =
  match opt_tweak ot with
  | None => Err InvalidScalar
  | Some tw =>
    match prod33 tg (be_dec nb) with
    | None => Panic
    | Some p =>
      if negb (zlen rest =? p) then Err (BadLength (length b)) else
      bind (parse_points (chunks_exact 33 rest)) (fun pks =>
      bind (map_err decode_of_key_agg (key_agg_new pks)) (fun c =>
      let c := ctx_update c (if Z.testbit (b2z h) 0 then neg_point (pubkey c) else pubkey c)
                          (Z.testbit (b2z h) 0) (tweak_acc c) in
      match tw with
      | None => Ok c
      | Some t => map_err decode_of_tweak (with_plain_tweak c t)
      end))
    end
  end.
Proof.
  intros Hn Hot b Hb. unfold ctx_from_bytes.
  destruct (Nat.ltb_spec (length b) 38); [lia|].
  unfold b at 1. cbv iota.
  destruct ot as [tb|].
  - destruct Hot as [Hh Ht]. rewrite Hh.
    assert (Hs : @slice decode_error b 1 33 = Ok tb).
    { unfold slice. change (1 <=? 33)%nat with true.
      rewrite (proj2 (Nat.leb_le 33 (length b))) by lia. cbn [andb].
      unfold b. cbn [skipn opt_bytes]. rewrite firstn_app_exact by lia. reflexivity. }
    rewrite Hs. cbn [bind opt_tweak].
    destruct (parse_scalar tb) as [t|]; [|reflexivity]. cbn [bind].
    assert (Hs2 : @slice decode_error b 33 (33 + 4) = Ok nb).
    { unfold slice. change (33 <=? 33 + 4)%nat with true.
      rewrite (proj2 (Nat.leb_le _ (length b))) by lia. cbn [andb].
      unfold b. cbn [opt_bytes]. change (h :: tb ++ nb ++ rest) with ((h :: tb) ++ nb ++ rest).
      rewrite skipn_app_exact by (cbn; lia). rewrite firstn_app_exact by lia. reflexivity. }
    rewrite Hs2. cbn [bind]. rewrite usize_mul_prod. destruct (prod33 tg (be_dec nb)) as [p|]; [|reflexivity]. cbn [bind].
    replace (skipn (33 + 4) b) with rest.
    2:{ unfold b. cbn [opt_bytes]. change (h :: tb ++ nb ++ rest) with ((h :: tb) ++ nb ++ rest).
        rewrite app_assoc, skipn_app_exact; [reflexivity|]. rewrite app_length. cbn [length]. lia. }
    replace (zlen b - Z.of_nat (33 + 4)) with (zlen rest).
    2:{ unfold zlen, b. cbn [length opt_bytes]. rewrite !app_length. lia. }
    reflexivity.
  - rewrite Hot. cbn [bind].
    assert (Hs2 : @slice decode_error b 1 (1 + 4) = Ok nb).
    { unfold slice. change (1 <=? 1 + 4)%nat with true.
      rewrite (proj2 (Nat.leb_le _ (length b))) by lia. cbn [andb].
      unfold b. cbn [skipn app opt_bytes]. rewrite firstn_app_exact by lia. reflexivity. }
    rewrite Hs2. cbn [bind]. rewrite usize_mul_prod. destruct (prod33 tg (be_dec nb)) as [p|]; [|reflexivity]. cbn [bind].
    replace (skipn (1 + 4) b) with rest.
    2:{ unfold b. cbn [app Nat.add skipn opt_bytes]. symmetry. apply (skipn_app_exact nb rest 4). assumption. }
    replace (zlen b - Z.of_nat (1 + 4)) with (zlen rest).
    2:{ unfold zlen, b. cbn [length app opt_bytes]. rewrite app_length. lia. }
    reflexivity.
Qed.

(** Chunks of a string with a remainder. *)
Lemma chunks_fuel_short fuel k (b : bytes) : (length b < k)%nat -> chunks_exact_fuel fuel k b = [].
Proof. intro H. destruct fuel; [reflexivity|]. cbn [chunks_exact_fuel]. rewrite (proj2 (Nat.ltb_lt _ _) H). reflexivity. Qed.

Lemma chunks_fuel_junk k l junk fuel :
  (0 < k)%nat -> Forall (fun x : bytes => length x = k) l -> (length junk < k)%nat -> (length l <= fuel)%nat ->
  chunks_exact_fuel fuel k (concat l ++ junk) = l.
Proof.
  intros Hk. revert fuel. induction l as [|a l IH]; intros fuel Hl Hj Hf.
  - cbn [concat app]. apply chunks_fuel_short, Hj.
  - apply Forall_cons_iff in Hl as [Ha Hl]. cbn [length] in Hf. destruct fuel as [|fuel]; [lia|].
    cbn [concat]. rewrite <- app_assoc, chunks_fuel_app by assumption. f_equal. apply IH; [assumption|assumption|lia].
Qed.

Lemma chunks_junk k (l : list bytes) junk : (0 < k)%nat -> Forall (fun x => length x = k) l -> (length junk < k)%nat ->
  chunks_exact k (concat l ++ junk) = l.
Proof.
  intros Hk Hl Hj. unfold chunks_exact. apply chunks_fuel_junk; try assumption.
  rewrite app_length, (concat_length_const k) by assumption. nia.
Qed.

Lemma split_junk (b : bytes) : exists l junk, b = concat l ++ junk /\ Forall (fun x => length x = 33%nat) l /\ (length junk < 33)%nat.
Proof.
  pose proof (Nat.div_mod (length b) 33 ltac:(lia)) as E. pose proof (Nat.mod_upper_bound (length b) 33 ltac:(lia)) as F.
  destruct (split_chunks 33 (length b / 33) (firstn (33 * (length b / 33)) b) ltac:(lia)) as (l & H1 & H2 & H3).
  { rewrite firstn_length. lia. }
  exists l, (skipn (33 * (length b / 33)) b). rewrite <- H1, firstn_skipn. split; [reflexivity|]. split; [exact H2|].
  rewrite skipn_length. lia.
Qed.

(** The tweak field written by src/key_agg.rs:569-571: absent when the tweak is zero. *)
Definition tweak_bytes (c : key_agg_ctx Pr) : bytes :=
  if fz (tweak_acc c) =? 0 then [] else be_enc 32 (fz (tweak_acc c)).

Lemma tweak_bytes_eq c : tweak_bytes c = match not_zero (tweak_acc c) with Some t => ser_scalar t | None => [] end.
Proof.
  unfold tweak_bytes. destruct (not_zero (tweak_acc c)) as [t|] eqn:E.
  - apply not_zero_Some in E. destruct (Z.eqb_spec (fz (tweak_acc c)) 0) as [H|H].
    + destruct (scalar_nz t). rewrite <- E. apply fe_ext. exact H.
    + rewrite E. reflexivity.
  - apply not_zero_None in E. rewrite E. reflexivity.
Qed.

Lemma tweak_ot c : opt_bytes (match not_zero (tweak_acc c) with Some t => Some (ser_scalar (sval t)) | None => None end) = tweak_bytes c.
Proof. rewrite tweak_bytes_eq. destruct (not_zero (tweak_acc c)); reflexivity. Qed.

(** Acceptance on any target. *)
Lemma decode_any tg b c :
  ctx_from_bytes tg b = Ok c <->
  ctx_wf c /\ exists h cnt junk,
    b = h :: tweak_bytes c ++ cnt ++ flat_map ser_point (ordered_pubkeys c) ++ junk /\
    Z.testbit (b2z h) 0 = parity_acc c /\ Z.testbit (b2z h) 1 = negb (feqb (tweak_acc c) fzero) /\
    length cnt = 4%nat /\ (length junk < 33)%nat /\
    prod33 tg (be_dec cnt) = Some (33 * zlen (ordered_pubkeys c) + zlen junk).
Proof.
  split.
  - intro H. pose proof (from_bytes_wf tg b c H) as Hwf. split; [exact Hwf|].
    destruct (Nat.lt_ge_cases (length b) 38) as [Hl|Hl].
    { unfold ctx_from_bytes in H. rewrite (proj2 (Nat.ltb_lt _ _)) in H by lia. discriminate. }
    destruct b as [|h b']; [cbn in Hl; lia|].
    destruct (split_input h b' Hl) as (ot & nb & rest & Hn & Hot & Hb'). subst b'.
    rewrite (parts_any tg h ot nb rest Hn Hot Hl) in H.
    destruct (opt_tweak ot) as [tw'|] eqn:Etw; [|discriminate].
    destruct (prod33 tg (be_dec nb)) as [p|] eqn:Ep33; [|discriminate].
    destruct (Z.eqb_spec (zlen rest) p) as [Hz|]; cbn [negb] in H; [|discriminate].
    destruct (split_junk rest) as (l & junk & Hrest & Hll & Hj).
    rewrite Hrest, chunks_junk in H by (try assumption; lia).
    destruct (parse_points l) as [pks| |] eqn:Ep; cbn [bind] in H; try discriminate.
    apply parse_points_Ok in Ep.
    destruct (key_agg_new pks) as [c0| |] eqn:E0; cbn [bind map_err] in H; try discriminate.
    apply key_agg_new_Ok in E0 as (Hne & Hlen & Hwf0 & Hpk & Hp & Ht).
    set (c1 := ctx_update c0 _ _ _) in H.
    assert (Hc1 : ordered_pubkeys c1 = pks /\ parity_acc c1 = Z.testbit (b2z h) 0 /\ tweak_acc c1 = fzero).
    { unfold c1. cbn [ctx_update ordered_pubkeys parity_acc tweak_acc]. auto. }
    destruct Hc1 as (Hc1 & Hc2 & Hc3). clearbody c1.
    assert (Hfin : ordered_pubkeys c = pks /\ parity_acc c = Z.testbit (b2z h) 0 /\
                   negb (feqb (tweak_acc c) fzero) = Z.testbit (b2z h) 1 /\ opt_bytes ot = tweak_bytes c).
    { rewrite tweak_bytes_eq. destruct ot as [tb|]; cbn [opt_tweak opt_bytes] in *.
      - destruct Hot as [Hh Htl]. destruct (parse_scalar tb) as [t|] eqn:Es; [|discriminate].
        injection Etw as <-. apply parse_scalar_Some in Es.
        unfold with_plain_tweak in H. destruct (not_inf _) as [Q|]; cbn [map_err] in H; [|discriminate].
        injection H as <-. cbn [ctx_update ordered_pubkeys parity_acc tweak_acc]. rewrite Hc3.
        assert (E : fadd fzero (sval t) = sval t).
        { apply fe_ext. unfold fadd. rewrite fz_of_Z. unfold fzero. rewrite fz_of_Z, Z.mod_0_l, Z.add_0_l by lia.
          apply Z.mod_small, fz_range. }
        rewrite E, not_zero_scalar. rewrite (proj2 (feqb_neq _ _)) by apply scalar_nz. rewrite Hh. auto.
      - injection Etw as <-. injection H as <-. rewrite Hc3.
        rewrite (proj2 (not_zero_None _) eq_refl), feqb_refl, Hot. auto. }
    destruct Hfin as (F1 & F2 & F3 & F4).
    exists h, nb, junk. rewrite F1, F4 in *. split.
    + rewrite Hrest, Ep, flat_map_ser_concat. reflexivity.
    + split; [auto|]. split; [auto|]. split; [exact Hn|]. split; [exact Hj|]. rewrite Ep33. f_equal.
      rewrite <- Hz, Hrest, Ep, <- flat_map_ser_concat. unfold zlen. rewrite app_length, flat_map_ser_length. lia.
  - intros (Hwf & h & cnt & junk & -> & H0 & H1 & Hn & Hj & Hp).
    set (ot := match not_zero (tweak_acc c) with Some t => Some (ser_scalar (sval t)) | None => None end).
    rewrite <- tweak_ot. fold ot.
    refine (eq_trans (parts_any tg h ot cnt _ Hn _ _) _).
    3:{ rewrite Hp.
      replace (zlen (flat_map ser_point (ordered_pubkeys c) ++ junk)) with (33 * zlen (ordered_pubkeys c) + zlen junk)
        by (unfold zlen; rewrite app_length, flat_map_ser_length; lia).
      rewrite Z.eqb_refl. cbn [negb].
      rewrite flat_map_ser_concat, chunks_junk by (try lia; apply map_ser_len).
      rewrite (proj2 (parse_points_Ok _ (ordered_pubkeys c)) eq_refl). cbn [bind].
      destruct (rebuild c Hwf) as [c0 [E0 E1]]. rewrite E0. cbn [map_err bind]. rewrite H0.
      cbv zeta in E1. unfold ot. destruct (not_zero (tweak_acc c)) as [t|].
      + unfold opt_tweak. rewrite parse_scalar_ser. exact E1.
      + exact E1. }
    + unfold ot. destruct (not_zero (tweak_acc c)) as [t|] eqn:E.
      * apply not_zero_Some in E. rewrite H1, E, (proj2 (feqb_neq _ _)) by apply scalar_nz.
        split; [reflexivity | apply ser_scalar_len].
      * apply not_zero_None in E. rewrite H1, E, feqb_refl. reflexivity.
    + cbn [length]. rewrite !app_length, flat_map_ser_length.
      pose proof (wf_nonempty c Hwf). destruct (ordered_pubkeys c); [congruence|]. cbn [length]. lia.
Qed.

(** When decoding panics. *)
Lemma decode_panic_any tg b : 0 <= usize_bits tg ->
  (ctx_from_bytes (Pr := Pr) tg b = Panic <->
  exists h tb cnt rest, b = h :: tb ++ cnt ++ rest /\ (38 <= length b)%nat /\ length cnt = 4%nat /\
    (Z.testbit (b2z h) 1 = false /\ tb = [] \/
     Z.testbit (b2z h) 1 = true /\ exists t : scalar Pr, tb = ser_scalar t) /\
    (prod33 tg (be_dec cnt) = None \/ prod33 tg (be_dec cnt) = Some (zlen rest) /\ (length rest < 33)%nat)).
Proof.
  intro Hbits. split.
  - intro H. destruct (Nat.lt_ge_cases (length b) 38) as [Hl|Hl].
    { unfold ctx_from_bytes in H. rewrite (proj2 (Nat.ltb_lt _ _)) in H by lia. discriminate. }
    destruct b as [|h b']; [cbn in Hl; lia|].
    destruct (split_input h b' Hl) as (ot & nb & rest & Hn & Hot & Hb'). subst b'.
    rewrite (parts_any tg h ot nb rest Hn Hot Hl) in H.
    exists h, (opt_bytes ot), nb, rest. split; [reflexivity|]. split; [exact Hl|]. split; [exact Hn|].
    destruct (opt_tweak ot) as [tw|] eqn:Etw; [|discriminate]. split.
    { destruct ot as [tb|]; cbn [opt_tweak opt_bytes] in *; [right | left; auto].
      destruct Hot as [Hh _]. destruct (parse_scalar tb) as [t|] eqn:Es; [|discriminate].
      apply parse_scalar_Some in Es. split; [exact Hh|]. exists t. exact Es. }
    destruct (prod33 tg (be_dec nb)) as [p|] eqn:Ep33; [|auto]. right.
    destruct (Z.eqb_spec (zlen rest) p) as [Hz|]; cbn [negb] in H; [|discriminate]. split; [congruence|].
    destruct (split_junk rest) as (l & junk & Hrest & Hll & Hj).
    rewrite Hrest, chunks_junk in H by (try assumption; lia).
    destruct (parse_points_cases (Pr := Pr) l) as [[pks Ep]|Ep]; rewrite Ep in H; cbn [bind] in H; [|discriminate].
    apply parse_points_Ok in Ep.
    destruct (key_agg_new pks) as [c0| |] eqn:E0; cbn [bind map_err] in H; try discriminate.
    + exfalso. destruct tw as [t|]; [|discriminate]. unfold with_plain_tweak in H.
      destruct (not_inf _); discriminate.
    + apply key_agg_new_Panic in E0 as [E0|E0].
      * rewrite Hrest, Ep, E0. cbn [map concat app]. exact Hj.
      * exfalso. pose proof (be_dec_range nb) as Hr. unfold zlen in Hr. rewrite Hn in Hr.
        change (256 ^ Z.of_nat 4) with 4294967296 in Hr.
        assert (Hpb : p <= be_dec nb * 33).
        { unfold prod33 in Ep33. destruct (_ <? _); [injection Ep33 as <-; lia|].
          destruct (overflow_checks tg); [discriminate|]. injection Ep33 as <-. apply Z.mod_le; [lia|].
          apply Z.pow_pos_nonneg; lia. }
        assert (Hlr : zlen rest = 33 * zlen pks + zlen junk).
        { rewrite Hrest, Ep. unfold zlen. rewrite app_length, (concat_length_const 33), map_length by apply map_ser_len. lia. }
        unfold u32_max in E0. pose proof (Nat2Z.is_nonneg (length junk)). unfold zlen in *. lia.
  - intros (h & tb & cnt & rest & -> & Hl & Hn & Ht & Hp).
    assert (HA : exists ot tw, opt_bytes ot = tb /\ opt_tweak (Pr := Pr) ot = Some tw /\
       match ot with Some tb => Z.testbit (b2z h) 1 = true /\ length tb = 32%nat
              | None => Z.testbit (b2z h) 1 = false end).
    { destruct Ht as [[Hh ->] | [Hh [t ->]]].
      - exists None, None. auto.
      - exists (Some (ser_scalar t)), (Some t). cbn [opt_bytes opt_tweak]. rewrite parse_scalar_ser, ser_scalar_len. auto. }
    destruct HA as (ot & tw & <- & Etw & Hot).
    rewrite (parts_any tg h ot cnt rest Hn Hot Hl), Etw.
    destruct Hp as [-> | [-> Hr]]; [reflexivity|]. rewrite Z.eqb_refl. cbn [negb].
    replace (chunks_exact 33 rest) with (@nil bytes).
    { cbn [parse_points bind]. rewrite (proj2 (key_agg_new_Panic []) (or_introl eq_refl)). reflexivity. }
    symmetry. apply (chunks_junk 33 [] rest ltac:(lia) (Forall_nil _) Hr).
Qed.

End Narrow.

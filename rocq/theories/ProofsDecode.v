(** Proofs of the theorems of PropertiesDecode.v. *)
From Coq Require Import String List.
From Verif Require Import Bytes BytesFacts Prims PrimsFacts TaggedHashes Errors SpecTags SpecBIP327
  KeyAgg Nonces Signature Encoding SpecHex SpecCtx SpecView SpecDecode Toy ToyData ToyRounds.
Import ListNotations.
Open Scope string_scope.
Open Scope list_scope.
Open Scope Z_scope.
From Coq Require Import Lia.
From Verif Require Import CodecFacts KeyAggFacts KeyAggCodec NoncesFacts SigningFacts SignatureFacts SpecFacts EncodingFacts
  ProofsCodecs.
Open Scope list_scope.
Open Scope Z_scope.

Section Pieces.
Lemma skipn_add {A} n m (l : list A) : skipn (n + m) l = skipn m (skipn n l).
Proof. revert l. induction n as [|n IH]; intros [|a l]; cbn [Nat.add skipn]; rewrite ?skipn_nil; auto. Qed.
Lemma be_dec_one h : be_dec [h] = b2z h.
Proof. change [h] with ([] ++ [h]). rewrite be_dec_snoc. cbn. reflexivity. Qed.
Lemma bit0 z : (z mod 2 =? 1) = Z.testbit z 0.
Proof. rewrite Z.bit0_odd, Zmod_odd. destruct (Z.odd z); reflexivity. Qed.
Lemma bit1 z : ((z / 2) mod 2 =? 1) = Z.testbit z 1.
Proof. rewrite bit0, Z.div2_bits by lia. reflexivity. Qed.

Lemma take_pieces (l : list bytes) : Forall (fun x => List.length x = 33%nat) l ->
  map (fun j => firstn 33 (skipn (33 * j) (concat l))) (seq 0 (List.length l)) = l.
Proof.
  induction 1 as [|a l Ha Hl IH]; [reflexivity|]. cbn [List.length seq map concat].
  replace (33 * 0)%nat with 0%nat by reflexivity. cbn [skipn]. rewrite firstn_app_exact by exact Ha. f_equal.
  rewrite <- seq_shift, map_map. rewrite <- IH at 2. apply map_ext. intro j. f_equal.
  replace (33 * S j)%nat with (33 + 33 * j)%nat by lia.
  rewrite skipn_add. f_equal. apply skipn_app_exact. exact Ha.
Qed.

Context {Pr : prims} {Laws : prims_ok Pr} {Tags : tags_ok Pr}.
Add Ring ring_decode : (fe_ring_theory (n := @ord Pr)).

Lemma key_agg_unparsed (l : list bytes) : parse_points (Pr := Pr) l = Err InvalidPoint ->
  exists i, key_agg (Pr := Pr) l = InvalidContribution i CPubkey.
Proof.
  intro H.
  assert (D : exists (l1 : list (point Pr)) b l2, l = map ser_point l1 ++ b :: l2 /\ parse_point (Pr := Pr) b = None).
  { clear Tags. induction l as [|b l IH]; cbn [parse_points] in H; [discriminate|].
    destruct (parse_point b) as [P|] eqn:E.
    - apply parse_point_Some in E. destruct (parse_points l) as [ps|e|]; cbn [bind] in H; try discriminate.
      destruct IH as (l1 & b' & l2 & -> & Hb); [exact H|]. exists (P :: l1), b', l2. subst b. auto.
    - exists [], b, l. auto. }
  destruct D as (l1 & b & l2 & -> & Hb). unfold key_agg. rewrite key_agg_loop_bad by exact Hb.
  eexists. reflexivity.
Qed.

(** The reader on an input split into its parts. *)
Lemma read_parts h (ot : option bytes) nb rest :
  List.length nb = 4%nat ->
  match ot with Some tb => Z.testbit (b2z h) 1 = true /\ List.length tb = 32%nat
              | None => Z.testbit (b2z h) 1 = false end ->
  let b := h :: opt_bytes ot ++ nb ++ rest in
  (38 <= List.length b)%nat ->
  read_context (Pr := Pr) b =
  match opt_tweak ot with
  | None => Err InvalidScalar
  | Some tw =>
    if negb (zlen rest =? be_dec nb * 33) then Err (BadLength (List.length b)) else
    let keys := map (fun j => firstn 33 (skipn (33 * j) rest)) (seq 0 (Z.to_nat (be_dec nb))) in
    match key_agg keys with
    | Ret k =>
        let k := if Z.testbit (b2z h) 0 then KeyAggCtx (point_mul (Q_ k) (n_ - 1)) (n_ - 1) 0 else k in
        match tw with
        | Some t => match apply_tweak k (ser_scalar t) false with
                    | Ret k' => Ok (keys, k')
                    | _ => Err (Custom "serialized KeyAggContext contains an invalid tweak")
                    end
        | None => Ok (keys, k)
        end
    | AssertFailed => Err (Custom "computed an invalid aggregated key from a collection of public keys")
    | _ => Err InvalidPoint
    end
  end.
Proof.
  intros Hn Hot b Hb. unfold read_context.
  assert (Hh : int_from_bytes (firstn 1 b) = b2z h) by (unfold int_from_bytes, b; cbn [firstn]; apply be_dec_one).
  rewrite Hh, bit1, bit0. rewrite (proj2 (Z.ltb_ge _ _)) by lia.
  destruct ot as [tb|].
  - destruct Hot as [Hh1 Ht]. rewrite Hh1. cbn [andb opt_tweak].
    assert (E1 : firstn 32 (skipn 1 b) = tb) by (unfold b; cbn [skipn opt_bytes]; apply firstn_app_exact; exact Ht).
    assert (E2 : skipn 33 b = nb ++ rest).
    { change (skipn 33 b) with (skipn 32 (tb ++ nb ++ rest)). apply skipn_app_exact. exact Ht. }
    assert (E3 : firstn 4 (skipn 33 b) = nb) by (rewrite E2; apply firstn_app_exact; exact Hn).
    assert (E4 : forall j, skipn (33 + 4 + 33 * j) b = skipn (33 * j) rest).
    { intro j. rewrite skipn_add. f_equal. rewrite skipn_add, E2. apply skipn_app_exact. exact Hn. }
    rewrite E1, E3.
    destruct (parse_scalar tb) as [t|] eqn:Et.
    + apply int_scalar in Et as Et'. destruct Et' as (_ & Hr & Hv).
      rewrite (proj2 (Z.leb_le 1 _)), (proj2 (Z.ltb_lt _ n_)) by lia. cbn [negb andb].
      replace (Z.of_nat (List.length b) =? Z.of_nat 33 + 4 + 33 * int_from_bytes nb) with (zlen rest =? be_dec nb * 33).
      2:{ unfold zlen, b, int_from_bytes. cbn [List.length opt_bytes]. rewrite !app_length, Ht, Hn.
          apply eq_iff_eq_true. rewrite !Z.eqb_eq. lia. }
      destruct (negb _); [reflexivity|].
      rewrite (map_ext _ (fun j => firstn 33 (skipn (33 * j) rest))) by (intro j; rewrite E4; reflexivity).
      replace tb with (ser_scalar t) by (symmetry; apply parse_scalar_Some; exact Et). reflexivity.
    + apply int_scalar_None in Et; [|exact Ht].
      destruct (Z.leb_spec 1 (int_from_bytes tb)), (Z.ltb_spec (int_from_bytes tb) n_); cbn [andb negb]; try reflexivity. lia.
  - rewrite Hot. cbn [andb opt_tweak].
    assert (E2 : skipn 1 b = nb ++ rest) by reflexivity.
    assert (E3 : firstn 4 (skipn 1 b) = nb) by (rewrite E2; apply firstn_app_exact; exact Hn).
    assert (E4 : forall j, skipn (1 + 4 + 33 * j) b = skipn (33 * j) rest).
    { intro j. rewrite skipn_add. f_equal. rewrite skipn_add, E2. apply skipn_app_exact. exact Hn. }
    rewrite E3.
    replace (Z.of_nat (List.length b) =? Z.of_nat 1 + 4 + 33 * int_from_bytes nb) with (zlen rest =? be_dec nb * 33).
    2:{ unfold zlen, b, int_from_bytes. cbn [List.length opt_bytes]. rewrite !app_length, Hn. cbn [List.length].
        apply eq_iff_eq_true. rewrite !Z.eqb_eq. lia. }
    destruct (negb _); [reflexivity|].
    rewrite (map_ext _ (fun j => firstn 33 (skipn (33 * j) rest))) by (intro j; rewrite E4; reflexivity). reflexivity.
Qed.

Lemma ref_ctx_negated c (neg : bool) : parity_acc c = false -> tweak_acc c = fzero ->
  ref_ctx (ctx_update c (if neg then neg_point (pubkey c) else pubkey c) neg (tweak_acc c)) =
  if neg then KeyAggCtx (point_mul (Q_ (ref_ctx c)) (n_ - 1)) (n_ - 1) 0 else ref_ctx c.
Proof.
  intros Hp Ht. unfold ref_ctx, aggregated_pubkey. cbn [ctx_update pubkey parity_acc tweak_acc Q_]. rewrite Hp, Ht.
  assert (E0 : fz (fzero : mscalar Pr) = 0) by (unfold fzero; rewrite fz_of_Z; apply Z.mod_0_l; lia).
  destruct neg; rewrite ?E0; [|reflexivity].
  change (n_ - 1) with (gacc_of (Pr := Pr) true). rewrite point_mul_gacc. cbn [pneg_if]. rewrite neg_point_val. reflexivity.
Qed.

Lemma takes_length k b : takes (Pr := Pr) k b ->
  match family k with
  | 0 => List.length b = 64 \/ List.length b = 97
  | 1 => List.length b = 66
  | 2 => List.length b = 65
  | _ => exists m, List.length b = 5 + 33 * m \/ List.length b = 37 + 33 * m
  end%nat.
Proof.
  destruct k; cbn [takes family]; intros [x H].
  - pose proof (C41_secnonce_decoding_proof b) as C. cbv zeta in C. rewrite H in C. apply C.
  - pose proof (C41_pubnonce_decoding_proof b) as C. rewrite H in C. apply C.
  - pose proof (C41_aggnonce_decoding_proof b) as C. rewrite H in C. apply C.
  - pose proof (C41_compact_decoding_proof b) as C. rewrite H in C. left. apply C.
  - pose proof (C41_lifted_decoding_proof b) as C. rewrite H in C. left. apply C.
  - pose proof (C41_adaptor_decoding_proof b) as C. rewrite H in C. apply C.
  - destruct (Nat.ltb_spec (List.length b) 38) as [Hl|Hl].
    { unfold ctx_from_bytes in H. rewrite (proj2 (Nat.ltb_lt _ _)) in H by exact Hl. discriminate. }
    destruct b as [|h b']; [cbn in Hl; lia|].
    destruct (split_input h b' Hl) as (ot & nb & rest & Hn & Hot & ->).
    assert (Hw : wide target64) by (unfold wide, target64; cbn [usize_bits]; lia).
    rewrite (from_bytes_parts target64 h ot nb rest Hw Hn Hot Hl) in H.
    destruct (opt_tweak ot); [|discriminate].
    destruct (Z.eqb_spec (zlen rest) (be_dec nb * 33)) as [E|E]; cbn [negb] in H; [|discriminate].
    pose proof (be_dec_range nb). unfold zlen in E.
    exists (Z.to_nat (be_dec nb)). cbn [List.length]. rewrite !app_length, Hn.
    destruct ot as [tb|]; cbn [opt_bytes List.length]; [destruct Hot; right|left]; lia.
Qed.
Lemma takes_hex_bytes k s : takes_hex (Pr := Pr) k s -> exists b, spells s b /\ takes (Pr := Pr) k b.
Proof.
  destruct k; cbn [takes takes_hex]; intros [x H];
    try (apply from_hex_Ok in H as (b & H1 & H2 & H3); exists b; split; [assumption|exists x; assumption]).
  apply from_hex_var_Ok in H as (b & H1 & H2). exists b. split; [assumption|exists x; assumption].
Qed.
Lemma families k k' b b' : List.length b = List.length b' -> takes (Pr := Pr) k b -> takes (Pr := Pr) k' b' -> family k = family k'.
Proof.
  intros HL H H'. apply takes_length in H, H'. rewrite <- HL in H'.
  destruct k, k'; cbn [family] in *; try reflexivity; exfalso;
    repeat match goal with H : exists _, _ |- _ => destruct H end; lia.
Qed.
End Pieces.

Section C85_context_decoding.
Context {Pr : prims}.
Add Ring ring_C85_context_decoding : (fe_ring_theory (n := @ord Pr)).
Lemma C85_context_decoding_proof {Laws : prims_ok Pr} {Tags : tags_ok Pr} (tg : target) (b : bytes) (Htg : 64 <= usize_bits tg) :
  match ctx_from_bytes (Pr := Pr) tg b with
  | Ok c => read_context b = Ok (map ser_point (pubkeys c), ref_ctx c)
  | Err e => read_context (Pr := Pr) b = Err e
  | Panic => False
  end.
Proof.
  assert (Hw : wide tg) by (unfold wide; lia).
  destruct (Nat.ltb_spec (List.length b) 38) as [Hl|Hl].
  { unfold ctx_from_bytes, read_context. rewrite (proj2 (Nat.ltb_lt _ _)) by exact Hl.
    rewrite (proj2 (Z.ltb_lt _ _)) by lia. reflexivity. }
  destruct b as [|h b']; [cbn in Hl; lia|].
  destruct (split_input h b' Hl) as (ot & nb & rest & Hn & Hot & ->).
  rewrite (from_bytes_parts tg h ot nb rest Hw Hn Hot Hl), (read_parts h ot nb rest Hn Hot Hl).
  destruct (opt_tweak ot) as [tw|]; [|reflexivity].
  destruct (zlen rest =? be_dec nb * 33) eqn:El; cbn [negb]; [|reflexivity].
  apply Z.eqb_eq in El. pose proof (be_dec_range nb) as Hr.
  destruct (split_chunks 33 (Z.to_nat (be_dec nb)) rest) as (l & -> & HF & Hm); [lia|unfold zlen in El; lia|].
  rewrite chunks_exact_concat by (lia || exact HF). cbv zeta. rewrite <- Hm, take_pieces by exact HF.
  assert (Hne : l <> []).
  { intros ->. cbn [List.length] in *. cbn [concat] in Hl. rewrite app_nil_r in Hl. cbn [List.length] in Hl. rewrite app_length in Hl.
    destruct ot as [tb|]; cbn [opt_bytes List.length] in Hl; [destruct Hot|]; lia. }
  assert (Hmax : zlen l <= u32_max).
  { unfold zlen in *. rewrite Hn in Hr. change (256 ^ Z.of_nat 4) with 4294967296 in Hr. unfold u32_max. lia. }
  destruct (parse_points_cases (Pr := Pr) l) as [[ps Hps]|Hps]; rewrite Hps; cbn [bind].
  2:{ destruct (key_agg_unparsed l Hps) as [i ->]. reflexivity. }
  apply parse_points_Ok in Hps. subst l.
  destruct (key_agg_new ps) as [c0|e|] eqn:E; cbn [bind map_err].
  - rewrite (key_agg_new_ref _ _ E). apply key_agg_new_Ok in E as (_ & _ & Hwf & Hpk & Hp & Ht).
    rewrite <- (ref_ctx_negated c0 _ Hp Ht).
    set (c1 := ctx_update c0 _ _ _).
    assert (Hk : pubkeys c1 = ps) by exact Hpk.
    destruct tw as [t|].
    + pose proof (apply_tweak_eq c1 t false) as Ha. unfold with_tweak in Ha. rewrite Ha.
      destruct (with_plain_tweak c1 t) as [c2|[]|] eqn:E2; cbn [map_err].
      * assert (H3 : pubkeys c2 = ps).
        { unfold with_plain_tweak in E2. destruct (not_inf _); [|discriminate]. injection E2 as <-. exact Hk. }
        rewrite H3. reflexivity.
      * reflexivity.
      * unfold with_plain_tweak in E2. destruct (not_inf _); discriminate.
    + rewrite Hk. reflexivity.
  - rewrite (key_agg_new_ref_Err _ _ E). reflexivity.
  - apply (key_agg_new_Panic ps) in E. destruct E as [E|E]; [subst ps; apply Hne; reflexivity|].
    unfold zlen in *. rewrite map_length in Hmax. unfold u32_max in *. lia.
Qed.
End C85_context_decoding.

Section C85_types_confused.
Context {Pr : prims}.
Add Ring ring_C85_types_confused : (fe_ring_theory (n := @ord Pr)).
Lemma C85_types_confused_proof {Laws : prims_ok Pr} :
  (forall k k' b, takes (Pr := Pr) k b -> takes (Pr := Pr) k' b -> family k = family k') /\
  (forall k k' s, takes_hex (Pr := Pr) k s -> takes_hex (Pr := Pr) k' s -> family k = family k') /\
  (forall b (pn : pub_nonce Pr), pubnonce_from_bytes b = Ok pn ->
     aggnonce_from_bytes b = Ok {| aR1 := pval (pR1 pn); aR2 := pval (pR2 pn) |}) /\
  (forall b (an : agg_nonce Pr), aggnonce_from_bytes b = Ok an ->
     (takes (Pr := Pr) PublicNonce b <-> aR1 an <> pt_O /\ aR2 an <> pt_O)) /\
  (forall b (sg : lifted_sig Pr), lifted_from_bytes b = Ok sg -> compact_from_bytes b = Ok (compact sg)) /\
  (forall b (sg : compact_sig Pr), compact_from_bytes b = Ok sg ->
     (takes (Pr := Pr) Lifted b <-> exists P : pt, P <> pt_O /\ xbytes P = c_rx sg) /\
     (takes (Pr := Pr) SecretNonce b <-> 1 <= int_from_bytes (c_rx sg) < n_ /\ c_s sg <> fzero)) /\
  (forall b (sn : sec_nonce Pr), secnonce_from_bytes b = Ok sn -> List.length b = 64%nat ->
     compact_from_bytes b = Ok {| c_rx := ser_scalar (k1 sn); c_s := k2 sn |}) /\
  (forall b k, List.length b = 97%nat -> takes (Pr := Pr) k b -> k = SecretNonce).
Proof.
  split; [intros k k' b; apply families; reflexivity|].
  split.
  { intros k k' s H H'. apply takes_hex_bytes in H as (b & Hb & H), H' as (b' & Hb' & H').
    apply (families k k' b b'); [|assumption|assumption]. apply spells_length in Hb, Hb'. lia. }
  split.
  { intros b pn H. apply pubnonce_decode in H. apply aggnonce_decode. subst b. unfold pubnonce_to_bytes, aggnonce_to_bytes.
    cbn [aR1 aR2]. rewrite !ser_mpoint_point. reflexivity. }
  split.
  { intros b an H. apply aggnonce_decode in H. cbn [takes]. split.
    - intros [pn Hp]. apply pubnonce_decode in Hp.
      assert (E : aggnonce_to_bytes an = aggnonce_to_bytes {| aR1 := pval (pR1 pn); aR2 := pval (pR2 pn) |}).
      { rewrite <- H, Hp. unfold pubnonce_to_bytes, aggnonce_to_bytes. cbn [aR1 aR2]. rewrite !ser_mpoint_point. reflexivity. }
      assert (E' : an = {| aR1 := pval (pR1 pn); aR2 := pval (pR2 pn) |}).
      { pose proof (proj2 (aggnonce_decode _ an) eq_refl) as A. rewrite E in A.
        rewrite (proj2 (aggnonce_decode _ _) eq_refl) in A. injection A as <-. reflexivity. }
      subst an. cbn [aR1 aR2]. split; apply point_fin.
    - intros [H1 H2]. destruct (mpoint_cases (aR1 an)) as [E1|[P1 E1]]; [contradiction|].
      destruct (mpoint_cases (aR2 an)) as [E2|[P2 E2]]; [contradiction|].
      exists {| pR1 := P1; pR2 := P2 |}. apply pubnonce_decode. subst b.
      unfold pubnonce_to_bytes, aggnonce_to_bytes. rewrite E1, E2, !ser_mpoint_point. reflexivity. }
  split.
  { intros b sg H. apply lifted_decode in H as [-> _]. apply compact_decode. split; [reflexivity|]. apply x_len. }
  split.
  { intros b sg H. pose proof (C41_compact_decoding_proof b) as Cc. rewrite H in Cc. destruct Cc as (HL & Hs & Hx & Hv & _).
    split.
    - pose proof (C41_lifted_decoding_proof b) as Cl. cbn [takes]. rewrite Hx.
      destruct (lifted_from_bytes b) as [l|[]|] eqn:E; try contradiction.
      + split; [|intros _; eauto]. intros _. exists (l_R l). split; [apply point_fin|apply Cl].
      + exfalso. lia.
      + split; [intros [x A]; discriminate|]. intros (P & HP & A). destruct Cl as (_ & _ & Cl). destruct (Cl P HP A).
      + exfalso. lia.
    - pose proof (C41_secnonce_decoding_proof b) as Cn. cbv zeta in Cn. cbn [takes]. rewrite Hx.
      assert (Ez : c_s sg <> fzero <-> 1 <= int_from_bytes (skipn 32 b)).
      { rewrite <- Hv. pose proof (fz_range (c_s sg)) as Hr.
        assert (E0 : fz (fzero : mscalar Pr) = 0) by (unfold fzero; rewrite fz_of_Z; apply Z.mod_0_l; lia).
        split; [|intros A B; rewrite B, E0 in A; lia]. intro A. destruct (Z.eq_dec (fz (c_s sg)) 0) as [B|B]; [|lia].
        destruct A. apply fe_ext. lia. }
      assert (Ef : firstn 32 (skipn 32 b) = skipn 32 b) by (apply firstn_all2; rewrite skipn_length; lia).
      rewrite Ef in Cn.
      destruct (secnonce_from_bytes b) as [l|[]|] eqn:E; try contradiction.
      + split; [|intros _; eauto]. intros _. tauto.
      + exfalso. lia.
      + split; [intros [x A]; discriminate|]. intros (A & B). exfalso. tauto. }
  split.
  { intros b sn H HL. apply secnonce_decode in H as [_ H]. rewrite firstn_all2 in H by lia. subst b.
    apply compact_decode. split; [reflexivity|]. apply ser_scalar_len. }
  intros b k HL H. pose proof (takes_length k b H) as A. destruct k; cbn [family takes] in *; try reflexivity; exfalso; try lia.
  - destruct H as [x H]. apply compact_decode in H as [-> H]. apply compact_len in H. lia.
  - destruct H as [x H]. apply lifted_decode in H as [-> H]. rewrite lifted_len in HL. lia.
  - destruct A as [m A]. lia.
Qed.
End C85_types_confused.

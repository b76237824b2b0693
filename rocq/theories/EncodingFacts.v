(** Lemmas about the hexadecimal forms and the fixed-size encodings. *)
From Coq Require Import String List Arith Lia.
From Verif Require Import Bytes BytesFacts Prims PrimsFacts CodecFacts Errors SpecBIP327 KeyAgg Nonces Signature
  Encoding SpecHex SpecFacts SigningFacts SignatureFacts.
Import ListNotations.
Open Scope Z_scope.

(** Whether a byte that [hex_value] reads is one of the two spellings of the digit read; used to
    decide this for all 256 bytes by computation. *)
Definition digit_check (c : byte) : bool :=
  match hex_value c with
  | Some z => (0 <=? z) && (z <? 16) &&
      match nth_error lower_digits (Z.to_nat z), nth_error upper_digits (Z.to_nat z) with
      | Some a, Some b => Byte.eqb a c || Byte.eqb b c
      | _, _ => false
      end
  | None => true
  end.
Lemma digit_check_all c : digit_check c = true.
Proof. destruct c; vm_compute; reflexivity. Qed.

Lemma hex_value_digit c z : hex_value c = Some z <-> is_digit c z.
Proof.
  split.
  - intro H. pose proof (digit_check_all c) as D. unfold digit_check in D. rewrite H in D.
    apply andb_prop in D as [D1 D]. apply andb_prop in D1 as [D1 D2]. apply Z.leb_le in D1. split; [exact D1|].
    destruct (nth_error lower_digits (Z.to_nat z)) as [a|]; [|discriminate].
    destruct (nth_error upper_digits (Z.to_nat z)) as [b|]; [|discriminate].
    apply orb_prop in D as [D|D]; apply Byte.byte_dec_bl in D; subst; auto.
  - intros [H0 H]. assert (L : (Z.to_nat z < 16)%nat).
    { destruct H as [H|H]; apply (nth_error_Some_lt _ _ _ H) || idtac.
      - assert (E : nth_error lower_digits (Z.to_nat z) <> None) by congruence. apply nth_error_Some in E. exact E.
      - assert (E : nth_error upper_digits (Z.to_nat z) <> None) by congruence. apply nth_error_Some in E. exact E. }
    rewrite <- (Z2Nat.id z H0) . set (n := Z.to_nat z) in *. clearbody n. clear z H0.
    do 16 (destruct n as [|n]; [destruct H as [H|H]; injection H as <-; reflexivity|]). lia.
Qed.

Lemma digit_range c z : is_digit c z -> 0 <= z < 16.
Proof.
  intro H. apply hex_value_digit in H. pose proof (digit_check_all c) as D. unfold digit_check in D. rewrite H in D.
  apply andb_prop in D as [D1 D]. apply andb_prop in D1 as [D1 D2]. apply Z.leb_le in D1. apply Z.ltb_lt in D2. lia.
Qed.

Lemma hex_value_None c : hex_value c = None <-> forall z, ~ is_digit c z.
Proof.
  split.
  - intros H z Hz. apply hex_value_digit in Hz. congruence.
  - intro H. destruct (hex_value c) as [z|] eqn:E; [|reflexivity]. apply hex_value_digit in E. destruct (H z E).
Qed.

Lemma nibbles h l : 0 <= h < 16 -> 0 <= l < 16 ->
  b2z (z2b (16 * h + l)) / 16 = h /\ b2z (z2b (16 * h + l)) mod 16 = l.
Proof.
  intros Hh Hl. rewrite b2z_z2b, Z.mod_small by lia. split.
  - symmetry. apply (Z.div_unique_pos _ 16 h l); lia.
  - symmetry. apply (Z.mod_unique_pos _ 16 h l); lia.
Qed.

Lemma decode_spells s b : hex_decode_pairs s = Some b <-> spells s b.
Proof.
  split.
  - revert b. induction s as [s IH] using (induction_ltof1 _ (@length byte)). unfold ltof in IH.
    destruct s as [|c1 [|c2 s]]; cbn [hex_decode_pairs]; intros b H.
    + injection H as <-. constructor.
    + discriminate.
    + destruct (hex_value c1) as [h|] eqn:E1; [|discriminate]. destruct (hex_value c2) as [l|] eqn:E2; [|discriminate].
      destruct (hex_decode_pairs s) as [r|] eqn:E3; [|discriminate].
      assert (Eb : b = z2b (16 * h + l) :: r) by congruence. subst b. clear H.
      apply hex_value_digit in E1, E2. pose proof (digit_range _ _ E1). pose proof (digit_range _ _ E2).
      destruct (nibbles h l) as [N1 N2]; [assumption..|]. constructor.
      * rewrite N1. exact E1.
      * rewrite N2. exact E2.
      * apply IH; [cbn [length]; lia|exact E3].
  - induction 1 as [|c1 c2 s x b H1 H2 H IH]; [reflexivity|]. cbn [hex_decode_pairs].
    rewrite (proj2 (hex_value_digit _ _) H1), (proj2 (hex_value_digit _ _) H2), IH. do 2 f_equal.
    apply b2z_inj. rewrite b2z_z2b. pose proof (b2z_range x). pose proof (Z.div_mod (b2z x) 16 ltac:(lia)).
    rewrite Z.mod_small; lia.
Qed.

Lemma spells_length s b : spells s b -> length s = (2 * length b)%nat.
Proof. induction 1; cbn [length]; lia. Qed.

Lemma odd_double n : Nat.odd (2 * n) = false.
Proof. rewrite <- Nat.negb_even. rewrite Nat.even_mul. reflexivity. Qed.

Lemma decode_pairs_None s : Nat.odd (length s) = false ->
  (hex_decode_pairs s = None <-> has_bad_char s).
Proof.
  induction s as [s IH] using (induction_ltof1 _ (@length byte)). unfold ltof in IH. intro HO.
  destruct s as [|c1 [|c2 s]]; cbn [hex_decode_pairs].
  - split; [discriminate|]. intros (c & [] & _).
  - discriminate HO.
  - assert (IHs : hex_decode_pairs s = None <-> has_bad_char s) by (apply IH; [cbn [length]; lia|exact HO]).
    destruct (hex_value c1) as [h|] eqn:E1.
    2: { split; [intros _|reflexivity]. exists c1. split; [left; reflexivity|]. apply hex_value_None, E1. }
    destruct (hex_value c2) as [l|] eqn:E2.
    2: { split; [intros _|reflexivity]. exists c2. split; [right; left; reflexivity|]. apply hex_value_None, E2. }
    assert (HB : has_bad_char (c1 :: c2 :: s) <-> has_bad_char s).
    { split; intros (c & Hin & Hc).
      - destruct Hin as [<-|[<-|Hin]].
        + apply hex_value_None in Hc. congruence.
        + apply hex_value_None in Hc. congruence.
        + exists c. auto.
      - exists c. split; [right; right; exact Hin|exact Hc]. }
    rewrite HB, <- IHs. destruct (hex_decode_pairs s); split; congruence.
Qed.

Lemma hex_buf_Ok n s b : hex_decode_buf n s = Ok b <-> spells s b /\ (length b <= n)%nat.
Proof.
  unfold hex_decode_buf. split.
  - destruct (Nat.odd (length s)) eqn:EO; [discriminate|]. destruct (n <? length s / 2)%nat eqn:EL; [discriminate|].
    destruct (hex_decode_pairs s) as [b'|] eqn:E; [|discriminate]. intro H. injection H as ->.
    apply decode_spells in E. split; [exact E|]. apply Nat.ltb_ge in EL. rewrite (spells_length _ _ E) in EL.
    rewrite Nat.mul_comm, Nat.div_mul in EL by lia. exact EL.
  - intros [H HL]. pose proof (spells_length _ _ H) as E. rewrite E, odd_double.
    rewrite Nat.mul_comm, Nat.div_mul by lia. rewrite (proj2 (Nat.ltb_ge _ _) HL).
    rewrite (proj2 (decode_spells _ _) H). reflexivity.
Qed.
Lemma hex_vec_Ok s b : hex_decode_vec s = Ok b <-> spells s b.
Proof.
  unfold hex_decode_vec. split.
  - destruct (Nat.odd (length s)); [discriminate|].
    destruct (hex_decode_pairs s) as [b'|] eqn:E; [|discriminate]. intro H. injection H as ->. apply decode_spells, E.
  - intro H. rewrite (spells_length _ _ H), odd_double, (proj2 (decode_spells _ _) H). reflexivity.
Qed.

Lemma from_hex_Ok {A} n (f : bytes -> res decode_error A) s x :
  from_hex_fixed n f s = Ok x <-> exists b, spells s b /\ (length b <= n)%nat /\ f b = Ok x.
Proof.
  unfold from_hex_fixed. split.
  - destruct (hex_decode_buf n s) as [b| |] eqn:E; cbn [map_err bind]; try discriminate. intro H.
    apply hex_buf_Ok in E as [E1 E2]. eauto.
  - intros (b & H1 & H2 & H3). rewrite (proj2 (hex_buf_Ok n s b) (conj H1 H2)). exact H3.
Qed.
Lemma from_hex_var_Ok {A} (f : bytes -> res decode_error A) s x :
  from_hex_var f s = Ok x <-> exists b, spells s b /\ f b = Ok x.
Proof.
  unfold from_hex_var. split.
  - destruct (hex_decode_vec s) as [b| |] eqn:E; cbn [map_err bind]; try discriminate. intro H.
    apply hex_vec_Ok in E. eauto.
  - intros (b & H1 & H2). rewrite (proj2 (hex_vec_Ok s b) H1). exact H2.
Qed.

Lemma hex_encode_spells u b : spells (hex_encode u b) b.
Proof.
  induction b as [|x b IH]; [constructor|].
  unfold hex_encode. cbn [flat_map app]. fold (hex_encode u b).
  assert (D : forall z, 0 <= z < 16 -> is_digit (hex_digit u z) z).
  { intros z Hz. apply hex_value_digit. rewrite <- (Z2Nat.id z) by lia.
    assert (L : (Z.to_nat z < 16)%nat) by lia. set (n := Z.to_nat z) in *. clearbody n.
    do 16 (destruct n as [|n]; [destruct u; vm_compute; reflexivity|]). lia. }
  pose proof (b2z_range x). constructor; [| |exact IH]; apply D.
  - split; [apply Z.div_pos; lia|]. apply Z.div_lt_upper_bound; lia.
  - apply Z.mod_pos_bound. lia.
Qed.
Lemma hex_encode_alphabet u b c : In c (hex_encode u b) -> In c (if u then upper_digits else lower_digits).
Proof.
  induction b as [|x b IH]; [intros []|]. unfold hex_encode. cbn [flat_map app]. fold (hex_encode u b).
  assert (D : forall z, 0 <= z < 16 -> In (hex_digit u z) (if u then upper_digits else lower_digits)).
  { intros z Hz. rewrite <- (Z2Nat.id z) by lia.
    assert (L : (Z.to_nat z < 16)%nat) by lia. set (n := Z.to_nat z) in *. clearbody n.
    do 16 (destruct n as [|n]; [destruct u; vm_compute; tauto|]). lia. }
  pose proof (b2z_range x). intros [<-|[<-|H']]; [| |apply IH, H']; apply D.
  - split; [apply Z.div_pos; lia|]. apply Z.div_lt_upper_bound; lia.
  - apply Z.mod_pos_bound. lia.
Qed.

Lemma spells_case s s' b : spells s b -> spells s' b -> map lower_char s = map lower_char s'.
Proof.
  intro H. revert s'. induction H as [|c1 c2 s x b H1 H2 H IH]; intros s' H'; inversion H'; subst; [reflexivity|].
  assert (D : forall c d z, is_digit c z -> is_digit d z -> lower_char c = lower_char d).
  { intros c d z Hc Hd. pose proof (digit_range _ _ Hc) as R. destruct Hc as [_ Hc], Hd as [_ Hd].
    assert (L : (Z.to_nat z < 16)%nat) by lia. set (n := Z.to_nat z) in *. clearbody n.
    do 16 (destruct n as [|n]; [destruct Hc as [Hc|Hc], Hd as [Hd|Hd]; injection Hc as <-; injection Hd as <-; reflexivity|]). lia. }
  cbn [map]. f_equal; [eapply D; eassumption|]. f_equal; [eapply D; eassumption|]. apply IH. assumption.
Qed.
Lemma case_spells s s' b : map lower_char s = map lower_char s' -> spells s b -> 
  (forall c, In c s' -> exists z, is_digit c z) -> spells s' b.
Proof.
  intros E H. revert s' E. induction H as [|c1 c2 s x b H1 H2 H IH]; intros s' E HD.
  - destruct s'; [constructor|discriminate].
  - destruct s' as [|d1 [|d2 s']]; try discriminate E. cbn [map] in E. injection E as E1 E2 E3.
    assert (D : forall c d z, is_digit c z -> lower_char c = lower_char d -> (exists y, is_digit d y) -> is_digit d z).
    { intros c d z Hc Hl [y Hy]. replace z with y; [exact Hy|].
      pose proof (digit_range _ _ Hc) as Rc. pose proof (digit_range _ _ Hy) as Ry.
      apply hex_value_digit in Hc, Hy.
      assert (K : forall e w, hex_value e = Some w -> hex_value (lower_char e) = Some w).
      { intros e w. destruct e; vm_compute; auto. }
      apply K in Hc, Hy. rewrite Hl in Hc. congruence. }
    constructor.
    + eapply D; [exact H1|exact E1|]. apply HD. left. reflexivity.
    + eapply D; [exact H2|exact E2|]. apply HD. right. left. reflexivity.
    + apply IH; [exact E3|]. intros c Hc. apply HD. right. right. exact Hc.
Qed.

Section FixedCodecs.
Context {Pr : prims} {Laws : prims_ok Pr}.

Lemma secnonce_len (n : sec_nonce Pr) : length (secnonce_to_bytes n) = 64%nat.
Proof. unfold secnonce_to_bytes. rewrite app_length, !ser_scalar_len. reflexivity. Qed.
Lemma pubnonce_len (n : pub_nonce Pr) : length (pubnonce_to_bytes n) = 66%nat.
Proof. unfold pubnonce_to_bytes. rewrite app_length, !ser_point_len. reflexivity. Qed.
Lemma aggnonce_len (n : agg_nonce Pr) : length (aggnonce_to_bytes n) = 66%nat.
Proof. unfold aggnonce_to_bytes. rewrite app_length, !ser_mpoint_len. reflexivity. Qed.
Lemma compact_len (sg : compact_sig Pr) : length (c_rx sg) = 32%nat -> length (compact_to_bytes sg) = 64%nat.
Proof. intro H. unfold compact_to_bytes. rewrite app_length, H, ser_scalar_len. reflexivity. Qed.
Lemma lifted_len (sg : lifted_sig Pr) : length (lifted_to_bytes sg) = 64%nat.
Proof. apply compact_len. apply x_len. Qed.
Lemma adaptor_len (sg : adaptor_sig Pr) : length (adaptor_to_bytes sg) = 65%nat.
Proof. unfold adaptor_to_bytes. rewrite app_length, ser_mpoint_len, ser_scalar_len. reflexivity. Qed.

Lemma secnonce_decode b (n : sec_nonce Pr) :
  secnonce_from_bytes b = Ok n <-> (length b = 64 \/ length b = 97)%nat /\ firstn 64 b = secnonce_to_bytes n.
Proof.
  assert (F : firstn 64 b = firstn 32 b ++ firstn 32 (skipn 32 b)).
  { rewrite <- (firstn_skipn 32 b) at 1. rewrite firstn_app, firstn_firstn. change (Init.Nat.min 64 32) with 32%nat.
    destruct (le_lt_dec 32 (length b)) as [L|L].
    - rewrite firstn_length_le by exact L. reflexivity.
    - rewrite (skipn_all2 b) by lia. rewrite !firstn_nil. reflexivity. }
  unfold secnonce_from_bytes, secnonce_to_bytes. split.
  - destruct (Nat.eqb_spec (length b) 64) as [H1|H1]; destruct (Nat.eqb_spec (length b) 97) as [H2|H2]; cbn [negb andb]; try discriminate;
    (destruct (parse_scalar (firstn 32 b)) as [a|] eqn:E1; [|discriminate]);
    (destruct (parse_scalar (firstn 32 (skipn 32 b))) as [c|] eqn:E2; [|discriminate]);
    intro H; apply Ok_inj in H; subst n; cbn [k1 k2]; apply parse_scalar_Some in E1, E2;
    (split; [lia|rewrite F, E1, E2; reflexivity]).
  - intros [HL HE]. rewrite F in HE.
    assert (E1 : firstn 32 b = ser_scalar (k1 n)).
    { apply app_inj_len in HE as [HE _]; [exact HE|]. rewrite ser_scalar_len, firstn_length. lia. }
    assert (E2 : firstn 32 (skipn 32 b) = ser_scalar (k2 n)).
    { apply app_inj_len in HE as [_ HE]; [exact HE|]. rewrite ser_scalar_len, firstn_length. lia. }
    rewrite E1, E2, !parse_scalar_ser.
    destruct (Nat.eqb_spec (length b) 64), (Nat.eqb_spec (length b) 97); cbn [negb andb]; try lia; destruct n; reflexivity.
Qed.

Lemma pubnonce_decode b (n : pub_nonce Pr) : pubnonce_from_bytes b = Ok n <-> b = pubnonce_to_bytes n.
Proof.
  unfold pubnonce_from_bytes. split.
  - destruct (Nat.eqb_spec (length b) 66) as [H|H]; cbn [negb]; [|discriminate].
    destruct (parse_point (firstn 33 b)) as [P|] eqn:E1; [|discriminate].
    destruct (parse_point (skipn 33 b)) as [Q|] eqn:E2; [|discriminate]. intro HH; apply Ok_inj in HH; subst n.
    apply parse_point_Some in E1, E2. unfold pubnonce_to_bytes. cbn [pR1 pR2]. rewrite <- E1, <- E2. symmetry. apply firstn_skipn.
  - intros ->. rewrite pubnonce_len. cbn [Nat.eqb negb]. unfold pubnonce_to_bytes.
    rewrite firstn_app_exact, skipn_app_exact by apply ser_point_len. rewrite !parse_point_ser. destruct n; reflexivity.
Qed.
Lemma aggnonce_decode b (n : agg_nonce Pr) : aggnonce_from_bytes b = Ok n <-> b = aggnonce_to_bytes n.
Proof.
  unfold aggnonce_from_bytes. split.
  - destruct (Nat.eqb_spec (length b) 66) as [H|H]; cbn [negb]; [|discriminate].
    destruct (parse_mpoint (firstn 33 b)) as [P|] eqn:E1; [|discriminate].
    destruct (parse_mpoint (skipn 33 b)) as [Q|] eqn:E2; [|discriminate]. intro HH; apply Ok_inj in HH; subst n.
    apply parse_mpoint_Some in E1, E2. unfold aggnonce_to_bytes. cbn [aR1 aR2]. rewrite <- E1, <- E2. symmetry. apply firstn_skipn.
  - intros ->. rewrite aggnonce_len. cbn [Nat.eqb negb]. unfold aggnonce_to_bytes.
    rewrite firstn_app_exact, skipn_app_exact by apply ser_mpoint_len. rewrite !parse_mpoint_ser. destruct n; reflexivity.
Qed.

Lemma cpoint_none b : parse_point (Pr := Pr) b = None <-> cpoint (Pr := Pr) b = ValueError.
Proof. rewrite cpoint_parse. destruct (parse_point b); split; congruence. Qed.
Lemma cpoint_ext_none b : parse_mpoint (Pr := Pr) b = None <-> cpoint_ext (Pr := Pr) b = ValueError.
Proof. rewrite cpoint_ext_parse. destruct (parse_mpoint b); split; congruence. Qed.

End FixedCodecs.

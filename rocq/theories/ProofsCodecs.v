(** Proofs of the theorems of PropertiesCodecs.v. *)
From Coq Require Import String List.
From Verif Require Import Bytes BytesFacts Prims PrimsFacts Errors SpecBIP327
  KeyAgg Nonces Signature Encoding SpecHex SpecCtx Toy ToyData ToyRounds.
Import ListNotations.
Open Scope list_scope.
Open Scope Z_scope.
From Coq Require Import Lia.
From Verif Require Import CodecFacts KeyAggFacts SigningFacts SignatureFacts SpecFacts EncodingFacts.

Section Helpers.
Context {Pr : prims} {Laws : prims_ok Pr}.

Lemma int_mscalar b (a : mscalar Pr) : parse_mscalar b = Some a <->
  length b = 32%nat /\ int_from_bytes b < n_ /\ fz a = int_from_bytes b.
Proof.
  split.
  - intro H. apply parse_mscalar_Some in H. subst b. rewrite int_ser, ser_scalar_len. pose proof (fz_n a). auto.
  - intros (HL & HR & E). apply parse_mscalar_Some. unfold ser_scalar. rewrite E. unfold int_from_bytes.
    rewrite <- HL. symmetry. apply be_enc_dec.
Qed.
Lemma int_scalar b (a : scalar Pr) : parse_scalar b = Some a <->
  length b = 32%nat /\ 1 <= int_from_bytes b < n_ /\ fz (sval a) = int_from_bytes b.
Proof.
  unfold parse_scalar. split.
  - destruct (parse_mscalar b) as [m|] eqn:E; [|discriminate]. intro H. apply not_zero_Some in H. subst m.
    apply int_mscalar in E as (H1 & H2 & H3). split; [exact H1|]. split; [|exact H3]. split; [|exact H2].
    pose proof (fz_range (sval a)). assert (fz (sval a) <> 0); [|lia]. intro E0. apply (scalar_nz a).
    apply fe_ext. rewrite E0. symmetry. apply fz_of_Z.
  - intros (H1 & H2 & H3). rewrite (proj2 (int_mscalar b (sval a))) by (split; [exact H1|split; [lia|exact H3]]).
    apply not_zero_scalar.
Qed.
Lemma int_mscalar_None b : length b = 32%nat -> parse_mscalar (Pr := Pr) b = None -> n_ <= int_from_bytes b.
Proof. intros HL H. apply parse_mscalar_None in H as [H|H]; [contradiction|exact H]. Qed.
Lemma int_scalar_None b : length b = 32%nat -> parse_scalar (Pr := Pr) b = None -> ~ 1 <= int_from_bytes b < n_.
Proof.
  intros HL H. apply parse_scalar_None in H as [H|[H|H]]; [contradiction| |]; unfold int_from_bytes, n_; lia.
Qed.
Lemma cpoint_some b (P : point Pr) : parse_point b = Some P -> cpoint b = Ret (pval P).
Proof. intro H. rewrite cpoint_parse, H. reflexivity. Qed.
Lemma cpoint_ext_some b (P : pt) : parse_mpoint b = Some P -> cpoint_ext b = Ret P.
Proof. intro H. rewrite cpoint_ext_parse, H. reflexivity. Qed.
End Helpers.

Section C40_round_trips.
Context {Pr : prims}.
Add Ring ring_C40_round_trips : (fe_ring_theory (n := @ord Pr)).
Lemma C40_round_trips_proof {Laws : prims_ok Pr} (sn : sec_nonce Pr) (pn : pub_nonce Pr) (an : agg_nonce Pr) (cs : compact_sig Pr) (ls : lifted_sig Pr) (ads : adaptor_sig Pr) (Hc : length (c_rx cs) = 32%nat) (Hl : has_even_y (l_R ls) = true) :
  (secnonce_from_bytes (secnonce_to_bytes sn) = Ok sn /\ length (secnonce_to_bytes sn) = 64%nat) /\
  (pubnonce_from_bytes (pubnonce_to_bytes pn) = Ok pn /\ length (pubnonce_to_bytes pn) = 66%nat) /\
  (aggnonce_from_bytes (aggnonce_to_bytes an) = Ok an /\ length (aggnonce_to_bytes an) = 66%nat) /\
  (compact_from_bytes (compact_to_bytes cs) = Ok cs /\ length (compact_to_bytes cs) = 64%nat) /\
  (lifted_from_bytes (lifted_to_bytes ls) = Ok ls /\ length (lifted_to_bytes ls) = 64%nat) /\
  (adaptor_from_bytes (adaptor_to_bytes ads) = Ok ads /\ length (adaptor_to_bytes ads) = 65%nat).
Proof.
  split; [split|split; [split|split; [split|split; [split|split; split]]]].
  - apply secnonce_decode. rewrite secnonce_len. split; [auto|]. apply firstn_all2. rewrite secnonce_len. auto.
  - apply secnonce_len.
  - apply pubnonce_decode. reflexivity.
  - apply pubnonce_len.
  - apply aggnonce_decode. reflexivity.
  - apply aggnonce_len.
  - apply compact_decode. auto.
  - apply compact_len, Hc.
  - apply lifted_decode. unfold has_even_y in Hl. apply Bool.negb_true_iff in Hl. auto.
  - apply lifted_len.
  - apply adaptor_decode. reflexivity.
  - apply adaptor_len.
Qed.
End C40_round_trips.

Section C41_secnonce_decoding.
Context {Pr : prims}.
Add Ring ring_C41_secnonce_decoding : (fe_ring_theory (n := @ord Pr)).
Lemma C41_secnonce_decoding_proof {Laws : prims_ok Pr} (b : bytes) :
  let i1 := int_from_bytes (firstn 32 b) in
  let i2 := int_from_bytes (firstn 32 (skipn 32 b)) in
  match secnonce_from_bytes (Pr := Pr) b with
  | Ok sn => (length b = 64 \/ length b = 97)%nat /\ 1 <= i1 < n_ /\ 1 <= i2 < n_ /\
      fz (sval (k1 sn)) = i1 /\ fz (sval (k2 sn)) = i2 /\ secnonce_to_bytes sn = firstn 64 b
  | Err (BadLength n) => n = length b /\ n <> 64%nat /\ n <> 97%nat
  | Err InvalidScalar => (length b = 64 \/ length b = 97)%nat /\ ~ (1 <= i1 < n_ /\ 1 <= i2 < n_)
  | _ => False
  end.
Proof.
  intros i1 i2. destruct (secnonce_from_bytes b) as [sn|e|] eqn:ED.
  - pose proof (proj1 (secnonce_decode _ _) ED) as [HL HE]. split; [exact HL|].
    unfold secnonce_from_bytes in ED. destruct (negb _ && negb _)%bool; [discriminate|].
    destruct (parse_scalar (firstn 32 b)) as [a|] eqn:E1; [|discriminate].
    destruct (parse_scalar (firstn 32 (skipn 32 b))) as [c|] eqn:E2; [|discriminate].
    apply Ok_inj in ED. subst sn. cbn [k1 k2]. apply int_scalar in E1 as (_ & R1 & F1). apply int_scalar in E2 as (_ & R2 & F2).
    fold i1 in R1, F1. fold i2 in R2, F2. auto 10.
  - unfold secnonce_from_bytes in ED.
    destruct (Nat.eqb_spec (length b) 64) as [H1|H1]; destruct (Nat.eqb_spec (length b) 97) as [H2|H2]; cbn [negb andb] in ED;
      try (exfalso; lia).
    3: { assert (e = BadLength (length b)) by congruence. subst e. auto. }
    all: assert (L1 : length (firstn 32 b) = 32%nat) by (rewrite firstn_length; lia).
    all: assert (L2 : length (firstn 32 (skipn 32 b)) = 32%nat) by (rewrite firstn_length, skipn_length; lia).
    all: destruct (parse_scalar (firstn 32 b)) as [a|] eqn:E1;
         [destruct (parse_scalar (firstn 32 (skipn 32 b))) as [c|] eqn:E2; [discriminate|]|];
         assert (e = InvalidScalar) by congruence; subst e.
    1, 3: apply int_scalar_None in E2; [|exact L2]; fold i2 in E2; tauto.
    all: apply int_scalar_None in E1; [|exact L1]; fold i1 in E1; tauto.
  - unfold secnonce_from_bytes in ED. destruct (negb _ && negb _)%bool; [discriminate|].
    destruct (parse_scalar (firstn 32 b)); [|discriminate].
    destruct (parse_scalar (firstn 32 (skipn 32 b))); discriminate.
Qed.
End C41_secnonce_decoding.

Section C41_pubnonce_decoding.
Context {Pr : prims}.
Add Ring ring_C41_pubnonce_decoding : (fe_ring_theory (n := @ord Pr)).
Lemma C41_pubnonce_decoding_proof {Laws : prims_ok Pr} (b : bytes) :
  match pubnonce_from_bytes (Pr := Pr) b with
  | Ok pn => length b = 66%nat /\ cpoint (firstn 33 b) = Ret (pval (pR1 pn)) /\
      cpoint (skipn 33 b) = Ret (pval (pR2 pn)) /\ pubnonce_to_bytes pn = b
  | Err (BadLength n) => n = length b /\ n <> 66%nat
  | Err InvalidPoint => length b = 66%nat /\
      (cpoint (Pr := Pr) (firstn 33 b) = ValueError \/ cpoint (Pr := Pr) (skipn 33 b) = ValueError)
  | _ => False
  end.
Proof.
  destruct (pubnonce_from_bytes b) as [pn|e|] eqn:ED.
  - pose proof (proj1 (pubnonce_decode _ _) ED) as ->. unfold pubnonce_to_bytes.
    rewrite firstn_app_exact, skipn_app_exact by apply ser_point_len.
    rewrite !cpoint_ser. split; [apply (pubnonce_len pn)|auto].
  - unfold pubnonce_from_bytes in ED. destruct (Nat.eqb_spec (length b) 66) as [H|H]; cbn [negb] in ED.
    + destruct (parse_point (firstn 33 b)) as [P|] eqn:E1; [destruct (parse_point (skipn 33 b)) as [Q|] eqn:E2; [discriminate|]|];
        assert (e = InvalidPoint) by congruence; subst e; (split; [exact H|]).
      * right. apply cpoint_none, E2.
      * left. apply cpoint_none, E1.
    + assert (e = BadLength (length b)) by congruence. subst e. auto.
  - unfold pubnonce_from_bytes in ED. destruct (negb _); [discriminate|].
    destruct (parse_point (firstn 33 b)); [|discriminate]. destruct (parse_point (skipn 33 b)); discriminate.
Qed.
End C41_pubnonce_decoding.

Section C41_aggnonce_decoding.
Context {Pr : prims}.
Add Ring ring_C41_aggnonce_decoding : (fe_ring_theory (n := @ord Pr)).
Lemma C41_aggnonce_decoding_proof {Laws : prims_ok Pr} (b : bytes) :
  match aggnonce_from_bytes (Pr := Pr) b with
  | Ok an => length b = 66%nat /\ cpoint_ext (firstn 33 b) = Ret (aR1 an) /\
      cpoint_ext (skipn 33 b) = Ret (aR2 an) /\ aggnonce_to_bytes an = b
  | Err (BadLength n) => n = length b /\ n <> 66%nat
  | Err InvalidPoint => length b = 66%nat /\
      (cpoint_ext (Pr := Pr) (firstn 33 b) = ValueError \/ cpoint_ext (Pr := Pr) (skipn 33 b) = ValueError)
  | _ => False
  end.
Proof.
  destruct (aggnonce_from_bytes b) as [an|e|] eqn:ED.
  - pose proof (proj1 (aggnonce_decode _ _) ED) as ->. unfold aggnonce_to_bytes.
    rewrite firstn_app_exact, skipn_app_exact by apply ser_mpoint_len.
    rewrite !cpoint_ext_ser. split; [apply (aggnonce_len an)|auto].
  - unfold aggnonce_from_bytes in ED. destruct (Nat.eqb_spec (length b) 66) as [H|H]; cbn [negb] in ED.
    + destruct (parse_mpoint (firstn 33 b)) as [P|] eqn:E1; [destruct (parse_mpoint (skipn 33 b)) as [Q|] eqn:E2; [discriminate|]|];
        assert (e = InvalidPoint) by congruence; subst e; (split; [exact H|]).
      * right. apply cpoint_ext_none, E2.
      * left. apply cpoint_ext_none, E1.
    + assert (e = BadLength (length b)) by congruence. subst e. auto.
  - unfold aggnonce_from_bytes in ED. destruct (negb _); [discriminate|].
    destruct (parse_mpoint (firstn 33 b)); [|discriminate]. destruct (parse_mpoint (skipn 33 b)); discriminate.
Qed.
End C41_aggnonce_decoding.

Section C41_compact_decoding.
Context {Pr : prims}.
Add Ring ring_C41_compact_decoding : (fe_ring_theory (n := @ord Pr)).
Lemma C41_compact_decoding_proof {Laws : prims_ok Pr} (b : bytes) :
  match compact_from_bytes (Pr := Pr) b with
  | Ok sg => length b = 64%nat /\ int_from_bytes (skipn 32 b) < n_ /\ c_rx sg = firstn 32 b /\
      fz (c_s sg) = int_from_bytes (skipn 32 b) /\ compact_to_bytes sg = b
  | Err (BadLength n) => n = length b /\ n <> 64%nat
  | Err InvalidScalar => length b = 64%nat /\ n_ <= int_from_bytes (skipn 32 b)
  | _ => False
  end.
Proof.
  destruct (compact_from_bytes b) as [sg|e|] eqn:ED.
  - pose proof (proj1 (compact_decode _ _) ED) as [HB HR].
    unfold compact_from_bytes in ED. destruct (Nat.eqb_spec (length b) 64) as [H|H]; cbn [negb] in ED; [|discriminate].
    destruct (parse_mscalar (skipn 32 b)) as [s|] eqn:E; [|discriminate]. apply Ok_inj in ED. subst sg.
    apply int_mscalar in E as (_ & E1 & E2). cbn [c_rx c_s] in *. auto 10.
  - unfold compact_from_bytes in ED. destruct (Nat.eqb_spec (length b) 64) as [H|H]; cbn [negb] in ED.
    + destruct (parse_mscalar (skipn 32 b)) as [s|] eqn:E; [discriminate|].
      assert (e = InvalidScalar) by congruence. subst e. split; [exact H|]. apply int_mscalar_None; [rewrite skipn_length; lia|exact E].
    + assert (e = BadLength (length b)) by congruence. subst e. auto.
  - unfold compact_from_bytes in ED. destruct (negb _); [discriminate|]. destruct (parse_mscalar (skipn 32 b)); discriminate.
Qed.
End C41_compact_decoding.

Section C41_lifted_decoding.
Context {Pr : prims}.
Add Ring ring_C41_lifted_decoding : (fe_ring_theory (n := @ord Pr)).
Lemma C41_lifted_decoding_proof {Laws : prims_ok Pr} (b : bytes) :
  match lifted_from_bytes (Pr := Pr) b with
  | Ok sg => length b = 64%nat /\ int_from_bytes (skipn 32 b) < n_ /\ xbytes (l_R sg) = firstn 32 b /\
      has_even_y (l_R sg) = true /\ fz (l_s sg) = int_from_bytes (skipn 32 b) /\ lifted_to_bytes sg = b
  | Err (BadLength n) => n = length b /\ n <> 64%nat
  | Err InvalidScalar => length b = 64%nat /\ n_ <= int_from_bytes (skipn 32 b)
  | Err InvalidPoint => length b = 64%nat /\ int_from_bytes (skipn 32 b) < n_ /\
      forall P : pt, P <> pt_O -> xbytes P <> firstn 32 b
  | _ => False
  end.
Proof.
  unfold lifted_from_bytes. destruct (compact_from_bytes b) as [cs|e|] eqn:ED; cbn [bind].
  - pose proof (proj1 (compact_decode _ _) ED) as [HB HR].
    unfold compact_from_bytes in ED. destruct (Nat.eqb_spec (length b) 64) as [H|H]; cbn [negb] in ED; [|discriminate].
    destruct (parse_mscalar (skipn 32 b)) as [s|] eqn:E; [|discriminate]. apply Ok_inj in ED. subst cs.
    apply int_mscalar in E as (_ & E1 & E2). cbn [c_rx c_s] in *.
    destruct (lift_nonce _) as [l|] eqn:EL; cbn [ok_or].
    + apply lift_nonce_Some in EL as (L1 & L2 & L3). cbn [c_rx c_s] in *. unfold has_even_y, xbytes. rewrite L1.
      split; [exact H|]. split; [exact E1|]. split; [congruence|]. split; [reflexivity|]. split; [congruence|].
      unfold lifted_to_bytes, compact, compact_new. rewrite <- L3, <- L2. congruence.
    + split; [exact H|]. split; [exact E1|]. unfold lift_nonce in EL. cbn [c_rx c_s] in EL.
      destruct (lift_x (firstn 32 b)) as [R|] eqn:EX; [discriminate|]. intros P HP.
      destruct (mpoint_cases P) as [->|[Q ->]]; [congruence|]. apply (proj1 (lift_x_None _) EX Q).
  - 
    unfold compact_from_bytes in ED. destruct (Nat.eqb_spec (length b) 64) as [H|H]; cbn [negb] in ED.
    + destruct (parse_mscalar (skipn 32 b)) as [s|] eqn:E; [discriminate|].
      assert (e = InvalidScalar) by congruence. subst e. split; [exact H|]. apply int_mscalar_None; [rewrite skipn_length; lia|exact E].
    + assert (e = BadLength (length b)) by congruence. subst e. auto.
  - unfold compact_from_bytes in ED. destruct (negb _); [discriminate|]. destruct (parse_mscalar (skipn 32 b)); discriminate.
Qed.
End C41_lifted_decoding.

Section C41_adaptor_decoding.
Context {Pr : prims}.
Add Ring ring_C41_adaptor_decoding : (fe_ring_theory (n := @ord Pr)).
Lemma C41_adaptor_decoding_proof {Laws : prims_ok Pr} (b : bytes) :
  match adaptor_from_bytes (Pr := Pr) b with
  | Ok sg => length b = 65%nat /\ cpoint_ext (firstn 33 b) = Ret (a_R sg) /\
      int_from_bytes (skipn 33 b) < n_ /\ fz (a_s sg) = int_from_bytes (skipn 33 b) /\ adaptor_to_bytes sg = b
  | Err (BadLength n) => n = length b /\ n <> 65%nat
  | Err InvalidPoint => length b = 65%nat /\ cpoint_ext (Pr := Pr) (firstn 33 b) = ValueError
  | Err InvalidScalar => length b = 65%nat /\ (exists P, cpoint_ext (Pr := Pr) (firstn 33 b) = Ret P) /\
      n_ <= int_from_bytes (skipn 33 b)
  | _ => False
  end.
Proof.
  destruct (adaptor_from_bytes b) as [sg|e|] eqn:ED.
  - pose proof (proj1 (adaptor_decode _ _) ED) as HB.
    unfold adaptor_from_bytes in ED. destruct (Nat.eqb_spec (length b) 65) as [H|H]; cbn [negb] in ED; [|discriminate].
    destruct (parse_mpoint (firstn 33 b)) as [R|] eqn:E0; [|discriminate].
    destruct (parse_mscalar (skipn 33 b)) as [s|] eqn:E; [|discriminate]. apply Ok_inj in ED. subst sg.
    apply int_mscalar in E as (_ & E1 & E2). apply cpoint_ext_some in E0. cbn [a_R a_s] in *. auto 10.
  - unfold adaptor_from_bytes in ED. destruct (Nat.eqb_spec (length b) 65) as [H|H]; cbn [negb] in ED.
    + destruct (parse_mpoint (firstn 33 b)) as [R|] eqn:E0.
      * destruct (parse_mscalar (skipn 33 b)) as [s|] eqn:E; [discriminate|].
        assert (e = InvalidScalar) by congruence. subst e. split; [exact H|].
        split; [exists R; apply cpoint_ext_some, E0|]. apply int_mscalar_None; [rewrite skipn_length; lia|exact E].
      * assert (e = InvalidPoint) by congruence. subst e. split; [exact H|]. apply cpoint_ext_none, E0.
    + assert (e = BadLength (length b)) by congruence. subst e. auto.
  - unfold adaptor_from_bytes in ED. destruct (negb _); [discriminate|]. destruct (parse_mpoint (firstn 33 b)); [|discriminate].
    destruct (parse_mscalar (skipn 33 b)); discriminate.
Qed.
End C41_adaptor_decoding.

Section C42_hex_parsing.
Context {Pr : prims}.
Add Ring ring_C42_hex_parsing : (fe_ring_theory (n := @ord Pr)).
Lemma C42_hex_parsing_proof {Laws : prims_ok Pr} (s : bytes) :
  (forall x, secnonce_from_hex (Pr := Pr) s = Ok x <-> spells s (secnonce_to_bytes x)) /\
  (forall x, pubnonce_from_hex (Pr := Pr) s = Ok x <-> spells s (pubnonce_to_bytes x)) /\
  (forall x, aggnonce_from_hex (Pr := Pr) s = Ok x <-> spells s (aggnonce_to_bytes x)) /\
  (forall x, compact_from_hex (Pr := Pr) s = Ok x <-> spells s (compact_to_bytes x) /\ length (c_rx x) = 32%nat) /\
  (forall x, lifted_from_hex (Pr := Pr) s = Ok x <-> spells s (lifted_to_bytes x) /\ has_even_y (l_R x) = true) /\
  (forall x, adaptor_from_hex (Pr := Pr) s = Ok x <-> spells s (adaptor_to_bytes x)) /\
  (forall tg x, ctx_from_hex (Pr := Pr) tg s = Ok x <-> exists b, spells s b /\ ctx_from_bytes tg b = Ok x).
Proof.
  unfold secnonce_from_hex, pubnonce_from_hex, aggnonce_from_hex, compact_from_hex, lifted_from_hex, adaptor_from_hex, ctx_from_hex.
  split; [|split; [|split; [|split; [|split; [|split]]]]]; intros.
  - rewrite from_hex_Ok. split.
    + intros (b & H1 & H2 & H3). apply secnonce_decode in H3 as [H3 H4].
      rewrite firstn_all2 in H4 by lia. congruence.
    + intro H. exists (secnonce_to_bytes x). split; [exact H|]. rewrite secnonce_len. split; [auto|].
      apply secnonce_decode. rewrite secnonce_len. split; [auto|]. apply firstn_all2. rewrite secnonce_len. auto.
  - rewrite from_hex_Ok. split.
    + intros (b & H1 & H2 & H3). apply pubnonce_decode in H3. congruence.
    + intro H. exists (pubnonce_to_bytes x). rewrite pubnonce_len. split; [exact H|]. split; [auto|]. apply pubnonce_decode. reflexivity.
  - rewrite from_hex_Ok. split.
    + intros (b & H1 & H2 & H3). apply aggnonce_decode in H3. congruence.
    + intro H. exists (aggnonce_to_bytes x). rewrite aggnonce_len. split; [exact H|]. split; [auto|]. apply aggnonce_decode. reflexivity.
  - rewrite from_hex_Ok. split.
    + intros (b & H1 & H2 & H3). apply compact_decode in H3 as [-> H3]. auto.
    + intros [H HL]. exists (compact_to_bytes x). rewrite compact_len by exact HL. split; [exact H|]. split; [auto|]. apply compact_decode. auto.
  - rewrite from_hex_Ok. unfold has_even_y. rewrite Bool.negb_true_iff. split.
    + intros (b & H1 & H2 & H3). apply lifted_decode in H3 as [-> H3]. auto.
    + intros [H HL]. exists (lifted_to_bytes x). rewrite lifted_len. split; [exact H|]. split; [auto|]. apply lifted_decode. auto.
  - rewrite from_hex_Ok. split.
    + intros (b & H1 & H2 & H3). apply adaptor_decode in H3. congruence.
    + intro H. exists (adaptor_to_bytes x). rewrite adaptor_len. split; [exact H|]. split; [auto|]. apply adaptor_decode. reflexivity.
  - apply from_hex_var_Ok.
Qed.
End C42_hex_parsing.

Lemma C42_hex_errors_proof {A : Type} (n : nat) (decode : bytes -> res decode_error A) (s : bytes) :
  ((Nat.odd (length s) = true \/ (2 * n < length s)%nat) ->
     from_hex_fixed n decode s = Err (BadHexFormat InvalidLength)) /\
  (Nat.odd (length s) = false -> (length s <= 2 * n)%nat -> has_bad_char s ->
     from_hex_fixed n decode s = Err (BadHexFormat InvalidEncoding)) /\
  (forall b, spells s b -> (length b <= n)%nat -> from_hex_fixed n decode s = decode b) /\
  (Nat.odd (length s) = true -> from_hex_var decode s = Err (BadHexFormat InvalidLength)) /\
  (Nat.odd (length s) = false -> has_bad_char s ->
     from_hex_var decode s = Err (BadHexFormat InvalidEncoding)) /\
  (forall b, spells s b -> from_hex_var decode s = decode b) /\
  (Nat.odd (length s) = true \/ has_bad_char s \/ exists b, spells s b).
Proof.
  assert (HH : forall k, Nat.odd k = false -> k = (2 * (k / 2))%nat).
  { intros k Hk. pose proof (Nat.div_mod k 2 ltac:(lia)). rewrite <- Nat.bit0_mod in H.
    rewrite Nat.bit0_odd, Hk in H. cbn [Nat.b2n] in H. lia. }
  unfold from_hex_fixed, from_hex_var, hex_decode_buf, hex_decode_vec.
  split; [|split; [|split; [|split; [|split; [|split]]]]].
  - intros [H|H]; [rewrite H; reflexivity|]. destruct (Nat.odd (length s)) eqn:EO; [reflexivity|].
    rewrite (proj2 (Nat.ltb_lt n (length s / 2))); [reflexivity|]. apply HH in EO. lia.
  - intros HO HL HB. rewrite HO. rewrite (proj2 (Nat.ltb_ge n (length s / 2))) by (apply HH in HO; lia).
    rewrite (proj2 (decode_pairs_None s HO) HB). reflexivity.
  - intros b Hb HL. pose proof (proj2 (hex_buf_Ok n s b) (conj Hb HL)) as E. unfold hex_decode_buf in E. rewrite E. reflexivity.
  - intro HO. rewrite HO. reflexivity.
  - intros HO HB. rewrite HO, (proj2 (decode_pairs_None s HO) HB). reflexivity.
  - intros b Hb. pose proof (proj2 (hex_vec_Ok s b) Hb) as E. unfold hex_decode_vec in E. rewrite E. reflexivity.
  - destruct (Nat.odd (length s)) eqn:EO; [auto|right]. destruct (hex_decode_pairs s) as [b|] eqn:E.
    + right. exists b. apply decode_spells, E.
    + left. apply decode_pairs_None; assumption.
Qed.

Lemma C42_hex_formatting_proof (b s s' : bytes) :
  (forall upper, spells (hex_encode upper b) b /\ length (hex_encode upper b) = (2 * length b)%nat /\
     forall c, In c (hex_encode upper b) -> In c (if upper then upper_digits else lower_digits)) /\
  (spells s b -> spells s' b -> map lower_char s = map lower_char s') /\
  (spells s b -> map lower_char s = map lower_char s' -> (forall c, In c s' -> exists z, is_digit c z) -> spells s' b) /\
  (forall b', spells s b -> spells s b' -> b = b').
Proof.
  split; [|split; [|split]].
  - intro u. pose proof (hex_encode_spells u b) as H. split; [exact H|]. split; [apply spells_length, H|]. apply hex_encode_alphabet.
  - apply spells_case.
  - intros H1 H2. apply case_spells with (1 := H2) (2 := H1).
  - intros b' H1 H2. apply decode_spells in H1, H2. congruence.
Qed.

Section C42_long_secnonce.
Context {Pr : prims}.
Add Ring ring_C42_long_secnonce : (fe_ring_theory (n := @ord Pr)).
Lemma C42_long_secnonce_proof {Laws : prims_ok Pr} (sn : sec_nonce Pr) (tail s : bytes) (Ht : length tail = 33%nat) (Hs : spells s (secnonce_to_bytes sn ++ tail)) :
  secnonce_from_bytes (secnonce_to_bytes sn ++ tail) = Ok sn /\
  serde_bin_fixed 97 (secnonce_from_bytes (Pr := Pr)) (secnonce_to_bytes sn ++ tail) = Ok sn /\
  serde_hex_fixed 97 (secnonce_from_bytes (Pr := Pr)) s = Ok sn /\
  secnonce_from_hex (Pr := Pr) s = Err (BadHexFormat InvalidLength).
Proof.
  assert (HD : secnonce_from_bytes (secnonce_to_bytes sn ++ tail) = Ok sn).
  { apply secnonce_decode. rewrite app_length, secnonce_len, Ht. split; [auto|]. apply firstn_app_exact, secnonce_len. }
  split; [exact HD|]. split; [|split].
  - unfold serde_bin_fixed. rewrite app_length, secnonce_len, Ht. cbn [Nat.add Nat.ltb Nat.leb]. rewrite HD. reflexivity.
  - unfold serde_hex_fixed. rewrite (proj2 (from_hex_Ok 97 (secnonce_from_bytes (Pr := Pr)) s sn)); [reflexivity|].
    exists (secnonce_to_bytes sn ++ tail). split; [exact Hs|]. rewrite app_length, secnonce_len, Ht. auto.
  - unfold secnonce_from_hex, from_hex_fixed, hex_decode_buf. rewrite (spells_length _ _ Hs), app_length, secnonce_len, Ht. reflexivity.
Qed.
End C42_long_secnonce.

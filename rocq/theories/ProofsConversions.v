(** Proofs of the theorems of PropertiesConversions.v. *)
From Coq Require Import String List.
From Verif Require Import Bytes BytesFacts Prims PrimsFacts TaggedHashes Errors SpecTags SpecBIP327
  KeyAgg Nonces Signature Signing SigAgg Bip340 Rounds Deterministic Encoding Conversions SpecHex SpecCtx SpecView SpecSession SpecRounds
  Toy ToyData ToyRounds.
Import ListNotations.
Open Scope list_scope.
Open Scope Z_scope.
From Coq Require Import Lia.
From Verif Require Import CodecFacts KeyAggFacts KeyAggCodec SigningFacts SignatureFacts SpecFacts SpecSigning EncodingFacts
  ProofsKeyAgg ProofsAdaptor ProofsCodecs.
Open Scope Z_scope.

(** A serialized form that stands for the bytes [b]. *)
Definition accepts (human : bool) (w : wire) (b : bytes) : Prop :=
  if human then exists s, w = WStr s /\ spells s b else w = WBytes b.
Lemma map_err_Ok {E F A} (g : E -> F) (r : res E A) x : map_err g r = Ok x <-> r = Ok x.
Proof. destruct r; cbn [map_err]; split; congruence. Qed.
Lemma deserialize_fixed_Ok {A} max (d : bytes -> res decode_error A) human w x :
  deserialize_fixed max d human w = Ok x <-> exists b, accepts human w b /\ (length b <= max)%nat /\ d b = Ok x.
Proof.
  destruct human; destruct w as [s|b|l]; cbn [deserialize_fixed accepts].
  - unfold serde_hex_fixed. rewrite map_err_Ok, from_hex_Ok. split.
    + intros (b & H1 & H2 & H3). exists b. eauto.
    + intros (b & (s' & E & H1) & H2 & H3). injection E as <-. exists b. auto.
  - split; [discriminate|]. intros (b' & (s & H & _) & _). discriminate.
  - split; [discriminate|]. intros (b' & (s & H & _) & _). discriminate.
  - split; [discriminate|]. intros (b' & H & _). discriminate.
  - unfold serde_bin_fixed. destruct (Nat.ltb_spec max (length b)) as [H|H].
    + split; [discriminate|]. intros (b' & E & H1 & _). injection E as <-. lia.
    + rewrite map_err_Ok. split; [intro E; exists b; auto|]. intros (b' & E & _ & H1). injection E as <-. exact H1.
  - split; [discriminate|]. intros (b' & H & _). discriminate.
Qed.
Lemma deserialize_var_Ok {A} (d : bytes -> res decode_error A) human w x :
  deserialize_var d human w = Ok x <-> exists b, accepts human w b /\ d b = Ok x.
Proof.
  destruct human; destruct w as [s|b|l]; cbn [deserialize_var accepts].
  - rewrite map_err_Ok, from_hex_var_Ok. split.
    + intros (b & H1 & H3). exists b. eauto.
    + intros (b & (s' & E & H1) & H3). injection E as <-. exists b. auto.
  - split; [discriminate|]. intros (b' & (s & H & _) & _). discriminate.
  - split; [discriminate|]. intros (b' & (s & H & _) & _). discriminate.
  - split; [discriminate|]. intros (b' & H & _). discriminate.
  - rewrite map_err_Ok. split; [intro E; exists b; auto|]. intros (b' & E & H1). injection E as <-. exact H1.
  - split; [discriminate|]. intros (b' & H & _). discriminate.
Qed.
Lemma accepts_serialized human tup b : accepts human (serialize_fixed tup human b) b <-> human = true \/ tup = false.
Proof.
  destruct human, tup; cbn [accepts serialize_fixed].
  - split; [auto|]. intros _. exists (hex_encode false b). split; [reflexivity|apply hex_encode_spells].
  - split; [auto|]. intros _. exists (hex_encode false b). split; [reflexivity|apply hex_encode_spells].
  - split; [discriminate|intros [H|H]; discriminate].
  - split; auto.
Qed.
Lemma fixed_round_trip {A} max (d : bytes -> res decode_error A) b x human tup :
  d b = Ok x -> (length b <= max)%nat ->
  deserialize_fixed max d human (serialize_fixed tup human b) = if human || negb tup then Ok x else Err tt.
Proof.
  intros Hd Hl. destruct human; [|destruct tup]; cbn [orb negb].
  - apply deserialize_fixed_Ok. exists b. split; [apply accepts_serialized; auto|auto].
  - reflexivity.
  - apply deserialize_fixed_Ok. exists b. split; [apply accepts_serialized; auto|auto].
Qed.
Section Helpers.
Context {Pr : prims} {Laws : prims_ok Pr}.
Lemma odd_even_y (P : pt (prims := Pr)) : pt_odd P = false -> has_even_y P = true.
Proof. intro H. unfold has_even_y. rewrite H. reflexivity. Qed.
Lemma even_point_even (R : point Pr) : has_even_y (even_point R) = true.
Proof. apply odd_even_y. rewrite even_point_val. apply to_even_y_odd. exact (point_fin R). Qed.
Lemma lift_even (cs : compact_sig Pr) l : lift_nonce cs = Some l -> has_even_y (l_R l) = true.
Proof. intro H. apply lift_nonce_Some in H as H'. apply odd_even_y, H'. Qed.
Lemma adapted_even sg t (l : lifted_sig Pr) : adapt sg t = Some l -> has_even_y (l_R l) = true.
Proof. intro H. apply odd_even_y, (adapt_even _ _ _ H). Qed.
Lemma from_bytes_even b (l : lifted_sig Pr) : lifted_from_bytes b = Ok l -> has_even_y (l_R l) = true.
Proof.
  unfold lifted_from_bytes. destruct (compact_from_bytes b) as [cs| |]; cbn [bind]; try discriminate.
  destruct (lift_nonce cs) as [l'|] eqn:E; cbn [ok_or]; [|discriminate]. intro H. apply Ok_inj in H. subst l'. exact (lift_even _ _ E).
Qed.
Lemma even_lift (l : lifted_sig Pr) : has_even_y (l_R l) = true -> lift_nonce (compact l) = Some l.
Proof. intro H. apply lift_nonce_Some. unfold has_even_y in H. destruct (pt_odd (l_R l)); [discriminate|]. auto. Qed.
End Helpers.

Section C60_lifted_signatures_even.
Context {Pr : prims}.
Add Ring ring_C60_lifted_signatures_even : (fe_ring_theory (n := @ord Pr)).
Lemma C60_lifted_signatures_even_proof {Laws : prims_ok Pr} :
  (forall R s, has_even_y (l_R (lifted_new (Pr := Pr) R s)) = true) /\
  (forall cs l, lift_nonce (Pr := Pr) cs = Some l -> has_even_y (l_R l) = true) /\
  (forall sg t l, adapt (Pr := Pr) sg t = Some l -> has_even_y (l_R l) = true) /\
  (forall b l, lifted_from_bytes (Pr := Pr) b = Ok l -> has_even_y (l_R l) = true) /\
  (forall c an sigs msg l, aggregate_partial_signatures (Pr := Pr) c an sigs msg = Ok l -> has_even_y (l_R l) = true) /\
  (forall sk msg seed l, sign_solo (Pr := Pr) sk msg seed = Ok l -> has_even_y (l_R l) = true) /\
  (forall r l, sr_finalize (Pr := Pr) r = Ok l -> has_even_y (l_R l) = true) /\
  (forall f l, (forall l', f = FLifted l' -> has_even_y (l_R l') = true) ->
     lifted_of_form (Pr := Pr) f = Ok l -> has_even_y (l_R l) = true) /\
  (forall human w l, lifted_deserialize (Pr := Pr) human w = Ok l -> has_even_y (l_R l) = true).
Proof.
  split; [intros; apply even_point_even|]. split; [intros cs l; apply lift_even|]. split; [intros sg t l; apply adapted_even|].
  split; [intros b l; apply from_bytes_even|]. split; [|split; [|split; [|split]]].
  - intros c an sigs msg l. unfold aggregate_partial_signatures.
    destruct (aggregate_partial_adaptor_signatures _ _ _ _ _) as [sg| |]; cbn [bind]; try discriminate.
    destruct (adapt sg fzero) as [l'|] eqn:E; cbn [unwrap]; [|discriminate]. intro H. apply Ok_inj in H. subst l'. exact (adapted_even _ _ _ E).
  - intros sk msg seed l. unfold sign_solo. destruct (adapt _ fzero) as [l'|] eqn:E; cbn [unwrap]; [|discriminate].
    intro H. apply Ok_inj in H. subst l'. exact (adapted_even _ _ _ E).
  - intros r l. unfold sr_finalize. destruct (sr_finalize_adaptor r) as [sg| |]; cbn [bind]; try discriminate.
    destruct (adapt sg fzero) as [l'|] eqn:E; cbn [unwrap]; [|discriminate]. intro H. apply Ok_inj in H. subst l'. exact (adapted_even _ _ _ E).
  - intros f l Hf. destruct f as [sg|sg|b|b|b|R s]; cbn [lifted_of_form].
    + intro H. apply Ok_inj in H. subst l. apply Hf. reflexivity.
    + destruct (lift_nonce sg) as [l'|] eqn:E; cbn [ok_or]; [|discriminate]. intro H. apply Ok_inj in H. subst l'. exact (lift_even _ _ E).
    + apply from_bytes_even.
    + apply from_bytes_even.
    + apply from_bytes_even.
    + intro H. apply Ok_inj in H. subst l. apply even_point_even.
  - intros human w l H. apply deserialize_fixed_Ok in H as (b & _ & _ & H). exact (from_bytes_even _ _ H).
Qed.
End C60_lifted_signatures_even.

Section C60_signature_forms.
Context {Pr : prims}.
Add Ring ring_C60_signature_forms : (fe_ring_theory (n := @ord Pr)).
Lemma C60_signature_forms_proof {Laws : prims_ok Pr} (l : lifted_sig Pr) (Heven : has_even_y (l_R l) = true) :
  forall f, In f (forms_of_lifted l) ->
    lifted_of_form f = Ok l /\ compact_of_form f = Ok (compact l) /\
    (forall b, f = FArray b \/ f = FSchnorr b \/ f = FWide b -> b = xbytes (l_R l) ++ bytes_from_int (fz (l_s l))) /\
    (forall R s, f = FPair R s -> R = l_R l /\ s = l_s l) /\
    (forall pk msg, bind (map_err (fun _ => VE_BadSignature) (compact_of_form f)) (fun cs => verify_single pk cs msg) =
       verify_single_lifted pk l msg).
Proof.
  assert (HL : length (c_rx (compact l)) = 32%nat) by apply x_len.
  assert (HC : compact_from_bytes (lifted_to_bytes l) = Ok (compact l)) by (apply compact_decode; auto).
  assert (HB : lifted_from_bytes (lifted_to_bytes l) = Ok l).
  { unfold lifted_from_bytes. rewrite HC. cbn [bind]. rewrite even_lift by exact Heven. reflexivity. }
  assert (HX : lifted_to_bytes l = xbytes (l_R l) ++ bytes_from_int (fz (l_s l))) by (rewrite bytes_from_fz; reflexivity).
  assert (HE : even_point (l_R l) = l_R l).
  { apply point_ext. rewrite even_point_val. apply to_even_y_even. unfold has_even_y in Heven. destruct (pt_odd (l_R l)); [discriminate|reflexivity]. }
  intros f Hf. unfold forms_of_lifted in Hf. cbn [In unzip fst snd] in Hf.
  destruct Hf as [<-|[<-|[<-|[<-|[<-|[<-|[]]]]]]]; cbn [lifted_of_form compact_of_form].
  - split; [reflexivity|]. split; [reflexivity|]. split; [intros b [H|[H|H]]; discriminate|]. split; [intros; discriminate|]. reflexivity.
  - rewrite even_lift by exact Heven. split; [reflexivity|]. split; [reflexivity|]. split; [intros b [H|[H|H]]; discriminate|]. split; [intros; discriminate|]. reflexivity.
  - rewrite HB, HC. split; [reflexivity|]. split; [reflexivity|]. split; [intros b [H|[H|H]]; [|discriminate..]; injection H as <-; exact HX|].
    split; [intros; discriminate|]. reflexivity.
  - rewrite HB, HC. split; [reflexivity|]. split; [reflexivity|]. split; [intros b [H|[H|H]]; try discriminate; injection H as <-; exact HX|].
    split; [intros; discriminate|]. reflexivity.
  - rewrite HB, HC. split; [reflexivity|]. split; [reflexivity|]. split; [intros b [H|[H|H]]; try discriminate; injection H as <-; exact HX|].
    split; [intros; discriminate|]. reflexivity.
  - unfold lifted_new. rewrite HE. split; [destruct l; reflexivity|]. split; [reflexivity|]. split; [intros b [H|[H|H]]; discriminate|].
    split; [|reflexivity]. intros R s H.
    pose proof (f_equal (fun f => match f with FPair R0 _ => R0 | _ => l_R l end) H) as H1.
    pose proof (f_equal (fun f => match f with FPair _ s0 => s0 | _ => l_s l end) H) as H2. cbn in H1, H2. auto.
Qed.
End C60_signature_forms.

Section C60_compact_forms.
Context {Pr : prims}.
Add Ring ring_C60_compact_forms : (fe_ring_theory (n := @ord Pr)).
Lemma C60_compact_forms_proof {Laws : prims_ok Pr} (cs : compact_sig Pr) (Hc : length (c_rx cs) = 32%nat) :
  (forall f, In f (forms_of_compact cs) -> compact_of_form f = Ok cs /\
     lifted_of_form f = ok_or (lift_nonce cs) InvalidPoint /\
     (forall b, f = FArray b \/ f = FSchnorr b \/ f = FWide b -> b = c_rx cs ++ bytes_from_int (fz (c_s cs)))) /\
  (pair_of_compact cs = None <-> ~ exists R : point Pr, xbytes R = c_rx cs) /\
  (forall R s, pair_of_compact cs = Some (R, s) ->
     compact_of_form (FPair R s) = Ok cs /\ xbytes R = c_rx cs /\ has_even_y R = true /\ s = c_s cs).
Proof.
  assert (HC : compact_from_bytes (compact_to_bytes cs) = Ok cs) by (apply compact_decode; auto).
  assert (HB : lifted_from_bytes (compact_to_bytes cs) = ok_or (lift_nonce cs) InvalidPoint).
  { unfold lifted_from_bytes. rewrite HC. reflexivity. }
  assert (HX : compact_to_bytes cs = c_rx cs ++ bytes_from_int (fz (c_s cs))) by (rewrite bytes_from_fz; reflexivity).
  split; [|split].
  - intros f Hf. unfold forms_of_compact in Hf. cbn [In] in Hf.
    destruct Hf as [<-|[<-|[<-|[<-|[]]]]]; cbn [lifted_of_form compact_of_form]; rewrite ?HB, ?HC; (split; [reflexivity|]);
      (split; [reflexivity|]); intros b [H|[H|H]]; try discriminate; injection H as <-; exact HX.
  - unfold pair_of_compact, lift_nonce. pose proof (lift_x_None (Pr := Pr) (c_rx cs)) as H. destruct (lift_x (c_rx cs)) as [P|] eqn:E.
    + split; [discriminate|]. intro HN. exfalso. apply HN. exists P. apply lift_x_Some in E. apply E.
    + split; [|reflexivity]. intros _ [R HR]. exact (proj1 H eq_refl R HR).
  - intros R s. unfold pair_of_compact. destruct (lift_nonce cs) as [l|] eqn:E; [|discriminate].
    unfold unzip. intro H. assert (HR : R = l_R l /\ s = l_s l).
    { split; [apply (f_equal (fun o => match o with Some p => fst p | None => R end)) in H | apply (f_equal (fun o => match o with Some p => snd p | None => s end)) in H];
      cbn in H; congruence. }
    destruct HR as [-> ->]. pose proof (lift_even _ _ E) as He. apply lift_nonce_Some in E as (H1 & H2 & H3).
    cbn [compact_of_form]. unfold compact_new. rewrite <- H2, <- H3. split; [destruct cs; reflexivity|]. unfold xbytes. auto.
Qed.
End C60_compact_forms.

Section C60_pairs.
Context {Pr : prims}.
Add Ring ring_C60_pairs : (fe_ring_theory (n := @ord Pr)).
Lemma C60_pairs_proof {Laws : prims_ok Pr} {Tags : tags_ok Pr} (R : point Pr) (s : mscalar Pr) (pk : point Pr) (msg : bytes) :
  (forall R' : point Pr, xbytes R' = xbytes R -> lifted_new R' s = lifted_new R s) /\
  (fst (unzip (lifted_new R s)) = R <-> has_even_y R = true) /\
  compact (lifted_new R s) = compact_new R s /\
  (verify_single_lifted pk (lifted_new R s) msg = Ok tt <->
     exists E P : pt, xbytes E = xbytes R /\ has_even_y E = true /\ E <> pt_O /\ xbytes P = xbytes pk /\ has_even_y P = true /\ P <> pt_O /\
       gmul s = pt_add E (point_mul P (int_from_bytes (tagged_hash "BIP0340/challenge" (xbytes R ++ xbytes pk ++ msg)) mod n_))).
Proof.
  assert (HX : forall R' : point Pr, xbytes R' = xbytes R -> even_point R' = even_point R).
  { intros R' H. apply point_ext. rewrite !even_point_val. apply even_x_eq.
    - rewrite to_even_y_eq_O. exact (point_fin R').
    - rewrite to_even_y_eq_O. exact (point_fin R).
    - apply to_even_y_odd. exact (point_fin R').
    - apply to_even_y_odd. exact (point_fin R).
    - rewrite !to_even_y_x. exact H. }
  assert (HE : forall Q : point Pr, pt_odd (even_point Q) = false) by (intro Q; rewrite even_point_val; apply to_even_y_odd; exact (point_fin Q)).
  assert (HEx : forall Q : point Pr, pt_x (even_point Q) = pt_x Q) by (intro Q; rewrite even_point_val; apply to_even_y_x).
  split; [intros R' H; unfold lifted_new; rewrite (HX R' H); reflexivity|]. split; [|split].
  - cbn [unzip fst lifted_new l_R]. split.
    + intro H. rewrite <- H. apply odd_even_y, HE.
    + intro H. apply point_ext. rewrite even_point_val. apply to_even_y_even. unfold has_even_y in H. destruct (pt_odd R); [discriminate|reflexivity].
  - unfold compact, compact_new, lifted_new. cbn [l_R l_s]. rewrite HEx. reflexivity.
  - rewrite verify_lifted_iff by apply HE. cbn [l_R l_s lifted_new]. unfold chal. rewrite challenge_ref, HEx. unfold xbytes. split.
    + intro H. exists (even_point R), (even_point pk). rewrite !HEx, point_mul_pmul. split; [reflexivity|].
      split; [apply even_point_even|]. split; [apply point_fin|]. split; [reflexivity|]. split; [apply even_point_even|]. split; [apply point_fin|]. exact H.
    + intros (E & P & E1 & E2 & E3 & P1 & P2 & P3 & H). rewrite point_mul_pmul in H.
      assert (HU : forall (X : pt) (Q : point Pr), pt_x X = pt_x Q -> has_even_y X = true -> X <> pt_O -> pval (even_point Q) = X).
      { intros X Q U1 U2 U3. apply even_x_eq; [apply point_fin | exact U3 | apply HE | | rewrite HEx; auto].
        unfold has_even_y in U2. destruct (pt_odd X); [discriminate|reflexivity]. }
      rewrite (HU E R), (HU P pk) by assumption. exact H.
Qed.
End C60_pairs.

Section C60_serde.
Context {Pr : prims}.
Add Ring ring_C60_serde : (fe_ring_theory (n := @ord Pr)).
Lemma C60_serde_proof {Laws : prims_ok Pr} (human : bool) (w : wire) :
  let accepts := fun b => if human then exists s, w = WStr s /\ spells s b else w = WBytes b in
  (forall x, secnonce_deserialize (Pr := Pr) human w = Ok x <->
     exists tail, (length tail = 0 \/ length tail = 33)%nat /\ accepts (secnonce_to_bytes x ++ tail)) /\
  (forall x, pubnonce_deserialize (Pr := Pr) human w = Ok x <-> accepts (pubnonce_to_bytes x)) /\
  (forall x, aggnonce_deserialize (Pr := Pr) human w = Ok x <-> accepts (aggnonce_to_bytes x)) /\
  (forall x, compact_deserialize (Pr := Pr) human w = Ok x <-> accepts (compact_to_bytes x) /\ length (c_rx x) = 32%nat) /\
  (forall x, lifted_deserialize (Pr := Pr) human w = Ok x <-> accepts (lifted_to_bytes x) /\ has_even_y (l_R x) = true) /\
  (forall x, adaptor_deserialize (Pr := Pr) human w = Ok x <-> accepts (adaptor_to_bytes x)) /\
  (forall tg x, ctx_deserialize (Pr := Pr) tg human w = Ok x <-> exists b, accepts b /\ ctx_from_bytes tg b = Ok x).
Proof.
  intro accepts0. change accepts0 with (accepts human w). clear accepts0.
  assert (HF : forall A max (d : bytes -> res decode_error A) (enc : A -> bytes) (P : A -> Prop),
    (forall b x, d b = Ok x <-> b = enc x /\ P x) -> (forall x, P x -> (length (enc x) <= max)%nat) ->
    forall x, deserialize_fixed max d human w = Ok x <-> accepts human w (enc x) /\ P x).
  { intros A max d enc P Hd Hl x. rewrite deserialize_fixed_Ok. split.
    - intros (b & H1 & _ & H2). apply Hd in H2 as [-> H2]. auto.
    - intros [H1 H2]. exists (enc x). split; [exact H1|]. split; [apply Hl, H2 | apply Hd; auto]. }
  assert (HT : forall A max (d : bytes -> res decode_error A) (enc : A -> bytes),
    (forall b x, d b = Ok x <-> b = enc x) -> (forall x, (length (enc x) <= max)%nat) ->
    forall x, deserialize_fixed max d human w = Ok x <-> accepts human w (enc x)).
  { intros A max d enc Hd Hl x. rewrite (HF A max d enc (fun _ => True)).
    - tauto.
    - intros b y. rewrite Hd. tauto.
    - intros y _. apply Hl. }
  split.
  { intro x. unfold secnonce_deserialize. rewrite deserialize_fixed_Ok. split.
    - intros (b & H1 & _ & H2). apply secnonce_decode in H2 as [HL HE]. exists (skipn 64 b). rewrite <- HE, firstn_skipn. split; [|exact H1].
      rewrite skipn_length. lia.
    - intros (tail & HL & H). exists (secnonce_to_bytes x ++ tail). split; [exact H|]. rewrite app_length, secnonce_len. split; [lia|].
      apply secnonce_decode. rewrite app_length, secnonce_len. split; [lia|].
      rewrite <- (secnonce_len x) at 1. rewrite firstn_app, Nat.sub_diag, firstn_O, app_nil_r. apply firstn_all. }
  split; [apply HT; [apply pubnonce_decode | intro x; rewrite pubnonce_len; auto]|].
  split; [apply HT; [apply aggnonce_decode | intro x; rewrite aggnonce_len; auto]|].
  split; [apply HF; [intros b x; apply compact_decode | intros x H; rewrite compact_len by exact H; auto]|].
  split; [apply HF; [|intros x H; rewrite lifted_len; auto]|split].
  - intros b x. split.
    + intro H. split; [|exact (from_bytes_even _ _ H)]. unfold lifted_from_bytes in H.
      destruct (compact_from_bytes b) as [cs| |] eqn:E; cbn [bind] in H; try discriminate. apply compact_decode in E as [-> _].
      destruct (lift_nonce cs) as [l'|] eqn:EL; cbn [ok_or] in H; [|discriminate]. apply Ok_inj in H. subst l'.
      apply lift_nonce_Some in EL as (H1 & H2 & H3). unfold lifted_to_bytes, compact, compact_new. rewrite <- H2, <- H3. destruct cs; reflexivity.
    + intros [-> H]. unfold lifted_from_bytes. rewrite (proj2 (compact_decode _ (compact x))) by (split; [reflexivity | apply x_len]).
      cbn [bind]. rewrite even_lift by exact H. reflexivity.
  - apply HT; [apply adaptor_decode | intro x; rewrite adaptor_len; auto].
  - intros tg x. apply deserialize_var_Ok.
Qed.
End C60_serde.

Section C60_serde_round_trip.
Context {Pr : prims}.
Add Ring ring_C60_serde_round_trip : (fe_ring_theory (n := @ord Pr)).
Lemma C60_serde_round_trip_proof {Laws : prims_ok Pr} (human tup : bool) :
  let back := fun (A : Type) (r : res unit A) x => r = if human || negb tup then Ok x else Err tt in
  let out := serialize_fixed tup human in
  (forall x, back _ (secnonce_deserialize (Pr := Pr) human (out (secnonce_to_bytes x))) x) /\
  (forall x, back _ (pubnonce_deserialize (Pr := Pr) human (out (pubnonce_to_bytes x))) x) /\
  (forall x, back _ (aggnonce_deserialize (Pr := Pr) human (out (aggnonce_to_bytes x))) x) /\
  (forall x, length (c_rx x) = 32%nat -> back _ (compact_deserialize (Pr := Pr) human (out (compact_to_bytes x))) x) /\
  (forall x, has_even_y (l_R x) = true -> back _ (lifted_deserialize (Pr := Pr) human (out (lifted_to_bytes x))) x) /\
  (forall x, back _ (adaptor_deserialize (Pr := Pr) human (out (adaptor_to_bytes x))) x) /\
  (forall tg c, ctx_reachable c -> 64 <= usize_bits tg ->
     ctx_deserialize (Pr := Pr) tg human (serialize_var human (ctx_to_bytes c)) = Ok c).
Proof.
  intros back out.
  split; [|split; [|split; [|split; [|split; [|split]]]]]; unfold back, out.
  - intro x. apply fixed_round_trip; [|rewrite secnonce_len; lia]. apply secnonce_decode. rewrite secnonce_len. split; [auto|].
    rewrite <- (secnonce_len x) at 1. apply firstn_all.
  - intro x. apply fixed_round_trip; [apply pubnonce_decode; reflexivity | rewrite pubnonce_len; auto].
  - intro x. apply fixed_round_trip; [apply aggnonce_decode; reflexivity | rewrite aggnonce_len; auto].
  - intros x H. apply fixed_round_trip; [apply compact_decode; auto | rewrite compact_len by exact H; auto].
  - intros x H. apply fixed_round_trip; [|rewrite lifted_len; auto]. unfold lifted_from_bytes.
    rewrite (proj2 (compact_decode _ (compact x))) by (split; [reflexivity | apply x_len]). cbn [bind]. rewrite even_lift by exact H. reflexivity.
  - intro x. apply fixed_round_trip; [apply adaptor_decode; reflexivity | rewrite adaptor_len; auto].
  - intros tg c Hc Htg. apply deserialize_var_Ok. exists (ctx_to_bytes c). split; [|apply C07_context_roundtrip_proof; assumption].
    apply (accepts_serialized human false). auto.
Qed.
End C60_serde_round_trip.

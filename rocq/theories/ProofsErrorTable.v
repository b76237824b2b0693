(** Proofs of the theorems of PropertiesErrorTable.v. *)
From Coq Require Import String List.
From Verif Require Import Bytes BytesFacts Prims PrimsFacts TaggedHashes Errors SpecTags SpecBIP327
  KeyAgg Nonces Signature Encoding Signing SigAgg Bip340 Rounds SpecCtx SpecView SpecRounds SpecDecode SpecErrors Toy ToyData ToyRounds ToyErrors.
Import ListNotations.
Open Scope list_scope.
Open Scope Z_scope.
From Coq Require Import Lia Arith Bool.
From Verif Require Import CodecFacts EncodingFacts KeyAggFacts KeyAggCodec SignatureFacts SigningFacts Bip340Facts SpecSigning RoundsFacts ProofsCodecs ProofsDecode ProofsRounds.
Open Scope Z_scope.

Section Cases.
Context {Pr : prims} {Laws : prims_ok Pr} {Tags : tags_ok Pr}.

Lemma sign_errors (c : key_agg_ctx Pr) sk sn an T msg v : ctx_wf c -> fails of_signing (sign_partial_adaptor c sk sn an T msg) v -> v = V_SignUnknownKey.
Proof.
  intros W (e & E & <-). destruct (in_pks_dec (base_mul sk) (ordered_pubkeys c)) as [H|H].
  - rewrite sign_member in E by assumption. discriminate.
  - rewrite sign_nonmember in E by assumption. injection E as <-. reflexivity.
Qed.
Lemma verify_errors (c : key_agg_ctx Pr) s an T pk pn msg v : fails of_verify (verify_partial_adaptor c s an T pk pn msg) v -> In v [V_VerifyUnknownKey; V_VerifyBad].
Proof. intros ([] & E & <-); cbn; auto. Qed.
Lemma agg_errors (c : key_agg_ctx Pr) an T sigs msg e : aggregate_partial_adaptor_signatures c an T sigs msg = Err e -> e = VE_BadSignature.
Proof. rewrite aggregate_eq. destruct (pt_eqb _ _); [discriminate | congruence]. Qed.
Lemma unwrap_no_error {E A} (o : option A) (e : E) : unwrap o <> Err e.
Proof. destruct o; discriminate. Qed.
Lemma bind_error {E A B} (r : res E A) (f : A -> res E B) e : bind r f = Err e -> r = Err e \/ exists a, r = Ok a /\ f a = Err e.
Proof. destruct r; cbn [bind]; [right; eauto | left; congruence | discriminate]. Qed.
Lemma map_err_error {E E' A} (g : E -> E') (r : res E A) e : map_err g r = Err e -> exists e0, r = Err e0 /\ e = g e0.
Proof. destruct r; cbn [map_err]; try discriminate. intro H. injection H as <-. eauto. Qed.
Lemma place_no_invalid {T} (eqb : T -> T -> bool) s (v : T) i w : fails of_contribution (snd (place eqb s v i)) w -> In w [V_OutOfRange; V_Inconsistent].
Proof.
  intros (e & E & <-). unfold place in E. destruct (_ <=? _)%nat; cbn [snd] in E.
  { injection E as <-. cbn. auto. }
  destruct (nth_error (slot_vec s) i) as [[u|]|]; cbn [snd] in E; [| |discriminate].
  - destruct (eqb v u); cbn [snd] in E; [discriminate|]. injection E as <-. cbn. auto.
  - destruct (binary_search (open_slots s) i); discriminate.
Qed.
Lemma collect_errors {T} (l : list (option T)) e : collect l = Err e -> e = FE_Incomplete.
Proof.
  induction l as [|[v|] l IH]; cbn [collect]; [discriminate | | congruence].
  intro H. apply bind_error in H as [H | (vs & _ & H)]; [exact (IH H) | discriminate].
Qed.
Lemma final_errors (r : second_round Pr) e : sr_finalize_adaptor r = Err e -> e = FE_Incomplete \/ e = FE_InvalidAggregatedSignature VE_BadSignature.
Proof.
  unfold sr_finalize_adaptor. intro H. apply bind_error in H as [H | (ps & _ & H)].
  - left. exact (collect_errors _ _ H).
  - right. apply map_err_error in H as (e0 & H & ->). apply agg_errors in H as ->. reflexivity.
Qed.
Lemma decode_errors k b v : decode_gives Pr k b v -> In v (decode_table k).
Proof.
  destruct k; cbn [decode_gives decode_table]; intros (e & E & <-).
  - pose proof (C41_secnonce_decoding_proof (Pr := Pr) b) as H. cbv zeta in H. rewrite E in H. destruct e; try contradiction; cbn; auto.
  - pose proof (C41_pubnonce_decoding_proof (Pr := Pr) b) as H. rewrite E in H. destruct e; try contradiction; cbn; auto.
  - pose proof (C41_aggnonce_decoding_proof (Pr := Pr) b) as H. rewrite E in H. destruct e; try contradiction; cbn; auto.
  - pose proof (C41_compact_decoding_proof (Pr := Pr) b) as H. rewrite E in H. destruct e; try contradiction; cbn; auto.
  - pose proof (C41_lifted_decoding_proof (Pr := Pr) b) as H. rewrite E in H. destruct e; try contradiction; cbn; auto.
  - pose proof (C41_adaptor_decoding_proof (Pr := Pr) b) as H. rewrite E in H. destruct e; try contradiction; cbn; auto.
  - destruct e; cbn; auto. exfalso. revert E. unfold ctx_from_bytes. destruct (_ <? _)%nat; [discriminate|]. destruct b as [|h b']; [discriminate|]. set (b := h :: b').
    intro E. apply bind_error in E as [E | ([cur tw] & _ & E)].
    { destruct (Z.testbit (b2z h) 1); [|discriminate]. apply bind_error in E as [E | (tb & _ & E)].
      - unfold slice in E. destruct (_ && _); discriminate.
      - destruct (parse_scalar tb); discriminate. }
    apply bind_error in E as [E | (nb & _ & E)]. { unfold slice in E. destruct (_ && _); discriminate. }
    apply bind_error in E as [E | (ex & _ & E)]. { unfold usize_mul in E. destruct (_ <? _); [discriminate|]. destruct (overflow_checks _); discriminate. }
    destruct (negb _); [discriminate|]. apply bind_error in E as [E | (pks & _ & E)].
    { match type of E with parse_points ?l = _ => destruct (parse_points_cases l) as [[ps P] | P] end; rewrite P in E; discriminate. }
    apply bind_error in E as [E | (c & _ & E)]. { apply map_err_error in E as (e0 & _ & E). destruct e0. discriminate. }
    cbv zeta in E. destruct tw; [|discriminate]. apply map_err_error in E as (e0 & _ & E). destruct e0. discriminate.
Qed.
Lemma hex_fixed_errors {A} n (f : bytes -> res decode_error A) s v : fails of_decode (from_hex_fixed n f s) v -> v = V_Hex \/ exists b, fails of_decode (f b) v.
Proof.
  intros (e & E & <-). unfold from_hex_fixed in E. apply bind_error in E as [E | (b & _ & E)].
  - apply map_err_error in E as (e0 & _ & ->). left. reflexivity.
  - right. exists b, e. auto.
Qed.
Lemma hex_var_errors {A} (f : bytes -> res decode_error A) s v : fails of_decode (from_hex_var f s) v -> v = V_Hex \/ exists b, fails of_decode (f b) v.
Proof.
  intros (e & E & <-). unfold from_hex_var in E. apply bind_error in E as [E | (b & _ & E)].
  - apply map_err_error in E as (e0 & _ & ->). left. reflexivity.
  - right. exists b, e. auto.
Qed.
Lemma hex_errors k s v : hex_gives Pr k s v -> In v (V_Hex :: decode_table k).
Proof.
  intro H. assert (G : v = V_Hex \/ exists b, decode_gives Pr k b v).
  { destruct k; cbn [hex_gives decode_gives] in *; first [exact (hex_fixed_errors _ _ _ _ H) | exact (hex_var_errors _ _ _ H)]. }
  destruct G as [-> | [b G]]; [left; reflexivity | right; exact (decode_errors k b v G)].
Qed.
End Cases.

Section C90_possible_errors.
Context {Pr : prims}.
Add Ring ring_C90_possible_errors : (fe_ring_theory (n := @ord Pr)).
Lemma C90_possible_errors_proof {Laws : prims_ok Pr} {Tags : tags_ok Pr} (f : api) (v : variant) :
  gives Pr f v -> In v (table f).
Proof.
  destruct f; cbn [gives table].
  - intros (pks & e & _ & <-). left. reflexivity.
  - intros (c & ts & _ & e & _ & <-). left. reflexivity.
  - intros (c & root & _ & _ & e & _ & <-). left. reflexivity.
  - intros (c & sks & _ & e & _ & <-). left. reflexivity.
  - intros (c & sk & sn & an & msg & Hc & H). left. symmetry. exact (sign_errors c sk sn an pt_O msg v (reachable_wf c Hc) H).
  - intros (c & sk & sn & an & T & msg & Hc & H). left. symmetry. exact (sign_errors c sk sn an T msg v (reachable_wf c Hc) H).
  - intros (c & s & an & pk & pn & msg & Hc & H). exact (verify_errors c s an pt_O pk pn msg v H).
  - intros (c & s & an & T & pk & pn & msg & Hc & H). exact (verify_errors c s an T pk pn msg v H).
  - intros (c & an & sigs & msg & _ & e & E & <-). unfold aggregate_partial_signatures in E. apply bind_error in E as [E | (sg & _ & E)].
    + apply agg_errors in E as ->. left. reflexivity.
    + destruct (unwrap_no_error _ _ E).
  - intros (c & an & T & sigs & msg & _ & e & E & <-). apply agg_errors in E as ->. left. reflexivity.
  - intros (pk & sg & msg & e & E & <-). destruct (verify_single_cases pk sg msg) as [H | H]; rewrite H in E; [discriminate|]. injection E as <-. left. reflexivity.
  - intros (pk & sg & msg & T & e & E & <-). destruct (verify_adaptor_cases pk sg msg T) as [H | H]; rewrite H in E; [discriminate|]. injection E as <-. left. reflexivity.
  - intros (rows & e & E & <-). destruct (verify_batch_cases rows) as [H | H]; rewrite H in E; [discriminate|]. injection E as <-. left. reflexivity.
  - intros (c & seed & i & sp & _ & e & _ & <-). left. reflexivity.
  - intros (r & calls & i & pn & _ & H). unfold receive_nonce in H. pose proof (place_no_invalid pubnonce_eqb (fr_slots (fst (fr_run r calls))) pn i v) as P.
    destruct (place pubnonce_eqb _ pn i) as [s o]. exact (P H).
  - intros (r & calls & sk & msg & Hr & e & E & <-). destruct (started_fr_run r calls Hr) as (W & C1 & _ & _ & _ & K & _).
    destruct (fr_finalize_spec _ _ sk pt_O msg K) as [[_ H] | (_ & pns & _ & _ & H)].
    + unfold fr_finalize in E. rewrite H in E. injection E as <-. left. reflexivity.
    + rewrite C1 in H. unfold fr_finalize in E. pose proof (sign_errors (fr_ctx r) sk (fr_secnonce (fst (fr_run r calls))) (agg_sum pns) pt_O msg) as SE.
      destruct (sign_partial_adaptor _ _ _ _ _ _) as [s | e0 |].
      * destruct H as (sr & H & _). rewrite H in E. discriminate.
      * rewrite H in E. injection E as <-. specialize (SE _ W (ex_intro _ e0 (conj eq_refl eq_refl))). destruct e0; [right; left; reflexivity | discriminate].
      * rewrite H in E. discriminate.
  - intros (r & calls & sk & T & msg & Hr & e & E & <-). destruct (started_fr_run r calls Hr) as (W & C1 & _ & _ & _ & K & _).
    destruct (fr_finalize_spec _ _ sk T msg K) as [[_ H] | (_ & pns & _ & _ & H)].
    + rewrite H in E. injection E as <-. left. reflexivity.
    + rewrite C1 in H. pose proof (sign_errors (fr_ctx r) sk (fr_secnonce (fst (fr_run r calls))) (agg_sum pns) T msg) as SE.
      destruct (sign_partial_adaptor _ _ _ _ _ _) as [s | e0 |].
      * destruct H as (sr & H & _). rewrite H in E. discriminate.
      * rewrite H in E. injection E as <-. specialize (SE _ W (ex_intro _ e0 (conj eq_refl eq_refl))). destruct e0; [right; left; reflexivity | discriminate].
      * rewrite H in E. discriminate.
  - intros (r & calls & sk & msg & an & Hr & H). destruct (started_fr_run r calls Hr) as (W & C1 & _). left. symmetry.
    unfold sign_for_aggregator in H. rewrite C1 in H. exact (sign_errors (fr_ctx r) sk _ an pt_O msg v W H).
  - intros (r & calls & sk & T & msg & an & Hr & H). destruct (started_fr_run r calls Hr) as (W & C1 & _). left. symmetry.
    unfold sign_for_aggregator_adaptor in H. rewrite C1 in H. exact (sign_errors (fr_ctx r) sk _ an T msg v W H).
  - intros (r & calls & i & s & _ & H). set (r' := fst (sr_run r calls)) in *. unfold receive_signature in H.
    destruct (get_pubkey (sr_ctx r') i) as [pk|]; [|destruct H as (e & E & <-); injection E as <-; cbn; auto].
    destruct (nth_error (sr_pubnonces r') i) as [pn|]; [|destruct H as (e & E & _); discriminate].
    destruct (verify_partial_adaptor _ _ _ _ _ _ _) as [u | e0 |].
    + pose proof (place_no_invalid mscalar_eqb (sr_slots r') s i v) as P. destruct (place mscalar_eqb _ s i) as [sl o]. specialize (P H). cbn in P |- *. tauto.
    + destruct H as (e & E & <-). injection E as <-. cbn. auto.
    + destruct H as (e & E & _). discriminate.
  - intros (r & calls & _ & e & E & <-). unfold sr_finalize in E. apply bind_error in E as [E | (sg & _ & E)]; [|destruct (unwrap_no_error _ _ E)].
    apply final_errors in E as [-> | ->]; cbn; auto.
  - intros (r & calls & _ & e & E & <-). apply final_errors in E as [-> | ->]; cbn; auto.
  - intros (b & H). exact (decode_errors k b v H).
  - intros (s & H). exact (hex_errors k s v H).
Qed.
End C90_possible_errors.

Lemma C90_never_returned_proof (v : variant) :
  (In v [V_SignSelfVerify; V_FinalSelfVerify; V_FinalAggregatedUnknownKey] ->
     forall (Pr : prims) (Laws : prims_ok Pr) (Tags : tags_ok Pr) f, ~ gives Pr f v) /\
  (~ In v [V_SignSelfVerify; V_FinalSelfVerify; V_FinalAggregatedUnknownKey] -> exists f, gives Toy f v).
Proof.
  split.
  - intros H Pr Laws Tags f G. apply C90_possible_errors_proof in G.
    cbn [In] in H. destruct H as [<- | [<- | [<- | []]]]; destruct f as [| | | | | | | | | | | | | | | | | | | | | | k | k]; try destruct k; cbn in G; intuition discriminate.
  - intro H. assert (X : exists f, In v (table f)); [|destruct X as [f X]; exists f; exact (toy_gives f v X)].
    destruct v; try (exfalso; apply H; cbn; tauto);
      [exists F_new | exists F_aggregated_seckey | exists F_with_tweaks | exists F_first_new | exists F_sign_partial | exists F_verify_partial | exists F_verify_partial
      | exists F_receive_nonce | exists F_receive_nonce | exists F_receive_signature | exists F_first_finalize | exists F_first_finalize | exists F_second_finalize
      | exists (F_from_hex Context) | exists (F_from_hex Context) | exists (F_from_hex Context) | exists (F_from_hex Context) | exists (F_from_hex Context)]; cbn; tauto.
Qed.

Lemma C90_only_returned_by_refuted_proof :
  ~ (forall f, gives Toy f V_FinalUnknownKey -> f = F_first_finalize) /\
  ~ (forall f, gives Toy f V_FinalAggregatedBad -> f = F_second_finalize).
Proof.
  split; intro H.
  - assert (X : gives Toy F_first_finalize_adaptor V_FinalUnknownKey) by (apply toy_gives; cbn; tauto). discriminate (H _ X).
  - assert (X : gives Toy F_second_finalize_adaptor V_FinalAggregatedBad) by (apply toy_gives; cbn; tauto). discriminate (H _ X).
Qed.

Lemma C90_errors_occur_proof (f : api) (v : variant) :
  In v (table f) -> gives Toy f v.
Proof.
  exact (toy_gives f v).
Qed.

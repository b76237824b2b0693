(** Proofs of the theorems of PropertiesTotality.v. *)
From Coq Require Import String List.
From Verif Require Import Bytes BytesFacts Prims PrimsFacts TaggedHashes Errors SpecTags SpecBIP327
  KeyAgg Nonces Signature Signing SigAgg Bip340 Rounds Deterministic Encoding SpecCtx SpecView SpecSession SpecRounds
  Toy ToyData ToyRounds.
Import ListNotations.
Open Scope list_scope.
Open Scope Z_scope.
From Coq Require Import Lia.
From Verif Require Import CodecFacts KeyAggFacts KeyAggCodec SigningFacts SignatureFacts SpecFacts SpecSigning SessionFacts
  Bip340Facts RoundsFacts EncodingFacts ProofsKeyAgg ProofsSigning ProofsCodecs ProofsBip340 ProofsRounds ProofsHistories.
Open Scope Z_scope.

Lemma bind_np {E A B} (r : res E A) (f : A -> res E B) : r <> Panic -> (forall a, r = Ok a -> f a <> Panic) -> bind r f <> Panic.
Proof. destruct r; cbn [bind]; intros H1 H2; [apply H2; reflexivity | discriminate | contradiction]. Qed.
Lemma map_err_np {E F A} (g : E -> F) (r : res E A) : r <> Panic -> map_err g r <> Panic.
Proof. destruct r; cbn [map_err]; intro H; [discriminate | discriminate | contradiction]. Qed.
Lemma hex_buf_np n s : hex_decode_buf n s <> Panic.
Proof. unfold hex_decode_buf. destruct (Nat.odd _); [discriminate|]. destruct (_ <? _)%nat; [discriminate|]. destruct (hex_decode_pairs s); discriminate. Qed.
Lemma hex_vec_np s : hex_decode_vec s <> Panic.
Proof. unfold hex_decode_vec. destruct (Nat.odd _); [discriminate|]. destruct (hex_decode_pairs s); discriminate. Qed.
Lemma hex_fixed_np {A} n (d : bytes -> res decode_error A) s : (forall b, d b <> Panic) -> from_hex_fixed n d s <> Panic.
Proof. intro H. unfold from_hex_fixed. apply bind_np; [apply map_err_np, hex_buf_np | intros a _; apply H]. Qed.
Lemma serde_hex_np {A} n (d : bytes -> res decode_error A) s : (forall b, d b <> Panic) -> serde_hex_fixed n d s <> Panic.
Proof. intro H. apply map_err_np, hex_fixed_np, H. Qed.
Lemma serde_bin_np {A} n (d : bytes -> res decode_error A) b : (forall b, d b <> Panic) -> serde_bin_fixed n d b <> Panic.
Proof. intro H. unfold serde_bin_fixed. destruct (_ <? _)%nat; [discriminate|]. apply map_err_np, H. Qed.

Section C59_key_contexts.
Context {Pr : prims}.
Add Ring ring_C59_key_contexts : (fe_ring_theory (n := @ord Pr)).
Lemma C59_key_contexts_proof {Laws : prims_ok Pr} :
  (forall pks : list (point Pr), key_agg_new pks = Panic <-> pks = [] \/ 2 ^ 32 - 1 < zlen pks) /\
  (forall (c : key_agg_ctx Pr), ctx_reachable c ->
     (forall t, with_plain_tweak c t <> Panic) /\ (forall t, with_xonly_tweak c t <> Panic) /\
     (forall t x, with_tweak c t x <> Panic) /\ (forall ts, with_tweaks c ts <> Panic) /\
     (forall root, with_taproot_tweak c root <> Panic) /\ with_unspendable_taproot_tweak c <> Panic /\
     aggregated_pubkey_untweaked c <> Panic /\
     (forall pk, key_coefficient c pk <> Panic) /\ (forall pk, effective_pubkey c pk <> Panic) /\
     (forall sks, aggregated_seckey c sks <> Panic)).
Proof.
  split; [intro pks; exact (key_agg_new_Panic pks)|].
  intros c Hc.
  assert (HP : forall (c : key_agg_ctx Pr) t, with_plain_tweak c t <> Panic).
  { intros c0 t. unfold with_plain_tweak. destruct (not_inf _); discriminate. }
  assert (HX : forall (c : key_agg_ctx Pr) t, with_xonly_tweak c t <> Panic).
  { intros c0 t. unfold with_xonly_tweak. destruct (negb _); [apply HP|]. destruct (not_inf _); discriminate. }
  assert (HT : forall (c : key_agg_ctx Pr) t x, with_tweak c t x <> Panic).
  { intros c0 t [|]; [apply HX | apply HP]. }
  assert (HI : forall (c : key_agg_ctx Pr) r, with_taproot_tweak_internal c r <> Panic).
  { intros c0 r. unfold with_taproot_tweak_internal. destruct (parse_scalar _); [apply HX | discriminate]. }
  split; [apply HP|]. split; [apply HX|]. split; [apply HT|]. split.
  { clear Hc. intro ts. revert c. induction ts as [|[t x] ts IH]; intro c; cbn [with_tweaks]; [discriminate|].
    apply bind_np; [apply HT | intros a _; apply IH]. }
  split; [intro root; apply HI|]. split; [apply HI|].
  apply reachable_wf in Hc. split; [destruct (untweaked_Ok c Hc) as (Q0 & -> & _); discriminate|].
  split; [intro pk; destruct (in_pks_dec pk (ordered_pubkeys c)); [rewrite key_coefficient_in by assumption | rewrite key_coefficient_out by assumption]; discriminate|].
  split; [intro pk; destruct (in_pks_dec pk (ordered_pubkeys c)); [rewrite effective_pubkey_in by assumption | rewrite effective_pubkey_out by assumption]; discriminate|].
  intro sks. unfold aggregated_seckey. destruct (seckey_loop _ _ _); [|discriminate]. destruct (not_zero _); [|discriminate].
  destruct (negb _); discriminate.
Qed.
End C59_key_contexts.

Section C59_signing.
Context {Pr : prims}.
Add Ring ring_C59_signing : (fe_ring_theory (n := @ord Pr)).
Lemma C59_signing_proof {Laws : prims_ok Pr} {Tags : tags_ok Pr} :
  (forall (c : key_agg_ctx Pr) an T msg, ctx_reachable c ->
     (forall sk sn, sign_partial_adaptor c sk sn an T msg <> Panic /\ sign_partial c sk sn an msg <> Panic) /\
     (forall s pk pn, verify_partial_adaptor c s an T pk pn msg <> Panic /\ verify_partial c s an pk pn msg <> Panic) /\
     (forall sigs, aggregate_partial_adaptor_signatures c an T sigs msg <> Panic /\
        aggregate_partial_signatures c an sigs msg <> Panic)) /\
  (forall (sk : scalar Pr) msg seed, sign_solo sk msg seed <> Panic) /\
  (forall fuel (sk : scalar Pr) msg, det_sign_solo fuel sk msg <> Some Panic) /\
  (forall (pk : point Pr) msg, (forall sg, verify_single pk sg msg <> Panic) /\
     (forall sg, verify_single_lifted pk sg msg <> Panic) /\ (forall b, verify_single_bytes pk b msg <> Panic) /\
     (forall sg T, verify_single_adaptor pk sg msg T <> Panic)) /\
  (forall rows : list (batch_row Pr), verify_batch rows <> Panic).
Proof.
  assert (HS : forall (sk : scalar Pr) msg seed, sign_solo sk msg seed <> Panic).
  { intros sk msg seed. destruct (C20_sign_solo_is_bip340_proof sk msg seed) as (sg & -> & _). discriminate. }
  assert (HV : forall pk sg msg, verify_single (Pr := Pr) pk sg msg <> Panic).
  { intros pk sg msg. destruct (verify_single_cases pk sg msg) as [-> | ->]; discriminate. }
  split.
  { intros c an T msg Hc. split; [|split].
    - intros sk sn. destruct (C11_sign_is_bip327_sign_proof c sk sn an T msg Hc) as (_ & _ & _ & H & _). split; [exact H|].
      destruct (C11_sign_is_bip327_sign_proof c sk sn an pt_O msg Hc) as (_ & _ & _ & H' & E). rewrite E. exact H'.
    - intros s pk pn. destruct (C12_verify_is_bip327_verify_proof c an T pk pn msg Hc) as (_ & _ & H & _). split; [apply H|].
      destruct (C12_verify_is_bip327_verify_proof c an pt_O pk pn msg Hc) as (_ & _ & H' & E & _). rewrite E. apply H'.
    - intro sigs. split; [apply agg_no_panic|]. apply (C14_aggregate_valid_proof c an sigs msg). }
  split; [exact HS|]. split.
  { intros fuel sk msg. unfold det_sign_solo. destruct (derive_nonce_rfc6979 fuel sk msg); [|discriminate].
    intro H. injection H. apply HS. }
  split.
  { intros pk msg. split; [intro; apply HV|]. split; [intro; apply HV|]. split.
    - intro b. destruct (bytes_cases pk b msg) as [-> | ->]; discriminate.
    - intros sg T. unfold verify_single_adaptor. cbv zeta. destruct (negb _); discriminate. }
  intro rows. unfold verify_batch. destruct (batch_loop _ _ _ _ _) as [l r]. destruct (pt_eqb _ _); discriminate.
Qed.
End C59_signing.

Section C59_rounds.
Context {Pr : prims}.
Add Ring ring_C59_rounds : (fe_ring_theory (n := @ord Pr)).
Lemma C59_rounds_proof {Laws : prims_ok Pr} {Tags : tags_ok Pr} :
  (forall (c : key_agg_ctx Pr) seed i sp, first_round_new c seed i sp = Panic <->
     (i < length (pubkeys c))%nat /\ 2 ^ 32 - 4 <= zlen (concat (sp_extra_inputs sp))) /\
  (forall (r0 : first_round Pr) calls, fr_started r0 ->
     let r := fst (fr_run r0 calls) in
     (forall i n, snd (receive_nonce r i n) <> Panic) /\
     (forall sk msg, fr_finalize r sk msg <> Panic) /\ (forall sk T msg, fr_finalize_adaptor r sk T msg <> Panic) /\
     (forall sk msg an, sign_for_aggregator r sk msg an <> Panic) /\
     (forall sk T msg an, sign_for_aggregator_adaptor r sk T msg an <> Panic)) /\
  (forall (r0 : second_round Pr) calls, sr_started r0 ->
     let r := fst (sr_run r0 calls) in
     our_signature r <> Panic /\ (forall i s, snd (receive_signature r i s) <> Panic) /\
     sr_finalize r <> Panic /\ sr_finalize_adaptor r <> Panic).
Proof.
  split.
  { intros c seed i sp. destruct (C26_new_proof c seed i sp) as (H1 & H2 & H3). split.
    - intro HP. destruct (Nat.le_gt_cases (length (pubkeys c)) i) as [Hi|Hi]; [rewrite H1 in HP by exact Hi; discriminate|].
      split; [exact Hi|]. destruct (Z.lt_ge_cases (4 + zlen (concat (sp_extra_inputs sp))) (2 ^ 32)) as [Hx|Hx]; [|lia].
      destruct (H2 Hi Hx) as (r & Hr & _). congruence.
    - intros [Hi Hx]. apply H3; [exact Hi|lia]. }
  split.
  { intros r0 calls Hr r. pose proof (started_fr_run r0 calls Hr) as (Hwf & E1 & _ & E3 & _ & Hok & _). fold r in E1, E3, Hok.
    assert (Hc : ctx_reachable (fr_ctx r)).
    { rewrite E1. destruct Hr as (c & seed & i & sp & Hc & H). apply first_round_new_ok in H as (<- & _). exact Hc. }
    assert (HS : forall sk an T msg, sign_partial_adaptor (fr_ctx r) sk (fr_secnonce r) an T msg <> Panic).
    { intros sk an T msg. apply (C11_sign_is_bip327_sign_proof (fr_ctx r) sk (fr_secnonce r) an T msg Hc). }
    split; [|split; [|split; [|split]]].
    - intros i n. unfold receive_nonce. destruct Hok as [_ Hok]. destruct (place_ok pubnonce_eqb _ _ _ n i Hok) as [_ HP].
      destruct (place _ _ _ _) as [s o]. exact HP.
    - intros sk msg. apply (C30_first_finalize_proof r0 calls sk pt_O msg Hr).
    - intros sk T msg. apply (C30_first_finalize_proof r0 calls sk T msg Hr).
    - intros sk msg an. unfold sign_for_aggregator.
      destruct (C11_sign_is_bip327_sign_proof (fr_ctx r) sk (fr_secnonce r) an pt_O msg Hc) as (_ & _ & _ & H' & E). rewrite E. exact H'.
    - intros sk T msg an. apply HS. }
  intros r0 calls Hr r. split; [|split; [|split]].
  - destruct (C29_receive_signature_proof r0 calls 0 fzero Hr) as (ours & _ & H & _). unfold r. rewrite H. discriminate.
  - intros i s. pose proof Hr as Hr'. apply started_sr in Hr' as (Hwf & sk & sn & _ & _ & Hok & Hour).
    pose proof (sr_run_started r0 _ calls Hwf Hok) as ((sl & E) & A & HP & HO). fold r in E, A, HO.
    assert (Hwfr : ctx_wf (sr_ctx r)) by (rewrite E; exact Hwf).
    destruct (receive_signature_spec r _ _ i s Hwfr A) as [[H1 ->]|[(H1 & H2 & ->)|[(H1 & H2 & w & Hw & [[_ ->]|[_ ->]])|(H1 & H2 & H3 & sl' & -> & H5)]]];
      discriminate.
  - apply (C30_second_finalize_proof r0 calls Hr).
  - apply (C30_second_finalize_proof r0 calls Hr).
Qed.
End C59_rounds.

Section C59_decoders.
Context {Pr : prims}.
Add Ring ring_C59_decoders : (fe_ring_theory (n := @ord Pr)).
Lemma C59_decoders_proof {Laws : prims_ok Pr} (tg : target) (Htg : 64 <= usize_bits tg) :
  let total := fun (A : Type) (d : bytes -> res decode_error A) =>
    (forall b, d b <> Panic) /\ (forall n s, from_hex_fixed n d s <> Panic) /\ (forall s, from_hex_var d s <> Panic) /\
    (forall max s, serde_hex_fixed max d s <> Panic) /\ (forall max b, serde_bin_fixed max d b <> Panic) in
  total _ (secnonce_from_bytes (Pr := Pr)) /\ total _ (pubnonce_from_bytes (Pr := Pr)) /\ total _ (aggnonce_from_bytes (Pr := Pr)) /\
  total _ (compact_from_bytes (Pr := Pr)) /\ total _ (lifted_from_bytes (Pr := Pr)) /\ total _ (adaptor_from_bytes (Pr := Pr)) /\
  total _ (ctx_from_bytes (Pr := Pr) tg).
Proof.
  intro total.
  assert (HT : forall A (d : bytes -> res decode_error A), (forall b, d b <> Panic) -> total A d).
  { intros A d H. split; [exact H|]. split; [intros; apply hex_fixed_np, H|]. split.
    - intro s. unfold from_hex_var. apply bind_np; [apply map_err_np, hex_vec_np | intros a _; apply H].
    - split; [intros; apply serde_hex_np, H | intros; apply serde_bin_np, H]. }
  clearbody total.
  assert (HC : forall b, compact_from_bytes (Pr := Pr) b <> Panic).
  { intro b. unfold compact_from_bytes. repeat match goal with |- context [match ?x with _ => _ end] => destruct x end; discriminate. }
  repeat split; apply HT; intro b.
  - unfold secnonce_from_bytes. repeat match goal with |- context [match ?x with _ => _ end] => destruct x end; discriminate.
  - unfold pubnonce_from_bytes. repeat match goal with |- context [match ?x with _ => _ end] => destruct x end; discriminate.
  - unfold aggnonce_from_bytes. repeat match goal with |- context [match ?x with _ => _ end] => destruct x end; discriminate.
  - apply HC.
  - unfold lifted_from_bytes. apply bind_np; [apply HC|]. intros a _. destruct (lift_nonce a); discriminate.
  - unfold adaptor_from_bytes. repeat match goal with |- context [match ?x with _ => _ end] => destruct x end; discriminate.
  - apply decode_no_panic. unfold wide. lia.
Qed.
End C59_decoders.

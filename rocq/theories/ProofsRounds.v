(** Proofs of the theorems of PropertiesRounds.v. *)
From Coq Require Import String List Sorting.Sorted Permutation.
From Verif Require Import Bytes BytesFacts Prims PrimsFacts TaggedHashes Errors SpecTags SpecBIP327
  KeyAgg Nonces Signature Signing SigAgg Bip340 Rounds SpecCtx SpecView SpecSession SpecRounds Toy ToyData ToyRounds.
Import ListNotations.
Open Scope list_scope.
Open Scope nat_scope.
From Coq Require Import Arith Lia.
From Verif Require Import CodecFacts KeyAggFacts SigningFacts SignatureFacts SpecFacts SpecSigning SessionFacts Bip340Facts RoundsFacts.

Section Helpers.
Context {Pr : prims} {Laws : prims_ok Pr} {Tags : tags_ok Pr}.
Add Ring fring0 : (fe_ring_theory (n := @ord Pr)).

Lemma fr_complete_iff (r : first_round Pr) : fr_is_complete r = true <-> fr_holdouts r = [].
Proof. unfold fr_is_complete. destruct (fr_holdouts r); split; congruence. Qed.
Lemma sr_complete_iff (r : second_round Pr) : sr_is_complete r = true <-> sr_holdouts r = [].
Proof. unfold sr_is_complete. destruct (sr_holdouts r); split; congruence. Qed.

Lemma zlen_concat_app (a b : list bytes) : extra_total (a ++ b) = (extra_total a + extra_total b)%Z.
Proof. unfold extra_total. rewrite concat_app. unfold zlen. rewrite app_length. lia. Qed.
Lemma zlen_index i : extra_total [be_enc 4 i] = 4%Z.
Proof. unfold extra_total. cbn [concat]. rewrite app_nil_r. unfold zlen. rewrite be_enc_length. reflexivity. Qed.

Lemma nth_error_ext {A} (l m : list A) : (forall i, nth_error l i = nth_error m i) -> l = m.
Proof.
  revert m. induction l as [|x l IH]; intros [|y m] H; [reflexivity|discriminate (H 0)..|].
  assert (x = y) by (specialize (H 0); cbn in H; congruence). subst y. f_equal. apply IH. intro i. exact (H (S i)).
Qed.
Lemma Permutation_refl' {A} (l m : list A) : l = m -> Permutation l m.
Proof. intros ->. apply Permutation_refl. Qed.
Lemma Permutation_map_inv_Some {A} (l m : list A) : Permutation (map Some l) (map Some m) -> Permutation l m.
Proof.
  intro H. apply Permutation_map_inv in H as (l' & E & HP). rewrite HP. apply Permutation_refl'.
  clear HP. revert l' E. induction l as [|x l IH]; intros [|y l'] E; cbn [map] in E; try discriminate; [reflexivity|].
  f_equal; [congruence|]. apply IH. congruence.
Qed.
Lemma filter_all {A} (f : A -> bool) l : (forall x, In x l -> f x = true) -> filter f l = l.
Proof.
  induction l as [|x l IH]; intro H; [reflexivity|]. cbn [filter]. rewrite (H x (or_introl eq_refl)). f_equal.
  apply IH. intros y Hy. apply H. right. exact Hy.
Qed.

Lemma round_builder_cases c seed i (pk : point Pr) sp :
  (4 + extra_total (sp_extra_inputs sp) <= u32_max -> exists b, round_builder c seed i pk sp = Ok b)%Z /\
  (u32_max < 4 + extra_total (sp_extra_inputs sp) -> round_builder c seed i pk sp = Panic)%Z.
Proof.
  unfold round_builder, with_extra_input, with_spices.
  cbn [b_extra_inputs with_aggregated_pubkey with_pubkey builder_new app set_extra_inputs].
  unfold extra_input_ok at 1 3. rewrite zlen_index. cbn [Z.leb]. replace (4 <=? u32_max)%Z with true by reflexivity.
  cbn [bind b_extra_inputs set_extra_inputs]. unfold extra_input_ok. 
  change (be_enc 4 (Z.of_nat i) :: sp_extra_inputs sp) with ([be_enc 4 (Z.of_nat i)] ++ sp_extra_inputs sp).
  rewrite zlen_concat_app, zlen_index. split; intro H.
  - rewrite (proj2 (Z.leb_le _ _) H). eauto.
  - rewrite (proj2 (Z.leb_gt _ _) H). reflexivity.
Qed.

Lemma sess_of_slots r sl (T : pt) : sr_valid (sr_set_slots r sl) = sr_valid r :> (nat -> mscalar Pr -> Prop).
Proof. reflexivity. Qed.

(** Equal second rounds. *)
Lemma sr_unique (r0 : second_round Pr) ours calls1 calls2 : ctx_wf (sr_ctx r0) -> sr_ok r0 ours [] ->
  (forall i s, i < nsigners (sr_ctx r0) -> i <> sr_index r0 -> sr_valid r0 i s -> (In (i, s) calls1 <-> In (i, s) calls2)) ->
  fst (sr_run r0 calls1) = fst (sr_run r0 calls2).
Proof.
  intros Hwf Hok H.
  pose proof (sr_run_started r0 ours calls1 Hwf Hok) as ((sl1 & E1) & A1 & _).
  pose proof (sr_run_started r0 ours calls2 Hwf Hok) as ((sl2 & E2) & A2 & _).
  rewrite E1 in *. rewrite E2 in *. f_equal. destruct A1 as (_ & _ & _ & A1), A2 as (_ & _ & _ & A2).
  cbn [sr_ctx sr_index sr_set_slots sr_slots] in A1, A2.
  eapply slots_unique; [exact A1|exact A2|]. intros i Hi. rewrite !on_file_cons.
  destruct (Nat.eqb_spec (sr_index r0) i) as [|Hne]; [reflexivity|].
  assert (HF : forall calls s, on_file (filter (sr_check r0) calls) i = Some s -> In (i, s) calls /\ sr_valid r0 i s).
  { intros calls s Hs. apply on_file_In in Hs. rewrite (filter_check r0 ours) in Hs by assumption. exact Hs. }
  destruct (on_file (filter (sr_check r0) calls1) i) as [s1|] eqn:F1.
  - apply HF in F1 as [F1 V1]. destruct (on_file (filter (sr_check r0) calls2) i) as [s2|] eqn:F2.
    + apply HF in F2 as [F2 V2]. f_equal. eapply session_valid_unique; eassumption.
    + exfalso. rewrite on_file_None in F2. apply (F2 s1). apply (filter_check r0 ours); [assumption|assumption|].
      split; [|assumption]. apply H; auto.
  - destruct (on_file (filter (sr_check r0) calls2) i) as [s2|] eqn:F2; [|reflexivity].
    apply HF in F2 as [F2 V2]. exfalso. rewrite on_file_None in F1. apply (F1 s2).
    apply (filter_check r0 ours); [assumption|assumption|]. split; [|assumption]. apply H; auto.
Qed.

(** The signatures on file of a complete second round: ours, and the valid ones. *)
Lemma sr_sigs (r0 : second_round Pr) ours calls : ctx_wf (sr_ctx r0) -> sr_ok r0 ours [] ->
  let r := fst (sr_run r0 calls) in
  sr_holdouts r = [] ->
  exists sigs, slots_finalize (sr_slots r) = Ok sigs /\ length sigs = length (pubkeys (sr_ctx r0)) /\
    nth_error sigs (sr_index r0) = Some ours /\
    forall i s, i <> sr_index r0 -> nth_error sigs i = Some s -> sr_valid r0 i s /\ In (i, s) calls.
Proof.
  intros Hwf Hok r Hh. pose proof (sr_run_started r0 ours calls Hwf Hok) as ((sl & E) & A & _). fold r in E, A.
  destruct (sr_finalize_spec r _ _ A) as [[H1 _]|(_ & sigs & H1 & H2 & H3)]; [contradiction|].
  exists sigs. split; [assumption|]. rewrite E in H2, H3. cbn [sr_set_slots sr_ctx sr_index] in H2, H3.
  split; [exact H2|]. split.
  - rewrite H3 by apply Hok. rewrite on_file_cons, Nat.eqb_refl. reflexivity.
  - intros i s Hi Hs. assert (Hlt : i < nsigners (sr_ctx r0)) by (rewrite <- H2; apply nth_error_Some; congruence).
    rewrite H3, on_file_cons in Hs by exact Hlt. destruct (Nat.eqb_spec (sr_index r0) i) as [Ei|_]; [congruence|].
    apply on_file_In in Hs. rewrite (filter_check r0 ours) in Hs by assumption. tauto.
Qed.

Lemma set_slots_finalize r0 sl :
  sr_finalize_adaptor (sr_set_slots r0 sl) =
  bind (slots_finalize sl) (fun ps => map_err FE_InvalidAggregatedSignature
    (aggregate_partial_adaptor_signatures (sr_ctx r0) (sr_aggnonce r0) (sr_adaptor r0) ps (sr_message r0))) :> res finalize_error (adaptor_sig Pr).
Proof. reflexivity. Qed.

Lemma sr_aggregates (r0 : second_round Pr) ours calls : ctx_wf (sr_ctx r0) -> sr_ok r0 ours [] ->
  let r := fst (sr_run r0 calls) in
  (sr_holdouts r <> [] -> sr_finalize_adaptor r = Err FE_Incomplete) /\
  (sr_holdouts r = [] -> exists sigs,
     sr_finalize_adaptor r = map_err FE_InvalidAggregatedSignature
       (aggregate_partial_adaptor_signatures (sr_ctx r0) (agg_sum (sr_pubnonces r0)) (sr_adaptor r0) sigs (sr_message r0)) /\
     length sigs = length (pubkeys (sr_ctx r0)) /\ nth_error sigs (sr_index r0) = Some ours /\
     forall i s, i <> sr_index r0 -> nth_error sigs i = Some s -> sr_valid r0 i s /\ In (i, s) calls).
Proof.
  intros Hwf Hok r. pose proof (sr_run_started r0 ours calls Hwf Hok) as ((sl & E) & A & _). fold r in E, A. split; intro Hh.
  - destruct (sr_finalize_spec r _ _ A) as [[_ H]|(H1 & _)]; [|contradiction].
    rewrite E in H |- *. cbn [sr_set_slots sr_slots] in H. rewrite set_slots_finalize, H. reflexivity.
  - destruct (sr_sigs r0 ours calls Hwf Hok Hh) as (sigs & H1 & H2 & H3 & H4). fold r in H1. exists sigs.
    rewrite E in H1 |- *. cbn [sr_set_slots sr_slots] in H1. rewrite set_slots_finalize, H1. cbn [bind].
    destruct Hok as (_ & _ & <- & _). auto.
Qed.

Lemma agg_no_panic c an T sigs msg : aggregate_partial_adaptor_signatures (Pr := Pr) c an T sigs msg <> Panic.
Proof. rewrite aggregate_eq. destruct (pt_eqb _ _); discriminate. Qed.

Lemma aggregate_session (r0 : second_round Pr) ours sigs : ctx_wf (sr_ctx r0) -> sr_ok r0 ours [] ->
  length sigs = length (pubkeys (sr_ctx r0)) -> (forall i s, nth_error sigs i = Some s -> sr_valid r0 i s) ->
  (is_ok (aggregate_partial_adaptor_signatures (sr_ctx r0) (agg_sum (sr_pubnonces r0)) (sr_adaptor r0) sigs (sr_message r0)) = true
   <-> raw_nonce (sr_ctx r0) (agg_sum (sr_pubnonces r0)) (sr_message r0) <> pt_O).
Proof.
  intros Hwf (_ & HLp & _) HL HV. apply aggregate_valid_iff; [exact Hwf|exact HLp|exact HL|].
  intros i pk pn s Hi Hp Hs. destruct (HV i s Hs) as (pk' & pn' & B1 & B2 & B3). apply psig_valid_eq.
  assert (pk' = pk) by (unfold pubkeys in B1; congruence). assert (pn' = pn) by congruence. subst pk' pn'. exact B3.
Qed.

Lemma agg_cases c an T sigs msg :
  (exists sg, aggregate_partial_adaptor_signatures (Pr := Pr) c an T sigs msg = Ok sg) \/
  aggregate_partial_adaptor_signatures c an T sigs msg = Err VE_BadSignature.
Proof. rewrite aggregate_eq. destruct (pt_eqb _ _); eauto. Qed.

Lemma sr_finalize_of r sg c an T sigs msg :
  aggregate_partial_adaptor_signatures (Pr := Pr) c an T sigs msg = Ok sg ->
  sr_finalize_adaptor r = Ok sg -> sr_finalize r = Ok (lifted_new (sess_R c an msg) (a_s sg)).
Proof.
  intros H HF. unfold sr_finalize. rewrite HF. cbn [bind]. rewrite (aggregate_adapt_zero _ _ _ _ _ _ H). reflexivity.
Qed.

Lemma lifted_len (sg : lifted_sig Pr) : length (lifted_to_bytes sg) = 64%nat.
Proof. unfold lifted_to_bytes, compact_to_bytes, compact, compact_new. cbn [c_rx c_s]. rewrite app_length, x_len, ser_scalar_len. reflexivity. Qed.
Lemma schnorr_verify_lifted (pk : point Pr) (l : lifted_sig Pr) msg :
  schnorr_verify msg (xbytes pk) (lifted_to_bytes l) = Ret (is_ok (verify_single_lifted pk l msg)).
Proof.
  unfold xbytes. rewrite schnorr_verify_ref. unfold verify_single_bytes. rewrite compact_of_lifted_bytes. cbn [map_err bind].
  replace (length (lifted_to_bytes l)) with 64 by (symmetry; apply lifted_len). cbn [Nat.eqb andb].
  fold (verify_single_lifted pk l msg).
  destruct (verify_single_cases pk (compact l) msg) as [H|H]; unfold verify_single_lifted; rewrite H; reflexivity.
Qed.

Lemma pmul_cancel k (P Q : pt) : k <> fzero -> pmul k P = pmul k Q -> P = Q.
Proof.
  intros Hk H. destruct (finv_exists ord_prime k Hk) as [b Hb].
  rewrite <- (pmul_1 P), <- (pmul_1 Q), <- Hb. replace (fmul k b) with (fmul b k) by ring; rewrite !pmul_mul, H. reflexivity.
Qed.

(** The own signature in terms of the two keys. *)
Lemma own_valid c an T msg (pk : point Pr) sk sn :
  partial_eq c an T msg pk (public_nonce sn) (psig_value c sk sn an T msg) <->
  (sess_e c an T msg = fzero \/
   pmul (coeff_of (ordered_pubkeys c) (base_mul sk)) (base_mul sk) = pmul (coeff_of (ordered_pubkeys c) pk) pk).
Proof.
  pose proof (psig_value_eq c sk sn an T msg) as H. unfold partial_eq in *. rewrite H. clear H. split.
  - intro H. apply add_cancel_l, pneg_if_inj in H.
    destruct (feqb (sess_e c an T msg) fzero) eqn:E; [left; apply feqb_eq; exact E|right].
    eapply pmul_cancel; [|exact H]. intro E'. rewrite E' in E. rewrite (proj2 (feqb_eq _ _) eq_refl) in E. discriminate.
  - intros [H|H]; [|rewrite H; reflexivity]. rewrite H, !pmul_0. reflexivity.
Qed.

Lemma fsum_set_nth (l : list (mscalar Pr)) i u v : nth_error l i = Some u ->
  fsum (set_nth l i v) = fadd (fsub (fsum l) u) v.
Proof.
  revert i. induction l as [|x l IH]; intros [|i] H; cbn [nth_error set_nth] in *; try discriminate.
  - assert (x = u) by congruence. subst x. rewrite !fsum_cons. ring.
  - rewrite !fsum_cons, (IH i H). ring.
Qed.
Lemma set_nth_nth {A} (l : list A) i v j : i < length l ->
  nth_error (set_nth l i v) j = if i =? j then Some v else nth_error l j.
Proof.
  revert i j. induction l as [|x l IH]; intros [|i] [|j] H; cbn [nth_error set_nth length Nat.eqb] in *; try lia; try reflexivity.
  apply IH. lia.
Qed.
Lemma set_nth_length {A} (l : list A) i v : length (set_nth l i v) = length l.
Proof. revert i. induction l as [|x l IH]; intros [|i]; cbn [set_nth length]; [reflexivity..|]. f_equal. apply IH. Qed.

Lemma agg_sum_perm (l m : list (pub_nonce Pr)) : Permutation l m -> agg_sum l = agg_sum m.
Proof. intro H. unfold agg_sum. f_equal; apply psum_perm, Permutation_map, H. Qed.

(** An invalid signature of our own spoils the aggregate. *)
Lemma own_invalid_fails (r0 : second_round Pr) ours sigs : ctx_wf (sr_ctx r0) -> sr_ok r0 ours [] ->
  length sigs = length (pubkeys (sr_ctx r0)) -> nth_error sigs (sr_index r0) = Some ours ->
  (forall i s, i <> sr_index r0 -> nth_error sigs i = Some s -> sr_valid r0 i s) ->
  ~ sr_valid r0 (sr_index r0) ours ->
  raw_nonce (sr_ctx r0) (agg_sum (sr_pubnonces r0)) (sr_message r0) <> pt_O ->
  aggregate_partial_adaptor_signatures (sr_ctx r0) (agg_sum (sr_pubnonces r0)) (sr_adaptor r0) sigs (sr_message r0) = Err VE_BadSignature.
Proof.
  intros Hwf Hok HL HO HV Hinv HR. destruct (agg_cases (sr_ctx r0) (agg_sum (sr_pubnonces r0)) (sr_adaptor r0) sigs (sr_message r0)) as [[sg Ha]|Ha]; [|exact Ha].
  exfalso. apply Hinv. pose proof Hok as (Hi & HLp & _).
  destruct (nth_error (pubkeys (sr_ctx r0)) (sr_index r0)) as [pk|] eqn:Epk; [|apply nth_error_None in Epk; unfold nsigners in Hi; lia].
  destruct (nth_error (sr_pubnonces r0) (sr_index r0)) as [pn|] eqn:Epn; [|apply nth_error_None in Epn; lia].
  destruct (partial_eq_exists (sr_ctx r0) (agg_sum (sr_pubnonces r0)) (sr_adaptor r0) (sr_message r0) pk pn) as [s0 Hs0].
  assert (Hv0 : sr_valid r0 (sr_index r0) s0).
  { exists pk, pn. split; [exact Epk|]. split; [exact Epn|]. apply psig_valid_eq, Hs0. }
  assert (Hil : sr_index r0 < length sigs) by (rewrite HL; exact Hi).
  assert (H2 : is_ok (aggregate_partial_adaptor_signatures (sr_ctx r0) (agg_sum (sr_pubnonces r0)) (sr_adaptor r0)
                 (set_nth sigs (sr_index r0) s0) (sr_message r0)) = true).
  { apply (aggregate_session r0 ours _ Hwf Hok); [rewrite set_nth_length; exact HL| |exact HR].
    intros i s Hs. rewrite set_nth_nth in Hs by exact Hil. destruct (Nat.eqb_spec (sr_index r0) i) as [Ei|Ei].
    - subst i. assert (s = s0) by congruence. subst s. exact Hv0.
    - apply HV; auto. }
  apply is_ok_ex in H2 as [sg2 H2]. apply aggregate_Ok_iff in Ha as [_ Ha]. apply aggregate_Ok_iff in H2 as [_ H2].
  rewrite <- Ha in H2. apply gmul_inj in H2. unfold agg_s in H2. rewrite (fsum_set_nth _ _ ours s0 HO) in H2.
  assert (E : ours = s0); [|rewrite E; exact Hv0].
  transitivity (fsub (fadd (fsum sigs) ours) (fsum sigs)); [ring|].
  replace (fsum sigs) with (fsub (fadd (fsum sigs) (fneg_if (pt_odd (pubkey (sr_ctx r0))) (fmul (sess_e (sr_ctx r0) (agg_sum (sr_pubnonces r0)) (sr_adaptor r0) (sr_message r0)) (tweak_acc (sr_ctx r0)))))
     (fneg_if (pt_odd (pubkey (sr_ctx r0))) (fmul (sess_e (sr_ctx r0) (agg_sum (sr_pubnonces r0)) (sr_adaptor r0) (sr_message r0)) (tweak_acc (sr_ctx r0))))) at 1 by ring.
  rewrite <- H2. ring.
Qed.

(** An honest first round. *)
Lemma honest_final (c : key_agg_ctx Pr) (r0 : nat -> first_round Pr) (seed : nat -> bytes) (sp : nat -> spices Pr)
    (sk : nat -> scalar Pr) (calls1 : nat -> list (nat * pub_nonce Pr)) (T : pt) (msg : bytes) : ctx_reachable c ->
  (forall j, j < length (pubkeys c) -> first_round_new c (seed j) j (sp j) = Ok (r0 j)) ->
  (forall j pk, nth_error (pubkeys c) j = Some pk -> base_mul (sk j) = pk) ->
  (forall j i, j < length (pubkeys c) -> i < length (pubkeys c) ->
     on_file ((j, our_public_nonce (r0 j)) :: calls1 j) i = Some (our_public_nonce (r0 i))) ->
  let pns := map (fun j => our_public_nonce (r0 j)) (seq 0 (length (pubkeys c))) in
  let psig := fun j => psig_value c (sk j) (fr_secnonce (r0 j)) (agg_sum pns) T msg in
  forall j, j < length (pubkeys c) ->
  session_valid c pns T msg j (psig j) /\
  exists sr, fr_finalize_adaptor (fst (fr_run (r0 j) (calls1 j))) (sk j) T msg = Ok sr /\
    sr_ctx sr = c /\ sr_index sr = j /\ sr_pubnonces sr = pns /\ sr_adaptor sr = T /\ sr_message sr = msg /\
    sr_ok sr (psig j) [].
Proof.
  intros Hc Hnew Hsk Hfirst pns psig j Hj. pose proof (reachable_wf _ Hc) as Hwf.
  assert (Hst : fr_started (r0 j)) by (exists c, (seed j), j, (sp j); auto).
  pose proof (first_round_new_ok _ _ _ _ _ (Hnew j Hj)) as (K1 & K2 & K3 & _).
  destruct (nth_error (pubkeys c) j) as [pk|] eqn:Epk; [|apply nth_error_None in Epk; lia].
  pose proof (Hsk j pk Epk) as Epk'.
  assert (Hin : In (base_mul (sk j)) (ordered_pubkeys c)) by (rewrite Epk'; eapply nth_error_In; exact Epk).
  split.
  - exists pk, (our_public_nonce (r0 j)). split; [exact Epk|]. split; [apply (nth_map_seq (fun j => our_public_nonce (r0 j))); exact Hj|].
    apply psig_valid_eq. rewrite <- Epk'. exact (psig_value_eq c (sk j) (fr_secnonce (r0 j)) (agg_sum pns) T msg).
  - pose proof (started_fr_run (r0 j) (calls1 j) Hst) as (_ & E1 & E2 & E3 & E4 & Hok & _).
    set (r := fst (fr_run (r0 j) (calls1 j))) in *. rewrite K1 in E1. rewrite K2 in E2.
    destruct (fr_finalize_spec r _ (sk j) T msg Hok) as [[H _]|(_ & pns' & HL & HN & HS)].
    + exfalso. apply H. rewrite (fr_holdouts_eq _ _ Hok), E1, E2, E4.
      destruct (missing _ _) as [|i l] eqn:EM; [reflexivity|].
      assert (HI : In i (missing (nsigners c) ((j, our_public_nonce (r0 j)) :: calls1 j))) by (rewrite EM; left; reflexivity).
      apply missing_In in HI as [HI1 HI2]. rewrite Hfirst in HI2 by assumption. discriminate.
    + assert (Epns : pns' = pns).
      { apply nth_error_ext. intro i. rewrite E1, E2, E4 in *. destruct (lt_dec i (nsigners c)) as [Hi|Hi].
        - rewrite HN by exact Hi. unfold pns. rewrite nth_map_seq by exact Hi. apply Hfirst; assumption.
        - unfold nsigners in *. rewrite !(proj2 (nth_error_None _ _)); [reflexivity|unfold pns; rewrite map_length, seq_length; lia|lia]. }
      subst pns'. rewrite E1, E3 in HS. rewrite (sign_member _ _ _ _ _ _ Hwf Hin) in HS. fold (psig j) in HS.
      destruct HS as (sr & H1 & H2 & H3 & H4 & H5 & H6 & H7). exists sr. rewrite H4. auto 10.
Qed.

End Helpers.

Section C26_new.
Context {Pr : prims}.
Add Ring ring_C26_new : (fe_ring_theory (n := @ord Pr)).
Lemma C26_new_proof {Laws : prims_ok Pr} {Tags : tags_ok Pr} (c : key_agg_ctx Pr) (seed : bytes) (i : nat) (sp : spices Pr) :
  let n := length (pubkeys c) in
  let extra := zlen (concat (sp_extra_inputs sp)) in
  (n <= i -> first_round_new c seed i sp = Err (SignerIndexError i n)) /\
  (i < n -> (4 + extra < 2 ^ 32)%Z -> exists r, first_round_new c seed i sp = Ok r /\
     fr_ctx r = c /\ fr_index r = i /\ fr_holdouts r = seq 0 i ++ seq (S i) (n - S i)) /\
  (i < n -> (2 ^ 32 <= 4 + extra)%Z -> first_round_new c seed i sp = Panic).
Proof.
  cbv zeta. fold (extra_total (sp_extra_inputs sp)). split; [|split].
  - intro H. unfold first_round_new. rewrite get_pubkey_nth, (proj2 (nth_error_None _ _) H). reflexivity.
  - intros Hi Hx. destruct (nth_error (pubkeys c) i) as [pk|] eqn:E; [|apply nth_error_None in E; lia].
    destruct (proj1 (round_builder_cases c seed i pk sp) ltac:(unfold u32_max; lia)) as [b Hb].
    assert (HR : exists r, first_round_new c seed i sp = Ok r).
    { unfold first_round_new. rewrite get_pubkey_nth, E, Hb.
      destruct (place_spec pubnonce_eqb _ _ [] (public_nonce (build b)) i (slots_new_ok (length (pubkeys c)))) as [[H1 _]|[(H1 & w & Hw & _)|(H1 & H2 & s' & H3 & H4)]].
      - lia.
      - discriminate.
      - rewrite H3. eauto. }
    destruct HR as [r HR]. exists r. split; [assumption|]. apply first_round_new_ok in HR as (H1 & H2 & H3 & _).
    split; [assumption|]. split; [assumption|]. rewrite (fr_holdouts_eq _ _ H3), H1, H2. unfold missing, nsigners.
    replace (length (pubkeys c)) with (i + S (length (pubkeys c) - S i)) at 1 by lia.
    rewrite seq_app, filter_app. cbn [Nat.add seq filter]. rewrite on_file_cons, Nat.eqb_refl. cbn [is_none]. f_equal.
    all: apply filter_all; intros j Hj; apply in_seq in Hj; rewrite on_file_one, (proj2 (Nat.eqb_neq i j)) by lia; reflexivity.
  - intros Hi Hx. unfold first_round_new. rewrite get_pubkey_nth.
    destruct (nth_error (pubkeys c) i) as [pk|] eqn:E; [|apply nth_error_None in E; lia].
    rewrite (proj2 (round_builder_cases c seed i pk sp)) by (unfold u32_max; lia). reflexivity.
Qed.
End C26_new.

Section C26_first_round_holdouts.
Context {Pr : prims}.
Add Ring ring_C26_first_round_holdouts : (fe_ring_theory (n := @ord Pr)).
Lemma C26_first_round_holdouts_proof {Laws : prims_ok Pr} {Tags : tags_ok Pr} (r0 : first_round Pr) (calls : list (nat * pub_nonce Pr)) (Hr : fr_started r0) :
  let r := fst (fr_run r0 calls) in
  let n := length (pubkeys (fr_ctx r0)) in
  StronglySorted lt (fr_holdouts r) /\
  (forall j, In j (fr_holdouts r) <-> j < n /\ j <> fr_index r0 /\ ~ exists v, In (j, v) calls) /\
  (fr_is_complete r = true <-> forall j, j < n -> j <> fr_index r0 -> exists v, In (j, v) calls) /\
  ~ In Panic (snd (fr_run r0 calls)).
Proof.
  intros r n. pose proof (started_fr_run r0 calls Hr) as (_ & E1 & E2 & _ & E4 & Hok & HP). fold r in E1, E2, E4, Hok.
  pose proof (fr_holdouts_eq _ _ Hok) as HH. rewrite E1, E2 in HH.
  rewrite fr_complete_iff, HH. split; [apply missing_sorted|]. split; [intro j; apply missing_own|].
  split; [apply missing_nil|exact HP].
Qed.
End C26_first_round_holdouts.

Section C26_second_round_holdouts.
Context {Pr : prims}.
Add Ring ring_C26_second_round_holdouts : (fe_ring_theory (n := @ord Pr)).
Lemma C26_second_round_holdouts_proof {Laws : prims_ok Pr} {Tags : tags_ok Pr} (r0 : second_round Pr) (calls : list (nat * mscalar Pr)) (Hr : sr_started r0) :
  let r := fst (sr_run r0 calls) in
  let n := length (pubkeys (sr_ctx r0)) in
  StronglySorted lt (sr_holdouts r) /\
  (forall j, In j (sr_holdouts r) <->
     j < n /\ j <> sr_index r0 /\ ~ exists s, In (j, s) calls /\ sr_valid r0 j s) /\
  (sr_is_complete r = true <->
     forall j, j < n -> j <> sr_index r0 -> exists s, In (j, s) calls /\ sr_valid r0 j s) /\
  ~ In Panic (snd (sr_run r0 calls)).
Proof.
  intros r n. apply started_sr in Hr as (Hwf & sk & sn & _ & _ & Hok & _).
  pose proof (sr_run_started r0 _ calls Hwf Hok) as ((sl & E) & A & HP & _). fold r in E, A.
  pose proof (sr_holdouts_eq _ _ _ A) as HH. rewrite E in HH at 2 3. cbn [sr_set_slots sr_ctx sr_index] in HH.
  rewrite sr_complete_iff, HH. split; [apply missing_sorted|].
  assert (HX : forall j, (exists w, In (j, w) (filter (sr_check r0) calls)) <-> exists s, In (j, s) calls /\ sr_valid r0 j s).
  { intro j. split; intros [s Hs]; exists s; [apply (filter_check _ _ calls j s Hwf Hok) in Hs; exact Hs|].
    apply (filter_check _ _ calls j s Hwf Hok). exact Hs. }
  split; [|split; [|exact HP]].
  - intro j. rewrite missing_own, HX. reflexivity.
  - rewrite missing_nil. split; intros H j Hj Hne; apply HX; auto.
Qed.
End C26_second_round_holdouts.

Section C27_first_contribution_wins.
Context {Pr : prims}.
Add Ring ring_C27_first_contribution_wins : (fe_ring_theory (n := @ord Pr)).
Lemma C27_first_contribution_wins_proof {Laws : prims_ok Pr} {Tags : tags_ok Pr} (r0 : first_round Pr) (calls : list (nat * pub_nonce Pr)) (i : nat) (v : pub_nonce Pr) (Hr : fr_started r0) :
  let r := fst (fr_run r0 calls) in
  let n := length (pubkeys (fr_ctx r0)) in
  let filed := on_file ((fr_index r0, our_public_nonce r0) :: calls) in
  (n <= i -> receive_nonce r i v = (r, Err (RoundContributionError i (OutOfRange n)))) /\
  (i < n -> filed i = Some v -> receive_nonce r i v = (r, Ok tt)) /\
  (forall w, i < n -> filed i = Some w -> w <> v ->
     receive_nonce r i v = (r, Err (RoundContributionError i InconsistentContribution))) /\
  (i < n -> filed i = None -> snd (receive_nonce r i v) = Ok tt /\
     slot_vec (fr_slots (fst (receive_nonce r i v)))
     = map (fun j => if j =? i then Some v else filed j) (seq 0 n)) /\
  slot_vec (fr_slots r) = map filed (seq 0 n) /\
  our_public_nonce r = our_public_nonce r0.
Proof.
  intros r n filed. pose proof (started_fr_run r0 calls Hr) as (_ & E1 & E2 & _ & E4 & Hok & HP). fold r in E1, E2, E4, Hok.
  pose proof (receive_nonce_spec r calls i v Hok) as HS. cbv zeta in HS. rewrite E1, E2, E4 in HS. fold filed in HS.
  split; [|split; [|split; [|split; [|split; [|exact E4]]]]].
  - intro H. destruct HS as [[_ HS]|[(H1 & _)|(H1 & _)]]; [exact HS|unfold nsigners in H1; unfold n in H; lia..].
  - intros H Hw. destruct HS as [[H1 _]|[(H1 & w & Hw' & [[_ HS]|[Hne _]])|(H1 & Hn & _)]].
    + unfold nsigners in H1; unfold n in H; lia.
    + exact HS.
    + congruence.
    + congruence.
  - intros w H Hw Hvw. destruct HS as [[H1 _]|[(H1 & w' & Hw' & [[Heq _]|[Hne HS]])|(H1 & Hn & _)]].
    + unfold nsigners in H1; unfold n in H; lia.
    + congruence.
    + exact HS.
    + congruence.
  - intros H Hn. destruct HS as [[H1 _]|[(H1 & w' & Hw' & _)|(H1 & _ & r' & HS)]].
    + unfold nsigners in H1; unfold n in H; lia.
    + congruence.
    + rewrite HS. cbn [fst snd]. split; [reflexivity|].
      pose proof (fr_run_ok [(i, v)] r calls Hok) as (B1 & B2 & B3 & B4 & _). cbn [fr_run] in B1, B2, B3, B4.
      rewrite HS in B1, B2, B3, B4. cbn [fst] in B1, B2, B3, B4. destruct B4 as [_ [B4 _]]. rewrite B4.
      unfold our_public_nonce. rewrite B1, B2, B3, E1, E2. fold (our_public_nonce r). rewrite E4. apply map_ext. intro j.
      rewrite app_comm_cons, on_file_app. fold filed. rewrite on_file_one, (Nat.eqb_sym j i).
      destruct (Nat.eqb_spec i j) as [->|]; [rewrite Hn; reflexivity|]. destruct (filed j); reflexivity.
  - destruct Hok as [_ [Hv _]]. rewrite Hv, E1, E2, E4. reflexivity.
Qed.
End C27_first_contribution_wins.

Section C28_first_round_order.
Context {Pr : prims}.
Add Ring ring_C28_first_round_order : (fe_ring_theory (n := @ord Pr)).
Lemma C28_first_round_order_proof {Laws : prims_ok Pr} {Tags : tags_ok Pr} (r0 : first_round Pr) (calls1 : list (nat * pub_nonce Pr)) (calls2 : list (nat * pub_nonce Pr)) (Hr : fr_started r0) (Hsame : forall i v, i < length (pubkeys (fr_ctx r0)) -> i <> fr_index r0 -> (In (i, v) calls1 <-> In (i, v) calls2)) (Hcons : forall i v w, i < length (pubkeys (fr_ctx r0)) -> i <> fr_index r0 -> In (i, v) calls1 -> In (i, w) calls1 -> v = w) :
  fst (fr_run r0 calls1) = fst (fr_run r0 calls2).
Proof.
  pose proof (started_fr_run r0 calls1 Hr) as (_ & A1 & A2 & A3 & A4 & Hok1 & _).
  pose proof (started_fr_run r0 calls2 Hr) as (_ & B1 & B2 & B3 & B4 & Hok2 & _).
  apply (fr_unique _ _ calls1 calls2); try congruence; try assumption.
  rewrite A1, A2. intros i Hi Hne.
  destruct (on_file calls1 i) as [v|] eqn:E1, (on_file calls2 i) as [w|] eqn:E2; try reflexivity.
  - f_equal. apply on_file_In in E1, E2. apply (Hcons i v w); auto. apply Hsame; auto.
  - apply on_file_In in E1. exfalso. rewrite on_file_None in E2. apply (E2 v). apply Hsame; auto.
  - apply on_file_In in E2. exfalso. rewrite on_file_None in E1. apply (E1 w). apply Hsame; auto.
Qed.
End C28_first_round_order.

Section C28_second_round_order.
Context {Pr : prims}.
Add Ring ring_C28_second_round_order : (fe_ring_theory (n := @ord Pr)).
Lemma C28_second_round_order_proof {Laws : prims_ok Pr} {Tags : tags_ok Pr} (r0 : second_round Pr) (calls1 : list (nat * mscalar Pr)) (calls2 : list (nat * mscalar Pr)) (Hr : sr_started r0) (Hsame : forall i s, i < length (pubkeys (sr_ctx r0)) -> i <> sr_index r0 -> sr_valid r0 i s -> (In (i, s) calls1 <-> In (i, s) calls2)) :
  fst (sr_run r0 calls1) = fst (sr_run r0 calls2).
Proof.
  apply started_sr in Hr as (Hwf & sk & sn & _ & _ & Hok & _).
  eapply sr_unique; [exact Hwf|exact Hok|]. exact Hsame.
Qed.
End C28_second_round_order.

Section C29_receive_signature.
Context {Pr : prims}.
Add Ring ring_C29_receive_signature : (fe_ring_theory (n := @ord Pr)).
Lemma C29_receive_signature_proof {Laws : prims_ok Pr} {Tags : tags_ok Pr} (r0 : second_round Pr) (calls : list (nat * mscalar Pr)) (i : nat) (s : mscalar Pr) (Hr : sr_started r0) :
  let r := fst (sr_run r0 calls) in
  let n := length (pubkeys (sr_ctx r0)) in
  exists ours, our_signature r0 = Ok ours /\ our_signature r = Ok ours /\
  (snd (receive_signature r i s) = Ok tt <-> i < n /\ sr_valid r0 i s /\ (i = sr_index r0 -> s = ours)) /\
  (n <= i -> receive_signature r i s = (r, Err (RoundContributionError i (OutOfRange n)))) /\
  (i < n -> ~ sr_valid r0 i s -> receive_signature r i s = (r, Err (RoundContributionError i InvalidSignature))) /\
  (i = sr_index r0 -> sr_valid r0 i s -> s <> ours ->
     receive_signature r i s = (r, Err (RoundContributionError i InconsistentContribution))) /\
  (forall j t, nth_error (slot_vec (sr_slots r)) j = Some (Some t) <->
     j < n /\ ((j = sr_index r0 /\ t = ours) \/ (j <> sr_index r0 /\ In (j, t) calls /\ sr_valid r0 j t))).
Proof.
  intros r n. apply started_sr in Hr as (Hwf & sk & sn & _ & _ & Hok & Hour).
  set (ours := psig_value _ _ _ _ _ _) in *. exists ours. split; [exact Hour|].
  pose proof (sr_run_started r0 _ calls Hwf Hok) as ((sl & E) & A & HP & HO). fold r in E, A, HO. split; [exact HO|].
  assert (Hwfr : ctx_wf (sr_ctx r)) by (rewrite E; exact Hwf).
  pose proof (receive_signature_spec r ours _ i s Hwfr A) as HS. cbv zeta in HS.
  replace (nsigners (sr_ctx r)) with n in HS by (rewrite E; reflexivity).
  assert (HV : sr_check r (i, s) = true <-> sr_valid r0 i s).
  { rewrite (sr_check_valid r _ _ i s Hwfr A). rewrite E. reflexivity. }
  assert (HVf : sr_check r (i, s) = false <-> ~ sr_valid r0 i s).
  { rewrite <- HV. destruct (sr_check r (i, s)); split; congruence. }
  assert (HI : sr_index r = sr_index r0) by (rewrite E; reflexivity). rewrite HI in HS.
  assert (HF : forall j, on_file ((sr_index r0, ours) :: filter (sr_check r0) calls) j =
     if sr_index r0 =? j then Some ours else on_file (filter (sr_check r0) calls) j) by (intro; apply on_file_cons).
  assert (HFV : forall j t, on_file (filter (sr_check r0) calls) j = Some t -> In (j, t) calls /\ sr_valid r0 j t).
  { intros j t Ht. apply on_file_In in Ht. apply (filter_check r0 ours calls j t Hwf Hok). exact Ht. }
  split; [|split; [|split; [|split]]].
  - destruct HS as [[H1 H2]|[(H1 & H2 & H3)|[(H1 & H2 & w & Hw & H3)|(H1 & H2 & H3 & sl' & H4 & _)]]].
    + rewrite H2. cbn [snd]. split; [discriminate|]. intros (H & _). lia.
    + rewrite H3. apply HVf in H2. cbn [snd]. split; [discriminate|]. intros (_ & H & _). contradiction.
    + apply HV in H2. rewrite HF in Hw. destruct (Nat.eqb_spec (sr_index r0) i) as [Ei|Ei].
      * assert (w = ours) by congruence. subst w. destruct H3 as [[H4 H5]|[H4 H5]]; rewrite H5; cbn [snd].
        -- split; auto.
        -- split; [discriminate|]. intros (_ & _ & H). exfalso. auto.
      * apply HFV in Hw as [_ Hw]. assert (s = w) by (eapply session_valid_unique; eassumption). subst w.
        destruct H3 as [[_ H5]|[H4 _]]; [|congruence]. rewrite H5. cbn [snd]. split; [|auto]. intros _.
        split; [assumption|]. split; [assumption|]. congruence.
    + rewrite H4. cbn [snd]. split; [|auto]. intros _. apply HV in H2. split; [assumption|]. split; [assumption|].
      intro Ei. rewrite HF, Ei, Nat.eqb_refl in H3. discriminate.
  - intro H. destruct HS as [[H1 H2]|[(H1 & _)|[(H1 & _)|(H1 & _)]]]; [exact H2|lia..].
  - intros H Hn. apply HVf in Hn. destruct HS as [[H1 H2]|[(H1 & H2 & H3)|[(H1 & H2 & _)|(H1 & H2 & _)]]]; [lia|exact H3|congruence..].
  - intros Ei Hv Hne. apply HV in Hv. destruct HS as [[H1 H2]|[(H1 & H2 & H3)|[(H1 & H2 & w & Hw & H3)|(H1 & H2 & H3 & _)]]].
    + subst i. pose proof (proj1 Hok). unfold nsigners in *. unfold n in H1. lia.
    + congruence.
    + rewrite HF, Ei, Nat.eqb_refl in Hw. assert (w = ours) by congruence. subst w.
      destruct H3 as [[H4 _]|[_ H5]]; [congruence|exact H5].
    + rewrite HF, Ei, Nat.eqb_refl in H3. discriminate.
  - intros j t. destruct A as (_ & _ & _ & [A _]). rewrite A.
    replace (nsigners (sr_ctx r)) with n by (rewrite E; reflexivity). rewrite HI.
    destruct (lt_dec j n) as [Hj|Hj].
    2:{ rewrite (proj2 (nth_error_None _ _)) by (rewrite map_length, seq_length; lia). split; [discriminate|]. intros [H _]. lia. }
    rewrite nth_map_seq by exact Hj. rewrite HF. destruct (Nat.eqb_spec (sr_index r0) j) as [Ej|Ej].
    + split; [intro H; split; [assumption|]; left; split; congruence|]. intros [_ [[_ ->]|[H _]]]; [reflexivity|congruence].
    + split.
      * intro H. split; [assumption|]. right. split; [auto|]. apply HFV. congruence.
      * intros [_ [[H _]|(_ & H1 & H2)]]; [congruence|].
        destruct (on_file (filter (sr_check r0) calls) j) as [u|] eqn:Eu.
        -- apply HFV in Eu as [_ Hu]. do 2 f_equal. eapply session_valid_unique; eassumption.
        -- exfalso. rewrite on_file_None in Eu. apply (Eu t). apply (filter_check r0 ours calls j t Hwf Hok). auto.
Qed.
End C29_receive_signature.

Section C30_first_finalize.
Context {Pr : prims}.
Add Ring ring_C30_first_finalize : (fe_ring_theory (n := @ord Pr)).
Lemma C30_first_finalize_proof {Laws : prims_ok Pr} {Tags : tags_ok Pr} (r0 : first_round Pr) (calls : list (nat * pub_nonce Pr)) (sk : scalar Pr) (T : pt) (msg : bytes) (Hr : fr_started r0) :
  let r := fst (fr_run r0 calls) in
  (fr_finalize_adaptor r sk T msg = Err FE_Incomplete <-> fr_holdouts r <> []) /\
  (fr_holdouts r = [] -> In (base_mul sk) (pubkeys (fr_ctx r0)) ->
     exists sr, fr_finalize_adaptor r sk T msg = Ok sr /\
       sr_ctx sr = fr_ctx r0 /\ sr_index sr = fr_index r0 /\ sr_adaptor sr = T /\ sr_message sr = msg /\
       slot_vec (fr_slots r) = map Some (sr_pubnonces sr) /\
       aggregated_nonce sr = agg_sum (sr_pubnonces sr) /\
       exists s, our_signature sr = Ok s /\
         fz s = spec_psig (fr_ctx r0) sk (fr_secnonce r0) (agg_sum (sr_pubnonces sr)) T msg) /\
  (fr_holdouts r = [] -> ~ In (base_mul sk) (pubkeys (fr_ctx r0)) ->
     fr_finalize_adaptor r sk T msg = Err (FE_SigningError SE_UnknownKey)) /\
  fr_finalize_adaptor r sk T msg <> Panic /\
  fr_finalize r sk msg = fr_finalize_adaptor r sk pt_O msg.
Proof.
  intros r. pose proof (started_fr_run r0 calls Hr) as (Hwf & E1 & E2 & E3 & E4 & Hok & _). fold r in E1, E2, E3, E4, Hok.
  assert (Hwfr : ctx_wf (fr_ctx r)) by (rewrite E1; exact Hwf).
  pose proof (fr_finalize_spec r calls sk T msg Hok) as HS. 
  destruct (in_pks_dec (base_mul sk) (ordered_pubkeys (fr_ctx r))) as [Hin|Hin].
  - destruct HS as [[HS1 HS2]|(HS1 & pns & HL & HN & HS)].
    + rewrite HS2. split; [tauto|]. split; [intro; contradiction|]. split; [intro; contradiction|]. split; [discriminate|reflexivity].
    + rewrite (sign_member _ _ _ _ _ _ Hwfr Hin) in HS. destruct HS as (sr & F & Hsr & G1 & G2 & G3 & G4 & G5). rewrite F.
      split; [split; [discriminate|intro; contradiction]|]. split; [|split; [|split; [discriminate|reflexivity]]].
      * intros _ _. exists sr. split; [reflexivity|]. split; [congruence|]. split; [congruence|]. split; [exact G4|]. split; [exact G5|].
        split; [|split].
        -- rewrite G3. destruct Hok as [_ [Hv _]]. rewrite Hv. rewrite <- HL. apply nth_error_ext. intro j.
           destruct (lt_dec j (length pns)) as [Hj|Hj].
           ++ rewrite nth_map_seq by exact Hj. rewrite <- HN by (rewrite <- HL; exact Hj).
              destruct (nth_error pns j) as [x|] eqn:Ex; [|apply nth_error_None in Ex; lia].
              rewrite (map_nth_error _ _ _ Ex). reflexivity.
           ++ rewrite !(proj2 (nth_error_None _ _)); [reflexivity|rewrite map_length; lia|rewrite map_length, seq_length; lia].
        -- destruct Hsr as (_ & _ & H & _). exact H.
        -- eexists. split; [eapply our_signature_ok; exact Hsr|]. rewrite <- spec_psig_eq, E1, E3, G3. reflexivity.
      * intros _ H. rewrite E1 in Hin. contradiction.
  - destruct HS as [[HS1 HS2]|(HS1 & pns & HL & HN & HS)].
    + rewrite HS2. split; [tauto|]. split; [intro; contradiction|]. split; [intro; contradiction|]. split; [discriminate|reflexivity].
    + rewrite (sign_nonmember _ _ _ _ _ _ Hwfr Hin) in HS. rewrite HS.
      split; [split; [discriminate|intro; contradiction]|]. split; [intros _ H; rewrite E1 in Hin; contradiction|].
      split; [reflexivity|]. split; [discriminate|reflexivity].
Qed.
End C30_first_finalize.

Section C30_second_finalize.
Context {Pr : prims}.
Add Ring ring_C30_second_finalize : (fe_ring_theory (n := @ord Pr)).
Lemma C30_second_finalize_proof {Laws : prims_ok Pr} {Tags : tags_ok Pr} (r0 : second_round Pr) (calls : list (nat * mscalar Pr)) (Hr : sr_started r0) :
  let r := fst (sr_run r0 calls) in
  let R' := spec_R_raw (sr_ctx r0) (agg_sum (sr_pubnonces r0)) (sr_message r0) in
  (sr_finalize_adaptor r = Err FE_Incomplete <-> sr_holdouts r <> []) /\
  (sr_finalize r = Err FE_Incomplete <-> sr_holdouts r <> []) /\
  (sr_holdouts r = [] -> (forall ours, our_signature r0 = Ok ours -> sr_valid r0 (sr_index r0) ours) ->
     (R' <> pt_O -> exists sg, sr_finalize_adaptor r = Ok sg /\ a_R sg = R') /\
     (R' = pt_O -> sr_finalize_adaptor r = Err (FE_InvalidAggregatedSignature VE_BadSignature))) /\
  (forall sg, sr_finalize_adaptor r = Ok sg ->
     verify_single_adaptor (aggregated_pubkey (sr_ctx r0)) sg (sr_message r0) (sr_adaptor r0) = Ok tt) /\
  (forall l, sr_adaptor r0 = pt_O -> sr_finalize r = Ok l ->
     verify_single_lifted (aggregated_pubkey (sr_ctx r0)) l (sr_message r0) = Ok tt /\
     schnorr_verify (sr_message r0) (xbytes (aggregated_pubkey (sr_ctx r0))) (lifted_to_bytes l) = Ret true) /\
  sr_finalize_adaptor r <> Panic /\ sr_finalize r <> Panic.
Proof.
  intros r R'. apply started_sr in Hr as (Hwf & sk & sn & _ & _ & Hok & Hour).
  set (ours := psig_value _ _ _ _ _ _) in *.
  destruct (sr_aggregates r0 ours calls Hwf Hok) as [HI HC]. fold r in HI, HC.
  assert (HD : sr_holdouts r = [] \/ sr_holdouts r <> []) by (destruct (sr_holdouts r); [auto|right; discriminate]).
  destruct HD as [Hh|Hh].
  2:{ specialize (HI Hh). unfold sr_finalize. rewrite HI. cbn [bind]. split; [tauto|]. split; [tauto|].
      split; [intro; contradiction|]. split; [intros; discriminate|]. split; [intros; discriminate|]. split; discriminate. }
  clear HI. destruct (HC Hh) as (sigs & F & HL & HO & HV). clear HC. rewrite F.
  destruct (agg_cases (sr_ctx r0) (agg_sum (sr_pubnonces r0)) (sr_adaptor r0) sigs (sr_message r0)) as [[sg Ha]|Ha].
  - rewrite Ha in F |- *. cbn [map_err] in F |- *.
    pose proof (sr_finalize_of r sg _ _ _ _ _ Ha F) as FF. rewrite FF.
    split; [split; [discriminate|intro; contradiction]|]. split; [split; [discriminate|intro; contradiction]|].
    split; [|split; [|split; [|split; discriminate]]].
    + intros _ Hown. pose proof (proj1 (aggregate_Ok_iff _ _ _ _ _ _) Ha) as [Esg _]. unfold R'. rewrite spec_R_raw_eq.
      assert (HA : raw_nonce (sr_ctx r0) (agg_sum (sr_pubnonces r0)) (sr_message r0) <> pt_O).
      { apply (aggregate_session r0 ours sigs Hwf Hok HL); [|rewrite Ha; reflexivity].
        intros i s Hs. destruct (Nat.eq_dec i (sr_index r0)) as [->|Hne]; [|apply (HV i s Hne Hs)].
        assert (s = ours) by congruence. subst s. apply Hown, Hour. }
      split; [|intro; contradiction]. intros _. exists sg. split; [reflexivity|]. rewrite Esg. cbn [a_R]. apply sess_R_raw. exact HA.
    + intros sg' E. assert (sg' = sg) by congruence. subst sg'. exact (aggregate_verifies _ _ _ _ _ _ Ha).
    + intros l HT E. assert (l = lifted_new (sess_R (sr_ctx r0) (agg_sum (sr_pubnonces r0)) (sr_message r0)) (a_s sg)) by congruence. rewrite HT in Ha.
      assert (Hag : aggregate_partial_signatures (sr_ctx r0) (agg_sum (sr_pubnonces r0)) sigs (sr_message r0) = Ok l).
      { unfold aggregate_partial_signatures. rewrite Ha. cbn [bind]. rewrite (aggregate_adapt_zero _ _ _ _ _ _ Ha). subst l. reflexivity. }
      pose proof (aggregate_plain_verifies _ _ _ _ _ Hag) as [V1 V2]. split; [exact V1|].
      rewrite schnorr_verify_lifted. unfold aggregated_pubkey. rewrite V1. reflexivity.
  - rewrite Ha in F |- *. cbn [map_err] in F |- *. unfold sr_finalize. rewrite F. cbn [bind].
    split; [split; [discriminate|intro; contradiction]|]. split; [split; [discriminate|intro; contradiction]|].
    split; [|split; [intros; discriminate|split; [intros; discriminate|split; discriminate]]].
    intros _ Hown. split; [|reflexivity]. intro HR. exfalso. unfold R' in HR. rewrite spec_R_raw_eq in HR.
    apply (aggregate_session r0 ours sigs Hwf Hok HL) in HR; [rewrite Ha in HR; discriminate|].
    intros i s Hs. destruct (Nat.eq_dec i (sr_index r0)) as [->|Hne]; [|apply (HV i s Hne Hs)].
    assert (s = ours) by congruence. subst s. apply Hown, Hour.
Qed.
End C30_second_finalize.

Section C31_honest_sessions_agree.
Context {Pr : prims}.
Add Ring ring_C31_honest_sessions_agree : (fe_ring_theory (n := @ord Pr)).
Lemma C31_honest_sessions_agree_proof {Laws : prims_ok Pr} {Tags : tags_ok Pr} (c : key_agg_ctx Pr) (r0 : nat -> first_round Pr) (seed : nat -> bytes) (sp : nat -> spices Pr) (sk : nat -> scalar Pr) (calls1 : nat -> list (nat * pub_nonce Pr)) (T : pt) (msg : bytes) (Hc : ctx_reachable c) (Hnew : forall j, j < length (pubkeys c) -> first_round_new c (seed j) j (sp j) = Ok (r0 j)) (Hsk : forall j pk, nth_error (pubkeys c) j = Some pk -> base_mul (sk j) = pk) (Hfirst : forall j i, j < length (pubkeys c) -> i < length (pubkeys c) -> on_file ((j, our_public_nonce (r0 j)) :: calls1 j) i = Some (our_public_nonce (r0 i))) :
  let n := length (pubkeys c) in
  let Q := aggregated_pubkey c in
  let R' := spec_R_raw c (agg_sum (map (fun j => our_public_nonce (r0 j)) (seq 0 n))) msg in
  let fin := fun j => fr_finalize_adaptor (fst (fr_run (r0 j) (calls1 j))) (sk j) T msg in
  (forall j, j < n -> exists sr s, fin j = Ok sr /\ our_signature sr = Ok s) /\
  (forall j sr calls2, j < n -> fin j = Ok sr ->
     (sr_is_complete (fst (sr_run sr calls2)) = true <->
      forall i sri s, i < n -> i <> j -> fin i = Ok sri -> our_signature sri = Ok s -> In (i, s) calls2)) /\
  (R' <> pt_O -> exists sg l,
     a_R sg = R' /\ adapt sg fzero = Some l /\
     verify_single_adaptor Q sg msg T = Ok tt /\
     (forall t l', T = gmul t -> adapt sg t = Some l' -> verify_single_lifted Q l' msg = Ok tt) /\
     (T = pt_O -> verify_single_lifted Q l msg = Ok tt /\
                  schnorr_verify msg (xbytes Q) (lifted_to_bytes l) = Ret true) /\
     forall j sr calls2, j < n -> fin j = Ok sr ->
       let r := fst (sr_run sr calls2) in
       sr_is_complete r = true -> sr_finalize_adaptor r = Ok sg /\ sr_finalize r = Ok l) /\
  (R' = pt_O -> forall j sr calls2, j < n -> fin j = Ok sr ->
       let r := fst (sr_run sr calls2) in
       sr_is_complete r = true ->
       sr_finalize_adaptor r = Err (FE_InvalidAggregatedSignature VE_BadSignature)).
Proof.
  intros n Q R' fin. pose proof (honest_final c r0 seed sp sk calls1 T msg Hc Hnew Hsk Hfirst) as HF. cbv zeta in HF.
  pose proof (reachable_wf _ Hc) as Hwf.
  set (pns := map (fun j => our_public_nonce (r0 j)) (seq 0 (length (pubkeys c)))) in *.
  set (psig := fun j => psig_value c (sk j) (fr_secnonce (r0 j)) (agg_sum pns) T msg) in *.
  assert (HU : forall j sr, j < n -> fin j = Ok sr -> sr_ctx sr = c /\ sr_index sr = j /\ sr_pubnonces sr = pns /\ sr_adaptor sr = T /\
     sr_message sr = msg /\ sr_ok sr (psig j) [] /\ our_signature sr = Ok (psig j)).
  { intros j sr Hj E. destruct (HF j Hj) as (_ & sr' & F & G1 & G2 & G3 & G4 & G5 & G6).
    assert (sr' = sr) by (unfold fin in E; congruence). subst sr'.
    repeat (split; [assumption|]). eapply our_signature_ok. exact G6. }
  assert (HV : forall j sr, j < n -> fin j = Ok sr -> forall i s, i < n -> (sr_valid sr i s <-> s = psig i)).
  { intros j sr Hj E i s Hi. destruct (HU j sr Hj E) as (G1 & G2 & G3 & G4 & G5 & _).
    unfold sr_valid. rewrite G1, G3, G4, G5. destruct (HF i Hi) as [HV _]. split; [|intros ->; exact HV].
    intro H. eapply session_valid_unique; eassumption. }
  assert (HS : forall j sr calls2, j < n -> fin j = Ok sr -> sr_is_complete (fst (sr_run sr calls2)) = true ->
     sr_finalize_adaptor (fst (sr_run sr calls2)) = map_err FE_InvalidAggregatedSignature
       (aggregate_partial_adaptor_signatures c (agg_sum pns) T (map psig (seq 0 n)) msg)).
  { intros j sr calls2 Hj E Hcm. destruct (HU j sr Hj E) as (G1 & G2 & G3 & G4 & G5 & Hok & _).
    apply sr_complete_iff in Hcm. rewrite <- G1 in Hwf.
    destruct (proj2 (sr_aggregates sr _ calls2 Hwf Hok) Hcm) as (sigs & B1 & B2 & B3 & B4). rewrite B1, G1, G3, G4, G5.
    assert (Es : sigs = map psig (seq 0 n)); [|subst sigs; reflexivity].
    apply nth_error_ext. intro i. destruct (lt_dec i n) as [Hi|Hi].
    - rewrite nth_map_seq by exact Hi. destruct (Nat.eq_dec i j) as [->|Hne].
      + rewrite <- B3, G2. reflexivity.
      + destruct (nth_error sigs i) as [s|] eqn:Es; [|apply nth_error_None in Es; rewrite B2, G1 in Es; unfold n in Hi; lia].
        rewrite <- G2 in Hne. destruct (B4 i s Hne Es) as [Hv _]. f_equal. apply (HV j sr Hj E i s Hi), Hv.
    - rewrite !(proj2 (nth_error_None _ _)); [reflexivity|rewrite map_length, seq_length; lia|rewrite B2, G1; unfold n in Hi; lia]. }
  assert (HA : is_ok (aggregate_partial_adaptor_signatures c (agg_sum pns) T (map psig (seq 0 n)) msg) = true <->
               raw_nonce c (agg_sum pns) msg <> pt_O).
  { apply aggregate_valid_iff; [exact Hwf|unfold pns; rewrite map_length, seq_length; reflexivity|rewrite map_length, seq_length; reflexivity|].
    intros i pk pn s Hi Hp Hs. assert (Hlt : i < n) by (apply nth_error_Some; unfold pubkeys; congruence).
    destruct (HF i Hlt) as [(pk' & pn' & B1 & B2 & B3) _]. rewrite nth_map_seq in Hs by exact Hlt.
    assert (pk' = pk) by (unfold pubkeys in B1; congruence). assert (pn' = pn) by congruence. assert (s = psig i) by congruence. subst s pk' pn'.
    apply psig_valid_eq, B3. }
  unfold R'. fold pns. rewrite spec_R_raw_eq.
  split; [|split; [|split]].
  - intros j Hj. destruct (HF j Hj) as (_ & sr & F & _). exists sr, (psig j). split; [exact F|]. apply (HU j sr Hj F).
  - intros j sr calls2 Hj E. destruct (HU j sr Hj E) as (G1 & G2 & G3 & G4 & G5 & Hok & _).
    rewrite sr_complete_iff. assert (Hwfs : ctx_wf (sr_ctx sr)) by (rewrite G1; exact Hwf).
    pose proof (sr_run_started sr _ calls2 Hwfs Hok) as ((sl & Er) & A & _).
    rewrite (sr_holdouts_eq _ _ _ A). rewrite Er. cbn [sr_set_slots sr_ctx sr_index]. rewrite G1, G2, missing_nil. split.
    + intros H i sri s Hi Hne Ei Hs. destruct (H i Hi Hne) as [w Hw].
      apply (filter_check sr _ calls2 i w Hwfs Hok) in Hw as [Hw1 Hw2]. apply (HV j sr Hj E i w Hi) in Hw2. subst w.
      destruct (HU i sri Hi Ei) as (_ & _ & _ & _ & _ & _ & Ho). assert (s = psig i) by congruence. subst s. exact Hw1.
    + intros H i Hi Hne. exists (psig i). apply (filter_check sr _ calls2 i (psig i) Hwfs Hok).
      destruct (HF i Hi) as (_ & sri & F & _). split; [|apply (HV j sr Hj E i (psig i) Hi); reflexivity].
      apply (H i sri (psig i) Hi Hne F). apply (HU i sri Hi F).
  - intro HR. pose proof (proj2 HA HR) as Ha. apply is_ok_ex in Ha as [sg Ha].
    exists sg, (lifted_new (sess_R c (agg_sum pns) msg) (a_s sg)).
    pose proof (proj1 (aggregate_Ok_iff _ _ _ _ _ _) Ha) as [Esg _].
    split; [rewrite Esg; apply sess_R_raw; exact HR|]. split; [apply (aggregate_adapt_zero _ _ _ _ _ _ Ha)|].
    pose proof (aggregate_verifies _ _ _ _ _ _ Ha) as HVf. split; [exact HVf|]. split; [|split].
    + intros t l' ET Hl. rewrite ET in HVf. exact (verified_adapt _ _ _ _ _ HVf Hl).
    + intro ET. rewrite schnorr_verify_lifted.
      assert (Hv : verify_single_lifted Q (lifted_new (sess_R c (agg_sum pns) msg) (a_s sg)) msg = Ok tt).
      { rewrite ET in HVf. apply (verified_adapt Q sg msg fzero); [|apply (aggregate_adapt_zero _ _ _ _ _ _ Ha)].
        replace (gmul (fzero : mscalar Pr)) with (pt_O : pt) by (symmetry; apply gmul_0). exact HVf. }
      rewrite Hv. split; reflexivity.
    + intros j sr calls2 Hj E Hcm. pose proof (HS j sr calls2 Hj E Hcm) as HH. rewrite Ha in HH. cbn [map_err] in HH.
      split; [exact HH|]. exact (sr_finalize_of _ sg _ _ _ _ _ Ha HH).
  - intros HR j sr calls2 Hj E Hcm. rewrite (HS j sr calls2 Hj E Hcm).
    destruct (agg_cases c (agg_sum pns) T (map psig (seq 0 n)) msg) as [[sg Ha]|Ha].
    + exfalso. apply (proj1 HA); [rewrite Ha; reflexivity|exact HR].
    + rewrite Ha. reflexivity.
Qed.
End C31_honest_sessions_agree.

Section C32_adaptor_session_plain_finalize.
Context {Pr : prims}.
Add Ring ring_C32_adaptor_session_plain_finalize : (fe_ring_theory (n := @ord Pr)).
Lemma C32_adaptor_session_plain_finalize_proof {Laws : prims_ok Pr} {Tags : tags_ok Pr} (r0 : second_round Pr) (calls : list (nat * mscalar Pr)) (Hr : sr_started r0) :
  let r := fst (sr_run r0 calls) in
  let T := sr_adaptor r0 in
  let Q := aggregated_pubkey (sr_ctx r0) in
  let msg := sr_message r0 in
  let e := fun A : pt => (int_from_bytes (SpecBIP327.tagged_hash "BIP0340/challenge"%string (xbytes A ++ xbytes Q ++ msg)) mod n_)%Z in
  let P := if has_even_y Q then pval Q else pt_neg Q in
  (forall er, sr_finalize r = Err er <-> sr_finalize_adaptor r = Err er) /\
  (forall sg, sr_finalize_adaptor r = Ok sg ->
     let R := a_R sg in
     exists l, sr_finalize r = Ok l /\ pval (l_R l) = (if has_even_y R then R else pt_neg R) /\ l_s l = a_s sg /\
       (verify_single_lifted Q l msg = Ok tt <->
          pt_add (if has_even_y (pt_add R T) then R else pt_neg R) (point_mul P (e (pt_add R T)))
          = pt_add (if has_even_y R then R else pt_neg R) (point_mul P (e R))) /\
       (has_even_y (pt_add R T) = has_even_y R ->
          (verify_single_lifted Q l msg = Ok tt <-> e (pt_add R T) = e R))).
Proof.
  intros r T Q msg e P. apply started_sr in Hr as (Hwf & sk & sn & _ & _ & Hok & Hour).
  set (ours := psig_value _ _ _ _ _ _) in *.
  destruct (sr_aggregates r0 ours calls Hwf Hok) as [HI HC]. fold r in HI, HC.
  assert (HD : sr_holdouts r = [] \/ sr_holdouts r <> []) by (destruct (sr_holdouts r); [auto|right; discriminate]).
  destruct HD as [Hh|Hh].
  2:{ specialize (HI Hh). unfold sr_finalize. rewrite HI. cbn [bind]. split; [intro er; split; congruence|]. intros; discriminate. }
  clear HI. destruct (HC Hh) as (sigs & F & HL & HO & HV). clear HC.
  destruct (agg_cases (sr_ctx r0) (agg_sum (sr_pubnonces r0)) T sigs msg) as [[sg Ha]|Ha].
  2:{ fold T msg in F. rewrite Ha in F. cbn [map_err] in F. unfold sr_finalize. rewrite F. cbn [bind]. split; [intro er; split; congruence|]. intros; discriminate. }
  fold T msg in F. rewrite Ha in F. cbn [map_err] in F. pose proof (sr_finalize_of r sg _ _ _ _ _ Ha F) as FF.
  split; [rewrite F, FF; split; discriminate|]. intros sg' E R. assert (sg' = sg) by congruence. subst sg'.
  set (l := lifted_new _ _) in FF. exists l. split; [exact FF|].
  pose proof (aggregate_adapt_zero _ _ _ _ _ _ Ha) as Hz. fold l in Hz.
  pose proof (adapt_even _ _ _ Hz) as Hev. apply adapt_Some in Hz as (Z1 & Z2 & Z3).
  rewrite gmul_0, add_O_r in Z1, Z2, Z3. fold R in Z1, Z2, Z3.
  assert (El : pval (l_R l) = pneg_if (pt_odd R) R) by (rewrite Z2; reflexivity).
  assert (Es : l_s l = a_s sg) by (rewrite Z3; destruct (pt_odd R); cbn [fneg_if]; ring).
  assert (Ee : forall A : pt, e A = fz (chal A Q msg)) by (intro A; apply challenge_ref).
  assert (EP : P = pval (even_point Q)) by (unfold P; rewrite even_if, if_neg_pneg, even_pneg; reflexivity).
  assert (Hx : chal (l_R l) Q msg = chal R Q msg).
  { unfold chal. rewrite El. destruct (pt_odd R); cbn [pneg_if]; [rewrite x_neg|]; reflexivity. }
  pose proof (aggregate_verifies _ _ _ _ _ _ Ha) as HVf. apply verify_adaptor_iff in HVf. fold R in HVf.
  assert (HE : verify_single_lifted Q l msg = Ok tt <->
          pt_add (if has_even_y (pt_add R T) then R else pt_neg R) (point_mul P (e (pt_add R T)))
          = pt_add (if has_even_y R then R else pt_neg R) (point_mul P (e R))).
  { rewrite (verify_lifted_iff Q l msg Hev), Hx, Es, HVf, El, !even_if, !if_neg_pneg, !Ee, EP, !point_mul_pmul. reflexivity. }
  split; [rewrite even_if, if_neg_pneg; exact El|]. split; [exact Es|]. split; [exact HE|].
  intro Hpar. rewrite HE, Hpar. split; intro H; [|rewrite H; reflexivity].
  apply add_cancel_l in H. rewrite !Ee, EP, !point_mul_pmul in H. rewrite !Ee. f_equal.
  eapply pmul_inj; [|exact H]. apply point_fin.
Qed.
End C32_adaptor_session_plain_finalize.

Lemma C32_documented_error_refuted_proof :
  exists (r0 : second_round Toy) (calls : list (nat * mscalar Toy)) (l : lifted_sig Toy),
    sr_started r0 /\ sr_adaptor r0 <> pt_O /\
    sr_finalize (fst (sr_run r0 calls)) = Ok l /\
    verify_single_lifted (aggregated_pubkey (sr_ctx r0)) l (sr_message r0) = Err VE_BadSignature.
Proof.
  exists (toy_srT 1), toy_scallsT.
  assert (H : ok_and (sr_finalize (fst (sr_run (toy_srT 1) toy_scallsT)))
    (fun l => match err_of (verify_single_lifted (aggregated_pubkey (sr_ctx (toy_srT 1))) l (sr_message (toy_srT 1))) with
              | Some VE_BadSignature => true | _ => false end) = true) by (vm_compute; reflexivity).
  apply ok_and_ex in H as (l & H1 & H2). exists l. split; [apply toy_srT_started; auto|].
  split; [unfold toy_srT; rewrite toy_sr_adaptor; apply toy_T_nz|]. split; [exact H1|]. apply err_of_eq.
  destruct (err_of _) as [[]|]; congruence.
Qed.

Section C33_wrong_member_key.
Context {Pr : prims}.
Add Ring ring_C33_wrong_member_key : (fe_ring_theory (n := @ord Pr)).
Lemma C33_wrong_member_key_proof {Laws : prims_ok Pr} {Tags : tags_ok Pr} (r0 : first_round Pr) (calls : list (nat * pub_nonce Pr)) (sk : scalar Pr) (T : pt) (msg : bytes) (sr : second_round Pr) (pk : point Pr) (Hr : fr_started r0) (Hpk : nth_error (pubkeys (fr_ctx r0)) (fr_index r0) = Some pk) (Hfin : fr_finalize_adaptor (fst (fr_run r0 calls)) sk T msg = Ok sr) :
  let c := fr_ctx r0 in
  let i := fr_index r0 in
  let an := aggregated_nonce sr in
  In (base_mul sk) (pubkeys c) /\
  exists ours, our_signature sr = Ok ours /\
  (sr_valid sr i ours <->
     v_e (spec_values c an T msg) = 0%Z \/
     point_mul (base_mul sk) (spec_a c (base_mul sk)) = point_mul pk (spec_a c pk)) /\
  (~ sr_valid sr i ours -> forall scalls,
     let r := fst (sr_run sr scalls) in
     (forall s, sr_valid sr i s ->
        receive_signature r i s = (r, Err (RoundContributionError i InconsistentContribution))) /\
     (spec_R_raw c an msg <> pt_O ->
        sr_finalize_adaptor r = Err FE_Incomplete \/
        sr_finalize_adaptor r = Err (FE_InvalidAggregatedSignature VE_BadSignature))).
Proof.
  intros c i an.
  assert (Hsr : sr_started sr) by (exists r0, calls, sk, T, msg; auto).
  pose proof (started_fr_run r0 calls Hr) as (Hwf & E1 & E2 & E3 & E4 & Hok & _).
  set (r1 := fst (fr_run r0 calls)) in *. fold c in E1, Hwf. fold i in E2.
  destruct (fr_finalize_spec r1 calls sk T msg Hok) as [[_ H]|(_ & pns & HL & HN & H)]; [congruence|].
  rewrite E1 in H. destruct (in_pks_dec (base_mul sk) (ordered_pubkeys c)) as [Hin|Hin].
  2:{ rewrite (sign_nonmember _ _ _ _ _ _ Hwf Hin) in H. congruence. }
  rewrite (sign_member _ _ _ _ _ _ Hwf Hin) in H. destruct H as (sr' & H1 & Hs & H3 & H4 & H5 & H6 & H7).
  assert (sr' = sr) by congruence. subst sr'. split; [exact Hin|].
  set (ours := psig_value _ _ _ _ _ _) in Hs. exists ours. split; [eapply our_signature_ok; exact Hs|].
  assert (Ean : an = agg_sum pns) by (destruct Hs as (_ & _ & Hs & _); unfold an, aggregated_nonce; rewrite Hs, H5; reflexivity).
  assert (Hpn : nth_error pns i = Some (public_nonce (fr_secnonce r1))).
  { rewrite <- E2. rewrite HN by apply Hok. rewrite on_file_cons, Nat.eqb_refl. reflexivity. }
  split.
  - assert (HX : sr_valid sr i ours <-> partial_eq c an T msg pk (public_nonce (fr_secnonce r1)) ours).
    { unfold sr_valid, session_valid. rewrite H3, H5, H6, H7, <- Ean. split.
      - intros (pk' & pn' & B1 & B2 & B3). apply psig_valid_eq. unfold c, i in *.
        assert (pk' = pk) by congruence. assert (pn' = public_nonce (fr_secnonce r1)) by congruence. subst pk' pn'. exact B3.
      - intro B. exists pk, (public_nonce (fr_secnonce r1)). split; [exact Hpk|]. split; [exact Hpn|]. apply psig_valid_eq, B. }
    rewrite HX. unfold ours. rewrite <- Ean. rewrite own_valid, spec_values_eq, !spec_a_eq, !point_mul_pmul. cbn [v_e].
    split; (intros [H|H]; [left|right; exact H]).
    + rewrite H. unfold fzero. rewrite fz_of_Z. apply Zmod_0_l.
    + apply fe_ext. rewrite H. unfold fzero. rewrite fz_of_Z. symmetry. apply Zmod_0_l.
  - intros Hinv scalls r. assert (Hwfs : ctx_wf (sr_ctx sr)) by (rewrite H3; exact Hwf).
    assert (Ei : sr_index sr = i) by congruence. split.
    + intros s Hv. pose proof (sr_run_started sr _ scalls Hwfs Hs) as ((sl & E) & A & _ & HO). fold r in E, A, HO.
      assert (Hwfr : ctx_wf (sr_ctx r)) by (rewrite E; exact Hwfs).
      pose proof (receive_signature_spec r ours _ i s Hwfr A) as HS. cbv zeta in HS.
      assert (HI : sr_index r = i) by (rewrite E; exact Ei). rewrite HI in HS.
      assert (HVc : sr_check r (i, s) = true) by (apply (sr_check_valid r _ _ i s Hwfr A); rewrite E; exact Hv).
      assert (HF : on_file ((i, ours) :: filter (sr_check sr) scalls) i = Some ours) by (rewrite on_file_cons, Nat.eqb_refl; reflexivity).
      destruct HS as [[B1 _]|[(_ & B2 & _)|[(_ & _ & w & Hw & B3)|(_ & _ & B4 & _)]]].
      * destruct Hs as (Hlt & _). rewrite Ei in Hlt. replace (nsigners (sr_ctx r)) with (nsigners (sr_ctx sr)) in B1 by (rewrite E; reflexivity). lia.
      * congruence.
      * rewrite HF in Hw. assert (w = ours) by congruence. subst w. destruct B3 as [[B3 _]|[_ B3]]; [|exact B3].
        exfalso. apply Hinv. rewrite <- B3. exact Hv.
      * congruence.
    + intro HR. rewrite spec_R_raw_eq, Ean in HR. destruct (sr_aggregates sr ours scalls Hwfs Hs) as [HI HC]. fold r in HI, HC.
      assert (HD : sr_holdouts r = [] \/ sr_holdouts r <> []) by (destruct (sr_holdouts r); [auto|right; discriminate]).
      destruct HD as [Hh|Hh]; [right|left; apply HI, Hh]. destruct (HC Hh) as (sigs & F & HLs & HO & HV). rewrite F.
      rewrite (own_invalid_fails sr ours sigs Hwfs Hs HLs HO).
      * reflexivity.
      * intros j s Hj Hsj. apply (HV j s Hj Hsj).
      * rewrite Ei. exact Hinv.
      * rewrite H3, H5, H7. exact HR.
Qed.
End C33_wrong_member_key.

Section C34_aggregator_mode.
Context {Pr : prims}.
Add Ring ring_C34_aggregator_mode : (fe_ring_theory (n := @ord Pr)).
Lemma C34_aggregator_mode_proof {Laws : prims_ok Pr} {Tags : tags_ok Pr} (r0 : first_round Pr) (calls : list (nat * pub_nonce Pr)) (sk : scalar Pr) (T : pt) (msg : bytes) (pns : list (pub_nonce Pr)) (Hr : fr_started r0) (Hpns : Permutation (slot_vec (fr_slots (fst (fr_run r0 calls)))) (map Some pns)) :
  let r := fst (fr_run r0 calls) in
  let an := agg_sum pns in
  (forall sr, fr_finalize_adaptor r sk T msg = Ok sr -> exists s, our_signature sr = Ok s /\
     sign_for_aggregator_adaptor r sk T msg an = Ok s /\
     sign_for_aggregator_adaptor r0 sk T msg an = Ok s) /\
  (forall sr, fr_finalize r sk msg = Ok sr -> exists s, our_signature sr = Ok s /\
     sign_for_aggregator r sk msg an = Ok s /\
     sign_for_aggregator r0 sk msg an = Ok s) /\
  (forall e, fr_finalize_adaptor r sk T msg = Err (FE_SigningError e) <-> sign_for_aggregator_adaptor r sk T msg an = Err e) /\
  (forall e, fr_finalize r sk msg = Err (FE_SigningError e) <-> sign_for_aggregator r sk msg an = Err e) /\
  fr_finalize_adaptor r sk T msg <> Err FE_Incomplete.
Proof.
  intros r an. pose proof (started_fr_run r0 calls Hr) as (Hwf & E1 & E2 & E3 & E4 & Hok & _). fold r in E1, E2, E3, E4, Hok. fold r in Hpns.
  assert (HG : forall T, (exists sr s, fr_finalize_adaptor r sk T msg = Ok sr /\ our_signature sr = Ok s /\
     sign_partial_adaptor (fr_ctx r) sk (fr_secnonce r) an T msg = Ok s) \/
     (exists e, fr_finalize_adaptor r sk T msg = Err (FE_SigningError e) /\ sign_partial_adaptor (fr_ctx r) sk (fr_secnonce r) an T msg = Err e)).
  { intro T'. destruct (fr_finalize_spec r calls sk T' msg Hok) as [[Hh _]|(_ & pns' & HL & HN & HS)].
    - exfalso. apply Hh. rewrite (fr_holdouts_eq _ _ Hok). destruct Hok as [_ [Hv _]]. rewrite Hv in Hpns.
      destruct (missing _ _) as [|j l] eqn:EM; [reflexivity|]. exfalso.
      assert (HI : In j (missing (nsigners (fr_ctx r)) ((fr_index r, our_public_nonce r) :: calls))) by (rewrite EM; left; reflexivity).
      apply missing_In in HI as [HI1 HI2].
      assert (HN : In None (map Some pns)).
      { eapply Permutation_in; [exact Hpns|]. apply in_map_iff. exists j. split; [exact HI2|]. apply in_seq. lia. }
      apply in_map_iff in HN as (x & Hx & _). discriminate.
    - assert (EP : Permutation pns' pns).
      { apply (Permutation_map_inv_Some pns' pns). rewrite <- Hpns. destruct Hok as [_ [Hv _]]. rewrite Hv.
        apply Permutation_refl'. apply nth_error_ext. intro j. destruct (lt_dec j (nsigners (fr_ctx r))) as [Hj|Hj].
        - rewrite nth_map_seq by exact Hj. rewrite <- HN by exact Hj.
          destruct (nth_error pns' j) as [x|] eqn:Ex; [rewrite (map_nth_error _ _ _ Ex); reflexivity|apply nth_error_None in Ex; lia].
        - rewrite !(proj2 (nth_error_None _ _)); [reflexivity|rewrite map_length, seq_length; lia|rewrite map_length; lia]. }
      rewrite (agg_sum_perm _ _ EP) in HS. fold an in HS.
      destruct (sign_partial_adaptor (fr_ctx r) sk (fr_secnonce r) an T' msg) as [s|e|] eqn:ES.
      + destruct HS as (sr & F & Hs & _). left. exists sr, s. split; [exact F|]. split; [eapply our_signature_ok; exact Hs|reflexivity].
      + right. eauto.
      + exfalso. rewrite <- E1 in Hwf. destruct (in_pks_dec (base_mul sk) (ordered_pubkeys (fr_ctx r))) as [Hin|Hin].
        * rewrite (sign_member _ _ _ _ _ _ Hwf Hin) in ES. discriminate.
        * rewrite (sign_nonmember _ _ _ _ _ _ Hwf Hin) in ES. discriminate. }
  unfold fr_finalize, sign_for_aggregator, sign_for_aggregator_adaptor, sign_partial. rewrite <- E1, <- E3.
  split; [|split; [|split; [|split]]].
  - intros sr F. destruct (HG T) as [(sr' & s & F' & HO & HS)|(e & F' & _)]; [|congruence].
    assert (sr' = sr) by congruence. subst sr'. exists s. auto.
  - intros sr F. destruct (HG pt_O) as [(sr' & s & F' & HO & HS)|(e & F' & _)]; [|congruence].
    assert (sr' = sr) by congruence. subst sr'. exists s. auto.
  - intro e. destruct (HG T) as [(sr' & s & F' & HO & HS)|(e' & F' & HS)]; rewrite F', HS; split; congruence.
  - intro e. destruct (HG pt_O) as [(sr' & s & F' & HO & HS)|(e' & F' & HS)]; rewrite F', HS; split; congruence.
  - destruct (HG T) as [(sr' & s & F' & HO & HS)|(e' & F' & HS)]; rewrite F'; discriminate.
Qed.
End C34_aggregator_mode.

(** Proofs of the theorems of PropertiesWire.v. *)
From Coq Require Import String List Arith.
From Verif Require Import Bytes BytesFacts Prims PrimsFacts TaggedHashes Errors SpecTags SpecBIP327
  KeyAgg Nonces Signature Signing SigAgg Bip340 Rounds SpecCtx SpecView SpecSession SpecRounds SpecWire Toy ToyData ToyRounds ToyWire.
Import ListNotations.
Open Scope list_scope.
Open Scope nat_scope.
From Coq Require Import Lia Bool.
From Verif Require Import CodecFacts EncodingFacts KeyAggFacts KeyAggCodec SignatureFacts SigningFacts Bip340Facts SpecSigning RoundsFacts ProofsKeyAgg ProofsAdaptor ProofsBip340 ProofsCodecs ProofsRounds.
Open Scope nat_scope.

Section Read.
Context {Pr : prims} {Laws : prims_ok Pr}.

(** What could be decoded. *)
Definition read1 (l : list (nat * bytes)) : list (nat * pub_nonce Pr) :=
  flat_map (fun x => match pubnonce_from_bytes (snd x) with Ok n => [(fst x, n)] | _ => [] end) l.
Definition read2 (l : list (nat * bytes)) : list (nat * mscalar Pr) :=
  flat_map (fun x => match parse_mscalar (snd x) with Some s => [(fst x, s)] | None => [] end) l.

Lemma fold1 l (r : first_round Pr) : fold_left nonce_arrives l r = fst (fr_run r (read1 l)).
Proof.
  revert r. induction l as [|[i b] l IH]; intro r; [reflexivity|]. cbn [fold_left read1 flat_map fst snd]. rewrite IH.
  unfold nonce_arrives at 1. cbn [fst snd]. destruct (pubnonce_from_bytes b) as [n|e|]; try reflexivity.
  cbn [app fr_run]. destruct (receive_nonce r i n) as [r1 o]. cbn [fst]. fold (read1 l). destruct (fr_run r1 (read1 l)). reflexivity.
Qed.
Lemma fold2 l (r : second_round Pr) : fold_left signature_arrives l r = fst (sr_run r (read2 l)).
Proof.
  revert r. induction l as [|[i b] l IH]; intro r; [reflexivity|]. cbn [fold_left read2 flat_map fst snd]. rewrite IH.
  unfold signature_arrives at 1. cbn [fst snd]. destruct (parse_mscalar b) as [n|]; try reflexivity.
  cbn [app sr_run]. destruct (receive_signature r i n) as [r1 o]. cbn [fst]. fold (read2 l). destruct (sr_run r1 (read2 l)). reflexivity.
Qed.
Lemma read1_file l i (n : pub_nonce Pr) : @first_readable Pr l i = Some (pubnonce_to_bytes n) -> on_file (read1 l) i = Some n.
Proof.
  induction l as [|[k b] l IH]; [discriminate|]. unfold first_readable, readable. cbn [find fst snd read1 flat_map].
  destruct (pubnonce_from_bytes b) as [m|e|] eqn:E.
  - cbn [app]. rewrite on_file_cons. rewrite andb_true_r. destruct (k =? i).
    + cbn [option_map snd]. intro H. injection H as ->. apply pubnonce_decode in E.
      assert (E' : pubnonce_from_bytes (pubnonce_to_bytes n) = Ok m) by (apply pubnonce_decode; exact E).
      rewrite (proj2 (pubnonce_decode _ n) eq_refl) in E'. congruence.
    + exact IH.
  - rewrite andb_false_r. exact IH.
  - rewrite andb_false_r. exact IH.
Qed.
Lemma read2_In l i (s : mscalar Pr) : In (i, s) (read2 l) <-> In (i, ser_scalar s) l.
Proof.
  unfold read2. rewrite in_flat_map. split.
  - intros ([k b] & H & H'). cbn [fst snd] in H'. destruct (parse_mscalar b) as [t|] eqn:E; [|destruct H'].
    destruct H' as [H'|[]]. injection H' as <- <-. apply parse_mscalar_Some in E. subst b. exact H.
  - intro H. exists (i, ser_scalar s). split; [exact H|]. cbn [fst snd]. rewrite parse_mscalar_ser. left. reflexivity.
Qed.
Lemma read1_first l i : @first_readable Pr l i = option_map pubnonce_to_bytes (on_file (read1 l) i).
Proof.
  induction l as [|[k b] l IH]; [reflexivity|]. unfold first_readable, readable. cbn [find fst snd read1 flat_map].
  destruct (pubnonce_from_bytes b) as [m|e|] eqn:E; rewrite ?andb_true_r, ?andb_false_r; try exact IH.
  cbn [app]. rewrite on_file_cons. destruct (k =? i); [|exact IH].
  cbn [option_map snd]. apply pubnonce_decode in E. congruence.
Qed.
Lemma read1_same l l' i : @first_readable Pr l i = @first_readable Pr l' i -> on_file (read1 l) i = on_file (read1 l') i.
Proof.
  rewrite !read1_first. destruct (on_file (read1 l) i) as [a|], (on_file (read1 l') i) as [b|]; cbn [option_map]; try congruence.
  intro H. assert (H' : pubnonce_to_bytes a = pubnonce_to_bytes b) by congruence. apply pubnonce_decode in H'. rewrite (proj2 (pubnonce_decode _ a) eq_refl) in H'. congruence.
Qed.
Lemma new_fields c seed k sp (r : first_round Pr) : first_round_new c seed k sp = Ok r -> fr_ctx r = c /\ fr_index r = k.
Proof.
  unfold first_round_new. destruct (get_pubkey c k); [|discriminate]. destruct (round_builder _ _ _ _ _); try discriminate.
  destruct (place _ _ _ _) as [s [u|e|]]; try discriminate. intro H. injection H as <-. auto.
Qed.
End Read.

Section C92_sessions_in_bytes.
Context {Pr : prims}.
Add Ring ring_C92_sessions_in_bytes : (fe_ring_theory (n := @ord Pr)).
Lemma C92_sessions_in_bytes_proof {Laws : prims_ok Pr} {Tags : tags_ok Pr} (tg : target) (B : bytes) (c : key_agg_ctx Pr) (r0 : nat -> first_round Pr) (seed : nat -> bytes) (sp : nat -> spices Pr) (sk : nat -> scalar Pr) (arrived : nat -> list (nat * bytes)) (T : pt) (msg : bytes) (Htg : (64 <= usize_bits tg)%Z) (HB : ctx_from_bytes tg B = Ok c) (Hnew : forall j, j < length (pubkeys c) -> first_round_new c (seed j) j (sp j) = Ok (r0 j)) (Hsk : forall j pk, nth_error (pubkeys c) j = Some pk -> base_mul (sk j) = pk) (Hfirst : forall j i, j < length (pubkeys c) -> i < length (pubkeys c) -> i <> j -> @first_readable Pr (arrived j) i = Some (pubnonce_to_bytes (our_public_nonce (r0 i)))) :
  let n := length (pubkeys c) in
  let Q := aggregated_pubkey c in
  let R' := spec_R_raw c (agg_sum (map (fun j => our_public_nonce (r0 j)) (seq 0 n))) msg in
  let fin := fun j => fr_finalize_adaptor (fold_left nonce_arrives (arrived j) (r0 j)) (sk j) T msg in
  (forall j, j < n -> exists b, sends (fin j) b) /\
  (forall j sr l, j < n -> fin j = Ok sr ->
     (sr_is_complete (fold_left signature_arrives l sr) = true <->
      forall i b, i < n -> i <> j -> sends (fin i) b -> In (i, b) l)) /\
  (R' <> pt_O -> exists sig pre,
     length sig = 64 /\ length pre = 65 /\
     (T = pt_O -> verify_single_bytes Q sig msg = Ok tt /\ schnorr_verify msg (xbytes Q) sig = Ret true) /\
     (exists sg, adaptor_from_bytes pre = Ok sg /\ verify_single_adaptor Q sg msg T = Ok tt) /\
     forall j sr l, j < n -> fin j = Ok sr ->
       let r := fold_left signature_arrives l sr in
       sr_is_complete r = true ->
       exists sg s, sr_finalize_adaptor r = Ok sg /\ adaptor_to_bytes sg = pre /\ sr_finalize r = Ok s /\ lifted_to_bytes s = sig) /\
  (R' = pt_O -> forall j sr l, j < n -> fin j = Ok sr ->
     let r := fold_left signature_arrives l sr in
     sr_is_complete r = true ->
     sr_finalize_adaptor r = Err (FE_InvalidAggregatedSignature VE_BadSignature)).
Proof.
  cbv zeta.
  assert (Hc : ctx_reachable c) by (apply (proj2 (C08_decoding_total_and_almost_canonical_proof tg B Htg) c), HB).
  assert (HF : forall j i, j < length (pubkeys c) -> i < length (pubkeys c) ->
    on_file ((j, our_public_nonce (r0 j)) :: read1 (arrived j)) i = Some (our_public_nonce (r0 i))).
  { intros j i Hj Hi. rewrite on_file_cons. destruct (Nat.eqb_spec j i) as [->|N]; [reflexivity|]. apply read1_file, Hfirst; auto. }
  destruct (C31_honest_sessions_agree_proof c r0 seed sp sk (fun j => read1 (arrived j)) T msg Hc Hnew Hsk HF) as (H1 & H2 & H3 & H4).
  cbv zeta in H1, H2, H3, H4.
  assert (EF : forall j, fr_finalize_adaptor (fold_left nonce_arrives (arrived j) (r0 j)) (sk j) T msg =
     fr_finalize_adaptor (fst (fr_run (r0 j) (read1 (arrived j)))) (sk j) T msg) by (intro j; rewrite fold1; reflexivity).
  split; [|split; [|split]].
  - intros j Hj. rewrite EF. destruct (H1 j Hj) as (sr & s & E & E'). exists (ser_scalar s), sr, s. auto.
  - intros j sr l Hj E. rewrite EF in E. rewrite fold2, (H2 j sr (read2 l) Hj E). split.
    + intros H i b Hi N (sri & s & Ei & Es & ->). rewrite EF in Ei. apply read2_In, (H i sri s Hi N Ei Es).
    + intros H i sri s Hi N Ei Es. apply read2_In, (H i _ Hi N). exists sri, s. rewrite EF. auto.
  - intro HR. destruct (H3 HR) as (sg & l & _ & Ha & Hv & _ & HT & Hall).
    exists (lifted_to_bytes l), (adaptor_to_bytes sg).
    split; [apply lifted_len|]. split; [apply adaptor_len|]. split.
    { intro T0. destruct (HT T0) as [V V']. split; [|exact V']. unfold verify_single_bytes. rewrite compact_of_lifted_bytes. exact V. }
    split; [exists sg; split; [apply adaptor_decode; reflexivity | exact Hv]|].
    intros j sr ll Hj E. rewrite EF in E. rewrite fold2. intro C. destruct (Hall j sr (read2 ll) Hj E C) as [A A'].
    exists sg, l. auto.
  - intros HR j sr ll Hj E. rewrite EF in E. rewrite fold2. apply (H4 HR j sr (read2 ll) Hj E).
Qed.
End C92_sessions_in_bytes.

Section C92_restart_first_round.
Context {Pr : prims}.
Add Ring ring_C92_restart_first_round : (fe_ring_theory (n := @ord Pr)).
Lemma C92_restart_first_round_proof {Laws : prims_ok Pr} {Tags : tags_ok Pr} (tg : target) (c : key_agg_ctx Pr) (seed : bytes) (k : nat) (sp : spices Pr) (r0 : first_round Pr) (before journal : list (nat * bytes)) (Htg : (64 <= usize_bits tg)%Z) (Hc : ctx_reachable c) (Hnew : first_round_new c seed k sp = Ok r0) (Hj : forall i, i < length (pubkeys c) -> i <> k -> @first_readable Pr journal i = @first_readable Pr before i) :
  exists c' r0', ctx_from_bytes tg (ctx_to_bytes c) = Ok c' /\ first_round_new c' seed k sp = Ok r0' /\
  forall later, fold_left nonce_arrives (journal ++ later) r0' = fold_left nonce_arrives (before ++ later) r0.
Proof.
  exists c, r0. split; [apply C07_context_roundtrip_proof; assumption|]. split; [exact Hnew|].
  intro later. rewrite !fold1. unfold read1. rewrite !flat_map_app. fold (read1 (Pr := Pr) journal) (read1 (Pr := Pr) before) (read1 (Pr := Pr) later).
  assert (Hr : fr_started r0) by (exists c, seed, k, sp; auto).
  destruct (new_fields _ _ _ _ _ Hnew) as [Ec Ei].
  pose proof (started_fr_run r0 (read1 journal ++ read1 later) Hr) as (_ & A1 & A2 & A3 & A4 & Hok1 & _).
  pose proof (started_fr_run r0 (read1 before ++ read1 later) Hr) as (_ & B1 & B2 & B3 & B4 & Hok2 & _).
  apply (fr_unique _ _ (read1 journal ++ read1 later) (read1 before ++ read1 later)); try congruence; try assumption.
  rewrite A1, A2, Ec, Ei. intros i Hi Hne. rewrite !on_file_app. rewrite (read1_same _ _ _ (Hj i Hi Hne)). reflexivity.
Qed.
End C92_restart_first_round.

Section C92_restart_second_round.
Context {Pr : prims}.
Add Ring ring_C92_restart_second_round : (fe_ring_theory (n := @ord Pr)).
Lemma C92_restart_second_round_proof {Laws : prims_ok Pr} {Tags : tags_ok Pr} (r0 : first_round Pr) (sk : scalar Pr) (T : pt) (msg : bytes) (first journal1 second journal2 : list (nat * bytes)) (sr : second_round Pr) (Hr : fr_started r0) (Hj1 : forall i, i < length (pubkeys (fr_ctx r0)) -> i <> fr_index r0 -> @first_readable Pr journal1 i = @first_readable Pr first i) (Hfin : fr_finalize_adaptor (fold_left nonce_arrives first r0) sk T msg = Ok sr) (Hj2 : forall i s, sr_valid sr i s -> (In (i, ser_scalar s) journal2 <-> In (i, ser_scalar s) second)) :
  exists sr', fr_finalize_adaptor (fold_left nonce_arrives journal1 r0) sk T msg = Ok sr' /\ our_signature sr' = our_signature sr /\
  forall later, fold_left signature_arrives (journal2 ++ later) sr' = fold_left signature_arrives (second ++ later) sr.
Proof.
  exists sr. split; [|split; [reflexivity|]].
  - rewrite <- Hfin. f_equal. rewrite !fold1.
    pose proof (started_fr_run r0 (read1 journal1) Hr) as (_ & A1 & A2 & A3 & A4 & Hok1 & _).
    pose proof (started_fr_run r0 (read1 first) Hr) as (_ & B1 & B2 & B3 & B4 & Hok2 & _).
    apply (fr_unique _ _ (read1 journal1) (read1 first)); try congruence; try assumption.
    rewrite A1, A2. intros i Hi Hne. apply read1_same, Hj1; assumption.
  - intro later. rewrite !fold2. apply C28_second_round_order_proof.
    + rewrite fold1 in Hfin. exists r0, (read1 first), sk, T, msg. auto.
    + intros i s _ _ Hv. rewrite !read2_In, !in_app_iff, (Hj2 i s Hv). reflexivity.
Qed.
End C92_restart_second_round.

(** Proofs of the theorems of PropertiesAggregator.v. *)
From Coq Require Import String List Arith.
From Verif Require Import Bytes BytesFacts Prims PrimsFacts TaggedHashes Errors SpecTags SpecBIP327
  KeyAgg Nonces Signature Signing SigAgg Bip340 Rounds SpecCtx SpecView SpecSession SpecRounds SpecMachine
  Toy ToyData ToyRounds ToyAggregator.
Import ListNotations.
Open Scope list_scope.
Open Scope nat_scope.
From Coq Require Import Lia.
From Verif Require Import CodecFacts KeyAggFacts SigningFacts SignatureFacts SpecFacts SpecSigning SessionFacts Bip340Facts RoundsFacts
  NoncesFacts ProofsSigning ProofsNonces ProofsRounds ProofsHistories.

Section Aggregator.
Context {Pr : prims} {Laws : prims_ok Pr} {Tags : tags_ok Pr}.

(** [valid_sum] with an aggregated nonce that need not be the sum of the nonces. *)
Lemma valid_sum_any c an pns T msg sigs : ctx_wf c ->
  length pns = length (ordered_pubkeys c) -> length sigs = length (ordered_pubkeys c) ->
  (forall i pk pn s, nth_error (ordered_pubkeys c) i = Some pk -> nth_error pns i = Some pn ->
     nth_error sigs i = Some s -> partial_eq c an T msg pk pn s) ->
  gmul (agg_s c an T sigs msg)
  = pt_add (pneg_if (pt_odd (sess_A c an T msg)) (pt_add (aR1 (agg_sum pns)) (pmul (sess_b c an msg) (aR2 (agg_sum pns)))))
           (pmul (sess_e c an T msg) (even_point (pubkey c))).
Proof.
  intros Hwf H1 H2 H3. unfold agg_s. rewrite gmul_add.
  rewrite (Forall3_partial_sum c an T msg (ordered_pubkeys c) pns sigs H1 H2 H3).
  cbn [agg_sum aR1 aR2]. rewrite add_assoc. f_equal.
  fold (agg_sum_of (ordered_pubkeys c)).
  rewrite even_pneg. unfold sess_par.
  set (o := pt_odd (pubkey c)). rewrite (wf_key c Hwf).
  rewrite pneg_if_xorb, pneg_if_add, pmul_add_r, <- pneg_if_gmul, gmul_mul, !pneg_if_pmul.
  reflexivity.
Qed.

Lemma aggregate_any_iff c an pns T msg sigs : ctx_wf c ->
  length pns = length (ordered_pubkeys c) -> length sigs = length (ordered_pubkeys c) ->
  (forall i pk pn s, nth_error (ordered_pubkeys c) i = Some pk -> nth_error pns i = Some pn ->
     nth_error sigs i = Some s -> partial_eq c an T msg pk pn s) ->
  ((exists sg, aggregate_partial_adaptor_signatures c an T sigs msg = Ok sg)
   <-> pt_add (aR1 (agg_sum pns)) (pmul (sess_b c an msg) (aR2 (agg_sum pns))) = sess_R c an msg).
Proof.
  intros Hwf H1 H2 H3. rewrite aggregate_eq, (valid_sum_any c an pns T msg sigs) by assumption.
  destruct (pt_eqb _ _) eqn:E.
  - apply pt_eqb_eq in E. apply add_cancel_r, pneg_if_inj in E. split; [intros _; exact E | eauto].
  - apply pt_eqb_neq in E. split; [intros [sg F]; discriminate F|]. intro H. destruct E. congruence.
Qed.

Lemma aggregate_unique c an T msg s1 s2 a1 a2 :
  aggregate_partial_adaptor_signatures (Pr := Pr) c an T s1 msg = Ok a1 ->
  aggregate_partial_adaptor_signatures c an T s2 msg = Ok a2 -> a1 = a2.
Proof.
  intros E1 E2. apply aggregate_Ok_iff in E1 as [-> E1]. apply aggregate_Ok_iff in E2 as [-> E2].
  f_equal. rewrite <- E1 in E2. apply gmul_inj in E2. symmetry. exact E2.
Qed.

(** The signing calls of a log. *)
Lemma one_secret_call (r : first_round Pr) ncs tail a b oa ob : tail_of (fst (fr_run r ncs)) tail ->
  In (a, oa) (nonce_log ncs (snd (fr_run r ncs)) ++ tail) -> In (b, ob) (nonce_log ncs (snd (fr_run r ncs)) ++ tail) ->
  uses_secrets (Pr := Pr) a = true -> uses_secrets b = true -> a = b.
Proof.
  intros Ht Ia Ib Ua Ub.
  apply in_app_iff in Ia as [Ia|Ia]; [apply in_nonce_log in Ia as (? & ? & ? & -> & _); discriminate|].
  apply in_app_iff in Ib as [Ib|Ib]; [apply in_nonce_log in Ib as (? & ? & ? & -> & _); discriminate|].
  assert (HSL : forall scs os k o, uses_secrets (Pr := Pr) k = true -> In (k, o) (sig_log (Pr := Pr) scs os) -> False).
  { intros scs' os k' o' Hu H'. apply in_sig_log in H' as (? & ? & ? & -> & _). discriminate. }
  assert (Y : forall x ox scs os z oz, uses_secrets z = false -> uses_secrets x = true -> In (x, ox) (sig_log (Pr := Pr) scs os ++ [(z, oz)]) -> False).
  { intros x ox scs os z oz Uz Ux Ix. apply in_app_iff in Ix as [Ix|[Ix|[]]]; [exact (HSL _ _ _ _ Ux Ix)|]. apply (f_equal fst) in Ix. cbn [fst] in Ix. subst x. congruence. }
  destruct Ht as [ |sk' T1 msg1 an1|sk' T1 msg1 e HF'|sk' T1 msg1 HF'|sk' T1 msg1 sr' scs' HF'|sk' T1 msg1 sr' scs' HF'|sk' T1 msg1 sr' scs' HF'].
  - destruct Ia.
  - destruct Ia as [Ia|[]], Ib as [Ib|[]]. congruence.
  - destruct Ia as [Ia|[]], Ib as [Ib|[]]. congruence.
  - destruct Ia as [Ia|[]], Ib as [Ib|[]]. congruence.
  - destruct Ia as [Ia|Ia]; [|destruct (HSL _ _ _ _ Ua Ia)]. destruct Ib as [Ib|Ib]; [|destruct (HSL _ _ _ _ Ub Ib)]. congruence.
  - destruct Ia as [Ia|Ia]; [|exfalso; eapply Y; [| |exact Ia]; [reflexivity|exact Ua]].
    destruct Ib as [Ib|Ib]; [|exfalso; eapply Y; [| |exact Ib]; [reflexivity|exact Ub]]. congruence.
  - destruct Ia as [Ia|Ia]; [|exfalso; eapply Y; [| |exact Ia]; [reflexivity|exact Ua]].
    destruct Ib as [Ib|Ib]; [|exfalso; eapply Y; [| |exact Ib]; [reflexivity|exact Ub]]. congruence.
Qed.

(** A final signature in a log whose one signing call released a partial signature. *)
Lemma final_of_released (r : first_round Pr) calls sk T msg an s k o : fr_started r ->
  let log := snd (mrun (Collecting r) calls) in
  released r log sk T msg an s -> (k = CFinish \/ k = CFinishAdaptor) -> In (k, o) log ->
  exists x, (forall a, x = Ok a -> exists sigs, aggregate_partial_adaptor_signatures (fr_ctx r) an T sigs msg = Ok a) /\
    o = match k with CFinish => RFinal (bind x (fun sg => unwrap (adapt sg fzero))) | _ => RFinalAdaptor x end.
Proof.
  cbv zeta. intros Hr Hrel Hk Ho. destruct (mrun_collecting calls r) as (ncs & tail & EL & Ht). rewrite EL in *.
  pose proof (started_fr r Hr) as [Hwf Hok0]. pose proof (log_nonces r ncs tail Hok0 Ht) as HN.
  destruct (finish_of_log r ncs tail k o Hk Hr Ht Ho) as (sk' & T' & msg' & sr & scs & HF & H1 & H2 & H3).
  assert (I' : In (CSign sk' T' msg', RPartial (match our_signature sr with Ok s => Ok s | _ => Panic end)) (nonce_log ncs (snd (fr_run r ncs)) ++ tail))
    by (apply in_app_iff; right; exact H1).
  destruct Hrel as [Hrel|[Hrel (pns & Hn & ->)]].
  { pose proof (one_secret_call r ncs tail _ _ _ _ Ht Hrel I' eq_refl eq_refl) as E. discriminate E. }
  pose proof (one_secret_call r ncs tail _ _ _ _ Ht Hrel I' eq_refl eq_refl) as E.
  assert (T' = T) as -> by (apply (f_equal (fun k => match k with CSign _ x _ => x | _ => T end)) in E; symmetry; exact E).
  assert (msg' = msg) as -> by (apply (f_equal (fun k => match k with CSign _ _ x => x | _ => msg end)) in E; symmetry; exact E).
  destruct (second_of_log r ncs sk' T msg sr Hr HF) as (pns' & Hst & L' & P' & Q1 & Q2 & Q3 & Q4 & Q5 & Hin & Q6 & Q7).
  destruct Hn as [HL HP]. rewrite HN in HP.
  assert (Epn : pns' = pns).
  { apply nth_error_ext. intro j. destruct (lt_dec j (length pns)) as [Hj|Hj].
    - rewrite HP by exact Hj. apply P'. rewrite L', <- HL. exact Hj.
    - rewrite !(proj2 (nth_error_None _ _)); [reflexivity|lia|rewrite L', <- HL; lia]. }
  rewrite Epn in *.
  exists (sr_finalize_adaptor (fst (sr_run sr scs))). split; [|destruct Hk; subst k; exact H3].
  intros a Ha. destruct (sr_aggregates sr _ scs ltac:(rewrite Q1; exact Hwf) Q6) as [A1 A2]. cbv zeta in A1, A2.
  destruct (sr_holdouts (fst (sr_run sr scs))) as [|x l] eqn:Eh; [|rewrite A1 in Ha by discriminate; discriminate].
  destruct (A2 eq_refl) as (sigs & B1 & _). rewrite Q1, Q3, Q4, Q5 in B1. rewrite Ha in B1.
  destruct (aggregate_partial_adaptor_signatures (fr_ctx r) (agg_sum pns) T sigs msg) as [a'| |] eqn:EA; cbn [map_err] in B1; try discriminate.
  apply Ok_inj in B1. subst a'. exists sigs. exact EA.
Qed.

(** What is released verifies exactly where it is the honest answer. *)
Lemma released_verifies (c : key_agg_ctx Pr) (r : first_round Pr) calls sk T msg an s : ctx_reachable c -> fr_started r -> fr_ctx r = c ->
  released r (snd (mrun (Collecting r) calls)) sk T msg an s ->
  s = psig_value c sk (fr_secnonce r) an T msg /\
  forall an' T' msg', verify_partial_adaptor c s an' T' (base_mul sk) (our_public_nonce r) msg' = Ok tt <->
    fz s = spec_psig c sk (fr_secnonce r) an' T' msg'.
Proof.
  intros Hc Hr Ec Hrel.
  destruct (C56_every_history_proof r calls Hr) as (_ & _ & _ & K). destruct (K _ _ _ _ _ Hrel) as [Hin E].
  rewrite Ec in Hin, E. split; [apply fe_ext; rewrite <- spec_psig_eq; exact E|].
  intros an' T' msg'.
  destruct (C12_verify_is_bip327_verify_proof c an' T' (base_mul sk) (our_public_nonce r) msg' Hc) as (V & _ & _ & _ & U).
  assert (W : verify_partial_adaptor c (psig_value c sk (fr_secnonce r) an' T' msg') an' T' (base_mul sk) (our_public_nonce r) msg' = Ok tt).
  { apply V. split; [exact Hin|]. apply psig_valid_eq. exact (psig_value_eq c sk (fr_secnonce r) an' T' msg'). }
  rewrite spec_psig_eq. split.
  - intro H. destruct (U Hin) as [s0 U0]. f_equal. transitivity s0; [apply U0; exact H | symmetry; apply U0; exact W].
  - intro H. apply fe_ext in H. rewrite H. exact W.
Qed.
End Aggregator.

Section C80_any_mixture_of_modes.
Context {Pr : prims}.
Add Ring ring_C80_any_mixture_of_modes : (fe_ring_theory (n := @ord Pr)).
Lemma C80_any_mixture_of_modes_proof {Laws : prims_ok Pr} {Tags : tags_ok Pr} (c : key_agg_ctx Pr) (r0 : nat -> first_round Pr) (calls : nat -> list (mcall Pr)) (sk : nat -> scalar Pr) (s : nat -> mscalar Pr) (an : agg_nonce Pr) (T : pt) (msg : bytes) (Hc : ctx_reachable c) (Hr : forall j, j < length (pubkeys c) -> fr_started (r0 j) /\ fr_ctx (r0 j) = c) (Hsk : forall j, j < length (pubkeys c) -> nth_error (pubkeys c) j = Some (base_mul (sk j))) (Hrel : forall j, j < length (pubkeys c) -> released (r0 j) (snd (mrun (Collecting (r0 j)) (calls j))) (sk j) T msg an (s j)) :
let signers := seq 0 (length (pubkeys c)) in
  let total := agg_sum (map (fun j => our_public_nonce (r0 j)) signers) in
  let Q := aggregated_pubkey c in
  let result := aggregate_partial_adaptor_signatures c an T (map s signers) msg in
  (forall j, j < length (pubkeys c) ->
     verify_partial_adaptor c (s j) an T (base_mul (sk j)) (our_public_nonce (r0 j)) msg = Ok tt) /\
  ((exists sg, result = Ok sg) <->
     pt_add (aR1 total) (point_mul (aR2 total) (spec_b c an msg)) = v_R (spec_values c an T msg)) /\
  ((forall sg, result <> Ok sg) -> result = Err VE_BadSignature) /\
  (an = total -> spec_R_raw c an msg <> pt_O -> exists sg, result = Ok sg /\
     a_R sg = spec_R_raw c an msg /\ verify_single_adaptor Q sg msg T = Ok tt /\
     (forall t l, T = gmul t -> adapt sg t = Some l -> schnorr_verify msg (xbytes Q) (lifted_to_bytes l) = Ret true) /\
     (T = pt_O -> exists l, aggregate_partial_signatures c an (map s signers) msg = Ok l /\
        schnorr_verify msg (xbytes Q) (lifted_to_bytes l) = Ret true)) /\
  (forall j sg sg', j < length (pubkeys c) -> result = Ok sg ->
     In (CFinishAdaptor, RFinalAdaptor (Ok sg')) (snd (mrun (Collecting (r0 j)) (calls j))) -> sg' = sg) /\
  (forall j l l', j < length (pubkeys c) -> T = pt_O -> aggregate_partial_signatures c an (map s signers) msg = Ok l ->
     In (CFinish, RFinal (Ok l')) (snd (mrun (Collecting (r0 j)) (calls j))) -> l' = l).
Proof.
  intros signers total Q result. pose proof (reachable_wf _ Hc) as Hwf.
  assert (LS : length signers = length (pubkeys c)) by apply seq_length.
  assert (NS : forall j i, nth_error signers j = Some i -> i = j /\ j < length (pubkeys c)).
  { intros j i H. assert (Hj : j < length (pubkeys c)) by (rewrite <- LS; apply nth_error_Some; congruence).
    unfold signers in H. rewrite (nth_error_nth' _ 0) in H by (rewrite seq_length; exact Hj). rewrite seq_nth in H by exact Hj.
    injection H as <-. auto. }
  assert (RV := fun j Hj => released_verifies c (r0 j) (calls j) (sk j) T msg an (s j) Hc (proj1 (Hr j Hj)) (proj2 (Hr j Hj)) (Hrel j Hj)).
  assert (PE : forall i pk pn x, nth_error (ordered_pubkeys c) i = Some pk ->
    nth_error (map (fun j => our_public_nonce (r0 j)) signers) i = Some pn ->
    nth_error (map s signers) i = Some x -> partial_eq c an T msg pk pn x).
  { intros i pk pn x H1 H2 H3. rewrite nth_error_map in H2, H3.
    destruct (nth_error signers i) as [i'|] eqn:E; [|discriminate]. apply NS in E as [-> Hi].
    cbn [option_map] in H2, H3. injection H2 as <-. injection H3 as <-.
    change (nth_error (pubkeys c) i = Some pk) in H1. rewrite (Hsk i Hi) in H1. injection H1 as <-.
    rewrite (proj1 (RV i Hi)). exact (psig_value_eq c (sk i) (fr_secnonce (r0 i)) an T msg). }
  assert (AI := aggregate_any_iff c an (map (fun j => our_public_nonce (r0 j)) signers) T msg (map s signers) Hwf
    ltac:(rewrite map_length; exact LS) ltac:(rewrite map_length; exact LS) PE).
  fold total result in AI.
  assert (EB : point_mul (aR2 total) (spec_b c an msg) = pmul (sess_b c an msg) (aR2 total)) by (rewrite spec_b_eq; reflexivity).
  assert (IFF : (exists sg, result = Ok sg) <->
     pt_add (aR1 total) (point_mul (aR2 total) (spec_b c an msg)) = v_R (spec_values c an T msg)).
  { rewrite AI, EB, spec_values_eq. cbn [v_R]. reflexivity. }
  split; [intros j Hj; apply (RV j Hj); rewrite spec_psig_eq, (proj1 (RV j Hj)); reflexivity|].
  split; [exact IFF|].
  split. { intro N. unfold result in *. rewrite aggregate_eq in *. destruct (pt_eqb _ _); [exfalso; eapply N; reflexivity | reflexivity]. }
  split; [|split].
  - intros Ean HR.
    assert (ER : pval (sess_R c an msg) = spec_R_raw c an msg).
    { rewrite spec_R_raw_eq in *. apply sess_R_iff. exact HR. }
    destruct (proj2 AI) as [sg Hsg].
    { rewrite <- Ean. rewrite ER, spec_R_raw_eq. reflexivity. }
    exists sg. split; [exact Hsg|]. split; [pose proof (proj1 (aggregate_Ok_iff _ _ _ _ _ _) Hsg) as [-> _]; exact ER|].
    split; [exact (aggregate_verifies _ _ _ _ _ _ Hsg)|]. split.
    + intros t l -> Hl. destruct (C15_adaptor_aggregate_valid_proof c an t (map s signers) msg sg Hsg) as (_ & _ & H1 & _).
      exact (proj2 (H1 l Hl)).
    + intros ->. unfold aggregate_partial_signatures at 1. fold result. rewrite Hsg. cbn [bind].
      rewrite (aggregate_adapt_zero _ _ _ _ _ _ Hsg). cbn [unwrap]. eexists. split; [reflexivity|].
      assert (Hl : aggregate_partial_signatures c an (map s signers) msg = Ok (lifted_new (sess_R c an msg) (a_s sg))).
      { unfold aggregate_partial_signatures. fold result. rewrite Hsg. cbn [bind]. rewrite (aggregate_adapt_zero _ _ _ _ _ _ Hsg). reflexivity. }
      destruct (C14_aggregate_valid_proof c an (map s signers) msg) as (H1 & _). destruct (H1 _ Hl) as (_ & _ & H2 & _). exact H2.
  - intros j sg sg' Hj Hsg Hin.
    destruct (final_of_released (r0 j) (calls j) _ _ _ _ _ _ _ (proj1 (Hr j Hj)) (Hrel j Hj) (or_intror eq_refl) Hin) as (x & X & E).
    apply (f_equal (fun o => match o with RFinalAdaptor x => x | _ => Panic end)) in E. cbn in E. symmetry in E.
    destruct (X sg' E) as [sigs Hs]. rewrite (proj2 (Hr j Hj)) in Hs. exact (aggregate_unique _ _ _ _ _ _ _ _ Hs Hsg).
  - intros j l l' Hj -> Hl Hin.
    destruct (final_of_released (r0 j) (calls j) _ _ _ _ _ _ _ (proj1 (Hr j Hj)) (Hrel j Hj) (or_introl eq_refl) Hin) as (x & X & E).
    apply (f_equal (fun o => match o with RFinal x => x | _ => Panic end)) in E. cbn in E.
    destruct x as [a| |]; cbn [bind] in E; try discriminate. destruct (X a eq_refl) as [sigs Hs]. rewrite (proj2 (Hr j Hj)) in Hs.
    unfold aggregate_partial_signatures in Hl. fold result in Hl. destruct result as [a'| |] eqn:ER; cbn [bind] in Hl; try discriminate.
    rewrite (aggregate_unique _ _ _ _ _ _ _ _ Hs ER) in E.
    destruct (adapt a' fzero) as [x|]; cbn [unwrap] in Hl, E; [|discriminate]. apply Ok_inj in Hl, E. congruence.
Qed.
End C80_any_mixture_of_modes.

Section C80_answers_to_different_nonces.
Context {Pr : prims}.
Add Ring ring_C80_answers_to_different_nonces : (fe_ring_theory (n := @ord Pr)).
Lemma C80_answers_to_different_nonces_proof {Laws : prims_ok Pr} {Tags : tags_ok Pr} (c : key_agg_ctx Pr) (r0 : first_round Pr) (calls : list (mcall Pr)) (sk : scalar Pr) (s : mscalar Pr) (an an' : agg_nonce Pr) (T T' : pt) (msg msg' : bytes) (Hc : ctx_reachable c) (Hr : fr_started r0) (Hctx : fr_ctx r0 = c) (Hrel : released r0 (snd (mrun (Collecting r0) calls)) sk T msg an s) :
(verify_partial_adaptor c s an' T' (base_mul sk) (our_public_nonce r0) msg' = Ok tt <->
     fz s = spec_psig c sk (fr_secnonce r0) an' T' msg') /\
  (forall sk2 T2 msg2 an2 s2, released r0 (snd (mrun (Collecting r0) calls)) sk2 T2 msg2 an2 s2 ->
     sk2 = sk /\ T2 = T /\ msg2 = msg /\ an2 = an /\ s2 = s).
Proof.
  destruct (released_verifies c r0 calls sk T msg an s Hc Hr Hctx Hrel) as [E V]. split; [apply V|].
  intros sk2 T2 msg2 an2 s2 Hrel2. pose proof (proj1 (released_verifies c r0 calls sk2 T2 msg2 an2 s2 Hc Hr Hctx Hrel2)) as E2.
  assert (K : sk2 = sk /\ T2 = T /\ msg2 = msg /\ an2 = an).
  { destruct (mrun_collecting calls r0) as (ncs & tail & EL & Ht). rewrite EL in *.
    destruct Hrel as [H|[H (p & Hn & ->)]], Hrel2 as [H2|[H2 (p2 & Hn2 & ->)]];
      pose proof (one_secret_call r0 ncs tail _ _ _ _ Ht H2 H eq_refl eq_refl) as Q; try discriminate Q.
    - split; [apply (f_equal (fun k => match k with CSignFor x _ _ _ => x | _ => sk end)) in Q; exact Q|].
      split; [apply (f_equal (fun k => match k with CSignFor _ x _ _ => x | _ => T end)) in Q; exact Q|].
      split; [apply (f_equal (fun k => match k with CSignFor _ _ x _ => x | _ => msg end)) in Q; exact Q|].
      apply (f_equal (fun k => match k with CSignFor _ _ _ x => x | _ => an end)) in Q; exact Q.
    - split; [apply (f_equal (fun k => match k with CSign x _ _ => x | _ => sk end)) in Q; exact Q|].
      split; [apply (f_equal (fun k => match k with CSign _ x _ => x | _ => T end)) in Q; exact Q|].
      split; [apply (f_equal (fun k => match k with CSign _ _ x => x | _ => msg end)) in Q; exact Q|].
      f_equal. destruct Hn as [L1 N1], Hn2 as [L2 N2]. apply nth_error_ext. intro j. destruct (lt_dec j (length p)) as [Hj|Hj].
      + rewrite N1 by exact Hj. apply N2. lia.
      + rewrite !(proj2 (nth_error_None _ _)); [reflexivity | lia | lia]. }
  destruct K as (-> & -> & -> & ->). split; [reflexivity|]. split; [reflexivity|]. split; [reflexivity|]. split; [reflexivity|].
  rewrite E, E2. reflexivity.
Qed.
End C80_answers_to_different_nonces.

Lemma C80_refusal_blames_the_signer_refuted_proof :
exists (c : key_agg_ctx Toy) (r0 : nat -> first_round Toy) (calls : nat -> list (mcall Toy)) (sk : nat -> scalar Toy) (s : nat -> mscalar Toy) (an : nat -> agg_nonce Toy) (msg : bytes),
    let total := agg_sum (map (fun j => our_public_nonce (r0 j)) (seq 0 (length (pubkeys c)))) in
    ctx_reachable c /\
    (forall j, j < length (pubkeys c) -> fr_started (r0 j) /\ fr_ctx (r0 j) = c /\ fr_index (r0 j) = j) /\
    (forall j, j < length (pubkeys c) -> nth_error (pubkeys c) j = Some (base_mul (sk j))) /\
    (forall j, j < length (pubkeys c) -> released (r0 j) (snd (mrun (Collecting (r0 j)) (calls j))) (sk j) pt_O msg (an j) (s j)) /\
    (forall j, j < length (pubkeys c) -> j <> 1 -> an j = total) /\
    verify_partial c (s 1) total (base_mul (sk 1)) (our_public_nonce (r0 1)) msg = Err VE_BadSignature /\
    aggregate_partial_signatures c total (map s (seq 0 (length (pubkeys c)))) msg = Err VE_BadSignature.
Proof.
  exists toy_c, toy_r0, toy_told, toy_sk, toy_told_s, toy_told_an, toy_msg. cbv zeta.
  assert (EL : length (pubkeys toy_c) = 3) by (vm_compute; reflexivity). rewrite EL.
  split; [exact toy_c_reach|]. split; [intros j Hj; split; [apply toy_r0_started; exact Hj|]; split; [apply toy_round_ctx; exact Hj | apply toy_r0_index; exact Hj]|].
  split; [exact toy_keys_nth|]. split; [exact toy_told_released|].
  split; [intros j Hj Hn; destruct j as [|[|[|j]]]; [reflexivity | contradiction | reflexivity | lia]|].
  split; apply err_of_eq; vm_compute; reflexivity.
Qed.

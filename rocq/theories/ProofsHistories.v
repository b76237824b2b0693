(** Proofs of the theorems of PropertiesHistories.v. *)
From Coq Require Import String List.
From Verif Require Import Bytes BytesFacts Prims PrimsFacts TaggedHashes Errors SpecTags SpecBIP327
  KeyAgg Nonces Signature Signing SigAgg Bip340 Rounds SpecCtx SpecView SpecSession SpecRounds SpecMachine SpecNonces Sha256
  Toy ToyData ToyRounds ToyHistories.
Import ListNotations.
Open Scope list_scope.
Open Scope nat_scope.
From Coq Require Import Arith Lia.
From Verif Require Import CodecFacts KeyAggFacts SigningFacts SignatureFacts SpecFacts SpecSigning SessionFacts Bip340Facts RoundsFacts
  NoncesFacts ProofsSigning ProofsNonces ProofsRounds.
Open Scope list_scope.
Open Scope nat_scope.

Section Helpers.
Context {Pr : prims} {Laws : prims_ok Pr} {Tags : tags_ok Pr}.

(** Deliveries of nonces and their outcomes as entries of a round's log. *)
Definition nonce_log (ncs : list (nat * pub_nonce Pr)) (os : list (res contribution_error unit)) : list (mcall Pr * mreply Pr) :=
  map (fun x => (CNonce (fst (fst x)) (snd (fst x)), RReceived (snd x))) (combine ncs os).
(** The same for signatures. *)
Definition sig_log (scs : list (nat * mscalar Pr)) (os : list (res contribution_error unit)) : list (mcall Pr * mreply Pr) :=
  map (fun x => (CSignature (fst (fst x)) (snd (fst x)), RReceived (snd x))) (combine scs os).

Lemma mrun_consumed calls : mrun (Pr := Pr) Consumed calls = (Consumed, []).
Proof. induction calls as [|k ks IH]; [reflexivity|]. cbn [mrun mstep]. exact IH. Qed.

Lemma mrun_signing calls : forall r : second_round Pr, exists scs,
  let r' := fst (sr_run r scs) in
  let os := snd (sr_run r scs) in
  mrun (Signing r) calls = (Signing r', sig_log scs os) \/
  mrun (Signing r) calls = (Consumed, sig_log scs os ++ [(CFinish, RFinal (sr_finalize r'))]) \/
  mrun (Signing r) calls = (Consumed, sig_log scs os ++ [(CFinishAdaptor, RFinalAdaptor (sr_finalize_adaptor r'))]).
Proof.
  induction calls as [|k ks IH]; intro r.
  - exists []. left. reflexivity.
  - destruct k as [i n|sk T msg|sk T msg an|i s| |]; cbn [mrun mstep].
    + apply IH.
    + apply IH.
    + apply IH.
    + destruct (receive_signature r i s) as [r1 o] eqn:E. destruct (IH r1) as [scs H]. exists ((i, s) :: scs).
      cbn [sr_run]. rewrite E. destruct (sr_run r1 scs) as [r2 os]. cbn [fst snd] in *.
      destruct H as [H|[H|H]]; rewrite H; [left|right; left|right; right]; reflexivity.
    + exists []. rewrite mrun_consumed. right. left. reflexivity.
    + exists []. rewrite mrun_consumed. right. right. reflexivity.
Qed.

(** What follows the nonces in a log. *)
Inductive tail_of (r : first_round Pr) : list (mcall Pr * mreply Pr) -> Prop :=
| tail_none : tail_of r []
| tail_for sk T msg an : tail_of r [(CSignFor sk T msg an, RFor (sign_for_aggregator_adaptor r sk T msg an))]
| tail_err sk T msg e : fr_finalize_adaptor r sk T msg = Err e -> tail_of r [(CSign sk T msg, RPartial (Err e))]
| tail_panic sk T msg : fr_finalize_adaptor r sk T msg = Panic -> tail_of r [(CSign sk T msg, RPartial Panic)]
| tail_open sk T msg sr scs : fr_finalize_adaptor r sk T msg = Ok sr ->
    tail_of r ((CSign sk T msg, RPartial (match our_signature sr with Ok s => Ok s | _ => Panic end))
               :: sig_log scs (snd (sr_run sr scs)))
| tail_finish sk T msg sr scs : fr_finalize_adaptor r sk T msg = Ok sr ->
    tail_of r ((CSign sk T msg, RPartial (match our_signature sr with Ok s => Ok s | _ => Panic end))
               :: sig_log scs (snd (sr_run sr scs)) ++ [(CFinish, RFinal (sr_finalize (fst (sr_run sr scs))))])
| tail_adaptor sk T msg sr scs : fr_finalize_adaptor r sk T msg = Ok sr ->
    tail_of r ((CSign sk T msg, RPartial (match our_signature sr with Ok s => Ok s | _ => Panic end))
               :: sig_log scs (snd (sr_run sr scs)) ++ [(CFinishAdaptor, RFinalAdaptor (sr_finalize_adaptor (fst (sr_run sr scs))))]).

Lemma mrun_collecting calls : forall r : first_round Pr, exists ncs tail,
  snd (mrun (Collecting r) calls) = nonce_log ncs (snd (fr_run r ncs)) ++ tail /\ tail_of (fst (fr_run r ncs)) tail.
Proof.
  induction calls as [|k ks IH]; intro r.
  - exists [], []. split; [reflexivity|constructor].
  - destruct k as [i n|sk T msg|sk T msg an|i s| |]; cbn [mrun mstep].
    + destruct (receive_nonce r i n) as [r1 o] eqn:E. destruct (IH r1) as (ncs & tail & H1 & H2).
      exists ((i, n) :: ncs), tail. cbn [fr_run]. rewrite E. destruct (mrun (Collecting r1) ks) as [p2 log].
      destruct (fr_run r1 ncs) as [r2 os]. cbn [fst snd] in *. rewrite H1. split; [reflexivity|exact H2].
    + destruct (fr_finalize_adaptor r sk T msg) as [sr|e|] eqn:E.
      * destruct (mrun_signing ks sr) as [scs H]. exists [].
        destruct H as [H|[H|H]]; rewrite H; eexists; (split; [reflexivity|]); econstructor; exact E.
      * rewrite mrun_consumed. exists []. eexists. split; [reflexivity|]. cbn [fst fr_run]. constructor. exact E.
      * rewrite mrun_consumed. exists []. eexists. split; [reflexivity|]. cbn [fst fr_run]. constructor. exact E.
    + rewrite mrun_consumed. exists []. eexists. split; [reflexivity|]. cbn [fst fr_run]. constructor.
    + apply IH.
    + apply IH.
    + apply IH.
Qed.

Lemma in_nonce_log ncs os k o : In (k, o) (nonce_log ncs os) -> exists i n r, k = CNonce i n /\ o = RReceived r /\ In r os.
Proof.
  unfold nonce_log. rewrite in_map_iff. intros ([[i n] r] & E & H). cbn [fst snd] in E. exists i, n, r.
  apply in_combine_r in H. split; [congruence|]. split; [congruence|exact H].
Qed.
Lemma in_sig_log scs os k o : In (k, o) (sig_log scs os) -> exists i s r, k = CSignature i s /\ o = RReceived r /\ In r os.
Proof.
  unfold sig_log. rewrite in_map_iff. intros ([[i s] r] & E & H). cbn [fst snd] in E. exists i, s, r.
  apply in_combine_r in H. split; [congruence|]. split; [congruence|exact H].
Qed.

Lemma nonces_app l m : nonces_of (Pr := Pr) (l ++ m) = nonces_of l ++ nonces_of m.
Proof. apply flat_map_app. Qed.
Lemma nonces_nonce_log : forall ncs os, length os = length ncs -> nonces_of (nonce_log ncs os) = ncs.
Proof.
  induction ncs as [|[i n] ncs IH]; intros [|o os] H; try discriminate; [reflexivity|].
  cbn [nonce_log combine map nonces_of flat_map fst snd app]. f_equal. apply IH. cbn [length] in H. lia.
Qed.
Lemma nonces_sig_log scs os : nonces_of (sig_log scs os) = [].
Proof.
  revert os. induction scs as [|[i s] scs IH]; intros [|o os]; try reflexivity.
  cbn [sig_log combine map nonces_of flat_map fst snd app]. apply IH.
Qed.
Lemma nonces_tail r tail : tail_of r tail -> nonces_of tail = [].
Proof.
  intros [ |sk T msg an|sk T msg e H|sk T msg H|sk T msg sr scs H|sk T msg sr scs H|sk T msg sr scs H];
    try reflexivity.
  - cbn [nonces_of flat_map fst app]. apply nonces_sig_log.
  - cbn [nonces_of flat_map fst app]. fold (nonces_of (Pr := Pr)). rewrite flat_map_app. fold (nonces_of (sig_log scs (snd (sr_run sr scs)))). rewrite nonces_sig_log. reflexivity.
  - cbn [nonces_of flat_map fst app]. rewrite flat_map_app. fold (nonces_of (sig_log scs (snd (sr_run sr scs)))). rewrite nonces_sig_log. reflexivity.
Qed.

Lemma log_nonces r ncs tail : fr_ok r [] -> tail_of (fst (fr_run r ncs)) tail ->
  nonces_of (nonce_log ncs (snd (fr_run r ncs)) ++ tail) = ncs.
Proof.
  intros Hr Ht. rewrite nonces_app, (nonces_tail _ _ Ht), app_nil_r. apply nonces_nonce_log.
  apply (fr_run_ok ncs r [] Hr).
Qed.

(** The second round of a log. *)
Lemma second_of_log (r0 : first_round Pr) ncs sk T msg sr : fr_started r0 ->
  fr_finalize_adaptor (fst (fr_run r0 ncs)) sk T msg = Ok sr ->
  exists pns, sr_started sr /\ length pns = length (pubkeys (fr_ctx r0)) /\
    (forall j, j < length pns -> nth_error pns j = on_file ((fr_index r0, our_public_nonce r0) :: ncs) j) /\
    sr_ctx sr = fr_ctx r0 /\ sr_index sr = fr_index r0 /\ sr_pubnonces sr = pns /\ sr_adaptor sr = T /\ sr_message sr = msg /\
    In (base_mul sk) (pubkeys (fr_ctx r0)) /\
    let ours := psig_value (fr_ctx r0) sk (fr_secnonce r0) (agg_sum pns) T msg in
    sr_ok sr ours [] /\ our_signature sr = Ok ours.
Proof.
  intros Hs HF. pose proof (started_fr_run r0 ncs Hs) as (Hwf & E1 & E2 & E3 & E4 & Hok & _).
  assert (Hst : sr_started sr) by (exists r0, ncs, sk, T, msg; auto).
  set (r := fst (fr_run r0 ncs)) in *.
  destruct (fr_finalize_spec r ncs sk T msg Hok) as [[_ H]|(_ & pns & HL & HN & H)]; [congruence|].
  rewrite E1, E3 in H. rewrite E1 in HL, HN. rewrite E2, E4 in HN.
  destruct (in_pks_dec (base_mul sk) (ordered_pubkeys (fr_ctx r0))) as [Hin|Hin].
  2:{ rewrite (sign_nonmember _ _ _ _ _ _ Hwf Hin) in H. congruence. }
  rewrite (sign_member _ _ _ _ _ _ Hwf Hin) in H. destruct H as (sr' & H1 & H2 & H3 & H4 & H5 & H6 & H7).
  assert (sr' = sr) by congruence. subst sr'. exists pns. unfold nsigners in *.
  split; [exact Hst|]. split; [exact HL|]. split; [intros j Hj; apply HN; rewrite <- HL; exact Hj|].
  split; [congruence|]. split; [congruence|]. split; [exact H5|]. split; [exact H6|]. split; [exact H7|]. split; [exact Hin|].
  cbv zeta. split; [exact H2|]. eapply our_signature_ok. exact H2.
Qed.

Lemma sr_run_accepts (sr : second_round Pr) ours scs i s : ctx_wf (sr_ctx sr) -> sr_ok sr ours [] ->
  In (i, s) scs -> sr_valid sr i s -> i <> sr_index sr -> In (CSignature i s, RReceived (Ok tt)) (sig_log scs (snd (sr_run sr scs))).
Proof.
  intros Hwf Hok Hin Hv Hi.
  assert (G : forall r hist, sr_ok r ours hist -> ctx_wf (sr_ctx r) -> sr_valid r = sr_valid sr :> (nat -> mscalar Pr -> Prop) ->
    sr_index r = sr_index sr -> (forall j t, In (j, t) hist -> sr_valid sr j t) ->
    In (CSignature i s, RReceived (Ok tt)) (sig_log scs (snd (sr_run r scs)))).
  { clear Hok Hwf. induction scs as [|[j t] scs IH]; intros r hist Hok Hwf Ev Ei Hh; [destruct Hin|].
    cbn [sr_run]. destruct (receive_signature r j t) as [r1 o] eqn:E.
    assert (Hnext : In (i, s) scs -> In (CSignature i s, RReceived (Ok tt)) (sig_log scs (snd (sr_run r1 scs)))).
    { intro Hin'. destruct (receive_signature_spec r ours hist j t Hwf Hok) as [[H1 H]|[(H1 & H2 & H)|[(H1 & H2 & w & Hw & [[_ H]|[_ H]])|(H1 & H2 & H3 & sl & H & H5)]]];
        rewrite E in H; apply (f_equal fst) in H; cbn [fst] in H; subst r1.
      1-4: apply (IH Hin' r hist); assumption.
      apply (IH Hin' (sr_set_slots r sl) (hist ++ [(j, t)])); [exact H5|exact Hwf|exact Ev|exact Ei|].
      intros j' t' Hj. apply in_app_iff in Hj as [Hj|[Hj|[]]]; [apply Hh; exact Hj|].
      apply (f_equal (fun p => sr_valid sr (fst p) (snd p))) in Hj. cbn [fst snd] in Hj. rewrite <- Hj, <- Ev.
      apply (sr_check_valid r ours hist j t Hwf Hok). exact H2. }
    destruct (sr_run r1 scs) as [r2 os]. cbn [snd]. cbn [sig_log combine map fst snd].
    destruct Hin as [Hin|Hin]; [|right; apply Hnext; exact Hin].
    assert (j = i) by (apply (f_equal fst) in Hin; exact Hin). assert (t = s) by (apply (f_equal snd) in Hin; exact Hin). subst j t.
    left. f_equal. f_equal.
    assert (C : sr_check r (i, s) = true).
    { apply (sr_check_valid r ours hist i s Hwf Hok). change (sr_valid r i s). rewrite Ev. exact Hv. }
    destruct (receive_signature_spec r ours hist i s Hwf Hok) as [[H1 H]|[(H1 & H2 & H)|[(H1 & H2 & w & Hw & [[_ H]|[N H]])|(H1 & H2 & H3 & sl & H & H5)]]].
    - exfalso. unfold sr_check in C. cbn [fst] in C. rewrite (proj2 (nth_error_None _ _)) in C by exact H1. discriminate.
    - congruence.
    - congruence.
    - exfalso. apply N. rewrite on_file_cons in Hw. destruct (Nat.eqb_spec (sr_index r) i); [congruence|].
      apply on_file_In in Hw. apply Hh in Hw. eapply session_valid_unique; [exact Hv|exact Hw].
    - congruence. }
  apply (G sr [] Hok Hwf eq_refl eq_refl). intros j t [].
Qed.

(** A finishing entry of a log and the signing call it belongs to. *)
Lemma finish_of_log (r0 : first_round Pr) ncs tail k o : (k = CFinish \/ k = CFinishAdaptor) -> fr_started r0 ->
  tail_of (fst (fr_run r0 ncs)) tail -> In (k, o) (nonce_log ncs (snd (fr_run r0 ncs)) ++ tail) ->
  exists sk T msg sr scs, fr_finalize_adaptor (fst (fr_run r0 ncs)) sk T msg = Ok sr /\
    In (CSign sk T msg, RPartial (match our_signature sr with Ok s => Ok s | _ => Panic end)) tail /\
    (forall e, In e (sig_log scs (snd (sr_run sr scs))) -> In e tail) /\
    o = match k with CFinish => RFinal (sr_finalize (fst (sr_run sr scs))) | _ => RFinalAdaptor (sr_finalize_adaptor (fst (sr_run sr scs))) end.
Proof.
  intros Hk Hr Ht H. apply in_app_iff in H as [H|H]; [apply in_nonce_log in H as (? & ? & ? & -> & _); destruct Hk; discriminate|].
  assert (HSL : forall scs os, In (k, o) (sig_log scs os) -> False).
  { intros scs os H'. apply in_sig_log in H' as (? & ? & ? & -> & _). destruct Hk; discriminate. }
  destruct Ht as [ |sk T msg an|sk T msg e HF|sk T msg HF|sk T msg sr scs HF|sk T msg sr scs HF|sk T msg sr scs HF].
  - destruct H.
  - destruct H as [H|[]]. apply (f_equal fst) in H. cbn [fst] in H. subst k. destruct Hk; discriminate.
  - destruct H as [H|[]]. apply (f_equal fst) in H. cbn [fst] in H. subst k. destruct Hk; discriminate.
  - destruct H as [H|[]]. apply (f_equal fst) in H. cbn [fst] in H. subst k. destruct Hk; discriminate.
  - destruct H as [H|H]; [|destruct (HSL _ _ H)]. apply (f_equal fst) in H. cbn [fst] in H. subst k. destruct Hk; discriminate.
  - destruct H as [H|H]; [apply (f_equal fst) in H; cbn [fst] in H; subst k; destruct Hk; discriminate|].
    apply in_app_iff in H as [H|[H|[]]]; [destruct (HSL _ _ H)|]. exists sk, T, msg, sr, scs. split; [exact HF|].
    split; [left; reflexivity|]. split; [intros e He; right; apply in_app_iff; left; exact He|].
    pose proof (f_equal fst H) as K1. pose proof (f_equal snd H) as K2. cbn [fst snd] in K1, K2. subst k. symmetry. exact K2.
  - destruct H as [H|H]; [apply (f_equal fst) in H; cbn [fst] in H; subst k; destruct Hk; discriminate|].
    apply in_app_iff in H as [H|[H|[]]]; [destruct (HSL _ _ H)|]. exists sk, T, msg, sr, scs. split; [exact HF|].
    split; [left; reflexivity|]. split; [intros e He; right; apply in_app_iff; left; exact He|].
    pose proof (f_equal fst H) as K1. pose proof (f_equal snd H) as K2. cbn [fst snd] in K1, K2. subst k. symmetry. exact K2.
Qed.

Lemma complete_of_final (sr : second_round Pr) scs ours : ctx_wf (sr_ctx sr) -> sr_ok sr ours [] -> sr_started sr ->
  (exists sg, sr_finalize_adaptor (fst (sr_run sr scs)) = Ok sg) ->
  forall j, j < length (pubkeys (sr_ctx sr)) -> j <> sr_index sr ->
    exists s, In (CSignature j s, RReceived (Ok tt)) (sig_log scs (snd (sr_run sr scs))) /\ sr_valid sr j s.
Proof.
  intros Hwf Hok Hst [sg Hsg] j Hj Hne.
  pose proof (C26_second_round_holdouts_proof sr scs Hst) as (_ & _ & C & _). cbv zeta in C.
  assert (Hh : sr_holdouts (fst (sr_run sr scs)) = []).
  { pose proof (C30_second_finalize_proof sr scs Hst) as (F & _). cbv zeta in F.
    destruct (sr_holdouts (fst (sr_run sr scs))) as [|x l] eqn:E; [reflexivity|]. rewrite (proj2 F) in Hsg by discriminate. discriminate. }
  destruct (proj1 C ltac:(unfold sr_is_complete; rewrite Hh; reflexivity) j Hj Hne) as (s & Hin & Hv). exists s. split; [|exact Hv].
  eapply sr_run_accepts; eassumption.
Qed.
End Helpers.

Lemma toy_r0_ctx i : i < 3 -> fr_ctx (toy_r0 i) = toy_c.
Proof. intro H. apply (first_round_new_ok _ _ _ _ _ (toy_r0_eq i H)). Qed.

Section C56_every_history.
Context {Pr : prims}.
Add Ring ring_C56_every_history : (fe_ring_theory (n := @ord Pr)).
Lemma C56_every_history_proof {Laws : prims_ok Pr} {Tags : tags_ok Pr} (r0 : first_round Pr) (calls : list (mcall Pr)) (Hr : fr_started r0) :
  let log := snd (mrun (Collecting r0) calls) in
  let c := fr_ctx r0 in
  (forall k o, In (k, o) log -> ~ panicked o) /\
  (exists ns tl, log = ns ++ tl /\
     (forall k o, In (k, o) ns -> exists i n, k = CNonce i n) /\
     (tl = [] \/ exists k o ss fin, tl = (k, o) :: ss ++ fin /\ uses_secrets k = true /\
        (forall k' o', In (k', o') ss -> exists i s, k' = CSignature i s) /\
        (fin = [] \/ exists o', fin = [(CFinish, o')] \/ fin = [(CFinishAdaptor, o')]))) /\
  length (filter (fun e => uses_secrets (fst e)) log) <= 1 /\
  (forall sk T msg an s, released r0 log sk T msg an s ->
     In (base_mul sk) (pubkeys c) /\ fz s = spec_psig c sk (fr_secnonce r0) an T msg).
Proof.
  cbv zeta. destruct (mrun_collecting calls r0) as (ncs & tail & -> & Ht).
  pose proof (started_fr r0 Hr) as [Hwf Hok0].
  pose proof (started_fr_run r0 ncs Hr) as (_ & E1 & E2 & E3 & E4 & Hok & Hnp).
  pose proof (log_nonces r0 ncs tail Hok0 Ht) as HN.
  split; [|split; [|split]].
  - intros k o H. apply in_app_iff in H as [H|H].
    + apply in_nonce_log in H as (i & n & r & -> & -> & H). intros [P|[P|[P|[P|P]]]]; try discriminate.
      assert (r = Panic) by congruence. subst r. contradiction.
    + assert (HS : forall sk T msg sr scs, fr_finalize_adaptor (fst (fr_run r0 ncs)) sk T msg = Ok sr ->
        (~ panicked (RPartial (Pr := Pr) (match our_signature sr with Ok s => Ok s | _ => Panic end))) /\
        (forall k o, In (k, o) (sig_log scs (snd (sr_run sr scs))) -> ~ panicked o) /\
        sr_finalize (fst (sr_run sr scs)) <> Panic /\ sr_finalize_adaptor (fst (sr_run sr scs)) <> Panic).
      { intros sk T msg sr scs HF. destruct (second_of_log r0 ncs sk T msg sr Hr HF) as (pns & Hst & _ & _ & Q1 & _ & _ & _ & _ & _ & Q2 & Q3).
        rewrite Q3. split; [intros [P|[P|[P|[P|P]]]]; discriminate|]. split.
        - intros k' o' H'. apply in_sig_log in H' as (i & s & r & -> & -> & H').
          assert (Hwf' : ctx_wf (sr_ctx sr)) by (rewrite Q1; exact Hwf).
          pose proof (sr_run_started sr _ scs Hwf' Q2) as (_ & _ & NP & _).
          intros [P|[P|[P|[P|P]]]]; try discriminate. assert (r = Panic) by congruence. subst r. contradiction.
        - pose proof (C30_second_finalize_proof sr scs Hst) as (_ & _ & _ & _ & _ & Z1 & Z2). split; assumption. }
      destruct Ht as [ |sk T msg an|sk T msg e HF|sk T msg HF|sk T msg sr scs HF|sk T msg sr scs HF|sk T msg sr scs HF].
      * destruct H.
      * destruct H as [H|[]]. assert (o = RFor (sign_for_aggregator_adaptor (fst (fr_run r0 ncs)) sk T msg an)) by congruence. subst o.
        unfold sign_for_aggregator_adaptor. rewrite E1, E3.
        destruct (in_pks_dec (base_mul sk) (ordered_pubkeys (fr_ctx r0))) as [Hin|Hin];
          [rewrite (sign_member _ _ _ _ _ _ Hwf Hin)|rewrite (sign_nonmember _ _ _ _ _ _ Hwf Hin)];
          intros [P|[P|[P|[P|P]]]]; discriminate.
      * destruct H as [H|[]]. assert (o = RPartial (Err e)) by congruence. subst o. intros [P|[P|[P|[P|P]]]]; discriminate.
      * pose proof (C30_first_finalize_proof r0 ncs sk T msg Hr) as (_ & _ & _ & P & _). contradiction.
      * destruct (HS sk T msg sr scs HF) as (S1 & S2 & _). destruct H as [H|H]; [|apply (S2 k o H)].
        assert (o = RPartial (match our_signature sr with Ok s => Ok s | _ => Panic end)) by congruence. subst o. exact S1.
      * destruct (HS sk T msg sr scs HF) as (S1 & S2 & S3 & _). destruct H as [H|H].
        { assert (o = RPartial (match our_signature sr with Ok s => Ok s | _ => Panic end)) by congruence. subst o. exact S1. }
        apply in_app_iff in H as [H|[H|[]]]; [apply (S2 k o H)|].
        assert (o = RFinal (sr_finalize (fst (sr_run sr scs)))) by congruence. subst o. intros [P|[P|[P|[P|P]]]]; try discriminate. congruence.
      * destruct (HS sk T msg sr scs HF) as (S1 & S2 & _ & S3). destruct H as [H|H].
        { assert (o = RPartial (match our_signature sr with Ok s => Ok s | _ => Panic end)) by congruence. subst o. exact S1. }
        apply in_app_iff in H as [H|[H|[]]]; [apply (S2 k o H)|].
        assert (o = RFinalAdaptor (sr_finalize_adaptor (fst (sr_run sr scs)))) by congruence. subst o. intros [P|[P|[P|[P|P]]]]; try discriminate. congruence.
  - exists (nonce_log ncs (snd (fr_run r0 ncs))), tail. split; [reflexivity|]. split.
    { intros k o H. apply in_nonce_log in H as (i & n & r & -> & _). eauto. }
    assert (HSL : forall scs os k' o', In (k', o') (sig_log (Pr := Pr) scs os) -> exists i s, k' = CSignature i s).
    { intros scs os k' o' H. apply in_sig_log in H as (i & s & r & -> & _). eauto. }
    destruct Ht as [ |sk T msg an|sk T msg e HF|sk T msg HF|sk T msg sr scs HF|sk T msg sr scs HF|sk T msg sr scs HF].
    + left. reflexivity.
    + right. do 2 eexists. exists [], []. split; [reflexivity|]. split; [reflexivity|]. split; [intros k' o' []|left; reflexivity].
    + right. do 2 eexists. exists [], []. split; [reflexivity|]. split; [reflexivity|]. split; [intros k' o' []|left; reflexivity].
    + right. do 2 eexists. exists [], []. split; [reflexivity|]. split; [reflexivity|]. split; [intros k' o' []|left; reflexivity].
    + right. do 2 eexists. exists (sig_log scs (snd (sr_run sr scs))), []. split; [rewrite app_nil_r; reflexivity|].
      split; [reflexivity|]. split; [apply HSL|left; reflexivity].
    + right. do 2 eexists. eexists. eexists. split; [reflexivity|].
      split; [reflexivity|]. split; [apply HSL|right; eexists; left; reflexivity].
    + right. do 2 eexists. eexists. eexists. split; [reflexivity|].
      split; [reflexivity|]. split; [apply HSL|right; eexists; right; reflexivity].
  - assert (F1 : forall l os, filter (fun e : mcall Pr * mreply Pr => uses_secrets (fst e)) (nonce_log l os) = []).
    { induction l as [|[i n] l IH]; intros [|o os]; try reflexivity. cbn [nonce_log combine map filter fst uses_secrets]. apply IH. }
    assert (F2 : forall l os, filter (fun e : mcall Pr * mreply Pr => uses_secrets (fst e)) (sig_log l os) = []).
    { induction l as [|[i n] l IH]; intros [|o os]; try reflexivity. cbn [sig_log combine map filter fst uses_secrets]. apply IH. }
    rewrite filter_app, F1. cbn [app].
    destruct Ht as [ |sk T msg an|sk T msg e HF|sk T msg HF|sk T msg sr scs HF|sk T msg sr scs HF|sk T msg sr scs HF];
      cbn [filter fst uses_secrets length]; rewrite ?filter_app, ?F2; cbn [filter fst uses_secrets length app]; lia.
  - intros sk T msg an s HR.
    assert (HX : forall k o, uses_secrets k = true -> In (k, o) (nonce_log ncs (snd (fr_run r0 ncs)) ++ tail) ->
       (exists sk T msg an, k = CSignFor sk T msg an /\ o = RFor (sign_for_aggregator_adaptor (fst (fr_run r0 ncs)) sk T msg an)) \/
       (exists sk T msg, k = CSign sk T msg /\ ((exists sr, fr_finalize_adaptor (fst (fr_run r0 ncs)) sk T msg = Ok sr /\
          o = RPartial (match our_signature sr with Ok s => Ok s | _ => Panic end)) \/ (exists e, o = RPartial (Err e)) \/ o = RPartial Panic))).
    { intros k o Hu H. apply in_app_iff in H as [H|H]; [apply in_nonce_log in H as (? & ? & ? & -> & _); discriminate|].
      assert (HSL : forall scs os, In (k, o) (sig_log (Pr := Pr) scs os) -> False).
      { intros scs os H'. apply in_sig_log in H' as (? & ? & ? & -> & _). discriminate. }
      destruct Ht as [ |sk' T' msg' an'|sk' T' msg' e HF|sk' T' msg' HF|sk' T' msg' sr scs HF|sk' T' msg' sr scs HF|sk' T' msg' sr scs HF].
      - destruct H.
      - destruct H as [H|[]]. left. exists sk', T', msg', an'. split; congruence.
      - destruct H as [H|[]]. right. exists sk', T', msg'. split; [congruence|]. right. left. exists e. congruence.
      - destruct H as [H|[]]. right. exists sk', T', msg'. split; [congruence|]. right. right. congruence.
      - destruct H as [H|H]; [|destruct (HSL _ _ H)]. right. exists sk', T', msg'. split; [congruence|]. left. exists sr. split; [exact HF|congruence].
      - destruct H as [H|H]; [|apply in_app_iff in H as [H|[H|[]]]; [destruct (HSL _ _ H)|apply (f_equal fst) in H; cbn [fst] in H; subst k; discriminate]].
        right. exists sk', T', msg'. split; [congruence|]. left. exists sr. split; [exact HF|congruence].
      - destruct H as [H|H]; [|apply in_app_iff in H as [H|[H|[]]]; [destruct (HSL _ _ H)|apply (f_equal fst) in H; cbn [fst] in H; subst k; discriminate]].
        right. exists sk', T', msg'. split; [congruence|]. left. exists sr. split; [exact HF|congruence]. }
    destruct HR as [HR|(HR & pns & [HL HP] & ->)].
    + apply HX in HR; [|reflexivity]. destruct HR as [(sk' & T' & msg' & an' & K1 & K2)|(sk' & T' & msg' & K1 & _)]; [|discriminate].
      assert (sk' = sk /\ T' = T /\ msg' = msg /\ an' = an) as (-> & -> & -> & ->).
      { split; [|split; [|split]]; [apply (f_equal (fun k => match k with CSignFor x _ _ _ => x | _ => sk end)) in K1
        |apply (f_equal (fun k => match k with CSignFor _ x _ _ => x | _ => T end)) in K1
        |apply (f_equal (fun k => match k with CSignFor _ _ x _ => x | _ => msg end)) in K1
        |apply (f_equal (fun k => match k with CSignFor _ _ _ x => x | _ => an end)) in K1]; symmetry; exact K1. }
      apply (f_equal (fun o => match o with RFor x => x | _ => Panic end)) in K2. cbn in K2. unfold sign_for_aggregator_adaptor in K2.
      rewrite E1, E3 in K2. destruct (in_pks_dec (base_mul sk) (ordered_pubkeys (fr_ctx r0))) as [Hin|Hin].
      2:{ rewrite (sign_nonmember _ _ _ _ _ _ Hwf Hin) in K2. discriminate. }
      rewrite (sign_member _ _ _ _ _ _ Hwf Hin) in K2. apply Ok_inj in K2. subst s. split; [exact Hin|].
      rewrite spec_psig_eq. reflexivity.
    + rewrite HN in HP. apply HX in HR; [|reflexivity]. destruct HR as [(sk' & T' & msg' & an' & K1 & _)|(sk' & T' & msg' & K1 & K2)]; [discriminate|].
      assert (sk' = sk /\ T' = T /\ msg' = msg) as (-> & -> & ->).
      { split; [|split]; [apply (f_equal (fun k => match k with CSign x _ _ => x | _ => sk end)) in K1
        |apply (f_equal (fun k => match k with CSign _ x _ => x | _ => T end)) in K1
        |apply (f_equal (fun k => match k with CSign _ _ x => x | _ => msg end)) in K1]; symmetry; exact K1. }
      destruct K2 as [(sr & HF & K2)|[[e K2]|K2]]; [|discriminate..].
      destruct (second_of_log r0 ncs sk T msg sr Hr HF) as (pns' & Hst & L' & P' & Q1 & Q2 & Q3 & _ & _ & Hin & Q4 & Q5).
      assert (Epn : pns' = pns).
      { apply nth_error_ext. intro j. destruct (lt_dec j (length pns)) as [Hj|Hj].
        - rewrite HP by exact Hj. apply P'. rewrite L', <- HL. exact Hj.
        - rewrite !(proj2 (nth_error_None _ _)); [reflexivity|lia|rewrite L', <- HL; lia]. }
      rewrite Epn in Q5. rewrite Q5 in K2. apply (f_equal (fun o => match o with RPartial x => x | _ => Panic end)) in K2. cbn in K2. apply Ok_inj in K2. subst s.
      split; [exact Hin|]. rewrite spec_psig_eq. reflexivity.
Qed.
End C56_every_history.

Section C56_final_signatures.
Context {Pr : prims}.
Add Ring ring_C56_final_signatures : (fe_ring_theory (n := @ord Pr)).
Lemma C56_final_signatures_proof {Laws : prims_ok Pr} {Tags : tags_ok Pr} (r0 : first_round Pr) (calls : list (mcall Pr)) (Hr : fr_started r0) :
  let log := snd (mrun (Collecting r0) calls) in
  let c := fr_ctx r0 in
  let Q := aggregated_pubkey c in
  let all_signed := fun (T : pt) (msg : bytes) => exists sk s pns,
     In (CSign sk T msg, RPartial (Ok s)) log /\ nonces_on_file r0 log pns /\
     forall j, j < length (pubkeys c) -> j <> fr_index r0 -> exists sj,
       In (CSignature j sj, RReceived (Ok tt)) log /\ session_valid c pns T msg j sj in
  (forall l, In (CFinish, RFinal (Ok l)) log -> exists T msg, all_signed T msg /\
     (T = pt_O -> verify_single_lifted Q l msg = Ok tt /\
                  schnorr_verify msg (xbytes Q) (lifted_to_bytes l) = Ret true)) /\
  (forall sg, In (CFinishAdaptor, RFinalAdaptor (Ok sg)) log -> exists T msg, all_signed T msg /\
     verify_single_adaptor Q sg msg T = Ok tt /\
     forall t l, T = gmul t -> adapt sg t = Some l -> verify_single_lifted Q l msg = Ok tt).
Proof.
  cbv zeta. destruct (mrun_collecting calls r0) as (ncs & tail & -> & Ht).
  pose proof (started_fr r0 Hr) as [Hwf Hok0].
  pose proof (log_nonces r0 ncs tail Hok0 Ht) as HN.
  split.
  - intros l Hl. destruct (finish_of_log r0 ncs tail _ _ (or_introl eq_refl) Hr Ht Hl) as (sk & T & msg & sr & scs & HF & H1 & H2 & H3).
    apply (f_equal (fun o => match o with RFinal x => x | _ => Panic end)) in H3. cbn in H3. symmetry in H3.
    destruct (second_of_log r0 ncs sk T msg sr Hr HF) as (pns & Hst & L' & P' & Q1 & Q2 & Q3 & Q4 & Q5 & Hin & Q6 & Q7).
    exists T, msg. rewrite Q7 in H1. split.
    + do 2 eexists. exists pns. split; [apply in_app_iff; right; exact H1|]. split; [split; [exact L'|rewrite HN; exact P']|].
      intros j Hj Hne.
      destruct (complete_of_final sr scs _ ltac:(rewrite Q1; exact Hwf) Q6 Hst) with (j := j) as (s & K1 & K2).
      * pose proof (C32_adaptor_session_plain_finalize_proof sr scs Hst) as [F _]. cbv zeta in F.
        destruct (sr_finalize_adaptor (fst (sr_run sr scs))) as [sg|e|] eqn:E; [exists sg; reflexivity| |].
        -- rewrite (proj2 (F e) eq_refl) in H3. discriminate.
        -- exfalso. unfold sr_finalize in H3. rewrite E in H3. discriminate.
      * rewrite Q1. exact Hj.
      * rewrite Q2. exact Hne.
      * exists s. split; [apply in_app_iff; right; apply H2, K1|]. unfold sr_valid in K2. rewrite Q1, Q3, Q4, Q5 in K2. exact K2.
    + intro ET. pose proof (C30_second_finalize_proof sr scs Hst) as (_ & _ & _ & _ & F & _). cbv zeta in F. rewrite Q1, Q4, Q5 in F.
      apply F; assumption.
  - intros sg Hl. destruct (finish_of_log r0 ncs tail _ _ (or_intror eq_refl) Hr Ht Hl) as (sk & T & msg & sr & scs & HF & H1 & H2 & H3).
    apply (f_equal (fun o => match o with RFinalAdaptor x => x | _ => Panic end)) in H3. cbn in H3. symmetry in H3.
    destruct (second_of_log r0 ncs sk T msg sr Hr HF) as (pns & Hst & L' & P' & Q1 & Q2 & Q3 & Q4 & Q5 & Hin & Q6 & Q7).
    exists T, msg. rewrite Q7 in H1. split.
    + do 2 eexists. exists pns. split; [apply in_app_iff; right; exact H1|]. split; [split; [exact L'|rewrite HN; exact P']|].
      intros j Hj Hne.
      destruct (complete_of_final sr scs _ ltac:(rewrite Q1; exact Hwf) Q6 Hst) with (j := j) as (s & K1 & K2).
      * exists sg. exact H3.
      * rewrite Q1. exact Hj.
      * rewrite Q2. exact Hne.
      * exists s. split; [apply in_app_iff; right; apply H2, K1|]. unfold sr_valid in K2. rewrite Q1, Q3, Q4, Q5 in K2. exact K2.
    + pose proof (C30_second_finalize_proof sr scs Hst) as (_ & _ & _ & F & _). cbv zeta in F. rewrite Q1, Q4, Q5 in F.
      split; [apply F; exact H3|]. intros t l ET Hl'. apply F in H3. rewrite ET in H3. eapply verified_adapt; eassumption.
Qed.
End C56_final_signatures.

Section C56_agreement.
Context {Pr : prims}.
Add Ring ring_C56_agreement : (fe_ring_theory (n := @ord Pr)).
Lemma C56_agreement_proof {Laws : prims_ok Pr} {Tags : tags_ok Pr} (r1 : first_round Pr) (r2 : first_round Pr) (calls1 : list (mcall Pr)) (calls2 : list (mcall Pr)) (pns : list (pub_nonce Pr)) (T : pt) (msg : bytes) (Hr1 : fr_started r1) (Hr2 : fr_started r2) (Hc : fr_ctx r1 = fr_ctx r2) :
  let log1 := snd (mrun (Collecting r1) calls1) in
  let log2 := snd (mrun (Collecting r2) calls2) in
  (exists sk s, In (CSign sk T msg, RPartial (Ok s)) log1) -> nonces_on_file r1 log1 pns ->
  (exists sk s, In (CSign sk T msg, RPartial (Ok s)) log2) -> nonces_on_file r2 log2 pns ->
  (forall l1 l2, In (CFinish, RFinal (Ok l1)) log1 -> In (CFinish, RFinal (Ok l2)) log2 -> l1 = l2) /\
  (forall a1 a2, In (CFinishAdaptor, RFinalAdaptor (Ok a1)) log1 -> In (CFinishAdaptor, RFinalAdaptor (Ok a2)) log2 -> a1 = a2).
Proof.
  cbv zeta. intros S1 N1 S2 N2.
  assert (G : forall (r : first_round Pr) calls, fr_started r -> fr_ctx r = fr_ctx r2 ->
     (exists sk s, In (CSign sk T msg, RPartial (Ok s)) (snd (mrun (Collecting r) calls))) ->
     nonces_on_file r (snd (mrun (Collecting r) calls)) pns ->
     forall k o, (k = CFinish \/ k = CFinishAdaptor) -> In (k, o) (snd (mrun (Collecting r) calls)) ->
     exists x, (forall a, x = Ok a -> exists sigs, aggregate_partial_adaptor_signatures (fr_ctx r2) (agg_sum pns) T sigs msg = Ok a) /\
       o = match k with CFinish => RFinal (bind x (fun sg => unwrap (adapt sg fzero))) | _ => RFinalAdaptor x end).
  { intros r calls Hr Ec Hs Hn k o Hk Ho. destruct (mrun_collecting calls r) as (ncs & tail & EL & Ht). rewrite EL in *.
    pose proof (started_fr r Hr) as [Hwf Hok0]. pose proof (log_nonces r ncs tail Hok0 Ht) as HN.
    destruct (finish_of_log r ncs tail k o Hk Hr Ht Ho) as (sk & T' & msg' & sr & scs & HF & H1 & H2 & H3).
    assert (HT : T' = T /\ msg' = msg).
    { destruct Hs as (sk0 & s0 & Hs). apply in_app_iff in Hs as [Hs|Hs]; [apply in_nonce_log in Hs as (? & ? & ? & Hs & _); discriminate|].
      assert (U : forall a b oa ob, uses_secrets (Pr := Pr) a = true -> uses_secrets b = true -> In (a, oa) tail -> In (b, ob) tail -> a = b).
      { assert (HSL : forall scs os k o, uses_secrets (Pr := Pr) k = true -> In (k, o) (sig_log (Pr := Pr) scs os) -> False).
        { intros scs' os k' o' Hu H'. apply in_sig_log in H' as (? & ? & ? & -> & _). discriminate. }
        intros a b oa ob Ua Ub Ia Ib.
        destruct Ht as [ |sk' T1 msg1 an1|sk' T1 msg1 e HF'|sk' T1 msg1 HF'|sk' T1 msg1 sr' scs' HF'|sk' T1 msg1 sr' scs' HF'|sk' T1 msg1 sr' scs' HF'].
        - destruct Ia.
        - destruct Ia as [Ia|[]], Ib as [Ib|[]]. congruence.
        - destruct Ia as [Ia|[]], Ib as [Ib|[]]. congruence.
        - destruct Ia as [Ia|[]], Ib as [Ib|[]]. congruence.
        - destruct Ia as [Ia|Ia]; [|destruct (HSL _ _ _ _ Ua Ia)]. destruct Ib as [Ib|Ib]; [|destruct (HSL _ _ _ _ Ub Ib)]. congruence.
        - assert (Y : forall x ox, uses_secrets x = true -> In (x, ox) (sig_log scs' (snd (sr_run sr' scs')) ++ [(CFinish, RFinal (sr_finalize (fst (sr_run sr' scs'))))]) -> False).
          { intros x ox Ux Ix. apply in_app_iff in Ix as [Ix|[Ix|[]]]; [exact (HSL _ _ _ _ Ux Ix)|]. apply (f_equal fst) in Ix. cbn [fst] in Ix. subst x. discriminate. }
          destruct Ia as [Ia|Ia]; [|destruct (Y _ _ Ua Ia)]. destruct Ib as [Ib|Ib]; [|destruct (Y _ _ Ub Ib)]. congruence.
        - assert (Y : forall x ox, uses_secrets x = true -> In (x, ox) (sig_log scs' (snd (sr_run sr' scs')) ++ [(CFinishAdaptor, RFinalAdaptor (sr_finalize_adaptor (fst (sr_run sr' scs'))))]) -> False).
          { intros x ox Ux Ix. apply in_app_iff in Ix as [Ix|[Ix|[]]]; [exact (HSL _ _ _ _ Ux Ix)|]. apply (f_equal fst) in Ix. cbn [fst] in Ix. subst x. discriminate. }
          destruct Ia as [Ia|Ia]; [|destruct (Y _ _ Ua Ia)]. destruct Ib as [Ib|Ib]; [|destruct (Y _ _ Ub Ib)]. congruence. }
      assert (K : CSign sk T' msg' = CSign sk0 T msg) by (eapply U; [| |exact H1|exact Hs]; reflexivity).
      split; [apply (f_equal (fun k => match k with CSign _ x _ => x | _ => T end)) in K
             |apply (f_equal (fun k => match k with CSign _ _ x => x | _ => msg end)) in K]; exact K. }
    destruct HT as [-> ->].
    destruct (second_of_log r ncs sk T msg sr Hr HF) as (pns' & Hst & L' & P' & Q1 & Q2 & Q3 & Q4 & Q5 & Hin & Q6 & Q7).
    destruct Hn as [HL HP]. rewrite HN in HP.
    assert (Epn : pns' = pns).
    { apply nth_error_ext. intro j. destruct (lt_dec j (length pns)) as [Hj|Hj].
      - rewrite HP by exact Hj. apply P'. rewrite L', <- HL. exact Hj.
      - rewrite !(proj2 (nth_error_None _ _)); [reflexivity|lia|rewrite L', <- HL; lia]. }
    rewrite Epn in *. rewrite Ec in *.
    exists (sr_finalize_adaptor (fst (sr_run sr scs))). split; [|destruct Hk; subst k; exact H3].
    intros a Ha. destruct (sr_aggregates sr _ scs ltac:(rewrite Q1; exact Hwf) Q6) as [A1 A2]. cbv zeta in A1, A2.
    destruct (sr_holdouts (fst (sr_run sr scs))) as [|x l] eqn:Eh; [|rewrite A1 in Ha by discriminate; discriminate].
    destruct (A2 eq_refl) as (sigs & B1 & _). rewrite Q1, Q3, Q4, Q5 in B1. rewrite Ha in B1.
    destruct (aggregate_partial_adaptor_signatures (fr_ctx r2) (agg_sum pns) T sigs msg) as [a'| |] eqn:EA; cbn [map_err] in B1; try discriminate.
    apply Ok_inj in B1. subst a'. exists sigs. exact EA. }
  assert (U : forall a1 a2, (exists sigs, aggregate_partial_adaptor_signatures (fr_ctx r2) (agg_sum pns) T sigs msg = Ok a1) ->
     (exists sigs, aggregate_partial_adaptor_signatures (fr_ctx r2) (agg_sum pns) T sigs msg = Ok a2) -> a1 = a2).
  { intros a1 a2 [s1 E1] [s2 E2]. apply aggregate_Ok_iff in E1 as [-> E1]. apply aggregate_Ok_iff in E2 as [-> E2].
    f_equal. rewrite <- E1 in E2. apply gmul_inj in E2. symmetry. exact E2. }
  split.
  - intros l1 l2 H1 H2.
    destruct (G r1 calls1 Hr1 Hc S1 N1 _ _ (or_introl eq_refl) H1) as (x1 & X1 & Y1).
    destruct (G r2 calls2 Hr2 eq_refl S2 N2 _ _ (or_introl eq_refl) H2) as (x2 & X2 & Y2).
    apply (f_equal (fun o => match o with RFinal x => x | _ => Panic end)) in Y1. cbn in Y1.
    apply (f_equal (fun o => match o with RFinal x => x | _ => Panic end)) in Y2. cbn in Y2.
    destruct x1 as [a1| |]; cbn [bind] in Y1; try discriminate. destruct x2 as [a2| |]; cbn [bind] in Y2; try discriminate.
    rewrite (U a1 a2 (X1 a1 eq_refl) (X2 a2 eq_refl)) in Y1. rewrite <- Y1 in Y2. apply Ok_inj in Y2. symmetry. exact Y2.
  - intros a1 a2 H1 H2.
    destruct (G r1 calls1 Hr1 Hc S1 N1 _ _ (or_intror eq_refl) H1) as (x1 & X1 & Y1).
    destruct (G r2 calls2 Hr2 eq_refl S2 N2 _ _ (or_intror eq_refl) H2) as (x2 & X2 & Y2).
    apply (f_equal (fun o => match o with RFinalAdaptor x => x | _ => Panic end)) in Y1. cbn in Y1.
    apply (f_equal (fun o => match o with RFinalAdaptor x => x | _ => Panic end)) in Y2. cbn in Y2.
    apply U; [apply (X1 a1); symmetry; exact Y1|apply (X2 a2); symmetry; exact Y2].
Qed.
End C56_agreement.

Section C55_same_seed_same_nonce.
Context {Pr : prims}.
Add Ring ring_C55_same_seed_same_nonce : (fe_ring_theory (n := @ord Pr)).
Lemma C55_same_seed_same_nonce_proof {Laws : prims_ok Pr} {Tags : tags_ok Pr} (c : key_agg_ctx Pr) (seed : bytes) (i : nat) (sp : spices Pr) (r : nat -> first_round Pr) (calls : nat -> list (mcall Pr)) (sk : scalar Pr) (an : nat -> agg_nonce Pr) (T : nat -> pt) (msg : nat -> bytes) (s : nat -> mscalar Pr) (Hc : ctx_reachable c) (Hr : forall l, l < 3 -> first_round_new c seed i sp = Ok (r l)) (Hs : forall l, l < 3 -> released (r l) (snd (mrun (Collecting (r l)) (calls l))) sk (T l) (msg l) (an l) (s l)) :
  let v := fun l => spec_values c (an l) (T l) (msg l) in
  let sigma := fun l => (if has_even_y (pt_add (v_R (v l)) (T l)) then 1 else -1)%Z in
  let b := fun l => (sigma l * v_b (v l))%Z in
  let w := fun l => (v_e (v l) * spec_a c (base_mul sk) * (spec_g (v l) * v_gacc (v l)))%Z in
  let det := fun col : nat -> Z =>
      (sigma 0%nat * (b 1%nat * col 2%nat - b 2%nat * col 1%nat)
     - sigma 1%nat * (b 0%nat * col 2%nat - b 2%nat * col 0%nat)
     + sigma 2%nat * (b 0%nat * col 1%nat - b 1%nat * col 0%nat))%Z in
  (forall l, l < 3 -> our_public_nonce (r l) = our_public_nonce (r 0)) /\
  ((det w * fz sk) mod n_ = det (fun l => fz (s l)) mod n_)%Z /\
  ((det w mod n_ <> 0)%Z -> forall x : scalar Pr, ((det w * fz x) mod n_ = det (fun l => fz (s l)) mod n_)%Z -> x = sk).
Proof.
  cbv zeta.
  assert (Er : forall l, l < 3 -> r l = r 0).
  { intros l Hl. pose proof (Hr l Hl) as H1. pose proof (Hr 0 ltac:(lia)) as H2. rewrite H1 in H2. apply Ok_inj in H2. exact H2. }
  split; [intros l Hl; rewrite (Er l Hl); reflexivity|].
  assert (Hst : fr_started (r 0)) by (exists c, seed, i, sp; split; [exact Hc|apply Hr; lia]).
  pose proof (first_round_new_ok _ _ _ _ _ (Hr 0 ltac:(lia))) as (Ec & _).
  pose proof (reachable_wf _ Hc) as Hwf.
  apply (C46_nonce_reuse_three_sessions_proof c sk (fr_secnonce (r 0)) an T msg s Hc).
  intros l Hl. pose proof (Hs l Hl) as H. rewrite (Er l Hl) in H.
  pose proof (C56_every_history_proof (r 0) (calls l) Hst) as (_ & _ & _ & P). cbv zeta in P. apply P in H as [Hin H].
  rewrite Ec in Hin, H. rewrite sign_member by assumption. f_equal. apply fe_ext. rewrite H, spec_psig_eq. reflexivity.
Qed.
End C55_same_seed_same_nonce.

Section C55_fresh_message_fresh_nonce.
Context {Pr : prims}.
Add Ring ring_C55_fresh_message_fresh_nonce : (fe_ring_theory (n := @ord Pr)).
Lemma C55_fresh_message_fresh_nonce_proof {Laws : prims_ok Pr} {Tags : tags_ok Pr} (c1 : key_agg_ctx Pr) (c2 : key_agg_ctx Pr) (seed1 : bytes) (seed2 : bytes) (i1 : nat) (i2 : nat) (sp1 : spices Pr) (sp2 : spices Pr) (r1 : first_round Pr) (r2 : first_round Pr) (pk1 : point Pr) (pk2 : point Pr) (H1 : first_round_new c1 seed1 i1 sp1 = Ok r1) (H2 : first_round_new c2 seed2 i2 sp2 = Ok r2) (P1 : get_pubkey c1 i1 = Some pk1) (P2 : get_pubkey c2 i2 = Some pk2) (L1 : forall m, sp_message sp1 = Some m -> (zlen m < 2 ^ 64)%Z) (L2 : forall m, sp_message sp2 = Some m -> (zlen m < 2 ^ 64)%Z) :
  let hashed1 := round_nonce_input seed1 i1 pk1 (aggregated_pubkey c1) sp1 in
  let hashed2 := round_nonce_input seed2 i2 pk2 (aggregated_pubkey c2) sp2 in
  let collide := fun n1 n2 : byte => hashed1 n1 <> hashed2 n2 /\
    Z.max 1 (nonce_int (Pr := Pr) (hashed1 n1)) = Z.max 1 (nonce_int (Pr := Pr) (hashed2 n2)) in
  let agree := (Z.of_nat i1 mod 2 ^ 32 = Z.of_nat i2 mod 2 ^ 32)%Z /\ pk1 = pk2 /\
     xbytes (aggregated_pubkey c1) = xbytes (aggregated_pubkey c2) /\
     sp_message sp1 = sp_message sp2 /\ concat (sp_extra_inputs sp1) = concat (sp_extra_inputs sp2) /\
     masked_seed seed1 (sp_seckey sp1) = masked_seed seed2 (sp_seckey sp2) /\
     (seed1 = seed2 -> sp_seckey sp1 = sp_seckey sp2) in
  (pR1 (our_public_nonce r1) = pR1 (our_public_nonce r2) -> collide x00 x00 \/ agree) /\
  (pR2 (our_public_nonce r1) = pR2 (our_public_nonce r2) -> collide x01 x01 \/ agree) /\
  (pR1 (our_public_nonce r1) = pR2 (our_public_nonce r2) -> collide x00 x01) /\
  (pR1 (our_public_nonce r1) = pR2 (our_public_nonce r1) ->
     hashed1 x00 <> hashed1 x01 /\ Z.max 1 (nonce_int (Pr := Pr) (hashed1 x00)) = Z.max 1 (nonce_int (Pr := Pr) (hashed1 x01))).
Proof.
  cbv zeta.
  destruct (C38_round_nonce_source_proof c1 seed1 i1 sp1 r1 H1) as (pk1' & P1' & A1 & B1).
  destruct (C38_round_nonce_source_proof c2 seed2 i2 sp2 r2 H2) as (pk2' & P2' & A2 & B2). cbv zeta in A1, B1, A2, B2.
  assert (pk1' = pk1) by congruence. assert (pk2' = pk2) by congruence. subst pk1' pk2'.
  assert (X : forall x, (0 <= x)%Z -> (if (x =? 0)%Z then 1 else x)%Z = Z.max 1 x).
  { intros x Hx. destruct (Z.eqb_spec x 0); lia. }
  assert (Y : forall inp : bytes, (if (nonce_int (Pr := Pr) inp =? 0)%Z then 1 else nonce_int (Pr := Pr) inp)%Z = Z.max 1 (nonce_int (Pr := Pr) inp)).
  { intro inp. apply X. unfold nonce_int, n_. apply Z.mod_pos_bound. reflexivity. }
  rewrite Y in A1, A2, B1, B2.
  assert (G : forall (ka kb : scalar Pr), base_mul ka = base_mul kb -> fz (sval ka) = fz (sval kb)).
  { intros ka kb E. apply (f_equal pval) in E. rewrite !base_mul_val in E. apply gmul_inj in E. rewrite E. reflexivity. }
  assert (W : forall n1 n2, round_nonce_input seed1 i1 pk1 (aggregated_pubkey c1) sp1 n1 = round_nonce_input seed2 i2 pk2 (aggregated_pubkey c2) sp2 n2
     \/ round_nonce_input seed1 i1 pk1 (aggregated_pubkey c1) sp1 n1 <> round_nonce_input seed2 i2 pk2 (aggregated_pubkey c2) sp2 n2).
  { intros n1 n2. destruct (bytes_eqb (round_nonce_input seed1 i1 pk1 (aggregated_pubkey c1) sp1 n1) (round_nonce_input seed2 i2 pk2 (aggregated_pubkey c2) sp2 n2)) eqn:EB;
      [left; apply bytes_eqb_eq; exact EB|right; intro F; apply bytes_eqb_eq in F; congruence]. }
  unfold our_public_nonce, public_nonce. cbn [pR1 pR2].
  split; [|split; [|split]]; intro HS; apply G in HS; rewrite ?A1, ?B1, ?A2, ?B2 in HS.
  - destruct (W x00 x00) as [E|E]; [right|left; split; assumption].
    apply C38_rounds_separate_proof in E as (_ & K1 & _ & K2 & K3 & K4 & K5 & K6 & K7); [|assumption..]. auto 8.
  - destruct (W x01 x01) as [E|E]; [right|left; split; assumption].
    apply C38_rounds_separate_proof in E as (_ & K1 & _ & K2 & K3 & K4 & K5 & K6 & K7); [|assumption..]. auto 8.
  - split; [|exact HS]. intro E. apply C38_rounds_separate_proof in E as (K & _); [discriminate K|assumption..].
  - split; [|exact HS]. intro E. apply C38_rounds_separate_proof in E as (K & _); [discriminate K|assumption..].
Qed.
End C55_fresh_message_fresh_nonce.

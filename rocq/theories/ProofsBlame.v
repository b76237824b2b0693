(** Proofs of the theorems of PropertiesBlame.v. *)
From Coq Require Import String List Arith Lia.
From Verif Require Import Bytes BytesFacts Prims PrimsFacts TaggedHashes Errors SpecTags SpecBIP327
  KeyAgg Nonces Signature Signing SigAgg Bip340 Rounds SpecCtx SpecView SpecSession SpecRounds Toy ToyData ToyRounds ToyBlame.
Import ListNotations.
Open Scope list_scope.
Open Scope nat_scope.
From Coq Require Import Lia.
From Verif Require Import CodecFacts KeyAggFacts SigningFacts SpecFacts SpecSigning SessionFacts RoundsFacts ProofsSigning ProofsRounds ProofsNetwork.

Section Blame.
Context {Pr : prims} {Laws : prims_ok Pr} {Tags : tags_ok Pr}.

(** A finalized first round with any nonces. *)
Lemma one_final (c : key_agg_ctx Pr) r0 seed j sp calls (sk : scalar Pr) T msg sr : ctx_reachable c ->
  first_round_new c seed j sp = Ok r0 -> In (base_mul sk) (pubkeys c) ->
  fr_finalize_adaptor (fst (fr_run r0 calls)) sk T msg = Ok sr ->
  sr_started sr /\ sr_ctx sr = c /\ sr_index sr = j /\ sr_adaptor sr = T /\ sr_message sr = msg /\
  sr_aggnonce sr = agg_sum (sr_pubnonces sr) /\ length (sr_pubnonces sr) = length (pubkeys c) /\
  (forall i, i < length (pubkeys c) -> nth_error (sr_pubnonces sr) i = on_file ((j, our_public_nonce r0) :: calls) i) /\
  our_signature sr = Ok (psig_value c sk (fr_secnonce r0) (agg_sum (sr_pubnonces sr)) T msg).
Proof.
  intros Hc Hnew Hin Hf. pose proof (reachable_wf _ Hc) as Hwf.
  assert (Hst : fr_started r0) by (exists c, seed, j, sp; auto).
  pose proof (first_round_new_ok _ _ _ _ _ Hnew) as (K1 & K2 & K3 & _).
  split; [exists r0, calls, sk, T, msg; auto|].
  pose proof (started_fr_run r0 calls Hst) as (_ & E1 & E2 & E3 & E4 & Hok & _).
  set (r := fst (fr_run r0 calls)) in *. rewrite K1 in E1. rewrite K2 in E2.
  destruct (fr_finalize_spec r _ sk T msg Hok) as [[_ H]|(_ & pns' & HL & HN & HS)]; [congruence|].
  rewrite E1, E3 in HS. rewrite (sign_member _ _ _ _ _ _ Hwf Hin) in HS.
  destruct HS as (sr' & H1 & H2 & H3 & H4 & H5 & H6 & H7).
  assert (sr' = sr) as -> by congruence. rewrite H5. pose proof H2 as (Hi & HP & HA & HT).
  split; [congruence|]. split; [congruence|]. split; [exact H6|]. split; [exact H7|]. split; [congruence|].
  rewrite E1, E2, E4 in *. split; [exact HL|]. split; [exact HN|].
  eapply our_signature_ok. exact H2.
Qed.

Lemma files_differ (a b : list (pub_nonce Pr)) : length a = length b -> a <> b ->
  exists k, k < length a /\ nth_error a k <> nth_error b k.
Proof.
  revert b; induction a as [|x a IH]; intros [|y b] HL H; try discriminate; [contradiction|]. injection HL as HL.
  destruct (pubnonce_eqb x y) eqn:E.
  - apply pubnonce_eqb_eq in E. subst y. destruct (IH b HL) as (k & Hk & D); [congruence|].
    exists (S k). cbn [length nth_error]. split; [lia | exact D].
  - exists 0. cbn [length nth_error]. split; [lia|]. intro Q. injection Q as ->.
    rewrite (proj2 (pubnonce_eqb_eq y y) eq_refl) in E. discriminate.
Qed.
End Blame.

Section C78_blame.
Context {Pr : prims}.
Add Ring ring_C78_blame : (fe_ring_theory (n := @ord Pr)).
Lemma C78_blame_proof {Laws : prims_ok Pr} {Tags : tags_ok Pr} (c : key_agg_ctx Pr) (honest : nat -> Prop) (r0 : nat -> first_round Pr) (seed : nat -> bytes) (sp : nat -> spices Pr) (sk : nat -> scalar Pr) (calls1 : nat -> list (nat * pub_nonce Pr)) (T : nat -> pt) (msg : nat -> bytes) (sr : nat -> second_round Pr) (Hc : ctx_reachable c) (Hnew : forall j, honest j -> first_round_new c (seed j) j (sp j) = Ok (r0 j)) (Hsk : forall j, honest j -> nth_error (pubkeys c) j = Some (base_mul (sk j))) (Hfirst : forall j i, honest j -> honest i -> on_file ((j, our_public_nonce (r0 j)) :: calls1 j) i = Some (our_public_nonce (r0 i))) (Hfin : forall j, honest j -> fr_finalize_adaptor (fst (fr_run (r0 j) (calls1 j))) (sk j) (T j) (msg j) = Ok (sr j)) :
let filed := fun j => on_file ((j, our_public_nonce (r0 j)) :: calls1 j) in
  forall i j s calls2, honest i -> honest j -> our_signature (sr i) = Ok s ->
  let o := snd (receive_signature (fst (sr_run (sr j) calls2)) i s) in
  (o = Ok tt <-> fz s = spec_psig c (sk i) (fr_secnonce (r0 i)) (aggregated_nonce (sr j)) (T j) (msg j)) /\
  (aggregated_nonce (sr i) = aggregated_nonce (sr j) -> T i = T j -> msg i = msg j -> o = Ok tt) /\
  (o <> Ok tt ->
     o = Err (RoundContributionError i InvalidSignature) /\
     (T i = T j -> msg i = msg j ->
        exists k, k < length (pubkeys c) /\ ~ honest k /\ filed i k <> filed j k)).
Proof.
  intros filed i j s calls2 Hi Hj Hs o.
  assert (IN : forall j, honest j -> In (base_mul (sk j)) (pubkeys c)) by (intros x Hx; eapply nth_error_In; apply Hsk; exact Hx).
  assert (LT : forall j, honest j -> j < length (pubkeys c)).
  { intros x Hx. apply nth_error_Some. rewrite (Hsk x Hx). discriminate. }
  destruct (one_final c (r0 i) (seed i) i (sp i) (calls1 i) (sk i) (T i) (msg i) (sr i) Hc (Hnew i Hi) (IN i Hi) (Hfin i Hi))
    as (Ai & Ci & Ii & Ti & Mi & Gi & Li & Ni & Oi).
  destruct (one_final c (r0 j) (seed j) j (sp j) (calls1 j) (sk j) (T j) (msg j) (sr j) Hc (Hnew j Hj) (IN j Hj) (Hfin j Hj))
    as (Aj & Cj & Ij & Tj & Mj & Gj & Lj & Nj & Oj).
  set (ai := agg_sum (sr_pubnonces (sr i))) in *. set (aj := agg_sum (sr_pubnonces (sr j))) in *.
  unfold aggregated_nonce. rewrite Gi, Gj.
  set (would := psig_value c (sk i) (fr_secnonce (r0 i)) aj (T j) (msg j)).
  assert (V : sr_valid (sr j) i would).
  { unfold sr_valid. rewrite Cj, Tj, Mj. exists (base_mul (sk i)), (our_public_nonce (r0 i)).
    split; [apply Hsk; exact Hi|]. split; [rewrite (Nj i (LT i Hi)); apply Hfirst; assumption|].
    apply psig_valid_eq. exact (psig_value_eq c (sk i) (fr_secnonce (r0 i)) aj (T j) (msg j)). }
  destruct (C29_receive_signature_proof (sr j) calls2 i s Aj) as (ours & O1 & _ & R1 & _ & R3 & _).
  fold o in R1. rewrite Cj, Ij in R1. rewrite Cj in R3. assert (Eo : ours = psig_value c (sk j) (fr_secnonce (r0 j)) aj (T j) (msg j)) by congruence.
  assert (EX : o = Ok tt <-> s = would).
  { rewrite R1. split.
    - intros (_ & H & _). exact (session_valid_unique _ _ _ _ _ _ _ H V).
    - intros ->. split; [apply LT; exact Hi|]. split; [exact V|]. intros ->. symmetry. exact Eo. }
  assert (SAME : ai = aj -> T i = T j -> msg i = msg j -> o = Ok tt).
  { intros E1 E2 E3. apply EX. assert (s = psig_value c (sk i) (fr_secnonce (r0 i)) ai (T i) (msg i)) as -> by congruence.
    unfold would. rewrite E1, E2, E3. reflexivity. }
  split; [|split; [exact SAME|]].
  - rewrite EX, spec_psig_eq. fold would. split; [intros ->; reflexivity | apply fe_ext].
  - intro No. split.
    + unfold o. rewrite (R3 (LT i Hi)); [reflexivity|]. intro H. apply No, EX. exact (session_valid_unique _ _ _ _ _ _ _ H V).
    + intros E2 E3. destruct (files_differ (sr_pubnonces (sr i)) (sr_pubnonces (sr j))) as (k & Hk & D).
      * congruence.
      * intro E. apply No, SAME; [unfold ai, aj; congruence | exact E2 | exact E3].
      * rewrite Li in Hk. exists k. split; [exact Hk|]. rewrite (Ni k Hk), (Nj k Hk) in D. split; [|exact D].
        intro HK. apply D. rewrite (Hfirst i k Hi HK), (Hfirst j k Hj HK). reflexivity.
Qed.
End C78_blame.

Lemma C78_sender_is_culprit_refuted_proof :
exists (c : key_agg_ctx Toy) (r0 : nat -> first_round Toy) (seed : nat -> bytes) (sp : nat -> spices Toy) (sk : nat -> scalar Toy) (calls1 : nat -> list (nat * pub_nonce Toy)) (T : pt) (msg : bytes) (sr : nat -> second_round Toy) (s : mscalar Toy),
    let honest := fun j => j = 0 \/ j = 1 in
    ctx_reachable c /\
    (forall j, honest j -> first_round_new c (seed j) j (sp j) = Ok (r0 j)) /\
    (forall j, honest j -> nth_error (pubkeys c) j = Some (base_mul (sk j))) /\
    (forall j i, honest j -> honest i -> on_file ((j, our_public_nonce (r0 j)) :: calls1 j) i = Some (our_public_nonce (r0 i))) /\
    (forall j, honest j -> fr_finalize_adaptor (fst (fr_run (r0 j) (calls1 j))) (sk j) T msg = Ok (sr j)) /\
    our_signature (sr 1) = Ok s /\
    snd (receive_signature (sr 0) 1 s) = Err (RoundContributionError 1 InvalidSignature).
Proof.
  exists toy_c, toy_r0, (fun _ => toy_seed), (fun _ => spices_new), toy_sk, toy_two_faced, pt_O, toy_msg, toy_sr2, (toy_sig_of (toy_sr2 1)).
  cbv zeta. split; [exact toy_c_reach|].
  split; [intros j [-> | ->]; apply toy_r0_eq; lia|].
  assert (EP : map base_mul toy_sks = pubkeys toy_c) by (symmetry; apply (map_base_toy toy_sks); vm_compute; reflexivity).
  split; [intros j Hj; rewrite <- EP, nth_error_map; destruct Hj as [-> | ->]; reflexivity|].
  split; [intros j i [-> | ->] [-> | ->]; rewrite on_file_cons; cbn [Nat.eqb toy_two_faced]; rewrite ?on_file_cons; cbn [Nat.eqb]; reflexivity|].
  split; [intros j [-> | ->]; apply toy_sr2_eq; lia|].
  split; [unfold toy_sig_of; assert (E : is_ok (our_signature (toy_sr2 1)) = true) by (vm_compute; reflexivity); apply is_ok_ex in E as [x ->]; reflexivity|].
  vm_compute. reflexivity.
Qed.

Section C78_infinite_nonce.
Context {Pr : prims}.
Add Ring ring_C78_infinite_nonce : (fe_ring_theory (n := @ord Pr)).
Lemma C78_infinite_nonce_proof {Laws : prims_ok Pr} {Tags : tags_ok Pr} (c : key_agg_ctx Pr) (pns : list (pub_nonce Pr)) (T : pt) (sigs : list (mscalar Pr)) (msg : bytes) (Hc : ctx_reachable c) (Hpn : length pns = length (pubkeys c)) (Hs : length sigs = length (pubkeys c)) (Hv : forall i pk pn s, nth_error (pubkeys c) i = Some pk -> nth_error pns i = Some pn -> nth_error sigs i = Some s -> verify_partial_adaptor c s (agg_sum pns) T pk pn msg = Ok tt) (HR : spec_R_raw c (agg_sum pns) msg = pt_O) :
let Q := aggregated_pubkey c in
  let e := v_e (spec_values c (agg_sum pns) T msg) in
  let s := spec_agg_s c (agg_sum pns) T sigs msg in
  (exists d : scalar Pr, base_mul d = Q /\ (e * (if has_even_y Q then fz d else n_ - fz d) mod n_)%Z = s) /\
  (e <> 0%Z -> forall d : scalar Pr,
     base_mul d = Q <-> (e * (if has_even_y Q then fz d else n_ - fz d) mod n_)%Z = s).
Proof.
  intros Q e s. pose proof (reachable_wf _ Hc) as Hwf.
  assert (HE : forall i pk pn s, nth_error (ordered_pubkeys c) i = Some pk -> nth_error pns i = Some pn ->
     nth_error sigs i = Some s -> partial_eq c (agg_sum pns) T msg pk pn s).
  { intros i pk pn s0 H1 H2 H3. apply (verify_Ok_member c s0 (agg_sum pns) T pk pn msg Hwf). eapply Hv; eassumption. }
  pose proof (valid_sum c pns T msg sigs Hwf Hpn Hs HE) as E. rewrite spec_R_raw_eq in HR. rewrite HR in E.
  assert (Ee : e = fz (sess_e c (agg_sum pns) T msg)) by (unfold e; rewrite spec_values_eq; reflexivity).
  assert (Es : s = fz (agg_s c (agg_sum pns) T sigs msg)) by (unfold s; apply spec_agg_s_eq).
  assert (F : forall d : scalar Pr, (e * (if has_even_y Q then fz d else n_ - fz d) mod n_)%Z
     = fz (fmul (sess_e c (agg_sum pns) T msg) (fneg_if (pt_odd Q) d))).
  { intro d. rewrite mod_n, of_Z_mul, Ee, of_Z_fz. unfold has_even_y. rewrite neg_scalar_Z. reflexivity. }
  set (ev := sess_e c (agg_sum pns) T msg) in *. set (av := agg_s c (agg_sum pns) T sigs msg) in *.
  assert (O0 : forall o, pneg_if o pt_O = pt_O :> @pt Pr) by (intros []; cbn [pneg_if]; [apply neg_O | reflexivity]).
  rewrite O0, add_O_l in E. change (pubkey c) with Q in E. rewrite even_pneg in E.
  assert (G : forall d : scalar Pr, base_mul d = Q -> av = fmul ev (fneg_if (pt_odd Q) d)).
  { intros d Hd. apply gmul_inj. rewrite E. rewrite <- Hd at 2. rewrite base_mul_val, pneg_if_gmul, <- gmul_mul. reflexivity. }
  split.
  - destruct (dlog_scalar Q) as [d Hd]. exists d. split; [congruence|]. rewrite F, Es, (G d); congruence.
  - intros He d. split; [intro Hd; rewrite F, Es, (G d Hd); reflexivity|].
    intro H. rewrite F, Es in H. apply fe_ext in H. destruct (dlog_scalar Q) as [d' Hd']. rewrite (G d' ltac:(congruence)) in H.
    apply fmul_cancel_l in H; [| apply ord_prime | intro Z0; apply He; rewrite Ee, Z0; reflexivity].
    rewrite Hd'. f_equal. apply scalar_ext. destruct (pt_odd Q); cbn [fneg_if] in H; [|exact H].
    transitivity (fneg (fneg d) : mscalar Pr); [ring|]. rewrite H. ring.
Qed.
End C78_infinite_nonce.

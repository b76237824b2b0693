(** Proofs of the theorems of PropertiesSingle.v. *)
From Coq Require Import String List Lia.
From Verif Require Import Bytes BytesFacts Prims PrimsFacts TaggedHashes Errors SpecTags SpecBIP327
  KeyAgg Nonces Signature Signing SigAgg Bip340 SpecCtx SpecView SpecSession SpecSingle Toy ToyData.
Import ListNotations.
Open Scope list_scope.
Open Scope Z_scope.
From Coq Require Import Lia.
From Verif Require Import CodecFacts KeyAggFacts KeyAggCodec SigningFacts SpecFacts SpecSigning SessionFacts ProofsSigning ProofsLimits ProofsSoundness ProofsSimulation.
Open Scope Z_scope.

Section Single.
Context {Pr : prims} {Laws : prims_ok Pr} {Tags : tags_ok Pr}.
Add Ring fring0 : (fe_ring_theory (n := @ord Pr)).

Lemma two_nz : fadd fone fone <> fzero :> mscalar Pr.
Proof.
  intro H. apply (neg_ne (@pt_G Pr) G_nz). rewrite <- (gmul_1 (Pr := Pr)), <- gmul_neg. f_equal.
  transitivity (fsub (fadd fone fone) (fadd (fadd fone fone) fone) : mscalar Pr); [ring|].
  rewrite H. transitivity (fsub (fadd fone fone) fone : mscalar Pr); [rewrite H|]; ring.
Qed.

(** Every scalar is a sum of n >= 2 nonzero scalars. *)
Lemma nonzero_sum n (t : mscalar Pr) : exists l : list (scalar Pr), length l = S (S n) /\ fsum (map sval l) = t.
Proof.
  revert t; induction n as [|n IH]; intro t.
  - assert (P : forall a b : mscalar Pr, a <> fzero -> b <> fzero -> fadd a b = t ->
      exists l : list (scalar Pr), length l = 2%nat /\ fsum (map sval l) = t).
    { intros a b Ha Hb E. destruct (not_zero a) as [a'|] eqn:Ea; [|apply not_zero_None in Ea; contradiction].
      destruct (not_zero b) as [b'|] eqn:Eb; [|apply not_zero_None in Eb; contradiction].
      apply not_zero_Some in Ea, Eb. exists [a'; b']. split; [reflexivity|]. cbn [map].
      rewrite !fsum_cons, fsum_nil, <- Ea, <- Eb, <- E. ring. }
    destruct (feqb t fone) eqn:E.
    + apply feqb_eq in E. subst t. apply (P (fneg fone) (fadd fone fone)).
      * intro H. apply (scalar_nz (@scalar_one Pr)). change (sval scalar_one) with (fone : mscalar Pr).
        transitivity (fneg (fneg fone) : mscalar Pr); [ring | rewrite H; ring].
      * exact two_nz.
      * ring.
    + apply feqb_neq in E. apply (P fone (fsub t fone)).
      * exact (scalar_nz (@scalar_one Pr)).
      * intro H. apply E. transitivity (fadd (fsub t fone) fone : mscalar Pr); [ring | rewrite H; ring].
      * ring.
  - destruct (IH (fsub t fone)) as (l & L & E). exists (scalar_one :: l). split; [cbn [length]; lia|].
    cbn [map]. rewrite fsum_cons, E. change (sval scalar_one) with (fone : mscalar Pr). ring.
Qed.

(** Secret nonces of given sums. *)
Lemma nonces_sum n (r t : mscalar Pr) : exists sns : list (sec_nonce Pr), length sns = S (S n) /\
  agg_sum (map public_nonce sns) = {| aR1 := gmul r; aR2 := gmul t |}.
Proof.
  destruct (nonzero_sum n r) as (a & La & Ea), (nonzero_sum n t) as (b & Lb & Eb).
  exists (map (fun p => SecNonce (fst p) (snd p)) (combine a b)).
  split; [rewrite map_length, combine_length; lia|].
  assert (A : forall (a b : list (scalar Pr)), length a = length b ->
    map (fun p => base_mul (fst p)) (combine a b) = map base_mul a /\ map (fun p => base_mul (snd p)) (combine a b) = map base_mul b).
  { clear. induction a as [|x a IH]; destruct b as [|y b]; cbn [combine map length]; try (intro; discriminate); [auto|].
    intro L. injection L as L. destruct (IH b L) as [-> ->]. auto. }
  destruct (A a b ltac:(lia)) as [A1 A2]. unfold agg_sum. rewrite !map_map. unfold public_nonce. cbn [k1 k2 pR1 pR2].
  rewrite <- Ea, <- Eb, <- !sum_gmul_points.
  rewrite <- (map_map base_mul (fun P : point Pr => pval P) a), <- A1, <- (map_map base_mul (fun P : point Pr => pval P) b), <- A2, !map_map.
  reflexivity.
Qed.

(** A session in which the nonces add up to r and zero has r*G as its final nonce. *)
Lemma presig_made c (sks : list (scalar Pr)) n (r : mscalar Pr) T msg : ctx_reachable c ->
  map base_mul sks = pubkeys c -> length sks = S (S n) -> r <> fzero ->
  exists (sns : list (sec_nonce Pr)) (sigs : list (mscalar Pr)) sg, length sns = length sks /\ length sigs = length sks /\
    (forall i sk sn s, nth_error sks i = Some sk -> nth_error sns i = Some sn -> nth_error sigs i = Some s ->
       sign_partial_adaptor c sk sn (agg_sum (map public_nonce sns)) T msg = Ok s) /\
    aggregate_partial_adaptor_signatures c (agg_sum (map public_nonce sns)) T sigs msg = Ok sg /\ a_R sg = gmul r.
Proof.
  intros Hc Hk L Hr. destruct (nonces_sum n r fzero) as (sns & Ln & E).
  set (an := agg_sum (map public_nonce sns)) in *.
  set (sigs := map (fun p => psig_value c (fst p) (snd p) an T msg) (combine sks sns)).
  assert (Ls : length sigs = length sks) by (unfold sigs; rewrite map_length, combine_length; lia).
  assert (NC : forall {A B} i (l : list A) (m : list B) x y, nth_error l i = Some x -> nth_error m i = Some y -> nth_error (combine l m) i = Some (x, y)).
  { clear. intros A B. induction i as [|i IH]; destruct l, m; cbn [nth_error combine]; intros x y Hx Hy; try discriminate; [congruence | auto]. }
  assert (V : forall i sk sn s, nth_error sks i = Some sk -> nth_error sns i = Some sn -> nth_error sigs i = Some s ->
       psig_value c sk sn an T msg = s).
  { intros i sk sn s H1 H2 H3. unfold sigs in H3. rewrite nth_error_map, (NC _ _ i sks sns sk sn H1 H2) in H3.
    cbn [option_map fst snd] in H3. congruence. }
  assert (M : forall i sk, nth_error sks i = Some sk -> In (base_mul sk) (pubkeys c)).
  { intros i sk H. rewrite <- Hk. apply in_map. eapply nth_error_In; exact H. }
  assert (R : spec_R_raw c an msg = gmul r).
  { rewrite spec_R_raw_eq. unfold raw_nonce. rewrite E. cbn [aR1 aR2]. rewrite gmul_0, pmul_O, add_O_r. reflexivity. }
  destruct (C13_valid_partials_aggregate_proof c (map public_nonce sns) T sigs msg Hc) as [A _].
  - rewrite map_length, <- Hk, map_length. lia.
  - rewrite <- Hk, map_length. exact Ls.
  - intros i pk pn s H1 H2 H3. rewrite <- Hk, nth_error_map in H1. rewrite nth_error_map in H2.
    destruct (nth_error sks i) as [sk|] eqn:E1; [|discriminate]. destruct (nth_error sns i) as [sn|] eqn:E2; [|discriminate].
    cbn [option_map] in H1, H2. injection H1 as <-. injection H2 as <-.
    rewrite <- (V i sk sn s E1 E2 H3). apply verify_member_iff; [apply reachable_wf; exact Hc | apply (M i sk E1) | apply psig_value_eq].
  - fold an in A. rewrite R in A. destruct A as (sg & A1 & A2 & _).
    + intro F. apply Hr. apply gmul_eq_O. exact F.
    + exists sns, sigs, sg. split; [lia|]. split; [exact Ls|]. split; [|auto].
      intros i sk sn s H1 H2 H3. apply sign_value_iff; [exact Hc | apply (M i sk H1) | apply (V i sk sn s H1 H2 H3)].
Qed.

Lemma even_point_even (P : point Pr) : pt_odd (even_point P) = false.
Proof. rewrite even_point_val. apply to_even_y_odd, point_fin. Qed.
Lemma even_point_x (P : point Pr) : pt_x (even_point P) = pt_x P.
Proof. rewrite even_point_val. apply to_even_y_x. Qed.

(** The signature with a chosen nonce is the only valid one with that nonce. *)
Lemma with_nonce_eq (d k : scalar Pr) msg :
  sig_with_nonce (fz d) (fz k) msg
  = pt_x (base_mul k) ++ ser_scalar (fadd (fneg_if (pt_odd (base_mul k)) k)
      (fmul (compute_challenge_hash_tweak (pt_x (base_mul k)) (base_mul d) msg) (fneg_if (pt_odd (base_mul d)) d))).
Proof.
  assert (N : forall (b : bool) (a : mscalar Pr), of_Z ord (if negb b then fz a else n_ - fz a) = fneg_if b a).
  { intros [|] a; cbn [negb fneg_if]; [|apply of_Z_fz].
    unfold fneg. apply fe_ext. rewrite !fz_of_Z. unfold n_.
    replace (Zpos ord - fz a) with (- fz a + 1 * Zpos ord) by lia. apply Z_mod_plus_full. }
  unfold sig_with_nonce. rewrite !point_mul_G, <- !base_mul_val, chal_int. unfold has_even_y, xbytes. f_equal.
  set (e := compute_challenge_hash_tweak _ _ _). clearbody e.
  rewrite <- bytes_from_fz. f_equal. rewrite <- !N. set (a := if negb (pt_odd (base_mul k)) then _ else _).
  set (b := if negb (pt_odd (base_mul d)) then _ else _). clearbody a b.
  rewrite <- (of_Z_fz e) at 2. rewrite <- of_Z_mul, <- of_Z_add, fz_of_Z. reflexivity.
Qed.

Lemma with_nonce_valid (d k : scalar Pr) msg : verify_single_bytes (base_mul d) (sig_with_nonce (fz d) (fz k) msg) msg = Ok tt.
Proof.
  apply verify_bytes_iff. exists (even_point (base_mul k)). eexists.
  split; [apply even_point_even|]. split; [rewrite with_nonce_eq, even_point_x; reflexivity|].
  rewrite even_point_x, gmul_add, gmul_mul, !even_pneg, <- !pneg_if_gmul, <- !base_mul_val. reflexivity.
Qed.

Lemma point_log (P : point Pr) : exists k : scalar Pr, base_mul k = P.
Proof.
  destruct (dlog P) as [k Hk].
  assert (N : k <> fzero) by (intros ->; apply (point_fin P); rewrite Hk; apply gmul_0).
  destruct (not_zero k) as [k'|] eqn:E; [|apply not_zero_None in E; contradiction].
  apply not_zero_Some in E. exists k'. apply point_ext. rewrite base_mul_val, <- E. symmetry. exact Hk.
Qed.
End Single.

Section C75_single_signer.
Context {Pr : prims}.
Add Ring ring_C75_single_signer : (fe_ring_theory (n := @ord Pr)).
Lemma C75_single_signer_proof {Laws : prims_ok Pr} {Tags : tags_ok Pr} (d : scalar Pr) (sig msg : bytes) :
  (verify_single_bytes (base_mul d) sig msg = Ok tt <-> exists k, 0 < k < n_ /\ sig = sig_with_nonce (fz d) k msg) /\
  (forall k k', 0 < k < n_ -> 0 < k' < n_ ->
     (sig_with_nonce (fz d) k msg = sig_with_nonce (fz d) k' msg <-> k' = k \/ k' = n_ - k)).
Proof.
  assert (K : forall k, 0 < k < n_ -> exists k' : scalar Pr, fz k' = k).
  { intros k H. destruct (not_zero (of_Z ord k : mscalar Pr)) as [k'|] eqn:E.
    - apply not_zero_Some in E. exists k'. rewrite <- E, fz_of_Z. apply Z.mod_small. unfold n_ in H. lia.
    - apply not_zero_None in E. apply (f_equal fz) in E. rewrite fz_of_Z, Z.mod_small in E by (unfold n_ in H; lia).
      change (fz (@fzero (@ord Pr))) with (0 mod Zpos ord) in E. rewrite Z.mod_0_l in E by lia. lia. }
  assert (K' : forall k : scalar Pr, 0 < fz k < n_).
  { intro k. pose proof (scalar_range k) as H. apply andb_true_iff in H as [H1 H2]. lia. }
  split.
  - split.
    + intro H. apply verify_bytes_iff in H as (R & s & HR & -> & G). destruct (point_log R) as [k <-].
      exists (fz k). split; [apply K'|]. rewrite with_nonce_eq, HR. cbn [fneg_if]. f_equal. f_equal.
      apply gmul_inj. rewrite G, gmul_add, gmul_mul, even_pneg, !base_mul_val, pneg_if_gmul. reflexivity.
    + intros (k & Hk & ->). destruct (K k Hk) as [k' <-]. apply with_nonce_valid.
  - intros k k' H H'. destruct (K k H) as [a <-], (K k' H') as [b <-].
    assert (NG : fz b = n_ - fz a <-> (sval b : mscalar Pr) = fneg a).
    { rewrite <- fz_inj_iff. unfold fneg at 1. rewrite fz_of_Z. unfold n_ in *.
      rewrite Z_mod_nz_opp_full, (Z.mod_small (fz a)); rewrite ?(Z.mod_small (fz a)); try lia. }
    rewrite NG, fz_inj_iff, !with_nonce_eq. split.
    + intro E. assert (X := f_equal (firstn 32) E). rewrite !firstn_app_exact in X by apply x_len.
      destruct (x_inj (base_mul b) (base_mul a) (point_fin _) (point_fin _) (eq_sym X)) as [Y|Y]; rewrite !base_mul_val in Y.
      * left. apply gmul_inj. exact Y.
      * right. apply gmul_inj. rewrite gmul_neg. exact Y.
    + intros [E|E].
      * assert (b = a) as -> by (apply scalar_ext; exact E). reflexivity.
      * assert (B : pval (base_mul b) = pt_neg (base_mul a)) by (rewrite !base_mul_val, E, gmul_neg; reflexivity).
        rewrite B, x_neg, odd_neg by apply point_fin. rewrite E. f_equal. f_equal. f_equal.
        destruct (pt_odd (base_mul a)); cbn [negb fneg_if]; ring.
Qed.
End C75_single_signer.

Section C75_group.
Context {Pr : prims}.
Add Ring ring_C75_group : (fe_ring_theory (n := @ord Pr)).
Lemma C75_group_proof {Laws : prims_ok Pr} {Tags : tags_ok Pr} (c : key_agg_ctx Pr) (sks : list (scalar Pr)) (d : scalar Pr) (sig msg : bytes) (Hc : ctx_reachable c) (Hk : map base_mul sks = pubkeys c) (Hd : base_mul d = aggregated_pubkey c) (Hn : (2 <= length sks)%nat) :
  (exists k, 0 < k < n_ /\ sig = sig_with_nonce (fz d) k msg) <->
  (exists (sns : list (sec_nonce Pr)) (sigs : list (mscalar Pr)) (sg : lifted_sig Pr),
     length sns = length sks /\ length sigs = length sks /\
     (forall i sk sn s, nth_error sks i = Some sk -> nth_error sns i = Some sn -> nth_error sigs i = Some s ->
        sign_partial c sk sn (agg_sum (map public_nonce sns)) msg = Ok s) /\
     aggregate_partial_signatures c (agg_sum (map public_nonce sns)) sigs msg = Ok sg /\
     lifted_to_bytes sg = sig).
Proof.
  rewrite <- (proj1 (C75_single_signer_proof d sig msg)), Hd. split.
  - intro H. pose proof H as H0. apply verify_bytes_iff in H as (R & s & HR & -> & G). destruct (point_log R) as [k EK].
    destruct (length sks) as [|[|n]] eqn:L; [lia | lia |].
    destruct (presig_made c sks n k pt_O msg Hc Hk L (scalar_nz k)) as (sns & sigs & sg & L1 & L2 & Hs & Ha & Hr).
    exists sns, sigs. pose proof (aggregate_adapt_zero _ _ _ _ _ _ Ha) as Hz.
    set (an := agg_sum (map public_nonce sns)) in *.
    assert (Hg : aggregate_partial_signatures c an sigs msg = Ok (lifted_new (sess_R c an msg) (a_s sg))).
    { unfold aggregate_partial_signatures. rewrite Ha. cbn [bind]. rewrite Hz. reflexivity. }
    exists (lifted_new (sess_R c an msg) (a_s sg)). rewrite <- L. split; [exact L1|]. split; [exact L2|]. split; [exact Hs|].
    split; [exact Hg|].
    assert (ER : sess_R c an msg = R).
    { apply aggregate_Ok_iff in Ha as [-> _]. cbn [a_R] in Hr. apply point_ext. rewrite Hr, <- EK, base_mul_val. reflexivity. }
    destruct (C14_aggregate_valid_proof c an sigs msg) as [V _]. destruct (V _ Hg) as (_ & V2 & _).
    rewrite ER in V2 |- *. revert V2. unfold lifted_to_bytes, compact_to_bytes, compact, lifted_new, compact_new. cbn [l_R l_s c_rx c_s].
    rewrite even_point_x. intro V2. f_equal.
    exact (proj1 (C62_one_s_per_nonce_proof (aggregated_pubkey c) msg (pt_x R) (x_len _)) _ _ V2 H0).
  - intros (sns & sigs & sg & _ & _ & _ & Hg & <-). apply (proj1 (C14_aggregate_valid_proof c _ sigs msg) sg Hg).
Qed.
End C75_group.

Section C75_presignatures.
Context {Pr : prims}.
Add Ring ring_C75_presignatures : (fe_ring_theory (n := @ord Pr)).
Lemma C75_presignatures_proof {Laws : prims_ok Pr} {Tags : tags_ok Pr} (c : key_agg_ctx Pr) (sks : list (scalar Pr)) (T : pt) (sg : adaptor_sig Pr) (msg : bytes) (Hc : ctx_reachable c) (Hk : map base_mul sks = pubkeys c) (Hn : (2 <= length sks)%nat) :
  (a_R sg <> pt_O /\ verify_single_adaptor (aggregated_pubkey c) sg msg T = Ok tt) <->
  (exists (sns : list (sec_nonce Pr)) (sigs : list (mscalar Pr)),
     length sns = length sks /\ length sigs = length sks /\
     (forall i sk sn s, nth_error sks i = Some sk -> nth_error sns i = Some sn -> nth_error sigs i = Some s ->
        sign_partial_adaptor c sk sn (agg_sum (map public_nonce sns)) T msg = Ok s) /\
     aggregate_partial_adaptor_signatures c (agg_sum (map public_nonce sns)) T sigs msg = Ok sg).
Proof.
  split.
  - intros [HR H]. destruct (dlog (a_R sg)) as [r Hr].
    destruct (length sks) as [|[|n]] eqn:L; [lia | lia |].
    destruct (presig_made c sks n r T msg Hc Hk L) as (sns & sigs & sg' & L1 & L2 & Hs & Ha & Hr').
    { intros ->. apply HR. rewrite Hr. apply gmul_0. }
    exists sns, sigs. rewrite <- L. split; [exact L1|]. split; [exact L2|]. split; [exact Hs|]. rewrite Ha. f_equal.
    pose proof (aggregate_verifies _ _ _ _ _ _ Ha) as H'. unfold aggregated_pubkey in H.
    destruct sg as [R s], sg' as [R' s']. cbn [a_R] in *. assert (R' = R) as -> by congruence. f_equal.
    destruct (C62_one_s_per_presignature_proof (pubkey c) msg T R) as [u U]. apply U in H, H'. congruence.
  - intros (sns & sigs & _ & _ & _ & Ha). split; [|eapply aggregate_verifies; exact Ha].
    apply aggregate_Ok_iff in Ha as [-> _]. apply point_fin.
Qed.
End C75_presignatures.

(** Proofs of the theorems of PropertiesMixing.v. *)
From Coq Require Import String List.
From Verif Require Import Bytes BytesFacts Prims PrimsFacts TaggedHashes Errors SpecTags SpecBIP327
  KeyAgg Nonces Signature Signing SigAgg Bip340 Rounds SpecCtx SpecView SpecSession SpecRounds SpecExtract SpecReuse SpecAlgebra SpecMixing Toy ToyData ToyReuse ToyMixing Secp256k1.
Import ListNotations.
Open Scope list_scope.
Open Scope Z_scope.
From Coq Require Import Lia Arith Bool Znumtheory Zpow_facts.
From Verif Require Import CodecFacts KeyAggFacts SignatureFacts SigningFacts SpecFacts SpecSigning SessionFacts RoundsFacts Primality ProofsSoundness ProofsSingle ProofsExtraction ProofsReuse ProofsSimulation ProofsAlgebra Bip340Facts.
Open Scope Z_scope.

Section Mix.
Context {Pr : prims} {Laws : prims_ok Pr} {Tags : tags_ok Pr}.
Add Ring fring3 : (fe_ring_theory (n := @ord Pr)).

Lemma inverse_spec a : a mod @n_ Pr <> 0 -> (@n_ Pr | a * inverse (Pr := Pr) a - 1).
Proof.
  intro H. apply mod_div. unfold inverse.
  assert (P : prime (@n_ Pr)) by exact n_prime. pose proof (prime_ge_2 _ P) as G.
  rewrite Zpow_mod_correct by lia.
  assert (D : ~ (@n_ Pr | a)) by (intro D; apply H, mod0_div, D).
  pose proof (fermat _ a P D) as F.
  rewrite Z.mul_mod_idemp_r by lia. set (n := @n_ Pr) in *. clearbody n.
  replace (a * a ^ (n - 2)) with (a ^ (n - 1)).
  - rewrite F. symmetry. apply Z.mod_1_l. lia.
  - replace (n - 1) with (Z.succ (n - 2)) by lia. apply Z.pow_succ_r. lia.
Qed.
(** The sum of the bits. *)
Lemma bits_sum {A} (l : list A) t k : from k l (fun j _ => 2 ^ Z.of_nat j * Z.b2z (Z.testbit t (Z.of_nat j)))
  = 2 ^ Z.of_nat k * ((t / 2 ^ Z.of_nat k) mod 2 ^ Z.of_nat (length l)).
Proof.
  revert k. induction l as [|a l IH]; intro k.
  - cbn [length]. change (2 ^ Z.of_nat 0) with 1. rewrite Z.mod_1_r. unfold from. cbn. ring.
  - rewrite from_cons, IH. cbn [length]. rewrite Nat2Z.inj_succ, (Nat2Z.inj_succ (length l)).
    rewrite !Z.pow_succ_r by lia. set (p := 2 ^ Z.of_nat k). assert (p > 0) by (subst p; apply Z.lt_gt, Z.pow_pos_nonneg; lia).
    set (q := 2 ^ Z.of_nat (length l)). assert (q > 0) by (subst q; apply Z.lt_gt, Z.pow_pos_nonneg; lia).
    rewrite Z.testbit_spec' by lia. fold p. rewrite (Z.mul_comm 2 p), <- Z.div_div by lia. set (u := t / p). clearbody u p q.
    rewrite Z.rem_mul_r by lia. ring.
Qed.
Lemma from_combine {A B} (d : B) k (l : list A) (l' : list B) f : length l' = length l ->
  from k (combine l l') f = from k l (fun j a => f j (a, nth (j - k) l' d)).
Proof.
  revert k l'. induction l as [|a l IH]; intros k [|b l'] H; try discriminate; [reflexivity|]. cbn [combine]. rewrite !from_cons.
  replace (k - k)%nat with O by lia. cbn [nth]. f_equal. rewrite IH by (cbn in H; lia). 
  apply from_ext. intros j c _. replace (S k + j - k)%nat with (S (S k + j - S k)) by lia. reflexivity.
Qed.

Context (P : point Pr) (os : list (offer Pr)) (Q : point Pr) (A k : Z) (msg : bytes).
Hypothesis big : @n_ Pr <= 2 ^ Z.of_nat (length os).
Hypothesis differ : forall o, In o os -> offer_w P o true mod n_ <> offer_w P o false mod n_.

Lemma share_moves j o : In o os -> (@n_ Pr | share P j o * (offer_w P o true - offer_w P o false) - 2 ^ Z.of_nat j).
Proof.
  intro H. apply differ in H. set (d := offer_w P o true - offer_w P o false).
  assert (D : d mod @n_ Pr <> 0).
  { intro E. apply H. apply mod_div. apply mod0_div in E. exact E. }
  pose proof (inverse_spec d D) as I. unfold share. fold d. apply mod_div.
  rewrite Z.mul_mod_idemp_l by (pose proof (prime_ge_2 _ n_prime); lia). apply mod_div.
  replace (2 ^ Z.of_nat j * inverse d * d - 2 ^ Z.of_nat j) with (2 ^ Z.of_nat j * (d * inverse d - 1)) by ring.
  apply Z.divide_mul_r. exact I.
Qed.
Lemma wanted_range : 0 <= wanted P os Q A msg < @n_ Pr.
Proof. unfold wanted. apply Z.mod_pos_bound. exact n_pos. Qed.
(** With the chosen points the multiple of the secret is that of the forged challenge. *)
Lemma choice_right : (@n_ Pr | from 0 os (fun j o => share P j o * offer_w P o (chosen P os Q A msg j))
  - sign_of (mixed_R P os) * sign_of Q * mixed_e P os Q msg * A).
Proof.
  set (t := wanted P os Q A msg).
  assert (D : (@n_ Pr | from 0 os (fun j o => share P j o * offer_w P o (chosen P os Q A msg j))
    - from 0 os (fun j o => share P j o * offer_w P o false + 2 ^ Z.of_nat j * Z.b2z (Z.testbit t (Z.of_nat j))))).
  { apply from_div. intros j o Ho. cbn [Nat.add]. unfold chosen. fold t. destruct (Z.testbit t (Z.of_nat j)); cbn [Z.b2z].
    - pose proof (share_moves j o (nth_error_In _ _ Ho)) as M.
      replace (share P j o * offer_w P o true - (share P j o * offer_w P o false + 2 ^ Z.of_nat j * 1))
        with (share P j o * (offer_w P o true - offer_w P o false) - 2 ^ Z.of_nat j) by ring. exact M.
    - exists 0. ring. }
  rewrite from_add, bits_sum in D. change (2 ^ Z.of_nat 0) with 1 in D. rewrite Z.div_1_r, Z.mul_1_l in D.
  pose proof wanted_range as R. fold t in R. rewrite (Z.mod_small t) in D by lia.
  assert (E : (@n_ Pr | t - (sign_of (mixed_R P os) * sign_of Q * mixed_e P os Q msg * A - from 0 os (fun j o => share P j o * offer_w P o false)))).
  { apply mod_div. unfold t, wanted. rewrite Z.mod_mod by (pose proof (prime_ge_2 _ n_prime); lia). reflexivity. }
  pose proof (Z.divide_add_r _ _ _ D E) as F. match type of F with (_ | ?a) => match goal with |- (_ | ?b) => replace b with a by ring end end. exact F.
Qed.

Context (ss : list (mscalar Pr)).
Hypothesis len : length ss = length os.
Hypothesis answers : forall j o s, nth_error os j = Some o -> nth_error ss j = Some s -> session_of P (answered o (chosen P os Q A msg j) s).
Let D_ (j : nat) (o : offer Pr) : Z := let s := nth j ss (of_Z _ 0) in use_sign (z_use (answered o (chosen P os Q A msg j) s)) * fz s.

(** The sum of a session's nonces, by its answer. *)
Lemma nonce_log x j o : point_mul pt_G x = P -> nth_error os j = Some o ->
  pt_add (pR1 (o_nonce o)) (point_mul (pR2 (o_nonce o)) (offer_b o)) = point_mul pt_G (D_ j o - offer_w P o (chosen P os Q A msg j) * x).
Proof.
  intros Hx Ho. destruct (nth_error ss j) as [s|] eqn:Hs.
  2: { apply nth_error_None in Hs. assert (nth_error os j <> None) as N by congruence. apply nth_error_Some in N. lia. }
  pose proof (answers j o s Ho Hs) as V. unfold D_. rewrite (nth_error_nth ss j _ Hs). cbv zeta.
  set (i := chosen P os Q A msg j) in *. destruct (G_exists (pR2 (o_nonce o))) as [y Hy].
  pose proof (first_log_spec P x (fun _ => y) j (answered o i s) Hx Hy V) as F. cbn [z_nonce answered] in F.
  rewrite <- F. rewrite (G_mul _ (offer_b o) y) by (symmetry; exact Hy). rewrite <- G_add. f_equal. unfold first_log.
  assert (B : v_b (use_values (z_use (answered o i s))) = offer_b o) by (unfold offer_b; rewrite !use_b_eq; reflexivity).
  rewrite B.
  assert (W : use_sign (z_use (answered o i s)) * use_weight P (z_use (answered o i s)) = offer_w P o i) by reflexivity.
  rewrite W. change (use_signature (z_use (answered o i s))) with s. cbv beta. ring.
Qed.
Lemma mixed_log x : point_mul pt_G x = P ->
  mixed_R P os = point_mul pt_G (from 0 os (fun j o => share P j o * (D_ j o - offer_w P o (chosen P os Q A msg j) * x))).
Proof.
  intro Hx. apply (from_points_G 0). intros j o Ho. cbn [Nat.add]. apply G_mul. apply nonce_log; assumption.
Qed.

Lemma mixed_valid : pval Q = pt_add (point_mul P A) (point_mul pt_G k) -> mixed_R P os <> pt_O ->
  verify_single_bytes Q (mixed_sig P os Q A k msg ss) msg = Ok tt.
Proof.
  intros HQ HF. destruct (G_exists P) as [x Hx].
  destruct (mpoint_cases (mixed_R P os)) as [O | [R HR]]; [contradiction|].
  apply verify_bytes_iff. exists (even_point R).
  set (S0 := sign_of (mixed_R P os) * from 0 os (fun j o => share P j o * D_ j o) + sign_of Q * mixed_e P os Q msg * k).
  exists (of_Z ord S0). split; [apply even_point_even|].
  assert (LS : over (combine os ss) (fun j os' => share P j (fst os') * (use_sign (z_use (answered (fst os') (chosen P os Q A msg j) (snd os'))) * fz (snd os')))
    = from 0 os (fun j o => share P j o * D_ j o)).
  { change (@over ?X ?l ?f) with (@from X 0 l f). rewrite (from_combine (of_Z _ 0)) by exact len. apply from_ext. intros j o _. cbn [Nat.add fst snd].
    rewrite Nat.sub_0_r. reflexivity. }
  split.
  { unfold mixed_sig. rewrite LS. fold S0. rewrite even_point_x, HR. unfold xbytes. f_equal. }
  rewrite even_point_x. rewrite !even_pneg.
  pose proof (mixed_log x Hx) as LR. rewrite HR in LR.
  pose proof (chal_int (pt_x R) Q msg) as CH. set (ch := compute_challenge_hash_tweak (pt_x R) Q msg) in *.
  assert (ME : mixed_e P os Q msg = int_from_bytes (tagged_hash "BIP0340/challenge" (pt_x R ++ xbytes Q ++ msg))).
  { unfold mixed_e. rewrite HR. reflexivity. }
  rewrite <- ME in CH. pose proof choice_right as CR.
  unfold S0. clear S0 LS ME. unfold sign_of in *. rewrite HR in *. unfold has_even_y in *.
  set (e := mixed_e P os Q msg) in *. set (po := pt_odd R) in *. set (qo := pt_odd Q) in *.
  assert (LQ : pval Q = point_mul pt_G (A * x + k)) by (rewrite G_add, HQ; f_equal; apply G_mul; symmetry; exact Hx).
  rewrite LR, LQ. rewrite !point_mul_gmul_Z, !pneg_if_gmul, <- gmul_mul, <- gmul_add. f_equal.
  rewrite mod_n in CH. apply fe_ext in CH. rewrite <- CH.
  set (SD := from 0 os (fun j o => share P j o * D_ j o)) in *.
  set (SW := from 0 os (fun j o => share P j o * offer_w P o (chosen P os Q A msg j))) in *.
  assert (SR : from 0 os (fun j o => share P j o * (D_ j o - offer_w P o (chosen P os Q A msg j) * x)) = SD + (- x) * SW).
  { unfold SD, SW. rewrite <- from_scale, <- from_add. apply from_ext. intros. cbv beta. ring. }
  rewrite SR. apply mod_div, of_Z_iff in CR. clearbody SD SW e po qo ch.
  clear - CR Laws.
  assert (So : forall o : bool, of_Z ord (if negb o then 1 else -1) = fneg_if o fone :> mscalar Pr).
  { intros []; cbn [fneg_if negb]; [change (-1) with (- (1)); apply of_Z_opp | reflexivity]. }
  assert (Ox : of_Z ord (- x) = fneg (of_Z ord x) :> mscalar Pr) by apply of_Z_opp.
  rewrite !of_Z_add, !of_Z_mul, !So in *. rewrite CR, Ox.
  destruct po, qo; cbn [fneg_if]; ring.
Qed.
End Mix.

Section C91_forgery.
Context {Pr : prims}.
Add Ring ring_C91_forgery : (fe_ring_theory (n := @ord Pr)).
Lemma C91_forgery_proof {Laws : prims_ok Pr} {Tags : tags_ok Pr} (P : point Pr) (os : list (offer Pr)) (ss : list (mscalar Pr)) (Q : point Pr) (A k : Z) (msg : bytes) (HQ : pval Q = pt_add (point_mul P A) (point_mul pt_G k)) (Hn : n_ <= 2 ^ Z.of_nat (length os)) (Hw : forall o, In o os -> offer_w P o true mod n_ <> offer_w P o false mod n_) (HR : mixed_R P os <> pt_O) (Hl : length ss = length os) :
  (forall j o s, nth_error os j = Some o -> nth_error ss j = Some s -> session_of P (answered o (chosen P os Q A msg j) s)) ->
  verify_single_bytes Q (mixed_sig P os Q A k msg ss) msg = Ok tt.
Proof.
  intro H. exact (mixed_valid P os Q A k msg Hn Hw ss Hl H HQ HR).
Qed.
End C91_forgery.

Section C91_forgery_from_signer.
Context {Pr : prims}.
Add Ring ring_C91_forgery_from_signer : (fe_ring_theory (n := @ord Pr)).
Lemma C91_forgery_from_signer_proof {Laws : prims_ok Pr} {Tags : tags_ok Pr} (sk : scalar Pr) (os : list (offer Pr)) (sns : list (sec_nonce Pr)) (ss : list (mscalar Pr)) (Q : point Pr) (A k : Z) (msg : bytes) (HQ : pval Q = pt_add (point_mul (base_mul sk) A) (point_mul pt_G k)) (Hn : n_ <= 2 ^ Z.of_nat (length os)) (Hw : forall o, In o os -> ctx_reachable (o_ctx o) /\ offer_w (base_mul sk) o true mod n_ <> offer_w (base_mul sk) o false mod n_) (HR : mixed_R (base_mul sk) os <> pt_O) (Hs : map o_nonce os = map public_nonce sns) (Hl : length ss = length os) :
  (forall j o sn s, nth_error os j = Some o -> nth_error sns j = Some sn -> nth_error ss j = Some s ->
     sign_partial_adaptor (o_ctx o) sk sn (o_aggnonce o) (o_point o (chosen (base_mul sk) os Q A msg j)) (o_message o) = Ok s) ->
  verify_single_bytes Q (mixed_sig (base_mul sk) os Q A k msg ss) msg = Ok tt.
Proof.
  intro H. apply (mixed_valid _ os Q A k msg Hn (fun o Ho => proj2 (Hw o Ho)) ss Hl); [|exact HQ | exact HR].
  intros j o s Ho Hj.
  assert (N : exists sn, nth_error sns j = Some sn /\ public_nonce sn = o_nonce o).
  { assert (E : nth_error (map o_nonce os) j = Some (o_nonce o)) by (apply map_nth_error; exact Ho). rewrite Hs, nth_error_map in E.
    destruct (nth_error sns j) as [sn|]; [|discriminate]. injection E as E. eauto. }
  destruct N as (sn & Hj' & N). specialize (H j o sn s Ho Hj' Hj). pose proof (proj1 (Hw o (nth_error_In _ _ Ho))) as Hc.
  assert (M : In (base_mul sk) (pubkeys (o_ctx o))).
  { destruct (in_pks_dec (base_mul sk) (ordered_pubkeys (o_ctx o))) as [M|M]; [exact M|]. rewrite sign_nonmember in H by (try apply reachable_wf; assumption). discriminate. }
  split; [exact Hc|]. split; [exact M|].
  cbn [answered z_use z_nonce use_ctx use_signature use_aggnonce use_adaptor use_message].
  destruct (C74_valid_is_honest_proof (o_ctx o) sk (o_aggnonce o) (o_point o (chosen (base_mul sk) os Q A msg j)) (o_message o) (o_nonce o) Hc M) as (sn' & E & U & V).
  apply V. rewrite <- (U sn N). exact H.
Qed.
End C91_forgery_from_signer.

Section C91_forgery_from_rounds.
Context {Pr : prims}.
Add Ring ring_C91_forgery_from_rounds : (fe_ring_theory (n := @ord Pr)).
Lemma C91_forgery_from_rounds_proof {Laws : prims_ok Pr} {Tags : tags_ok Pr} (sk : scalar Pr) (os : list (offer Pr)) (rounds : list (first_round Pr * list (nat * pub_nonce Pr))) (ss : list (mscalar Pr)) (Q : point Pr) (A k : Z) (msg : bytes) (HQ : pval Q = pt_add (point_mul (base_mul sk) A) (point_mul pt_G k)) (Hn : n_ <= 2 ^ Z.of_nat (length os)) (Hw : forall o, In o os -> offer_w (base_mul sk) o true mod n_ <> offer_w (base_mul sk) o false mod n_) (HR : mixed_R (base_mul sk) os <> pt_O) (Hr : length rounds = length os) (Hl : length ss = length os) :
  (forall j o r calls s, nth_error os j = Some o -> nth_error rounds j = Some (r, calls) -> nth_error ss j = Some s ->
     fr_started r /\ fr_ctx r = o_ctx o /\ our_public_nonce r = o_nonce o /\
     exists sr, fr_finalize_adaptor (fst (fr_run r calls)) sk (o_point o (chosen (base_mul sk) os Q A msg j)) (o_message o) = Ok sr /\
       sr_aggnonce sr = o_aggnonce o /\ our_signature sr = Ok s) ->
  verify_single_bytes Q (mixed_sig (base_mul sk) os Q A k msg ss) msg = Ok tt.
Proof.
  intro H. apply (mixed_valid _ os Q A k msg Hn Hw ss Hl); [|exact HQ | exact HR].
  intros j o s Ho Hj.
  destruct (nth_error rounds j) as [[r calls]|] eqn:Hj'.
  2: { apply nth_error_None in Hj'. assert (nth_error os j <> None) as N by congruence. apply nth_error_Some in N. lia. }
  destruct (H j o r calls s Ho Hj' Hj) as (St & C & N & sr & F & G & S). clear H.
  set (T := o_point o _) in *.
  destruct (started_fr_run r calls St) as (W & C1 & _ & K1 & N1 & K & _).
  destruct (fr_finalize_spec _ _ sk T (o_message o) K) as [[_ E] | (_ & pns & _ & _ & E)]; [rewrite E in F; discriminate|].
  rewrite C1, K1, C in E. destruct (sign_partial_adaptor _ _ _ _ _ _) as [s'|e|] eqn:SG; [|rewrite E in F; discriminate..].
  destruct E as (sr' & E & OK & _ & _ & PN & _). rewrite F in E. injection E as <-.
  rewrite (our_signature_ok _ _ _ OK) in S. injection S as <-. destruct OK as (_ & _ & AG & _). rewrite PN in AG. rewrite <- AG, G in SG.
  assert (Hc : ctx_reachable (o_ctx o)).
  { destruct St as (c & seed & i & sp & Hc & E). rewrite <- C. revert E. unfold first_round_new. destruct (get_pubkey c i); [|discriminate]. 
    intro E. destruct (round_builder c seed i _ sp) as [b|e|]; try discriminate. destruct (place _ _ _ _) as [sl [u|e|]]; try discriminate. injection E as <-. exact Hc. }
  assert (M : In (base_mul sk) (pubkeys (o_ctx o))).
  { destruct (in_pks_dec (base_mul sk) (ordered_pubkeys (o_ctx o))) as [M|M]; [exact M|]. rewrite sign_nonmember in SG by (try apply reachable_wf; assumption). discriminate. }
  split; [exact Hc|]. split; [exact M|].
  cbn [answered z_use z_nonce use_ctx use_signature use_aggnonce use_adaptor use_message].
  destruct (C74_valid_is_honest_proof (o_ctx o) sk (o_aggnonce o) T (o_message o) (o_nonce o) Hc M) as (sn' & E & U & V).
  apply V. rewrite <- (U (fr_secnonce r) N). exact SG.
Qed.
End C91_forgery_from_rounds.

Lemma C91_forgery_on_secp256k1_proof (r : bytes -> nat -> positive) (P : point (Secp r)) (os : list (offer (Secp r))) (ss : list (mscalar (Secp r))) (Q : point (Secp r)) (A k : Z) (msg : bytes) (HQ : pval Q = pt_add (point_mul P A) (point_mul (@pt_G (Secp r)) k)) (Hn : (256 <= length os)%nat) (Hw : forall o, In o os -> offer_w P o true mod @n_ (Secp r) <> offer_w P o false mod @n_ (Secp r)) (HR : mixed_R P os <> @pt_O (Secp r)) (Hl : length ss = length os) :
  (forall j o s, nth_error os j = Some o -> nth_error ss j = Some s -> session_of P (answered o (chosen P os Q A msg j) s)) ->
  verify_single_bytes Q (mixed_sig P os Q A k msg ss) msg = Ok tt.
Proof.
  apply (@C91_forgery_proof _ (Secp_ok r) (Secp_tags r)); [exact HQ | | exact Hw | exact HR | exact Hl].
  assert (B : @n_ (Secp r) <= 2 ^ Z.of_nat 256) by (vm_compute; discriminate).
  assert (M : 2 ^ Z.of_nat 256 <= 2 ^ Z.of_nat (length os)) by (apply Z.pow_le_mono_r; lia).
  eapply Z.le_trans; [exact B | exact M].
Qed.

(** Proofs of the theorems of PropertiesSeeds.v. *)
From Coq Require Import String List.
From Verif Require Import Bytes BytesFacts Prims PrimsFacts TaggedHashes Errors SpecTags SpecBIP327
  KeyAgg Nonces Signature Bip340 Rounds Seeds SpecNonces SpecSeeds Toy ToyData ToyRounds.
Import ListNotations.
Open Scope list_scope.
Open Scope nat_scope.
From Coq Require Import Arith Lia.
From Verif Require Import CodecFacts SpecFacts SpecSigning NoncesFacts ProofsNonces.
Open Scope list_scope.
Open Scope nat_scope.

Lemma after_first g st b st1 k st2 :
  fill_bytes g st 32 = Some (b, st1) -> after g st1 k st2 -> after g st (S k) st2.
Proof.
  intros H A. induction A as [|k s1 b' s2 A IH E].
  - eapply after_S; [apply after_0|exact H].
  - eapply after_S; [exact IH|exact E].
Qed.

Lemma after_fun g st k s1 s2 : after g st k s1 -> after g st k s2 -> s1 = s2.
Proof.
  intro A. revert s2. induction A as [|k s1 b s1' A IH E]; intros s2 B.
  - inversion B. reflexivity.
  - inversion B as [|k' t1 b' t2 B' E']; subst. rewrite (IH _ B') in E. congruence.
Qed.

Lemma nth_seed_fun g st k b b' : nth_seed g st k b -> nth_seed g st k b' -> b = b'.
Proof. intros (s1 & s2 & A & E) (t1 & t2 & A' & E'). rewrite (after_fun _ _ _ _ _ A A') in E. congruence. Qed.

Lemma call_rng_draw {Pr : prims} g st (x : seed_call Pr) b st' :
  is_draw x = true -> fill_bytes g st 32 = Some (b, st') -> call_rng g st x = (call_array b x, st').
Proof.
  intros Hd E. destruct x; cbn [call_rng]; unfold call_array, seed_from_array; cbn [call_seed];
    unfold builder_new_rng, generate_rng, first_round_new_rng, sign_solo_rng, sign_solo_adaptor_rng, draw, seed_from_rng;
    try (rewrite E; reflexivity).
  cbn [is_draw] in Hd. apply Nat.ltb_lt in Hd. destruct (get_pubkey c i) eqn:Eg; [rewrite E; reflexivity|].
  unfold get_pubkey in Eg; change (ordered_pubkeys c) with (pubkeys c) in Eg. apply nth_error_None in Eg. lia.
Qed.

Lemma call_rng_no_draw {Pr : prims} g st (x : seed_call Pr) seed :
  is_draw x = false -> call_rng g st x = (call_array seed x, st).
Proof.
  intro Hd. destruct x; try discriminate Hd. cbn [is_draw] in Hd. apply Nat.ltb_ge in Hd.
  cbn [call_rng]; unfold call_array, seed_from_array; cbn [call_seed]. unfold first_round_new_rng, first_round_new.
  destruct (get_pubkey c i) eqn:Eg; [|reflexivity].
  unfold get_pubkey in Eg; change (ordered_pubkeys c) with (pubkeys c) in Eg. assert (nth_error (pubkeys c) i <> None) by congruence.
  apply nth_error_Some in H. lia.
Qed.

Lemma draws_cons {Pr : prims} (x : seed_call Pr) l : draws (x :: l) = (if is_draw x then 1 else 0) + draws l.
Proof. unfold draws. cbn [filter]. destruct (is_draw x); reflexivity. Qed.

Lemma calls_rng_cons {Pr : prims} g st (x : seed_call Pr) l :
  calls_rng g st (x :: l)
  = (fst (call_rng g st x) :: fst (calls_rng g (snd (call_rng g st x)) l), snd (calls_rng g (snd (call_rng g st x)) l)).
Proof.
  cbn [calls_rng]. destruct (call_rng g st x) as [r s1]. cbn [fst snd]. destruct (calls_rng g s1 l). reflexivity.
Qed.

Section C70_successive_draws.
Context {Pr : prims}.
Add Ring ring_C70_successive_draws : (fe_ring_theory (n := @ord Pr)).
Lemma C70_successive_draws_proof (g : generator) (st : gen_state g) (l : list (seed_call Pr)) (Hg : never_panics g) :
  let out := calls_rng g st l in
  length (fst out) = length l /\
  after g st (draws l) (snd out) /\
  forall k x, nth_error l k = Some x ->
    (is_draw x = true -> exists seed, nth_seed g st (draws (firstn k l)) seed) /\
    (is_draw x = true -> forall seed, nth_seed g st (draws (firstn k l)) seed ->
       nth_error (fst out) k = Some (call_array seed x) /\ nth_error (fst out) k = Some (call_ref seed x)) /\
    (is_draw x = false -> forall seed,
       nth_error (fst out) k = Some (call_array seed x) /\ nth_error (fst out) k = Some (call_ref seed x)).
Proof.
  assert (K : forall l st, let out := calls_rng g st l in length (fst out) = length l /\ after g st (draws l) (snd out) /\
    forall k x, nth_error l k = Some x ->
    (is_draw x = true -> exists seed, nth_seed g st (draws (firstn k l)) seed /\ nth_error (fst out) k = Some (call_array seed x)) /\
    (is_draw x = false -> forall seed, nth_error (fst out) k = Some (call_array seed x))).
  { clear l st. intro l. induction l as [|y l IH]; intros st out.
    - split; [reflexivity|]. split; [apply after_0|]. intros k x H. destruct k; discriminate H.
    - subst out. rewrite calls_rng_cons. cbn [fst snd]. rewrite draws_cons.
      destruct (is_draw y) eqn:Ey.
      + destruct (fill_bytes g st 32) as [[b st1]|] eqn:Ef; [|exfalso; exact (Hg _ _ Ef)].
        rewrite (call_rng_draw g st y b st1 Ey Ef). cbn [fst snd].
        destruct (IH st1) as (L & A & N). split; [cbn [length]; rewrite L; reflexivity|].
        split; [eapply after_first; [exact Ef|exact A]|].
        intros k x H. destruct k as [|k]; cbn [nth_error firstn] in *.
        * injection H as <-. split; [|congruence]. intros _. exists b. split; [|reflexivity].
          exists st, st1. split; [apply after_0|exact Ef].
        * destruct (N k x H) as [N1 N2]. split; [|exact N2]. intro Hx. destruct (N1 Hx) as (seed & (s1 & s2 & B & Eb) & R).
          exists seed. split; [|exact R]. rewrite draws_cons, Ey. exists s1, s2. split; [|exact Eb].
          eapply after_first; [exact Ef|exact B].
      + rewrite (call_rng_no_draw g st y [] Ey). cbn [fst snd].
        destruct (IH st) as (L & A & N). split; [cbn [length]; rewrite L; reflexivity|]. split; [exact A|].
        intros k x H. destruct k as [|k]; cbn [nth_error firstn] in *.
        * injection H as <-. split; [congruence|]. intros _ seed.
          pose proof (call_rng_no_draw g st y [] Ey) as E1. rewrite (call_rng_no_draw g st y seed Ey) in E1. injection E1 as E1.
          rewrite E1. reflexivity.
        * rewrite draws_cons, Ey. exact (N k x H). }
  intro out. destruct (K l st) as (L & A & N). split; [exact L|]. split; [exact A|].
  intros k x H. destruct (N k x H) as [N1 N2]. split; [intro Hx; destruct (N1 Hx) as (seed & S & _); exists seed; exact S|].
  split; [|intros Hx seed; split; exact (N2 Hx seed)].
  intros Hx seed S. destruct (N1 Hx) as (seed' & S' & R). rewrite (nth_seed_fun _ _ _ _ _ S S'). split; exact R.
Qed.
End C70_successive_draws.

Section C70_no_byte_twice.
Context {Pr : prims}.
Add Ring ring_C70_no_byte_twice : (fe_ring_theory (n := @ord Pr)).
Lemma C70_no_byte_twice_proof (s : nat -> byte) (p : nat) (l : list (seed_call Pr)) :
  let out := calls_rng (stream_gen s) p l in
  let pos := fun k => p + 32 * draws (firstn k l) in
  snd out = p + 32 * draws l /\
  (forall k x, nth_error l k = Some x -> nth_error (fst out) k = Some (call_array (block s (pos k)) x)) /\
  (forall k x k', nth_error l k = Some x -> is_draw x = true -> k < k' -> pos k + 32 <= pos k').
Proof.
  assert (A : forall k q, after (stream_gen s) p k q <-> q = p + 32 * k).
  { intro k. induction k as [|k IH]; intro q; split.
    - intro A. inversion A. lia.
    - intros ->. rewrite Nat.mul_0_r, Nat.add_0_r. apply after_0.
    - intro A. inversion A as [|k' s1 b s2 A' E]; subst. apply IH in A'. cbn [fill_bytes stream_gen] in E.
      injection E as _ E. lia.
    - intros ->. apply (after_S (stream_gen s) p k (p + 32 * k) (block s (p + 32 * k))); [apply IH; reflexivity|].
      replace (p + 32 * S k) with (p + 32 * k + 32) by lia. reflexivity. }
  assert (SD : forall k, nth_seed (stream_gen s) p k (block s (p + 32 * k))).
  { intro k. exists (p + 32 * k), (p + 32 * k + 32). split; [apply A; reflexivity|]. reflexivity. }
  assert (NP : never_panics (stream_gen s)) by (intros st n; discriminate).
  intros out pos. destruct (C70_successive_draws_proof (stream_gen s) p l NP) as (_ & A1 & N).
  split; [apply A; exact A1|]. split.
  - intros k x H. destruct (N k x H) as (_ & N1 & N2). destruct (is_draw x) eqn:E.
    + apply N1; [reflexivity|]. apply SD.
    + apply N2. reflexivity.
  - intros k x k' H Hx Hk. unfold pos.
    assert (D : draws (firstn k l) + 1 <= draws (firstn k' l)); [|lia].
    replace k' with (k + S (k' - k - 1)) by lia. generalize (k' - k - 1). clear - H Hx. intro d. revert l H.
    induction k as [|k IH]; intros [|y l] H; try discriminate H; cbn [nth_error] in H.
    + injection H as ->. cbn [firstn Nat.add]. rewrite draws_cons, Hx. cbn [draws filter length]. lia.
    + cbn [firstn Nat.add]. rewrite !draws_cons. specialize (IH l H). lia.
Qed.
End C70_no_byte_twice.

Section C70_nonce_reuse.
Context {Pr : prims}.
Add Ring ring_C70_nonce_reuse : (fe_ring_theory (n := @ord Pr)).
Lemma C70_nonce_reuse_proof {Laws : prims_ok Pr} {Tags : tags_ok Pr} (g : generator) (st st' st1 st1' : gen_state g) (c : key_agg_ctx Pr) (i : nat) (sp : spices Pr) (r r' : first_round Pr) (Hr : first_round_new_rng g st c i sp = (Ok r, st1)) (Hr' : first_round_new_rng g st' c i sp = (Ok r', st1')) :
  exists pk seed seed', get_pubkey c i = Some pk /\
    fill_bytes g st 32 = Some (seed, st1) /\ fill_bytes g st' 32 = Some (seed', st1') /\
    (let input := fun sd k => round_nonce_input sd i pk (aggregated_pubkey c) sp k in
     let one := fun h => (if h =? 0 then 1 else h)%Z in
     fz (sval (k1 (fr_secnonce r))) = one (nonce_int (Pr := Pr) (input seed x00)) /\
     fz (sval (k2 (fr_secnonce r))) = one (nonce_int (Pr := Pr) (input seed x01)) /\
     fz (sval (k1 (fr_secnonce r'))) = one (nonce_int (Pr := Pr) (input seed' x00)) /\
     fz (sval (k2 (fr_secnonce r'))) = one (nonce_int (Pr := Pr) (input seed' x01)) /\
     (forall k, input seed k = input seed' k <-> tagged_hash (Pr := Pr) "MuSig/aux" seed = tagged_hash "MuSig/aux" seed')) /\
    (seed = seed' -> r = r') /\ (st = st' -> r = r').
Proof.
  assert (K : forall st st1 r, first_round_new_rng g st c i sp = (Ok r, st1) ->
    exists seed, fill_bytes g st 32 = Some (seed, st1) /\ first_round_new c seed i sp = Ok r).
  { clear. intros st st1 r H. unfold first_round_new_rng in H. destruct (get_pubkey c i); [|discriminate H].
    unfold draw, seed_from_rng in H. destruct (fill_bytes g st 32) as [[b s]|]; [|discriminate H].
    injection H as H <-. exists b. auto. }
  destruct (K _ _ _ Hr) as (seed & E & F), (K _ _ _ Hr') as (seed' & E' & F').
  destruct (C38_round_nonce_source_proof c seed i sp r F) as (pk & G & N1 & N2).
  destruct (C38_round_nonce_source_proof c seed' i sp r' F') as (pk' & G' & N1' & N2').
  rewrite G in G'. injection G' as <-.
  assert (Q : seed = seed' -> r = r') by (intros <-; congruence).
  exists pk, seed, seed'. split; [exact G|]. split; [exact E|]. split; [exact E'|].
  split; [|split; [exact Q|]; intros <-; apply Q; congruence].
  intros input one. split; [exact N1|]. split; [exact N2|]. split; [exact N1'|]. split; [exact N2'|].
  intro k. unfold input, round_nonce_input. split.
  - intro H. apply app_inv_tail in H. unfold masked_seed in H. rewrite !bytes_xor_eq in H.
    apply xor_bytes_inj_r in H; [exact H| |]; rewrite ?tagged_hash_len;
      destruct (sp_seckey sp); try reflexivity; unfold bytes_from_int; apply be_enc_length.
  - intro H. unfold masked_seed. rewrite H. reflexivity.
Qed.
End C70_nonce_reuse.

Section C70_generator_panics.
Context {Pr : prims}.
Add Ring ring_C70_generator_panics : (fe_ring_theory (n := @ord Pr)).
Lemma C70_generator_panics_proof (g : generator) (st : gen_state g) (Hg : fill_bytes g st 32 = None) :
  (forall c i sp, i < length (pubkeys c) -> fst (first_round_new_rng g st c i sp) = Panic) /\
  (forall c i sp, length (pubkeys c) <= i ->
     first_round_new_rng g st c i sp = (Err (SignerIndexError i (length (pubkeys c))), st)) /\
  (forall sk msg, fst (sign_solo_rng g st sk msg) = Panic) /\
  (forall sk msg T, fst (sign_solo_adaptor_rng g st sk msg T) = Panic) /\
  (forall sk aggpk msg extra, fst (generate_rng g st sk aggpk msg extra) = Panic) /\
  fst (builder_new_rng (Pr := Pr) g st) = Panic.
Proof.
  unfold first_round_new_rng, sign_solo_rng, sign_solo_adaptor_rng, generate_rng, builder_new_rng, draw, seed_from_rng.
  rewrite Hg. split; [|split; [|repeat split; reflexivity]]; intros c i sp H.
  - destruct (get_pubkey c i) eqn:E; [reflexivity|]. unfold get_pubkey in E; change (ordered_pubkeys c) with (pubkeys c) in E. apply nth_error_None in E. lia.
  - destruct (get_pubkey c i) eqn:E; [|reflexivity]. unfold get_pubkey in E; change (ordered_pubkeys c) with (pubkeys c) in E.
    assert (nth_error (pubkeys c) i <> None) by congruence. apply nth_error_Some in H0. lia.
Qed.
End C70_generator_panics.

Local Open Scope Z_scope.
Section Random.
Context {Pr : prims} {Laws : prims_ok Pr}.

Lemma parse_block s p : match parse_scalar (Pr := Pr) (block s p) with
  | Some k => fz k = int_from_bytes (block s p) /\ 1 <= int_from_bytes (block s p) < n_
  | None => ~ 1 <= int_from_bytes (block s p) < n_ end.
Proof.
  assert (L : length (block s p) = 32%nat) by (unfold block; rewrite map_length; apply seq_length).
  destruct (parse_scalar (block s p)) as [k|] eqn:E.
  - apply parse_scalar_Some in E. rewrite E, int_ser. split; [reflexivity|].
    pose proof (fz_range (sval k)) as R. pose proof (scalar_nz k) as Z0.
    assert (fz (sval k) <> 0) by (intro F; apply Z0; apply fe_ext; rewrite F; reflexivity). unfold n_. lia.
  - apply parse_scalar_None in E. unfold int_from_bytes, n_. destruct E as [E|[E|E]]; lia.
Qed.

Lemma scalar_random_stream s fuel p :
  match scalar_random (Pr := Pr) fuel (stream_gen s) p with
  | Some (Ok (k, q)) => exists i, (i < fuel)%nat /\ q = (p + 32 * (i + 1))%nat /\
      fz k = int_from_bytes (block s (p + 32 * i)) /\ 1 <= fz k < n_ /\
      forall j, (j < i)%nat -> ~ 1 <= int_from_bytes (block s (p + 32 * j)) < n_
  | Some _ => False
  | None => forall j, (j < fuel)%nat -> ~ 1 <= int_from_bytes (block s (p + 32 * j)) < n_
  end.
Proof.
  revert p. induction fuel as [|f IH]; intro p.
  - cbn [scalar_random]. intros j Hj. lia.
  - cbn [scalar_random]. change (fill_bytes (stream_gen s) p 32) with (Some (block s p, (p + 32)%nat)). cbv iota beta.
    pose proof (parse_block s p) as B. destruct (parse_scalar (block s p)) as [k|].
    + exists 0%nat. split; [lia|]. split; [lia|]. rewrite Nat.mul_0_r, Nat.add_0_r. destruct B as [B1 B2].
      split; [exact B1|]. split; [rewrite B1; exact B2|]. intros j Hj. lia.
    + specialize (IH (p + 32)%nat). destruct (scalar_random f (stream_gen s) (p + 32)%nat) as [[[k q]|e|]|].
      * destruct IH as (i & Hi & -> & Ek & Hk & Hj). exists (S i). split; [lia|]. split; [lia|].
        replace (p + 32 * S i)%nat with (p + 32 + 32 * i)%nat by lia. split; [exact Ek|]. split; [exact Hk|].
        intros [|j] H; [rewrite Nat.mul_0_r, Nat.add_0_r; exact B|].
        replace (p + 32 * S j)%nat with (p + 32 + 32 * j)%nat by lia. apply Hj. lia.
      * exact IH.
      * exact IH.
      * intros [|j] H; [rewrite Nat.mul_0_r, Nat.add_0_r; exact B|].
        replace (p + 32 * S j)%nat with (p + 32 + 32 * j)%nat by lia. apply IH. lia.
Qed.
End Random.

Section C70_random_secnonce.
Context {Pr : prims}.
Add Ring ring_C70_random_secnonce : (fe_ring_theory (n := @ord Pr)).
Lemma C70_random_secnonce_proof {Laws : prims_ok Pr} (s : nat -> byte) (p : nat) (fuel : nat) :
  let good := fun j => 1 <= int_from_bytes (block s (p + 32 * j)) < n_ (Pr := Pr) in
  match secnonce_random (Pr := Pr) fuel (stream_gen s) p with
  | Some (Ok (sn, q)) => exists i j : nat, (i < fuel)%nat /\ (i < j <= i + fuel)%nat /\
      fz (sval (k1 sn)) = int_from_bytes (block s (p + 32 * i)) /\ good i /\
      fz (sval (k2 sn)) = int_from_bytes (block s (p + 32 * j)) /\ good j /\
      (forall l, (l < j)%nat -> l <> i -> ~ good l) /\ q = (p + 32 * (j + 1))%nat
  | Some _ => False
  | None => (forall j, (j < fuel)%nat -> ~ good j) \/
      exists i, (i < fuel)%nat /\ good i /\ forall j, (j < i)%nat \/ (i < j <= i + fuel)%nat -> ~ good j
  end.
Proof.
  intro good. unfold secnonce_random.
  pose proof (scalar_random_stream s fuel p) as A. destruct (scalar_random fuel (stream_gen s) p) as [[[a q]|e|]|];
    [|exact A|exact A|left; exact A].
  destruct A as (i & Hi & -> & Ea & Ra & Na).
  pose proof (scalar_random_stream s fuel (p + 32 * (i + 1))%nat) as B.
  destruct (scalar_random fuel (stream_gen s) (p + 32 * (i + 1))%nat) as [[[b q]|e|]|]; [|exact B|exact B|].
  - destruct B as (j & Hj & -> & Eb & Rb & Nb). exists i, (i + 1 + j)%nat. cbn [k1 k2].
    replace (p + 32 * (i + 1 + j))%nat with (p + 32 * (i + 1) + 32 * j)%nat by lia.
    split; [exact Hi|]. split; [lia|]. split; [exact Ea|]. split; [unfold good; rewrite <- Ea; exact Ra|].
    split; [exact Eb|]. split; [unfold good; replace (p + 32 * (i + 1 + j))%nat with (p + 32 * (i + 1) + 32 * j)%nat by lia; rewrite <- Eb; exact Rb|].
    split; [|lia]. intros l H1 H2. unfold good. destruct (Nat.lt_ge_cases l i) as [H|H]; [apply Na; exact H|].
    replace (p + 32 * l)%nat with (p + 32 * (i + 1) + 32 * (l - i - 1))%nat by lia. apply Nb. lia.
  - right. exists i. split; [exact Hi|]. split; [unfold good; rewrite <- Ea; exact Ra|].
    intros j [H|H]; unfold good; [apply Na; exact H|].
    replace (p + 32 * j)%nat with (p + 32 * (i + 1) + 32 * (j - i - 1))%nat by lia. apply B. lia.
Qed.
End C70_random_secnonce.

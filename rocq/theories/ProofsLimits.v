(** Proofs of the theorems of PropertiesLimits.v. *)
From Coq Require Import String List.
From Verif Require Import Bytes BytesFacts Prims PrimsFacts TaggedHashes Errors SpecTags SpecBIP327
  KeyAgg Nonces Signature Signing SigAgg Bip340 Rounds SpecCtx SpecView SpecSession SpecRounds Toy ToyData ToyRounds.
Import ListNotations.
Open Scope list_scope.
Open Scope Z_scope.
From Coq Require Import Lia.
From Verif Require Import CodecFacts KeyAggFacts KeyAggCodec KeyAggNarrow SigningFacts SignatureFacts SpecFacts SpecSigning SessionFacts
  Bip340Facts ProofsKeyAgg ProofsSigning ProofsAdaptor ProofsRounds.
Open Scope Z_scope.

Section Helpers.
Context {Pr : prims} {Laws : prims_ok Pr} {Tags : tags_ok Pr}.
Add Ring fring0 : (fe_ring_theory (n := @ord Pr)).

Lemma fone_nz : (fone : mscalar Pr) <> fzero.
Proof. apply (scalar_nz scalar_one). Qed.
Lemma two_nz : fadd (fone : mscalar Pr) fone <> fzero.
Proof. apply (double_nz scalar_one). Qed.
Lemma three_nz : 3 < Zpos (@ord Pr) -> fadd (fone : mscalar Pr) (fadd fone fone) <> fzero.
Proof.
  intros H E. apply (f_equal fz) in E. unfold fadd, fone, fzero in E. rewrite !fz_of_Z in E.
  rewrite (Z.mod_small 1) in E by lia. rewrite (Z.mod_small (1 + 1)) in E by lia. rewrite Z.mod_0_l in E by lia.
  rewrite Z.mod_small in E by lia. lia.
Qed.
Lemma scalar_of (a : mscalar Pr) : a <> fzero -> exists s : scalar Pr, a = sval s.
Proof.
  intro H. destruct (not_zero a) as [s|] eqn:E; [exists s; apply not_zero_Some, E|].
  apply not_zero_None in E. contradiction.
Qed.
Lemma fmul_nz (a b : mscalar Pr) : a <> fzero -> b <> fzero -> fmul a b <> fzero.
Proof. intros Ha Hb H. apply (fmul_integral ord_prime) in H as [H|H]; contradiction. Qed.
Lemma fsub_nz (a b : mscalar Pr) : a <> b -> fsub a b <> fzero.
Proof. intros H E. apply H. replace a with (fadd (fsub a b) b) by ring. rewrite E. ring. Qed.

(** Another pair of non-zero scalars with the same weighted sum. *)
Lemma other_pair (a1 a2 : mscalar Pr) (x1 x2 : scalar Pr) : 3 < Zpos (@ord Pr) ->
  exists y1 y2 : scalar Pr, (sval y1 <> sval x1 \/ sval y2 <> sval x2) /\
    fadd (fmul a1 y1) (fmul a2 y2) = fadd (fmul a1 x1) (fmul a2 x2).
Proof.
  intro Hn.
  assert (D : forall x : scalar Pr, exists y : scalar Pr, sval y = fadd (sval x) (sval x) /\ sval y <> sval x).
  { intro x. destruct (scalar_of (fadd (sval x) (sval x)) (double_nz x)) as [y Hy]. exists y. split; [auto|].
    rewrite <- Hy. intro E. apply (scalar_nz x). replace (sval x) with (fsub (fadd (sval x) (sval x)) (sval x)) by ring. rewrite E. ring. }
  destruct (feqb a1 fzero) eqn:E1; [apply feqb_eq in E1 | apply feqb_neq in E1].
  { destruct (D x1) as (y & _ & Hy). exists y, x2. split; [auto|]. rewrite E1. ring. }
  destruct (feqb a2 fzero) eqn:E2; [apply feqb_eq in E2 | apply feqb_neq in E2].
  { destruct (D x2) as (y & _ & Hy). exists x1, y. split; [auto|]. rewrite E2. ring. }
  destruct (finv_exists ord_prime a2 E2) as [b Hb].
  destruct (D x1) as (y1 & Ey1 & Hy1).
  set (v := fsub (sval x2) (fmul (fmul (sval x1) a1) b)).
  assert (Hone : forall u w : mscalar Pr, fmul a2 (fsub u (fmul (fmul w a1) b)) = fsub (fmul a2 u) (fmul w a1)).
  { intros u w. replace (fmul a2 (fsub u (fmul (fmul w a1) b))) with (fsub (fmul a2 u) (fmul (fmul w a1) (fmul a2 b))) by ring.
    rewrite Hb. ring. }
  destruct (feqb v fzero) eqn:Ev; [apply feqb_eq in Ev | apply feqb_neq in Ev].
  - assert (E3 : fmul (fadd fone (fadd fone fone)) (sval x1) <> fzero) by (apply fmul_nz; [apply three_nz, Hn | apply scalar_nz]).
    destruct (scalar_of _ E3) as [y3 Hy3].
    assert (En : fneg (sval x2) <> fzero).
    { intro E. apply (scalar_nz x2). replace (sval x2) with (fneg (fneg (sval x2))) by ring. rewrite E. ring. }
    destruct (scalar_of _ En) as [z Hz]. exists y3, z. split.
    + left. rewrite <- Hy3. intro E. apply (double_nz x1).
      replace (fadd (sval x1) (sval x1)) with (fsub (fmul (fadd fone (fadd fone fone)) (sval x1)) (sval x1)) by ring. rewrite E. ring.
    + rewrite <- Hy3, <- Hz.
      assert (Ex2 : fmul a2 (sval x2) = fmul (sval x1) a1).
      { pose proof (Hone (sval x2) (sval x1)) as H. fold v in H. rewrite Ev in H.
        replace (fmul a2 (sval x2)) with (fadd (fsub (fmul a2 (sval x2)) (fmul (sval x1) a1)) (fmul (sval x1) a1)) by ring.
        rewrite <- H. ring. }
      replace (fmul a2 (fneg (sval x2))) with (fneg (fmul a2 (sval x2))) by ring. rewrite Ex2. ring.
  - destruct (scalar_of v Ev) as [y2 Hy2]. exists y1, y2. split; [auto|]. rewrite <- Hy2. unfold v. rewrite Hone, Ey1. ring.
Qed.

Lemma seckeys_exist (pks : list (point Pr)) : exists sks, map base_mul sks = pks.
Proof.
  induction pks as [|p pks [sks IH]]; [exists []; reflexivity|]. destruct (dlog_scalar p) as [k ->].
  exists (k :: sks). cbn [map]. rewrite IH. reflexivity.
Qed.

Lemma base_mul_inj' (a b : scalar Pr) : base_mul a = base_mul b -> sval a = sval b.
Proof. intro H. apply (f_equal pval) in H. rewrite !base_mul_val in H. apply gmul_inj, H. Qed.

(** Non-zero scalars summing to zero. *)
Lemma zero_sum n : (2 <= n)%nat -> exists l : list (scalar Pr), length l = n /\ fsum (map sval l) = fzero.
Proof.
  assert (N1 : exists m1 : scalar Pr, sval m1 = fneg fone).
  { destruct (scalar_of (fneg fone)) as [s Hs]; [|exists s; auto]. intro E. apply fone_nz.
    replace (fone : mscalar Pr) with (fneg (fneg (fone : mscalar Pr))) by ring. rewrite E. ring. }
  assert (N2 : exists m2 : scalar Pr, sval m2 = fneg (fadd fone fone)).
  { destruct (scalar_of (fneg (fadd fone fone))) as [s Hs]; [|exists s; auto]. intro E. apply two_nz.
    replace (fadd (fone : mscalar Pr) fone) with (fneg (fneg (fadd (fone : mscalar Pr) fone))) by ring. rewrite E. ring. }
  destruct N1 as [m1 H1], N2 as [m2 H2].
  assert (G : forall k, (exists l : list (scalar Pr), length l = (2 + 2 * k)%nat /\ fsum (map sval l) = fzero) /\
                        (exists l : list (scalar Pr), length l = (3 + 2 * k)%nat /\ fsum (map sval l) = fzero)).
  { induction k as [|k [[l [L S]] [l' [L' S']]]].
    - split; [exists [scalar_one; m1] | exists [scalar_one; scalar_one; m2]]; (split; [reflexivity|]);
        cbn [map]; rewrite !fsum_cons, fsum_nil, ?H1, ?H2; change (sval scalar_one) with (fone : mscalar Pr); ring.
    - split; [exists (scalar_one :: m1 :: l) | exists (scalar_one :: m1 :: l')]; (split; [cbn [length]; lia|]);
        cbn [map]; rewrite !fsum_cons, ?S, ?S', H1; change (sval scalar_one) with (fone : mscalar Pr); ring. }
  intro Hn. pose proof (Nat.div_mod (n - 2) 2 ltac:(lia)) as E. pose proof (Nat.mod_upper_bound (n - 2) 2 ltac:(lia)).
  destruct (G ((n - 2) / 2)%nat) as [[l [L S]] [l' [L' S']]].
  destruct (Nat.eq_dec ((n - 2) mod 2) 0); [exists l | exists l']; (split; [lia|assumption]).
Qed.

Lemma sum_gmul_points (l : list (scalar Pr)) :
  psum (map (fun s : scalar Pr => pval (base_mul s)) l) = gmul (fsum (map sval l)).
Proof.
  induction l as [|s l IH]; cbn [map].
  - rewrite psum_nil, fsum_nil, gmul_0. reflexivity.
  - rewrite psum_cons, fsum_cons, gmul_add, IH, base_mul_val. reflexivity.
Qed.

Lemma inv33 a : (a * 1041204193 mod 2 ^ 32 * 33) mod 2 ^ 32 = a mod 2 ^ 32.
Proof.
  rewrite Zmult_mod_idemp_l. replace (a * 1041204193 * 33) with (a + (a * 8) * 2 ^ 32) by (change (2 ^ 32) with 4294967296; ring).
  apply Z_mod_plus_full.
Qed.
End Helpers.

Section C06_every_context_accepts_misaligned.
Context {Pr : prims}.
Add Ring ring_C06_every_context_accepts_misaligned : (fe_ring_theory (n := @ord Pr)).
Lemma C06_every_context_accepts_misaligned_proof {Laws : prims_ok Pr} {Tags : tags_ok Pr} (c : key_agg_ctx Pr) (Hn : 3 < n_) (Hc : ctx_reachable c) (H2 : (2 <= length (pubkeys c))%nat) :
  exists (sks : list (scalar Pr)) (x : scalar Pr), length sks = length (pubkeys c) /\ map base_mul sks <> pubkeys c /\
    aggregated_seckey c sks = Ok x /\ base_mul x = aggregated_pubkey c.
Proof.
  destruct (seckeys_exist (pubkeys c)) as [sks0 Hs0].
  destruct (C06_aggregated_seckey_proof c sks0 Hc) as (HA & HB & _).
  destruct (HB Hs0) as [x Hx]. pose proof (proj1 (HA x) Hx) as (HL0 & _ & HK).
  assert (HL : length sks0 = length (pubkeys c)) by (rewrite <- Hs0, map_length; reflexivity).
  destruct sks0 as [|x1 [|x2 xs]]; [cbn [length] in HL; lia | cbn [length] in HL; lia |].
  pose proof (reachable_wf _ Hc) as Hwf.
  pose proof (wf_coeffs c Hwf) as Hco. unfold pubkeys in Hs0, H2, HL.
  assert (Hcs : exists a1 a2 cs, key_coefficients c = a1 :: a2 :: cs).
  { rewrite Hco. rewrite <- Hs0. cbn [map]. eauto. }
  destruct Hcs as (a1 & a2 & cs & Hcs).
  destruct (other_pair a1 a2 x1 x2 Hn) as (y1 & y2 & Hne & Hsum).
  exists (y1 :: y2 :: xs), x. split; [exact HL|]. split.
  { unfold pubkeys. rewrite <- Hs0. cbn [map]. intro E.
    destruct Hne as [Hne|Hne]; apply Hne, base_mul_inj'; [apply (f_equal (hd (base_mul x1))) in E; exact E|].
    apply (f_equal (fun l => hd (base_mul x1) (tl l))) in E. exact E. }
  split; [|exact HK]. rewrite <- Hx. unfold aggregated_seckey. rewrite !seckey_loop_spec, Hcs. cbn [length].
  assert (E : fsum (map (fun p : mscalar Pr * scalar Pr => fmul (fst p) (sval (snd p))) (combine (a1 :: a2 :: cs) (y1 :: y2 :: xs)))
            = fsum (map (fun p : mscalar Pr * scalar Pr => fmul (fst p) (sval (snd p))) (combine (a1 :: a2 :: cs) (x1 :: x2 :: xs)))).
  { cbn [combine map fst snd]. rewrite !fsum_cons, !(Radd_assoc (fe_ring_theory (n := @ord Pr))), Hsum. reflexivity. }
  rewrite E. reflexivity.
Qed.
End C06_every_context_accepts_misaligned.

Section C07_roundtrip_on_any_target.
Context {Pr : prims}.
Add Ring ring_C07_roundtrip_on_any_target : (fe_ring_theory (n := @ord Pr)).
Lemma C07_roundtrip_on_any_target_proof {Laws : prims_ok Pr} (c : key_agg_ctx Pr) (tg : target) (Hc : ctx_reachable c) (Hk : 33 * zlen (pubkeys c) < 2 ^ usize_bits tg) :
  ctx_from_bytes tg (ctx_to_bytes c) = Ok c.
Proof.
  pose proof (reachable_wf _ Hc) as Hwf. apply decode_any. split; [exact Hwf|].
  rewrite ctx_to_bytes_parts. eexists. exists (be_enc 4 (zlen (ordered_pubkeys c))), [].
  split; [rewrite app_nil_r, tweak_bytes_eq; destruct (not_zero (tweak_acc c)); reflexivity|].
  pose proof (header_bits (negb (feqb (tweak_acc c) fzero)) (parity_acc c)) as [E0 E1].
  split; [exact E0|]. split; [exact E1|]. split; [apply be_enc_length|]. split; [cbn [length]; lia|].
  unfold pubkeys in Hk. rewrite pks_len_bound by apply (wf_len c Hwf).
  unfold prod33. rewrite (Z.mul_comm _ 33), (proj2 (Z.ltb_lt _ _) Hk).
  change (zlen (@nil byte)) with 0. rewrite Z.add_0_r. reflexivity.
Qed.
End C07_roundtrip_on_any_target.

Section C08_every_context_has_other_encodings.
Context {Pr : prims}.
Add Ring ring_C08_every_context_has_other_encodings : (fe_ring_theory (n := @ord Pr)).
Lemma C08_every_context_has_other_encodings_proof {Laws : prims_ok Pr} (c : key_agg_ctx Pr) (tg : target) (k : Z) (Hc : ctx_reachable c) (Htg : 64 <= usize_bits tg) (Hk : 0 < k < 64) :
  exists h0 rest, ctx_to_bytes c = h0 :: rest /\
    let b := z2b (b2z h0 + 4 * k) :: rest in b <> ctx_to_bytes c /\ ctx_from_bytes tg b = Ok c.
Proof.
  exists (header_byte c). eexists. split; [apply ctx_to_bytes_parts|]. cbv zeta.
  set (h0 := header_byte c).
  assert (H0 : 0 <= b2z h0 < 4).
  { unfold h0, header_byte. destruct (parity_acc c), (negb (feqb (tweak_acc c) fzero)); vm_compute; split; congruence. }
  assert (Hz : b2z (z2b (b2z h0 + 4 * k)) = b2z h0 + 4 * k) by (rewrite b2z_z2b; apply Z.mod_small; lia).
  split.
  - rewrite ctx_to_bytes_parts. intro E. apply (f_equal (hd x00)) in E. cbn [hd] in E. fold h0 in E.
    apply (f_equal b2z) in E. rewrite Hz in E. lia.
  - apply C08_decoding_total_and_almost_canonical_proof; [exact Htg|]. split; [exact Hc|].
    rewrite ctx_to_bytes_parts. eexists. eexists. eexists. split; [reflexivity|]. split; [reflexivity|]. fold h0.
    rewrite Hz, Z.mul_comm, Z_mod_plus_full. apply Z.mod_small. exact H0.
Qed.
End C08_every_context_has_other_encodings.

Section C09_decoding_on_any_target.
Context {Pr : prims}.
Add Ring ring_C09_decoding_on_any_target : (fe_ring_theory (n := @ord Pr)).
Lemma C09_decoding_on_any_target_proof {Laws : prims_ok Pr} (tg : target) (b : bytes) (Hbits : 0 <= usize_bits tg) :
  let prod := fun cnt => let p := be_dec cnt * 33 in
     if p <? 2 ^ usize_bits tg then Some p
     else if overflow_checks tg then None else Some (p mod 2 ^ usize_bits tg) in
  (forall c : key_agg_ctx Pr, ctx_from_bytes tg b = Ok c <->
     ctx_reachable c /\
     let t := fz (tweak_acc c) in
     exists h cnt junk,
       b = h :: (if t =? 0 then [] else be_enc 32 t) ++ cnt ++ flat_map ser_point (pubkeys c) ++ junk /\
       b2z h mod 4 = (if parity_acc c then 1 else 0) + (if t =? 0 then 0 else 2) /\
       length cnt = 4%nat /\ (length junk < 33)%nat /\
       prod cnt = Some (33 * zlen (pubkeys c) + zlen junk)) /\
  (ctx_from_bytes (Pr := Pr) tg b = Panic <->
     exists h tb cnt rest, b = h :: tb ++ cnt ++ rest /\ (38 <= length b)%nat /\ length cnt = 4%nat /\
       (Z.testbit (b2z h) 1 = false /\ tb = [] \/
        Z.testbit (b2z h) 1 = true /\ exists t : scalar Pr, tb = be_enc 32 (fz t)) /\
       (prod cnt = None \/ prod cnt = Some (zlen rest) /\ (length rest < 33)%nat)).
Proof.
  intro prod. split; [|exact (decode_panic_any tg b Hbits)].
  intro c.
  assert (HZ : (fz (tweak_acc c) =? 0) = feqb (tweak_acc c) fzero).
  { destruct (feqb (tweak_acc c) fzero) eqn:E.
    - apply feqb_eq in E. rewrite E. reflexivity.
    - apply feqb_neq in E. apply Z.eqb_neq. intro H. apply E, fe_ext. exact H. }
  assert (HH : forall h, b2z h mod 4 = (if parity_acc c then 1 else 0) + (if fz (tweak_acc c) =? 0 then 0 else 2) <->
     Z.testbit (b2z h) 0 = parity_acc c /\ Z.testbit (b2z h) 1 = negb (feqb (tweak_acc c) fzero)).
  { intro h. rewrite HZ, (low_bits h).
    destruct (Z.testbit (b2z h) 0), (Z.testbit (b2z h) 1), (parity_acc c), (feqb (tweak_acc c) fzero);
      cbn; split; intro H; try (split; reflexivity); try reflexivity; try discriminate H; destruct H; discriminate. }
  rewrite decode_any. split.
  - intros (Hwf & h & cnt & junk & H1 & H2 & H3 & H4 & H5 & H6). split; [apply wf_reachable, Hwf|].
    exists h, cnt, junk. split; [exact H1|]. split; [apply HH; auto|]. auto.
  - intros (Hc & h & cnt & junk & H1 & H2 & H4 & H5 & H6). split; [apply reachable_wf, Hc|].
    apply HH in H2 as [H2 H3]. exists h, cnt, junk. auto 8.
Qed.
End C09_decoding_on_any_target.

Section C09_every_context_wrong_count.
Context {Pr : prims}.
Add Ring ring_C09_every_context_wrong_count : (fe_ring_theory (n := @ord Pr)).
Lemma C09_every_context_wrong_count_proof {Laws : prims_ok Pr} (c : key_agg_ctx Pr) (junk : bytes) (tg : target) (Hc : ctx_reachable c) (Hk : zlen (pubkeys c) < 130150524) (Hj : (0 < length junk < 33)%nat) (Htg : 64 <= usize_bits tg) :
  exists h rest cnt, ctx_to_bytes c = h :: rest /\ length cnt = 4%nat /\ be_dec cnt <> zlen (pubkeys c) /\
    let t := fz (tweak_acc c) in
    let b := h :: (if t =? 0 then [] else be_enc 32 t) ++ cnt ++ flat_map ser_point (pubkeys c) ++ junk in
    ctx_from_bytes (Target 32 false) b = Ok c /\
    ctx_from_bytes (Pr := Pr) tg b = Err (BadLength (length b)).
Proof.
  pose proof (reachable_wf _ Hc) as Hwf. unfold pubkeys in *.
  set (m := zlen (ordered_pubkeys c)) in *. assert (Hm : 0 <= m) by (unfold m, zlen; lia).
  assert (Hr : 0 < zlen junk < 33) by (unfold zlen; lia).
  set (q := (33 * m + zlen junk) * 1041204193 mod 2 ^ 32).
  assert (Hq : 0 <= q < 2 ^ 32) by (apply Z.mod_pos_bound; reflexivity).
  assert (Hqm : (q * 33) mod 2 ^ 32 = 33 * m + zlen junk).
  { unfold q. rewrite inv33. apply Z.mod_small. change (2 ^ 32) with 4294967296. lia. }
  assert (Hd : be_dec (be_enc 4 q) = q) by (apply be_dec_enc_small; exact Hq).
  assert (Hne : q * 33 <> 33 * m + zlen junk).
  { intro E. assert (E2 : (q * 33) mod 33 = 0) by apply Z_mod_mult.
    rewrite E, Z.mul_comm, Z.add_comm, Z_mod_plus_full, Z.mod_small in E2 by lia. lia. }
  assert (Hbig : 2 ^ 32 <= q * 33).
  { destruct (Z.lt_ge_cases (q * 33) (2 ^ 32)) as [Hlt|]; [|assumption]. rewrite Z.mod_small in Hqm by lia. contradiction. }
  pose proof (header_bits (negb (feqb (tweak_acc c) fzero)) (parity_acc c)) as [E0 E1].
  rewrite ctx_to_bytes_parts. eexists. eexists. exists (be_enc 4 q). split; [reflexivity|]. split; [apply be_enc_length|].
  rewrite Hd. split; [intro E; rewrite E in Hne, Hqm; change (2 ^ 32) with 4294967296 in *; rewrite Z.mod_small in Hqm by lia; lia|].
  cbv zeta. change (if fz (tweak_acc c) =? 0 then [] else be_enc 32 (fz (tweak_acc c))) with (tweak_bytes c). split.
  - apply decode_any. split; [exact Hwf|]. eexists. exists (be_enc 4 q), junk. split; [reflexivity|].
    split; [exact E0|]. split; [exact E1|]. split; [apply be_enc_length|]. split; [lia|].
    unfold prod33. rewrite Hd. cbn [usize_bits overflow_checks]. rewrite (proj2 (Z.ltb_ge _ _) Hbig), Hqm. reflexivity.
  - rewrite <- tweak_ot.
    refine (eq_trans (parts_any tg _ _ (be_enc 4 q) _ (be_enc_length _ _) _ _) _).
    3:{ assert (Et : exists tw, opt_tweak (match not_zero (tweak_acc c) with Some t => Some (ser_scalar (sval t)) | None => None end) = Some tw).
        { destruct (not_zero (tweak_acc c)); [|exists None; reflexivity]. cbn [opt_tweak]. rewrite parse_scalar_ser. eauto. }
        destruct Et as [tw ->]. unfold prod33. rewrite Hd.
        rewrite (proj2 (Z.ltb_lt _ _)).
        2:{ apply Z.lt_le_trans with (2 ^ 64); [change (2 ^ 64) with (4294967296 * 4294967296); change (2 ^ 32) with 4294967296 in *; lia|].
            apply Z.pow_le_mono_r; lia. }
        rewrite (proj2 (Z.eqb_neq _ _)); [reflexivity|]. intro E. apply Hne. rewrite <- E. unfold m, zlen.
        rewrite app_length, flat_map_ser_length. lia. }
    + unfold header_byte. destruct (not_zero (tweak_acc c)) as [t|] eqn:E.
      * apply not_zero_Some in E. rewrite E1, E, (proj2 (feqb_neq _ _)) by apply scalar_nz.
        split; [reflexivity | apply ser_scalar_len].
      * apply not_zero_None in E. rewrite E1, E, feqb_refl. reflexivity.
    + cbn [length]. rewrite !app_length, flat_map_ser_length, be_enc_length.
      pose proof (wf_nonempty c Hwf). destruct (ordered_pubkeys c); [congruence|]. cbn [length]. lia.
Qed.
End C09_every_context_wrong_count.

Section C13_every_context_can_fail.
Context {Pr : prims}.
Add Ring ring_C13_every_context_can_fail : (fe_ring_theory (n := @ord Pr)).
Lemma C13_every_context_can_fail_proof {Laws : prims_ok Pr} {Tags : tags_ok Pr} (c : key_agg_ctx Pr) (sks : list (scalar Pr)) (T : pt) (msg : bytes) (Hc : ctx_reachable c) (Hs : map base_mul sks = pubkeys c) (H2 : (2 <= length (pubkeys c))%nat) :
  exists (sns : list (sec_nonce Pr)) (sigs : list (mscalar Pr)),
    length sns = length (pubkeys c) /\ length sigs = length (pubkeys c) /\
    (forall i sk sn s, nth_error sks i = Some sk -> nth_error sns i = Some sn -> nth_error sigs i = Some s ->
       sign_partial_adaptor c sk sn (agg_sum (map public_nonce sns)) T msg = Ok s /\
       verify_partial_adaptor c s (agg_sum (map public_nonce sns)) T (base_mul sk) (public_nonce sn) msg = Ok tt) /\
    aggregate_partial_adaptor_signatures c (agg_sum (map public_nonce sns)) T sigs msg = Err VE_BadSignature.
Proof.
  destruct (zero_sum (length (pubkeys c)) H2) as (ks & Lk & Sk).
  set (sns := map (fun k => {| k1 := k; k2 := k |}) ks).
  assert (Ln : length sns = length (pubkeys c)) by (unfold sns; rewrite map_length; exact Lk).
  assert (Ls : length sks = length (pubkeys c)) by (rewrite <- Hs, map_length; reflexivity).
  set (an := agg_sum (map public_nonce sns)).
  assert (Han : aR1 an = pt_O /\ aR2 an = pt_O).
  { unfold an, agg_sum, sns. cbn [aR1 aR2]. rewrite !map_map. cbn [public_nonce pR1 pR2 k1 k2].
    rewrite !sum_gmul_points, Sk, gmul_0. auto. }
  set (sigs := map (fun p : scalar Pr * sec_nonce Pr => psig_value c (fst p) (snd p) an T msg) (combine sks sns)).
  assert (Lg : length sigs = length (pubkeys c)) by (unfold sigs; rewrite map_length, combine_length; lia).
  pose proof (reachable_wf _ Hc) as Hwf.
  assert (HS : forall i sk sn s, nth_error sks i = Some sk -> nth_error sns i = Some sn -> nth_error sigs i = Some s ->
     sign_partial_adaptor c sk sn an T msg = Ok s /\ verify_partial_adaptor c s an T (base_mul sk) (public_nonce sn) msg = Ok tt).
  { intros i sk sn s E1 E2 E3.
    assert (Hin : In (base_mul sk) (ordered_pubkeys c)).
    { fold (pubkeys c). rewrite <- Hs. apply in_map. eapply nth_error_In; exact E1. }
    assert (s = psig_value c sk sn an T msg).
    { unfold sigs in E3. rewrite nth_error_map in E3. destruct (nth_error (combine sks sns) i) as [[sk' sn']|] eqn:E; [|discriminate].
      cbn [option_map fst snd] in E3. injection E3 as <-.
      assert (E' : nth_error (combine sks sns) i = Some (sk, sn)).
      { clear - E1 E2. revert i E1 E2. generalize sns. induction sks as [|a l IH]; intros m [|i] E1 E2; try discriminate; destruct m; try discriminate; cbn in *.
        - congruence. - apply IH; assumption. }
      rewrite E' in E. injection E as <- <-. reflexivity. }
    subst s. split; [apply sign_member; assumption|].
    apply verify_member_iff; [assumption|assumption|]. apply psig_value_eq. }
  exists sns, sigs. split; [exact Ln|]. split; [exact Lg|]. split; [exact HS|].
  refine (proj2 (C13_valid_partials_aggregate_proof c (map public_nonce sns) T sigs msg Hc _ Lg _) _).
  - rewrite map_length. exact Ln.
  - intros i pk pn s E1 E2 E3. rewrite <- Hs, nth_error_map in E1. rewrite nth_error_map in E2.
    destruct (nth_error sks i) as [sk|] eqn:F1; [|discriminate]. destruct (nth_error sns i) as [sn|] eqn:F2; [|discriminate].
    cbn [option_map] in E1, E2. injection E1 as <-. injection E2 as <-. apply (HS i sk sn s F1 F2 E3).
  - fold an. unfold spec_R_raw. destruct Han as [-> ->]. rewrite add_O_l, point_mul_Z. apply pmul_O.
Qed.
End C13_every_context_can_fail.

Section C17_every_secret_or_its_negation.
Context {Pr : prims}.
Add Ring ring_C17_every_secret_or_its_negation : (fe_ring_theory (n := @ord Pr)).
Lemma C17_every_secret_or_its_negation_proof {Laws : prims_ok Pr} (s : mscalar Pr) (t : scalar Pr) :
  exists (u : scalar Pr) (final : lifted_sig Pr), (sval u = sval t \/ sval u = fneg t) /\
    let sg := {| a_R := pt_O; a_s := s |} in
    adapt sg u = Some final /\ has_even_y (l_R final) = true /\
    reveal_secret sg final = Some (fneg u) /\ reveal_secret sg final <> Some (sval u).
Proof.
  assert (E : exists u : scalar Pr, (sval u = sval t \/ sval u = fneg t) /\ pt_odd (gmul u) = true).
  { destruct (pt_odd (gmul t)) eqn:E; [exists t; auto|].
    assert (Hn : fneg (sval t) <> fzero).
    { intro H. apply (scalar_nz t). replace (sval t) with (fneg (fneg (sval t))) by ring. rewrite H. ring. }
    destruct (scalar_of _ Hn) as [u Hu]. exists u. split; [auto|]. rewrite <- Hu, gmul_neg, odd_neg, E; [reflexivity|].
    intro H. apply gmul_eq_O in H. exact (scalar_nz t H). }
  destruct E as (u & Hu & Ho). destruct (reveal_inf u s Ho) as (l & H1 & H2 & H3 & H4).
  exists u, l. auto.
Qed.
End C17_every_secret_or_its_negation.

Section C19_every_solo_adaptor_can_fail.
Context {Pr : prims}.
Add Ring ring_C19_every_solo_adaptor_can_fail : (fe_ring_theory (n := @ord Pr)).
Lemma C19_every_solo_adaptor_can_fail_proof {Laws : prims_ok Pr} {Tags : tags_ok Pr} (sk : scalar Pr) (msg : bytes) (seed : bytes) (u : scalar Pr) (Hn : 3 < n_) :
  exists (t : scalar Pr) (l' : lifted_sig Pr),
    let sg := sign_solo_adaptor sk msg seed (gmul t) in
    verify_single_adaptor (base_mul sk) sg msg (gmul t) = Ok tt /\
    adapt (adaptor_encrypt sg u) (fadd (sval t) u) = Some l' /\
    verify_single_lifted (base_mul sk) l' msg = Err VE_BadSignature.
Proof.
  set (k := sval (solo_prenonce sk msg seed)).
  assert (Ho : forall a : mscalar Pr, a <> fzero -> exists d, (d = a \/ d = fneg a) /\ d <> fzero /\ pt_odd (gmul d) = true).
  { intros a Ha. destruct (pt_odd (gmul a)) eqn:E; [exists a; auto|]. exists (fneg a). split; [auto|]. split.
    { intro H. apply Ha. replace a with (fneg (fneg a)) by ring. rewrite H. ring. }
    rewrite gmul_neg, odd_neg, E; [reflexivity|]. intro H. apply gmul_eq_O in H. contradiction. }
  assert (Ht : exists t : scalar Pr, fadd k t <> fzero /\ pt_odd (gmul (fadd k t)) = true).
  { destruct (Ho fone fone_nz) as (d1 & D1 & N1 & O1). destruct (Ho (fadd fone fone) two_nz) as (d2 & D2 & N2 & O2).
    assert (Hd : d1 <> d2).
    { intro E. destruct D1 as [D1|D1], D2 as [D2|D2]; rewrite D1, D2 in E.
      - apply fone_nz. replace (fone : mscalar Pr) with (fsub (fadd (fone : mscalar Pr) fone) fone) by ring. rewrite <- E. ring.
      - apply (three_nz Hn). replace (fadd (fone : mscalar Pr) (fadd fone fone)) with (fsub (fone : mscalar Pr) (fneg (fadd fone fone))) by ring.
        rewrite <- E. ring.
      - apply (three_nz Hn). replace (fadd (fone : mscalar Pr) (fadd fone fone)) with (fsub (fadd (fone : mscalar Pr) fone) (fneg fone)) by ring.
        rewrite <- E. ring.
      - apply fone_nz. replace (fone : mscalar Pr) with (fsub (fneg (fone : mscalar Pr)) (fneg (fadd fone fone))) by ring. rewrite <- E. ring. }
    assert (HG : forall d, fadd k (fsub d k) = d) by (intro d; ring).
    destruct (feqb d1 k) eqn:E1; [apply feqb_eq in E1 | apply feqb_neq in E1].
    - destruct (scalar_of (fsub d2 k)) as [t Ht]; [apply fsub_nz; congruence|]. exists t. rewrite <- Ht, HG. auto.
    - destruct (scalar_of (fsub d1 k)) as [t Ht]; [apply fsub_nz; exact E1|]. exists t. rewrite <- Ht, HG. auto. }
  destruct Ht as (t & Htn & Hto). exists t.
  set (sg := sign_solo_adaptor sk msg seed (gmul t)).
  assert (HR : pt_add (a_R sg) (gmul t) = gmul (fadd k t)) by (unfold sg; rewrite solo_adaptor_R, gmul_add; reflexivity).
  assert (Hv : verify_single_adaptor (base_mul sk) sg msg (gmul t) = Ok tt) by apply solo_adaptor_verifies.
  destruct (adapt sg t) as [l|] eqn:El.
  2:{ exfalso. apply adapt_None in El. rewrite HR in El. apply gmul_eq_O in El. contradiction. }
  destruct (C19_reencryption_proof (base_mul sk) sg msg t u l El) as (l' & H1 & _ & _ & H4).
  exists l'. cbv zeta. split; [exact Hv|]. split; [exact H1|].
  rewrite !point_mul_G, HR in H4. unfold has_even_y in H4. rewrite Hto in H4. destruct (H4 eq_refl Hv) as [H5 _].
  fold (xbytes (base_mul sk)) in H5. rewrite schnorr_verify_lifted in H5.
  destruct (verify_single_lifted (base_mul sk) l' msg) as [[]|e|] eqn:E; [discriminate H5| |].
  - unfold verify_single_lifted in E. destruct (verify_single_cases (base_mul sk) (compact l') msg) as [F|F]; congruence.
  - unfold verify_single_lifted in E. destruct (verify_single_cases (base_mul sk) (compact l') msg) as [F|F]; congruence.
Qed.
End C19_every_solo_adaptor_can_fail.

Section C32_every_session_can_return_invalid.
Context {Pr : prims}.
Add Ring ring_C32_every_session_can_return_invalid : (fe_ring_theory (n := @ord Pr)).
Lemma C32_every_session_can_return_invalid_proof {Laws : prims_ok Pr} {Tags : tags_ok Pr} (c : key_agg_ctx Pr) (r0 : nat -> first_round Pr) (seed : nat -> bytes) (sp : nat -> spices Pr) (sk : nat -> scalar Pr) (calls1 : nat -> list (nat * pub_nonce Pr)) (msg : bytes) (Hc : ctx_reachable c) (Hnew : forall j, (j < length (pubkeys c))%nat -> first_round_new c (seed j) j (sp j) = Ok (r0 j)) (Hsk : forall j pk, nth_error (pubkeys c) j = Some pk -> base_mul (sk j) = pk) (Hfirst : forall j i, (j < length (pubkeys c))%nat -> (i < length (pubkeys c))%nat -> on_file ((j, our_public_nonce (r0 j)) :: calls1 j) i = Some (our_public_nonce (r0 i))) (HR : spec_R_raw c (agg_sum (map (fun j => our_public_nonce (r0 j)) (seq 0 (length (pubkeys c))))) msg <> pt_O) :
  exists T : pt, T <> pt_O /\ exists l : lifted_sig Pr,
    verify_single_lifted (aggregated_pubkey c) l msg = Err VE_BadSignature /\
    forall j, (j < length (pubkeys c))%nat ->
      exists sr, fr_finalize_adaptor (fst (fr_run (r0 j) (calls1 j))) (sk j) T msg = Ok sr /\
        forall calls2, sr_is_complete (fst (sr_run sr calls2)) = true ->
          sr_finalize (fst (sr_run sr calls2)) = Ok l.
Proof.
  set (R := spec_R_raw c _ msg) in HR. set (T := pt_neg (pt_add R R)).
  assert (HRT : pt_add R T = pt_neg R).
  { unfold T. rewrite neg_add, <- add_assoc, add_neg_r, add_O_l. reflexivity. }
  exists T. split.
  { intro E. rewrite E, add_O_r in HRT. apply (neg_ne R HR). auto. }
  destruct (C31_honest_sessions_agree_proof c r0 seed sp sk calls1 T msg Hc Hnew Hsk Hfirst) as (H1 & _ & H3 & _).
  fold R in H3. destruct (H3 HR) as (sg & l & Hsg & Hl & Hv & _ & _ & H5). exists l. split.
  - apply adapt_Some in Hl as Hl'. destruct Hl' as (Z1 & Z2 & Z3). rewrite gmul_0, add_O_r, Hsg in Z1, Z2, Z3.
    assert (Hev : pt_odd (l_R l) = false) by (eapply adapt_even; exact Hl).
    apply verify_adaptor_iff in Hv. rewrite Hsg, HRT in Hv.
    assert (Es : l_s l = a_s sg) by (rewrite Z3; destruct (pt_odd R); cbn [fneg_if]; ring).
    assert (El : pval (l_R l) = pneg_if (pt_odd R) R) by (rewrite Z2; reflexivity).
    assert (Hx : chal (l_R l) (aggregated_pubkey c) msg = chal (pt_neg R) (aggregated_pubkey c) msg).
    { unfold chal. rewrite x_neg, El. destruct (pt_odd R); cbn [pneg_if]; [rewrite x_neg|]; reflexivity. }
    destruct (verify_single_cases (aggregated_pubkey c) (compact l) msg) as [F|F]; [exfalso|exact F].
    apply (verify_lifted_iff (aggregated_pubkey c) l msg Hev) in F. rewrite Es, Hv, Hx in F.
    assert (F' : pneg_if (pt_odd (pt_neg R)) R = pval (l_R l)).
    { rewrite add_comm in F. rewrite (add_comm (pval (l_R l))) in F. apply add_cancel_l in F. exact F. }
    rewrite El, (odd_neg R HR) in F'. destruct (pt_odd R); cbn [negb pneg_if] in F'.
    + apply (neg_ne R HR). auto.
    + apply (neg_ne R HR). auto.
  - intros j Hj. destruct (H1 j Hj) as (sr & s & Hs & _). exists sr. split; [exact Hs|].
    intros calls2 Hcomp. exact (proj2 (H5 j sr calls2 Hj Hs Hcomp)).
Qed.
End C32_every_session_can_return_invalid.

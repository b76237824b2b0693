(** Proofs of the theorems of PropertiesBip340.v. *)
From Coq Require Import String List Permutation.
From Verif Require Import Bytes BytesFacts Prims PrimsFacts TaggedHashes Errors SpecTags SpecBIP327
  KeyAgg Nonces Signature Signing SigAgg Bip340 SpecCtx SpecView SpecSession SpecBatch Toy ToyData.
Import ListNotations.
Open Scope list_scope.
Open Scope Z_scope.
From Verif Require Import CodecFacts KeyAggFacts KeyAggCodec SigningFacts SignatureFacts SpecFacts SpecSigning SessionFacts Bip340Facts.

Section Helpers.
Context {Pr : prims} {Laws : prims_ok Pr}.
Add Ring fring0 : (fe_ring_theory (n := @ord Pr)).

Lemma sign_solo_nonce (sk : scalar Pr) msg seed l : sign_solo sk msg seed = Ok l ->
  pt_x (l_R l) = pt_x (gmul (solo_prenonce sk msg seed)) /\ l_s l = a_s (sign_solo_adaptor sk msg seed pt_O).
Proof.
  unfold sign_solo. destruct (adapt (sign_solo_adaptor sk msg seed pt_O) fzero) as [l'|] eqn:E; cbn [unwrap]; [|discriminate].
  intro H. apply Ok_inj in H. subst l'. apply adapt_Some in E as (_ & E & E2).
  rewrite E, to_even_y_x, solo_adaptor_R, gmul_0, add_O_r. split; [reflexivity|].
  rewrite E2. destruct (pt_odd _); cbn [fneg_if]; ring.
Qed.

Lemma bytes_verdict pk sig msg : (length sig <> 64)%nat -> verify_single_bytes (Pr := Pr) pk sig msg = Err VE_BadSignature.
Proof.
  intro H. unfold verify_single_bytes, compact_from_bytes. destruct (Nat.eqb_spec (length sig) 64) as [E|E]; [contradiction|].
  reflexivity.
Qed.
Lemma bytes_cases pk sig msg : verify_single_bytes (Pr := Pr) pk sig msg = Ok tt \/ verify_single_bytes pk sig msg = Err VE_BadSignature.
Proof.
  unfold verify_single_bytes. destruct (compact_from_bytes sig) as [sg|e|] eqn:E; cbn [map_err bind]; [apply verify_single_cases|auto|].
  exfalso. unfold compact_from_bytes in E. destruct (negb _); [discriminate|]. destruct (parse_mscalar _); discriminate.
Qed.
Lemma x_even (pk pk' : point Pr) : pt_x pk = pt_x pk' -> even_point pk = even_point pk'.
Proof.
  intro H. apply point_ext. rewrite !even_point_val. unfold to_even_y.
  destruct (x_inj pk pk' (point_fin _) (point_fin _) H) as [E|E]; rewrite E; [reflexivity|].
  rewrite odd_neg by apply point_fin. destruct (pt_odd pk'); cbn [negb pneg_if]; [reflexivity|]. apply neg_neg.
Qed.
End Helpers.

Section C20_sign_solo_is_bip340.
Context {Pr : prims}.
Add Ring ring_C20_sign_solo_is_bip340 : (fe_ring_theory (n := @ord Pr)).
Lemma C20_sign_solo_is_bip340_proof {Laws : prims_ok Pr} {Tags : tags_ok Pr} (sk : scalar Pr) (msg : bytes) (seed : bytes) :
  exists sg, sign_solo sk msg seed = Ok sg /\
    verify_single_lifted (base_mul sk) sg msg = Ok tt /\
    schnorr_verify msg (pt_x (base_mul sk)) (lifted_to_bytes sg) = Ret true /\
    (schnorr_sign (ser_scalar sk) seed msg = Ret (lifted_to_bytes sg) \/
     (schnorr_sign (ser_scalar sk) seed msg = ValueError /\ pt_x (l_R sg) = pt_x pt_G)).
Proof.
  destruct (sign_solo_Ok sk msg seed) as (l & Hl & Ho & Hv). exists l. split; [exact Hl|]. split; [exact Hv|]. split.
  - rewrite schnorr_verify_ref. unfold verify_single_bytes. rewrite compact_of_lifted_bytes. cbn [map_err bind].
    unfold verify_single_lifted in Hv. rewrite Hv. unfold lifted_to_bytes, compact_to_bytes, compact, compact_new. cbn [c_rx c_s].
    rewrite app_length, x_len, ser_scalar_len. reflexivity.
  - destruct (schnorr_sign_ref sk seed msg l Hl) as [H|[H H1]]; [left; exact H | right].
    split; [exact H|]. rewrite (proj1 (sign_solo_nonce _ _ _ _ Hl)), H1. f_equal. 
    change (sval scalar_one) with (@fone (@ord Pr)). apply gmul_1.
Qed.
End C20_sign_solo_is_bip340.

Section C21_solo_adaptor_verifies_and_adapts.
Context {Pr : prims}.
Add Ring ring_C21_solo_adaptor_verifies_and_adapts : (fe_ring_theory (n := @ord Pr)).
Lemma C21_solo_adaptor_verifies_and_adapts_proof {Laws : prims_ok Pr} {Tags : tags_ok Pr} (sk : scalar Pr) (msg : bytes) (seed : bytes) (T : pt) :
  let sg := sign_solo_adaptor sk msg seed T in
  verify_single_adaptor (base_mul sk) sg msg T = Ok tt /\
  presig_valid (base_mul sk) msg T (a_R sg) (a_s sg) /\
  a_R sg <> pt_O /\
  (forall t, point_mul pt_G (fz t) = T ->
     (pt_add (a_R sg) T = pt_O -> adapt sg t = None) /\
     (pt_add (a_R sg) T <> pt_O -> exists l, adapt sg t = Some l /\ verify_single_lifted (base_mul sk) l msg = Ok tt /\
        reveal_secret sg l = Some t)).
Proof.
  intro sg. pose proof (solo_adaptor_verifies sk msg seed T) as Hv. fold sg in Hv. split; [exact Hv|].
  split; [apply presig_valid_eq, verify_adaptor_iff, Hv|].
  assert (HR : a_R sg <> pt_O).
  { unfold sg. rewrite solo_adaptor_R. rewrite gmul_eq_O. apply scalar_nz. }
  split; [exact HR|]. intros t Ht. rewrite point_mul_G in Ht. subst T. split.
  - intro H. apply adapt_None, H.
  - intro H. destruct (adapt sg t) as [l|] eqn:E; [|apply adapt_None in E; contradiction].
    exists l. split; [reflexivity|]. split; [eapply verified_adapt; eassumption|].
    destruct (reveal_complete _ _ _ E) as [HE|[HE _]]; [exact HE | contradiction].
Qed.
End C21_solo_adaptor_verifies_and_adapts.

Section C22_verify_single_is_bip340.
Context {Pr : prims}.
Add Ring ring_C22_verify_single_is_bip340 : (fe_ring_theory (n := @ord Pr)).
Lemma C22_verify_single_is_bip340_proof {Laws : prims_ok Pr} {Tags : tags_ok Pr} (pk : point Pr) (sig : bytes) (msg : bytes) :
  (verify_single_bytes pk sig msg = Ok tt <-> schnorr_verify msg (pt_x pk) sig = Ret true) /\
  (verify_single_bytes pk sig msg = Ok tt \/ verify_single_bytes pk sig msg = Err VE_BadSignature) /\
  (schnorr_verify msg (pt_x pk) sig = ValueError <-> length sig <> 64%nat) /\
  (forall pk' : point Pr, pt_x pk' = pt_x pk -> verify_single_bytes pk' sig msg = verify_single_bytes pk sig msg).
Proof.
  split; [|split; [apply bytes_cases|split]].
  - rewrite schnorr_verify_ref. destruct (Nat.eqb_spec (length sig) 64) as [L|L].
    + destruct (bytes_cases pk sig msg) as [E|E]; rewrite E; cbn [is_ok]; split; congruence.
    + rewrite bytes_verdict by assumption. split; discriminate.
  - rewrite schnorr_verify_ref. destruct (Nat.eqb_spec (length sig) 64) as [L|L]; split; congruence.
  - intros pk' H. unfold verify_single_bytes. destruct (compact_from_bytes sig) as [sg| |]; cbn [map_err bind]; try reflexivity.
    unfold verify_single. rewrite (x_even _ _ H). reflexivity.
Qed.
End C22_verify_single_is_bip340.

Section C23_valid_batch_accepted.
Context {Pr : prims}.
Add Ring ring_C23_valid_batch_accepted : (fe_ring_theory (n := @ord Pr)).
Lemma C23_valid_batch_accepted_proof {Laws : prims_ok Pr} (items : list (batch_item Pr)) (Hwf : Forall item_wf items) (Hvalid : Forall (fun it => item_verdict it = Ok tt) items) :
  verify_batch (map item_row items) = Ok tt.
Proof.
  apply verify_batch_iff. apply defects_valid. induction items as [|it items IH]; cbn [map]; [constructor|].
  inversion Hwf; subst. inversion Hvalid; subst. constructor; [apply item_row_valid; assumption | apply IH; assumption].
Qed.
End C23_valid_batch_accepted.

Section C24_batch_soundness.
Context {Pr : prims}.
Add Ring ring_C24_batch_soundness : (fe_ring_theory (n := @ord Pr)).
Lemma C24_batch_soundness_proof {Laws : prims_ok Pr} {Tags : tags_ok Pr} :
  (forall rows : list (batch_row Pr),
     let cs := batch_coefficients rows in
     length cs = length rows /\ Forall (fun a => a <> fzero) cs /\
     (verify_batch rows = Ok tt <-> batch_equation cs rows)) /\
  (forall rows : list (batch_row Pr), verify_batch rows <> Ok tt -> verify_batch rows = Err VE_BadSignature) /\
  (forall (rows1 : list (batch_row Pr)) r rows2,
     Forall row_valid rows1 -> Forall row_valid rows2 -> ~ row_valid r ->
     verify_batch (rows1 ++ r :: rows2) = Err VE_BadSignature) /\
  (forall it : batch_item Pr, item_wf it -> verify_batch [item_row it] = item_verdict it) /\
  (forall it : batch_item Pr, item_wf it -> (row_valid (item_row it) <-> item_verdict it = Ok tt)) /\
  (forall cs1 a b cs2 (rows1 : list (batch_row Pr)) r rows2, length cs1 = length rows1 -> ~ row_valid r ->
     batch_equation (cs1 ++ a :: cs2) (rows1 ++ r :: rows2) ->
     batch_equation (cs1 ++ b :: cs2) (rows1 ++ r :: rows2) -> a = b).
Proof.
  split; [|split; [|split; [|split; [|split]]]].
  - intro rows. cbv zeta. assert (E : batch_coefficients rows = coeffs_from (batch_seed rows) 0 (length rows)).
    { assert (ES : batch_seed rows = SpecBIP327.tagged_hash "BIP0340/batch"
        (concat (map (fun r => bytes_from_int (fz (row_challenge r))) rows) ++ concat (map (fun r => bytes_from_int (fz (row_s r))) rows))).
      { unfold batch_seed, SpecBIP327.tagged_hash, tagged. rewrite tag_bip340_batch, !flat_map_concat_map.
        rewrite (map_ext _ _ (fun r : batch_row Pr => bytes_from_fz (row_challenge r))), (map_ext _ _ (fun r : batch_row Pr => bytes_from_fz (row_s r))). reflexivity. }
      unfold batch_coefficients. cbv zeta. rewrite <- ES. destruct rows as [|r rows']; [reflexivity|].
      unfold coeffs_from. cbn [length seq map batch_coeff]. f_equal. rewrite <- seq_shift, map_map. reflexivity. }
    rewrite E. split; [unfold coeffs_from; rewrite map_length, seq_length; reflexivity|].
    split; [apply Forall_forall; intros a Ha; apply in_map_iff in Ha as (i & <- & _); apply coeff_nz|].
    rewrite batch_equation_defects. apply verify_batch_iff.
  - intros rows H. destruct (verify_batch_cases rows); [contradiction|assumption].
  - apply one_invalid.
  - intros it Hw. destruct (verify_batch_cases [item_row it]) as [E|E]; rewrite E; symmetry.
    + apply item_row_valid; [assumption|]. apply row_valid_defect. apply verify_batch_iff in E.
      cbn [length coeffs_from seq map defects batch_coeff] in E. rewrite pmul_1, add_O_r in E. exact E.
    + assert (HC : item_verdict it = Ok tt \/ item_verdict it = Err VE_BadSignature)
        by (destruct it; [apply verify_single_cases | apply verify_adaptor_cases]).
      destruct HC as [HC|HC]; [|exact HC]. apply item_row_valid in HC; [|assumption].
      assert (HE : verify_batch [item_row it] = Ok tt) by (apply verify_batch_iff, defects_valid; constructor; [assumption|constructor]).
      congruence.
  - intros it. apply item_row_valid.
  - intros cs1 a b cs2 rows1 r rows2. apply coefficient_unique.
Qed.
End C24_batch_soundness.

Section C25_seed_ignores_adaptor_nonces_refuted.
Context {Pr : prims}.
Add Ring ring_C25_seed_ignores_adaptor_nonces_refuted : (fe_ring_theory (n := @ord Pr)).
Lemma C25_seed_ignores_adaptor_nonces_refuted_proof {Laws : prims_ok Pr} (pk1 : point Pr) (pk2 : point Pr) (msg1 : bytes) (msg2 : bytes) (s1 : mscalar Pr) (s2 : mscalar Pr) (A1 : pt) (A2 : pt) (H1 : has_even_y A1 = true) (H2 : has_even_y A2 = true) :
  exists R1 R2 T1 T2 : pt,
    let sg1 := {| a_R := R1; a_s := s1 |} in
    let sg2 := {| a_R := R2; a_s := s2 |} in
    pt_add R1 T1 = A1 /\ pt_add R2 T2 = A2 /\
    verify_single_adaptor pk1 sg1 msg1 T1 = Err VE_BadSignature /\
    verify_single_adaptor pk2 sg2 msg2 T2 = Err VE_BadSignature /\
    verify_batch [row_from_adaptor pk1 msg1 sg1 T1; row_from_adaptor pk2 msg2 sg2 T2] = Ok tt.
Proof.
  unfold has_even_y in *.
  apply two_invalid; [destruct (pt_odd A1); [discriminate|reflexivity] | destruct (pt_odd A2); [discriminate|reflexivity]].
Qed.
End C25_seed_ignores_adaptor_nonces_refuted.

Section C49_seed_reuse_across_adaptors.
Context {Pr : prims}.
Add Ring ring_C49_seed_reuse_across_adaptors : (fe_ring_theory (n := @ord Pr)).
Lemma C49_seed_reuse_across_adaptors_proof {Laws : prims_ok Pr} {Tags : tags_ok Pr} (sk : scalar Pr) (msg : bytes) (seed : bytes) (T1 : pt) (T2 : pt) :
  let P := base_mul sk in
  let sg1 := sign_solo_adaptor sk msg seed T1 in
  let sg2 := sign_solo_adaptor sk msg seed T2 in
  let sigma := fun T => if has_even_y (pt_add (a_R sg1) T) then 1 else -1 in
  let e := fun T => int_from_bytes (tagged_hash "BIP0340/challenge"%string
                      (xbytes (pt_add (a_R sg1) T) ++ xbytes P ++ msg)) mod n_ in
  let d := if has_even_y P then fz sk else n_ - fz sk in
  let D := sigma T1 * e T1 - sigma T2 * e T2 in
  let s := sigma T1 * fz (a_s sg1) - sigma T2 * fz (a_s sg2) in
  a_R sg2 = a_R sg1 /\
  (D * d) mod n_ = s mod n_ /\
  (D mod n_ <> 0 -> forall x : scalar Pr, (D * fz x) mod n_ = s mod n_ -> x = sk \/ sval x = fneg sk) /\
  (forall l, T2 = pt_O -> sign_solo sk msg seed = Ok l -> pt_x (l_R l) = pt_x (a_R sg1) /\ l_s l = a_s sg2).
Proof.
  cbv zeta. rewrite !solo_adaptor_R. set (k := solo_prenonce sk msg seed).
  split; [reflexivity|].
  rewrite !challenge_ref. unfold sign_solo_adaptor, adaptor_new. cbn [a_s]. fold k. rewrite !base_mul_val.
  unfold has_even_y.
  set (e1 := compute_challenge_hash_tweak (pt_x (pt_add (gmul k) T1)) (base_mul sk) msg).
  set (e2 := compute_challenge_hash_tweak (pt_x (pt_add (gmul k) T2)) (base_mul sk) msg).
  change (xbytes (pt_add (gmul k) T1)) with (pt_x (pt_add (gmul k) T1)).
  change (xbytes (pt_add (gmul k) T2)) with (pt_x (pt_add (gmul k) T2)). fold e1 e2.
  set (o1 := pt_odd (pt_add (gmul k) T1)). set (o2 := pt_odd (pt_add (gmul k) T2)). set (o := pt_odd (gmul sk)).
  set (d := fneg_if o sk).
  assert (Hd : of_Z ord (if negb o then fz sk else n_ - fz sk) = d).
  { unfold d. destruct o; cbn [negb fneg_if]; [|apply of_Z_fz]. unfold n_. rewrite of_Z_sub, of_Z_fz, of_Z_n. ring. }
  assert (Hsg : forall (b : bool) z, of_Z ord ((if negb b then 1 else -1) * z) = fneg_if b (of_Z ord z)).
  { intros b z. destruct b; cbn [negb fneg_if]; [|rewrite Z.mul_1_l; reflexivity].
    rewrite <- of_Z_opp. replace (-1 * z) with (- z) by lia. reflexivity. }
  assert (HD : of_Z ord ((if negb o1 then 1 else -1) * fz e1 - (if negb o2 then 1 else -1) * fz e2)
               = fsub (fneg_if o1 e1) (fneg_if o2 e2)).
  { rewrite of_Z_sub, !Hsg, !of_Z_fz. reflexivity. }
  assert (HS : of_Z ord ((if negb o1 then 1 else -1) * fz (fadd (fneg_if o1 k) (fmul e1 d))
                       - (if negb o2 then 1 else -1) * fz (fadd (fneg_if o2 k) (fmul e2 d)))
               = fmul (fsub (fneg_if o1 e1) (fneg_if o2 e2)) d).
  { rewrite of_Z_sub, !Hsg, !of_Z_fz. clearbody k e1 e2 d. generalize (sval k). intro k0.
    destruct o1, o2; cbn [fneg_if]; ring. }
  split; [|split].
  - rewrite !mod_n. f_equal. rewrite of_Z_mul, HD, Hd, HS. reflexivity.
  - intros Hnz x Hx. rewrite !mod_n in Hx. apply fe_ext in Hx. rewrite of_Z_mul, HD, HS, of_Z_fz in Hx.
    apply fmul_cancel_l in Hx; [|apply ord_prime|intro E; apply Hnz; rewrite mod_n, HD, E; reflexivity].
    unfold d in Hx. destruct o; cbn [fneg_if] in Hx; [right; exact Hx | left; apply scalar_ext; exact Hx].
  - intros l -> Hl. destruct (sign_solo_nonce _ _ _ _ Hl) as [Hx Hs]. split; [exact Hx|]. rewrite Hs.
    unfold sign_solo_adaptor, adaptor_new. cbn [a_s]. fold k. rewrite !base_mul_val. reflexivity.
Qed.
End C49_seed_reuse_across_adaptors.

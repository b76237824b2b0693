(** Proofs of the theorems of PropertiesSoundness.v. *)
From Coq Require Import String List.
From Verif Require Import Bytes BytesFacts Prims PrimsFacts TaggedHashes Errors SpecTags SpecBIP327
  KeyAgg Nonces Signature Signing SigAgg Bip340 SpecCtx SpecView SpecSession SpecBatch Toy ToyData.
Import ListNotations.
Open Scope list_scope.
Open Scope Z_scope.
From Coq Require Import Lia.
From Verif Require Import CodecFacts KeyAggFacts KeyAggCodec SigningFacts SignatureFacts SpecFacts SpecSigning SessionFacts
  Bip340Facts ProofsBip340.
Open Scope Z_scope.

Section Helpers.
Context {Pr : prims} {Laws : prims_ok Pr} {Tags : tags_ok Pr}.
Add Ring fring0 : (fe_ring_theory (n := @ord Pr)).

Lemma verify_bytes_iff (pk : point Pr) sig msg :
  verify_single_bytes pk sig msg = Ok tt <->
  exists (R : point Pr) (s : mscalar Pr), pt_odd R = false /\ sig = pt_x R ++ ser_scalar s /\
    gmul s = pt_add R (pmul (compute_challenge_hash_tweak (pt_x R) pk msg) (even_point pk)).
Proof.
  unfold verify_single_bytes. split.
  - destruct (compact_from_bytes sig) as [cs| |] eqn:E; cbn [map_err bind]; try discriminate.
    intro H. apply compact_decode in E as [-> _]. apply verify_single_iff in H as (R & HR & Hx & He).
    exists R, (c_s cs). rewrite Hx. split; [exact HR|]. split; [reflexivity | exact He].
  - intros (R & s & HR & -> & He). rewrite compact_from_parts by apply x_len. cbn [map_err bind].
    apply verify_single_iff. exists R. cbn [c_rx c_s]. auto.
Qed.

Lemma even_if (P : point Pr) : (if has_even_y P then pval P else pt_neg P) = even_point P.
Proof. rewrite even_pneg. unfold has_even_y, pneg_if. destruct (pt_odd P); reflexivity. Qed.

Lemma sig_first (R : point Pr) (s : mscalar Pr) : firstn 32 (pt_x R ++ ser_scalar s) = pt_x R.
Proof. apply firstn_app_exact, x_len. Qed.
Lemma sig_second (R : point Pr) (s : mscalar Pr) : skipn 32 (pt_x R ++ ser_scalar s) = ser_scalar s.
Proof. apply skipn_app_exact, x_len. Qed.

Lemma pmul_fin_inj a b (P : point Pr) : pmul a P = pmul b P -> a = b.
Proof.
  intro H. destruct (dlog P) as [k Hk]. rewrite Hk, <- !gmul_mul in H. apply gmul_inj in H.
  destruct (fe_eq_dec k fzero) as [->|Hn]; [rewrite gmul_0 in Hk; destruct (point_fin P Hk)|].
  apply (fmul_cancel_l ord_prime k); [exact Hn|]. transitivity (fmul a k); [ring|]. rewrite H. ring.
Qed.

Lemma chal_int rx (pk : point Pr) m :
  int_from_bytes (tagged_hash "BIP0340/challenge" (rx ++ xbytes pk ++ m)) mod n_
  = fz (compute_challenge_hash_tweak rx pk m).
Proof. apply challenge_ref. Qed.

Lemma fz_inj_iff (a b : mscalar Pr) : fz a = fz b <-> a = b.
Proof. split; [apply fe_ext | congruence]. Qed.

Lemma even_x_inj (R R' : point Pr) : pt_odd R = false -> pt_odd R' = false -> pt_x R = pt_x R' -> R = R'.
Proof.
  intros H H' E. apply point_ext. destruct (x_inj R R' (point_fin R) (point_fin R') E) as [->|E']; [reflexivity|].
  rewrite E', odd_neg, H' in H by apply point_fin. discriminate.
Qed.

Lemma sig_parts (R R' : point Pr) (s s' : mscalar Pr) :
  pt_odd R = false -> pt_odd R' = false -> pt_x R ++ ser_scalar s = pt_x R' ++ ser_scalar s' -> R = R' /\ s = s'.
Proof.
  intros H H' E. assert (E1 := f_equal (firstn 32) E). assert (E2 := f_equal (skipn 32) E).
  rewrite !sig_first in E1. rewrite !sig_second in E2. split; [apply even_x_inj; assumption | apply ser_scalar_inj; exact E2].
Qed.
(** Vectors of non-zero scalars. *)
Definition units : list (mscalar Pr) := map (fun i => of_Z ord (Z.of_nat i)) (seq 1 (Pos.to_nat ord - 1)).
(** All vectors of [k] non-zero scalars. *)
Fixpoint vecs (k : nat) : list (list (mscalar Pr)) :=
  match k with O => [[]] | S k' => flat_map (fun a => map (cons a) (vecs k')) units end.

Lemma units_all (a : mscalar Pr) : a <> fzero -> In a units.
Proof.
  intro H. apply in_map_iff. exists (Z.to_nat (fz a)). pose proof (fz_range a) as Hr.
  assert (fz a <> 0) by (intro E; apply H, fe_ext; rewrite E; reflexivity).
  split; [rewrite Z2Nat.id by lia; apply of_Z_fz | apply in_seq; lia].
Qed.

Lemma vecs_all cs : Forall (fun a : mscalar Pr => a <> fzero) cs -> In cs (vecs (length cs)).
Proof.
  induction 1 as [|a cs Ha _ IH]; cbn [vecs length]; [left; reflexivity|].
  apply in_flat_map. exists a. split; [apply units_all, Ha | apply in_map, IH].
Qed.

Lemma vecs_len k : length (vecs k) = ((Pos.to_nat ord - 1) ^ k)%nat.
Proof.
  induction k as [|k IH]; cbn [vecs Nat.pow]; [reflexivity|]. rewrite <- IH.
  assert (L : length units = (Pos.to_nat ord - 1)%nat) by (unfold units; rewrite map_length, seq_length; reflexivity).
  rewrite <- L. clear L IH. generalize units as u. induction u as [|a u IHu]; cbn [flat_map length Nat.mul]; [reflexivity|].
  rewrite app_length, map_length, IHu. reflexivity.
Qed.

Lemma NoDup_map_in {A B} (f : A -> B) l :
  (forall x y, In x l -> In y l -> f x = f y -> x = y) -> NoDup l -> NoDup (map f l).
Proof.
  intros Hf H. induction H as [|x l Hx _ IH]; cbn [map]; constructor.
  - intro Hin. apply in_map_iff in Hin as (y & E & Hy). apply Hf in E; [subst; contradiction | right; exact Hy | left; reflexivity].
  - apply IH. intros; apply Hf; [right|right|]; assumption.
Qed.

Lemma row_valid_dec (r : batch_row Pr) : {row_valid r} + {~ row_valid r}.
Proof.
  destruct (pt_eqb (defect r) pt_O) eqn:E; [left | right; intro H]; [apply row_valid_defect, pt_eqb_eq, E|].
  apply row_valid_defect in H. rewrite H in E. assert (pt_eqb pt_O pt_O = true) by (apply pt_eqb_eq; reflexivity). congruence.
Qed.
End Helpers.

Section C62_one_s_per_nonce.
Context {Pr : prims}.
Add Ring ring_C62_one_s_per_nonce : (fe_ring_theory (n := @ord Pr)).
Lemma C62_one_s_per_nonce_proof {Laws : prims_ok Pr} {Tags : tags_ok Pr} (pk : point Pr) (msg : bytes) (rx : bytes) (Hrx : length rx = 32%nat) :
  (forall s s', verify_single_bytes pk (rx ++ s) msg = Ok tt -> verify_single_bytes pk (rx ++ s') msg = Ok tt -> s = s') /\
  ((exists s, verify_single_bytes pk (rx ++ s) msg = Ok tt) <-> pt_lift rx <> None) /\
  (forall s, verify_single_bytes pk (rx ++ s) msg = Ok tt -> length s = 32%nat /\ int_from_bytes s < n_).
Proof.
  assert (F : forall s, firstn 32 (rx ++ s) = rx) by (intro s; apply firstn_app_exact; exact Hrx).
  assert (K : forall s, skipn 32 (rx ++ s) = s) by (intro s; apply skipn_app_exact; exact Hrx).
  split; [|split].
  - intros s s' H H'. apply verify_bytes_iff in H as (R & z & HR & E & G), H' as (R' & z' & HR' & E' & G').
    assert (X := f_equal (firstn 32) E). assert (X' := f_equal (firstn 32) E').
    rewrite F, sig_first in X, X'. assert (R = R') as <- by (apply even_x_inj; congruence).
    rewrite <- (K s), <- (K s'), E, E', !sig_second. f_equal. apply gmul_inj. congruence.
  - split.
    + intros [s H]. apply verify_bytes_iff in H as (R & z & HR & E & _).
      assert (X := f_equal (firstn 32) E). rewrite F, sig_first in X. rewrite X.
      rewrite (proj2 (lift_spec (pt_x R) R)); [discriminate|]. repeat split; [apply point_fin | exact HR].
    + destruct (pt_lift rx) as [P|] eqn:E; [intros _ | congruence]. apply lift_spec in E as (HP & HO & HX).
      destruct (not_inf_fin _ HP) as [R [_ HR]].
      destruct (dlog (pt_add R (pmul (compute_challenge_hash_tweak (pt_x R) pk msg) (even_point pk)))) as [z Hz].
      exists (ser_scalar z). apply verify_bytes_iff. exists R, z. rewrite HR in *. repeat split; congruence.
  - intros s H. apply verify_bytes_iff in H as (R & z & HR & E & _).
    rewrite <- (K s), E, sig_second, int_ser. split; [apply ser_scalar_len | apply fz_n].
Qed.
End C62_one_s_per_nonce.

Section C62_one_s_per_presignature.
Context {Pr : prims}.
Add Ring ring_C62_one_s_per_presignature : (fe_ring_theory (n := @ord Pr)).
Lemma C62_one_s_per_presignature_proof {Laws : prims_ok Pr} {Tags : tags_ok Pr} (pk : point Pr) (msg : bytes) (T R : pt) :
  exists s : mscalar Pr, forall s',
    verify_single_adaptor pk {| a_R := R; a_s := s' |} msg T = Ok tt <-> s' = s.
Proof.
  destruct (dlog (pt_add (pneg_if (pt_odd (pt_add R T)) R) (pmul (chal (pt_add R T) pk msg) (even_point pk)))) as [s Hs].
  exists s. intro s'. rewrite verify_adaptor_iff. cbn [a_R a_s]. rewrite Hs. split; [apply gmul_inj | congruence].
Qed.
End C62_one_s_per_presignature.

Section C63_other_message_or_key.
Context {Pr : prims}.
Add Ring ring_C63_other_message_or_key : (fe_ring_theory (n := @ord Pr)).
Lemma C63_other_message_or_key_proof {Laws : prims_ok Pr} {Tags : tags_ok Pr} (pk pk' : point Pr) (sig : bytes) (msg msg' : bytes) (H : verify_single_bytes pk sig msg = Ok tt) :
  let e := fun (P : point Pr) m => int_from_bytes (tagged_hash "BIP0340/challenge" (firstn 32 sig ++ xbytes P ++ m)) mod n_ in
  let even := fun P : point Pr => if has_even_y P then pval P else pt_neg P in
  (verify_single_bytes pk sig msg' = Ok tt <-> e pk msg' = e pk msg) /\
  (verify_single_bytes pk' sig msg' = Ok tt <-> point_mul (even pk') (e pk' msg') = point_mul (even pk) (e pk msg)).
Proof.
  cbv zeta. apply verify_bytes_iff in H as (R & s & HR & -> & G). rewrite sig_first, !chal_int, fz_inj_iff, !even_if, !point_mul_pmul.
  assert (W : forall (q : point Pr) m, verify_single_bytes q (pt_x R ++ ser_scalar s) m = Ok tt <->
     gmul s = pt_add R (pmul (compute_challenge_hash_tweak (pt_x R) q m) (even_point q))).
  { intros q m. rewrite verify_bytes_iff. split.
    - intros (R' & s' & HR' & E & G'). apply sig_parts in E as [<- <-]; assumption.
    - intro G'. exists R, s. auto. }
  rewrite !W. split.
  - split; [intro E; rewrite G in E; apply add_cancel_l, pmul_fin_inj in E; congruence | intros ->; exact G].
  - split; [intro E; rewrite G in E; apply add_cancel_l in E; congruence | intros ->; exact G].
Qed.
End C63_other_message_or_key.

Section C63_presignatures.
Context {Pr : prims}.
Add Ring ring_C63_presignatures : (fe_ring_theory (n := @ord Pr)).
Lemma C63_presignatures_proof {Laws : prims_ok Pr} {Tags : tags_ok Pr} (pk : point Pr) (sg : adaptor_sig Pr) (T : pt) (msg msg' : bytes) (H : verify_single_adaptor pk sg msg T = Ok tt) :
  let e := fun m => int_from_bytes (tagged_hash "BIP0340/challenge" (xbytes (pt_add (a_R sg) T) ++ xbytes pk ++ m)) mod n_ in
  verify_single_adaptor pk sg msg' T = Ok tt <-> e msg' = e msg.
Proof.
  cbv zeta. unfold xbytes at 1 3. rewrite !chal_int, fz_inj_iff. rewrite verify_adaptor_iff in *. unfold chal in *. rewrite H. split.
  - intro E. apply add_cancel_l, pmul_fin_inj in E. congruence.
  - intros ->. reflexivity.
Qed.
End C63_presignatures.

Section C64_two_signatures_reveal_key.
Context {Pr : prims}.
Add Ring ring_C64_two_signatures_reveal_key : (fe_ring_theory (n := @ord Pr)).
Lemma C64_two_signatures_reveal_key_proof {Laws : prims_ok Pr} {Tags : tags_ok Pr} (pk : point Pr) (sig sig' : bytes) (msg msg' : bytes) (H : verify_single_bytes pk sig msg = Ok tt) (H' : verify_single_bytes pk sig' msg' = Ok tt) (HR : firstn 32 sig = firstn 32 sig') :
  let e := fun m => int_from_bytes (tagged_hash "BIP0340/challenge" (firstn 32 sig ++ xbytes pk ++ m)) mod n_ in
  let P := if has_even_y pk then pval pk else pt_neg pk in
  let D := e msg - e msg' in
  let ds := int_from_bytes (skipn 32 sig) - int_from_bytes (skipn 32 sig') in
  (forall x : scalar Pr, point_mul pt_G (fz x) = P -> (D * fz x) mod n_ = ds mod n_) /\
  (D mod n_ <> 0 -> forall x : scalar Pr, (D * fz x) mod n_ = ds mod n_ -> point_mul pt_G (fz x) = P).
Proof.
  cbv zeta. apply verify_bytes_iff in H as (R & s & HO & -> & G), H' as (R' & s' & HO' & -> & G').
  rewrite !sig_first in HR. assert (R = R') as <- by (apply even_x_inj; assumption).
  rewrite sig_first, !sig_second, !int_ser, !chal_int, even_if.
  set (e := compute_challenge_hash_tweak (pt_x R) pk msg) in *. set (e' := compute_challenge_hash_tweak (pt_x R) pk msg') in *.
  clearbody e e'. destruct (dlog (even_point pk)) as [k Hk]. rewrite Hk in *.
  assert (E : fmul (fsub e e') k = fsub s s').
  { apply gmul_inj. rewrite gmul_sub, G, G', gmul_mul, pmul_sub. unfold psub. rewrite neg_add.
    set (A := pmul e (gmul k)). set (B := pt_neg (pmul e' (gmul k))).
    transitivity (pt_add (pt_add R (pt_neg R)) (pt_add A B)); [rewrite add_neg_r, add_O_l; reflexivity|].
    rewrite !add_assoc. f_equal. rewrite <- !add_assoc. f_equal. apply add_comm. }
  assert (Z : forall x : mscalar Pr, ((fz e - fz e') * fz x) mod n_ = (fz s - fz s') mod n_ <-> fmul (fsub e e') x = fsub s s').
  { intro x. rewrite !mod_n, of_Z_mul, !of_Z_sub, !of_Z_fz. apply fz_inj_iff. }
  split.
  - intros x Hx. rewrite point_mul_G in Hx. apply gmul_inj in Hx. apply Z. rewrite Hx. exact E.
  - intros HD x Hx. apply Z in Hx. rewrite point_mul_G. f_equal. apply (fmul_cancel_l ord_prime (fsub e e')); [|congruence].
    intro E0. apply HD. rewrite mod_n, of_Z_sub, !of_Z_fz, E0. reflexivity.
Qed.
End C64_two_signatures_reveal_key.

Section C64_two_sessions_reveal_group_key.
Context {Pr : prims}.
Add Ring ring_C64_two_sessions_reveal_group_key : (fe_ring_theory (n := @ord Pr)).
Lemma C64_two_sessions_reveal_group_key_proof {Laws : prims_ok Pr} {Tags : tags_ok Pr} (c c' : key_agg_ctx Pr) (an an' : agg_nonce Pr) (sigs sigs' : list (mscalar Pr)) (msg msg' : bytes) (l l' : lifted_sig Pr) (sks : list (scalar Pr)) (d : scalar Pr) (Hagg : aggregate_partial_signatures c an sigs msg = Ok l) (Hagg' : aggregate_partial_signatures c' an' sigs' msg' = Ok l') (Hkey : aggregated_pubkey c' = aggregated_pubkey c) (HR : xbytes (l_R l) = xbytes (l_R l')) (Hd : aggregated_seckey c sks = Ok d) :
  let Q := aggregated_pubkey c in
  let e := fun m => int_from_bytes (tagged_hash "BIP0340/challenge" (xbytes (l_R l) ++ xbytes Q ++ m)) mod n_ in
  let D := e msg - e msg' in
  let ds := fz (l_s l) - fz (l_s l') in
  let dd := if has_even_y Q then fz d else n_ - fz d in
  (D * dd) mod n_ = ds mod n_ /\
  (D mod n_ <> 0 -> forall x : mscalar Pr, (D * fz x) mod n_ = ds mod n_ -> fz x = dd).
Proof.
  unfold aggregated_pubkey in *. apply aggregate_plain_verifies in Hagg as [V HO], Hagg' as [V' HO']. rewrite Hkey in V'.
  unfold xbytes in HR. assert (ER : l_R l = l_R l') by (apply even_x_inj; assumption).
  apply verify_lifted_iff in V; [|exact HO]. apply verify_lifted_iff in V'; [|exact HO']. rewrite <- ER in V'. unfold chal in V, V'.
  assert (Hg : gmul d = pubkey c).
  { unfold aggregated_seckey in Hd. destruct (seckey_loop _ _ _) as [acc|]; [|discriminate].
    destruct (not_zero _) as [x|]; [|discriminate]. destruct (pt_eqb (gmul x) (pubkey c)) eqn:E; cbn [negb] in Hd; [|discriminate].
    apply pt_eqb_eq in E. assert (x = d) as <- by congruence. exact E. }
  cbv zeta. rewrite !(chal_int (xbytes (l_R l))). unfold xbytes.
  set (e := compute_challenge_hash_tweak (pt_x (l_R l)) (pubkey c) msg) in *.
  set (e' := compute_challenge_hash_tweak (pt_x (l_R l)) (pubkey c) msg') in *. clearbody e e'.
  set (k := fneg_if (pt_odd (pubkey c)) d).
  assert (Hk : pval (even_point (pubkey c)) = gmul k).
  { rewrite even_pneg, <- Hg. unfold k. rewrite <- Hg. destruct (pt_odd (gmul d)); cbn [pneg_if fneg_if]; [rewrite gmul_neg|]; reflexivity. }
  assert (Hdd : (if has_even_y (pubkey c) then fz d else n_ - fz d) = fz k).
  { unfold k, has_even_y. destruct (pt_odd (pubkey c)); cbn [negb fneg_if]; [|reflexivity].
    unfold fneg. rewrite fz_of_Z. fold n_. pose proof (fz_range d). fold n_ in *. pose proof (scalar_nz d) as Nz.
    assert (fz d <> 0) by (intro Z0; apply Nz; apply fe_ext; rewrite Z0; reflexivity).
    replace (- fz d) with (n_ - fz d + (-1) * n_) by ring. unfold n_ in *. rewrite Z_mod_plus_full. symmetry. apply Z.mod_small. lia. }
  rewrite Hdd. clear Hdd. clearbody k. rewrite Hk in V, V'.
  assert (E : fmul (fsub e e') k = fsub (l_s l) (l_s l')).
  { apply gmul_inj. rewrite gmul_sub, V, V', gmul_mul, pmul_sub. unfold psub. rewrite neg_add.
    set (A := pmul e (gmul k)). set (B := pt_neg (pmul e' (gmul k))).
    transitivity (pt_add (pt_add (l_R l) (pt_neg (l_R l))) (pt_add A B)); [rewrite add_neg_r, add_O_l; reflexivity|].
    rewrite !add_assoc. f_equal. rewrite <- !add_assoc. f_equal. apply add_comm. }
  assert (Z : forall x : mscalar Pr, ((fz e - fz e') * fz x) mod n_ = (fz (l_s l) - fz (l_s l')) mod n_ <-> fmul (fsub e e') x = fsub (l_s l) (l_s l')).
  { intro x. rewrite !mod_n, of_Z_mul, !of_Z_sub, !of_Z_fz. apply fz_inj_iff. }
  split; [apply Z; exact E|].
  intros HD x Hx. apply Z in Hx. f_equal. apply (fmul_cancel_l ord_prime (fsub e e')); [|congruence].
  intro E0. apply HD. rewrite mod_n, of_Z_sub, !of_Z_fz, E0. reflexivity.
Qed.
End C64_two_sessions_reveal_group_key.

Section C65_batch_error_rate.
Context {Pr : prims}.
Add Ring ring_C65_batch_error_rate : (fe_ring_theory (n := @ord Pr)).
Lemma C65_batch_error_rate_proof {Laws : prims_ok Pr} {Tags : tags_ok Pr} (rows : list (batch_row Pr)) (Hbad : ~ Forall row_valid rows) :
  let admissible := fun cs : list (mscalar Pr) =>
    length cs = length rows /\ hd_error cs = Some fone /\ Forall (fun a => a <> fzero) cs in
  (admissible (batch_coefficients rows) /\
   (verify_batch rows = Ok tt <-> batch_equation (batch_coefficients rows) rows)) /\
  (forall V, NoDup V -> (forall cs, In cs V -> admissible cs /\ batch_equation cs rows) ->
     (n_ - 1) * Z.of_nat (length V) <= (n_ - 1) ^ (Z.of_nat (length rows) - 1)).
Proof.
  cbv zeta. split.
  { destruct (@C24_batch_soundness_proof Pr Laws Tags) as (K & _). destruct (K rows) as (K1 & K2 & K3).
    split; [|exact K3]. split; [exact K1|]. split; [|exact K2].
    destruct rows as [|r rows]; [destruct Hbad; constructor | reflexivity]. }
  intros V Hdistinct HV0.
  assert (HV : forall cs, In cs V -> length cs = length rows /\ hd_error cs = Some fone /\ Forall (fun a => a <> fzero) cs /\ batch_equation cs rows)
    by (intros cs Hc; destruct (HV0 cs Hc) as ((A1 & A2 & A3) & A4); auto).
  clear HV0.
  pose proof (Znumtheory.prime_ge_2 _ ord_prime) as Hn2. change (Z.pos ord) with n_ in Hn2.
  destruct rows as [|r0 rest]; [destruct Hbad; constructor|].
  destruct (Forall_dec row_valid row_valid_dec rest) as [Hrest|Hrest].
  - assert (V = []) as ->.
    { destruct V as [|cs V]; [reflexivity|]. destruct (HV cs (or_introl eq_refl)) as (_ & Hh & _ & E). exfalso.
      destruct cs as [|a cs]; [discriminate|]. cbn [hd_error] in Hh. assert (a = fone) by congruence. subst a.
      apply batch_equation_defects in E. cbn [defects] in E. rewrite defects_valid, add_O_r, pmul_1 in E by exact Hrest.
      apply Hbad. constructor; [apply row_valid_defect, E | exact Hrest]. }
    cbn [length]. rewrite Z.mul_0_r. apply Z.pow_nonneg. lia.
  - apply neg_Forall_Exists_neg, Exists_exists in Hrest as (r & Hin & Hr); [|exact row_valid_dec].
    apply in_split in Hin as (rows1 & rows2 & ->).
    set (i := length rows1).
    pose (f := fun cs : list (mscalar Pr) => firstn i (tl cs) ++ skipn (S i) (tl cs)).
    assert (D : forall cs, In cs V -> exists cs1 a cs2, cs = fone :: cs1 ++ a :: cs2 /\ length cs1 = i /\
        length cs2 = length rows2 /\ f cs = cs1 ++ cs2 /\ Forall (fun x => x <> fzero) (cs1 ++ cs2) /\
        batch_equation ((fone :: cs1) ++ a :: cs2) ((r0 :: rows1) ++ r :: rows2)).
    { intros cs Hc. destruct (HV cs Hc) as (HL & Hh & HF & E). destruct cs as [|x cs]; [discriminate|].
      cbn [hd_error] in Hh. assert (x = fone) by congruence. subst x. cbn [length] in HL. rewrite app_length in HL. cbn [length] in HL.
      fold i in HL. assert (Hl1 : length (firstn i cs) = i) by (rewrite firstn_length; lia).
      rewrite <- (firstn_skipn i cs) in E, HF |- *. destruct (skipn i cs) as [|a cs2] eqn:ES.
      { apply (f_equal (@length _)) in ES. rewrite skipn_length in ES. cbn [length] in ES. lia. }
      assert (Hl2 : length cs2 = length rows2).
      { apply (f_equal (@length _)) in ES. rewrite skipn_length in ES. cbn [length] in ES. lia. }
      exists (firstn i cs), a, cs2. split; [reflexivity|]. split; [exact Hl1|]. split; [exact Hl2|].
      split.
      { unfold f. cbn [tl]. rewrite firstn_app_exact by exact Hl1. f_equal.
        change (a :: cs2) with ([a] ++ cs2). rewrite app_assoc. apply skipn_app_exact. rewrite app_length, Hl1. cbn [length]. lia. }
      split; [|exact E]. inversion HF as [|? ? _ HF']; subst. apply Forall_app in HF' as [F1 F2]. inversion F2; subst.
      apply Forall_app; split; assumption. }
    assert (Hmap : NoDup (map f V)).
    { apply NoDup_map_in; [|exact Hdistinct]. intros cs cs' Hc Hc' E.
      destruct (D _ Hc) as (c1 & a & c2 & -> & L1 & L2 & F & _ & B), (D _ Hc') as (d1 & b & d2 & -> & L1' & L2' & F' & _ & B').
      rewrite F, F' in E. assert (E1 := f_equal (firstn i) E). assert (E2 := f_equal (skipn i) E).
      rewrite !firstn_app_exact in E1 by assumption. rewrite !skipn_app_exact in E2 by assumption. subst d1 d2.
      assert (a = b) as <-; [|reflexivity].
      apply (coefficient_unique (fone :: c1) a b c2 (r0 :: rows1) r rows2); [cbn [length]; rewrite L1; reflexivity | exact Hr | exact B | exact B']. }
    assert (Hincl : incl (map f V) (vecs (i + length rows2))).
    { intros v Hv. apply in_map_iff in Hv as (cs & <- & Hc). destruct (D _ Hc) as (c1 & a & c2 & _ & L1 & L2 & F & HF & _).
      rewrite F, <- L1, <- L2, <- app_length. apply vecs_all, HF. }
    pose proof (NoDup_incl_length Hmap Hincl) as HLen. rewrite map_length, vecs_len in HLen.
    apply Nat2Z.inj_le in HLen. rewrite Nat2Z.inj_pow, Nat2Z.inj_sub, positive_nat_Z in HLen by lia.
    change (Z.pos ord) with n_ in HLen. change (Z.of_nat 1) with 1 in HLen.
    cbn [length]. rewrite app_length. cbn [length]. fold i.
    replace (Z.of_nat (S (i + S (length rows2))) - 1) with (Z.succ (Z.of_nat (i + length rows2))) by lia.
    rewrite Z.pow_succ_r by lia. apply Z.mul_le_mono_nonneg_l; [lia | exact HLen].
Qed.
End C65_batch_error_rate.

Section C68_second_adaptor_point.
Context {Pr : prims}.
Add Ring ring_C68_second_adaptor_point : (fe_ring_theory (n := @ord Pr)).
Lemma C68_second_adaptor_point_proof {Laws : prims_ok Pr} {Tags : tags_ok Pr} (pk : point Pr) (sg : adaptor_sig Pr) (msg : bytes) (T T' : pt) (H : verify_single_adaptor pk sg msg T = Ok tt) :
  let A := fun X => pt_add (a_R sg) X in
  let e := fun X => int_from_bytes (tagged_hash "BIP0340/challenge" (xbytes (A X) ++ xbytes pk ++ msg)) mod n_ in
  let P := if has_even_y pk then pval pk else pt_neg pk in
  let R := if has_even_y (A T) then a_R sg else pt_neg (a_R sg) in
  (has_even_y (A T') = has_even_y (A T) -> (verify_single_adaptor pk sg msg T' = Ok tt <-> e T' = e T)) /\
  (has_even_y (A T') <> has_even_y (A T) ->
     (verify_single_adaptor pk sg msg T' = Ok tt <-> point_mul P ((e T' - e T) mod n_) = pt_add R R)) /\
  (has_even_y (A T') = has_even_y (A T) -> A T <> pt_O -> A T' <> pt_O ->
     xbytes (A T') = xbytes (A T) -> T' = T).
Proof.
  cbv zeta. rewrite !even_if. unfold xbytes at 1 3 5 7. rewrite !chal_int. rewrite verify_adaptor_iff in *. unfold chal in *.
  set (A := pt_add (a_R sg) T) in *. set (A' := pt_add (a_R sg) T'). set (e := compute_challenge_hash_tweak (pt_x A) pk msg) in *.
  set (e' := compute_challenge_hash_tweak (pt_x A') pk msg). rewrite fz_inj_iff. unfold has_even_y in *.
  split; [|split].
  - intro Hp. assert (Ho : pt_odd A' = pt_odd A) by (destruct (pt_odd A), (pt_odd A'); try reflexivity; discriminate).
    rewrite Ho, H. split; [intro E; apply add_cancel_l, pmul_fin_inj in E; congruence | intros ->; reflexivity].
  - intro Hp. assert (Ho : pt_odd A' = negb (pt_odd A)) by (destruct (pt_odd A), (pt_odd A'); try reflexivity; exfalso; apply Hp; reflexivity).
    assert (Ed : (fz e' - fz e) mod n_ = fz (fsub e' e)) by reflexivity. rewrite Ed, point_mul_pmul, pmul_sub, Ho, H.
    unfold pneg_if, psub. set (X := pmul e (even_point pk)). set (Y := pmul e' (even_point pk)).
    assert (Z : forall B : pt, pt_add B X = pt_add (pt_neg B) Y <-> pt_add Y (pt_neg X) = pt_add B B).
    { intro B. destruct (dlog B) as [b ->], (dlog X) as [x ->], (dlog Y) as [y ->].
      rewrite <- !gmul_neg, <- !gmul_add. split; intro E; apply gmul_inj in E; f_equal.
      - transitivity (fsub (fadd (fneg b) y) (fsub x b)); [ring|]. rewrite <- E. ring.
      - transitivity (fadd (fneg b) (fadd (fadd b b) x)); [ring|]. rewrite <- E. ring. }
    destruct (pt_odd A); cbn [negb]; [|apply Z]. rewrite <- (Z (pt_neg (a_R sg))), neg_neg. reflexivity.
  - intros Hp HA HA' Hx. destruct (x_inj A' A HA' HA Hx) as [E|E].
    + apply add_cancel_l in E. exact E.
    + rewrite E, odd_neg in Hp by exact HA. destruct (pt_odd A); discriminate.
Qed.
End C68_second_adaptor_point.

Section C68_decrypted_signature.
Context {Pr : prims}.
Add Ring ring_C68_decrypted_signature : (fe_ring_theory (n := @ord Pr)).
Lemma C68_decrypted_signature_proof {Laws : prims_ok Pr} {Tags : tags_ok Pr} (pk : point Pr) (l : lifted_sig Pr) (msg : bytes) (Heven : has_even_y (l_R l) = true) :
  verify_single_adaptor pk (adaptor_new (l_R l) (l_s l)) msg pt_O = Ok tt <-> verify_single_lifted pk l msg = Ok tt.
Proof.
  assert (Ho : pt_odd (l_R l) = false) by (unfold has_even_y in Heven; destruct (pt_odd (l_R l)); [discriminate | reflexivity]).
  rewrite verify_adaptor_iff, verify_lifted_iff by exact Ho. cbn [adaptor_new a_R a_s]. rewrite add_O_r. unfold chal. rewrite Ho. reflexivity.
Qed.
End C68_decrypted_signature.

Section C68_two_points_for_one_presignature.
Context {Pr : prims}.
Add Ring ring_C68_two_points_for_one_presignature : (fe_ring_theory (n := @ord Pr)).
Lemma C68_two_points_for_one_presignature_proof {Laws : prims_ok Pr} {Tags : tags_ok Pr} (sk : scalar Pr) (msg : bytes) (Hn : 3 < @n_ Pr) :
  exists (sg : adaptor_sig Pr) (t t' : mscalar Pr) (l l' : lifted_sig Pr),
    let pk := base_mul sk in
    let e := fun R : point Pr => int_from_bytes (tagged_hash "BIP0340/challenge" (xbytes R ++ xbytes pk ++ msg)) mod n_ in
    t <> t' /\
    verify_single_adaptor pk sg msg (point_mul pt_G (fz t)) = Ok tt /\
    verify_single_adaptor pk sg msg (point_mul pt_G (fz t')) = Ok tt /\
    adapt sg t = Some l /\ adapt sg t' = Some l' /\
    verify_single_lifted pk l msg = Ok tt /\ verify_single_lifted pk l' msg = Ok tt /\
    xbytes (l_R l) <> xbytes (l_R l') /\
    (e (l_R l) <> e (l_R l') ->
       a_R sg <> pt_O /\ reveal_secret sg l = Some t /\ reveal_secret sg l' = Some t').
Proof.
  destruct (dlog_scalar (even_point (base_mul sk))) as [d Hd].
  assert (TWO : of_Z ord 2 <> fzero :> mscalar Pr).
  { intro E. apply (f_equal fz) in E. rewrite !fz_of_Z in E. unfold n_ in Hn. rewrite !Z.mod_small in E by lia. discriminate. }
  destruct (finv_exists ord_prime _ TWO) as [h Hh].
  (* the two adapted nonces *)
  set (u := fneg_if (pt_odd (gmul (Pr := Pr) fone)) (fone (n := @ord Pr))).
  set (v := fneg_if (negb (pt_odd (gmul (Pr := Pr) (of_Z ord 2)))) (of_Z (@ord Pr) 2)).
  assert (N1 : gmul (Pr := Pr) fone <> pt_O) by (rewrite gmul_1; exact G_nz).
  assert (N2 : gmul (Pr := Pr) (of_Z ord 2) <> pt_O) by (intro E; apply gmul_eq_O in E; contradiction).
  assert (Hu : pt_odd (gmul u) = false) by (unfold u; rewrite <- pneg_if_gmul, odd_pneg_if by exact N1; apply xorb_nilpotent).
  assert (Hv : pt_odd (gmul v) = true) by (unfold v; rewrite <- pneg_if_gmul, odd_pneg_if by exact N2; generalize (pt_odd (gmul (Pr := Pr) (of_Z ord 2))); intros []; reflexivity).
  assert (NU : gmul u <> pt_O) by (unfold u; rewrite <- pneg_if_gmul, pneg_if_eq_O; exact N1).
  assert (NV : gmul v <> pt_O) by (unfold v; rewrite <- pneg_if_gmul, pneg_if_eq_O; exact N2).
  assert (DIFF : pt_x (gmul u) <> pt_x (gmul v)).
  { intro E. apply (x_inj _ _ NU NV) in E. assert (K : gmul u = gmul v \/ gmul u = gmul (fneg v)) by (rewrite gmul_neg; exact E).
    clear E. assert (K' : u = v \/ u = fneg v) by (destruct K as [K|K]; apply gmul_inj in K; auto). clear K.
    assert (S : forall b (a : mscalar Pr), fneg_if b a = a \/ fneg_if b a = fneg a) by (intros [] a; auto).
    assert (K2 : fone = of_Z (@ord Pr) 2 \/ fone = fneg (of_Z (@ord Pr) 2)).
    { destruct (S (pt_odd (gmul (Pr := Pr) fone)) fone) as [E1|E1];
        destruct (S (negb (pt_odd (gmul (Pr := Pr) (of_Z ord 2)))) (of_Z ord 2)) as [E2|E2]; fold u in E1; fold v in E2; rewrite E1, E2 in K'.
      - destruct K' as [K|K]; [left | right]; exact K.
      - destruct K' as [K|K]; [right; exact K | left; rewrite K; ring].
      - destruct K' as [K|K]; [right | left]; transitivity (fneg (fneg (fone (n := @ord Pr)))); try ring; rewrite K; ring.
      - destruct K' as [K|K]; [left | right]; transitivity (fneg (fneg (fone (n := @ord Pr)))); try ring; rewrite K; ring. }
    unfold n_ in Hn. unfold fone in K2. rewrite <- of_Z_opp in K2. destruct K2 as [K|K]; apply (f_equal fz) in K; rewrite !fz_of_Z in K.
    - rewrite !Z.mod_small in K by lia. discriminate.
    - rewrite (Z.mod_small 1) in K by lia. rewrite <- (Z_mod_plus_full (-2) 1) in K. rewrite Z.mod_small in K by lia. lia. }
  clearbody u v. clear N1 N2.
  destruct (not_inf_fin _ NU) as [U [_ EU]], (not_inf_fin _ NV) as [V [_ EV]].
  set (e := compute_challenge_hash_tweak (pt_x U) (base_mul sk) msg). set (e' := compute_challenge_hash_tweak (pt_x V) (base_mul sk) msg).
  set (r := fmul (fmul (fsub e' e) h) (sval d)). set (s := fmul (fmul (fadd e' e) h) (sval d)).
  set (sg := {| a_R := gmul r; a_s := s |} : adaptor_sig Pr). set (t := fsub u r). set (t' := fsub v r).
  assert (At : pt_add (a_R sg) (gmul t) = gmul u) by (cbn [a_R sg]; unfold t; rewrite <- gmul_add; f_equal; ring).
  assert (At' : pt_add (a_R sg) (gmul t') = gmul v) by (cbn [a_R sg]; unfold t'; rewrite <- gmul_add; f_equal; ring).
  assert (Hd' : pval (even_point (base_mul sk)) = gmul d) by (rewrite Hd; apply base_mul_val).
  assert (HALF : fadd h h = fone) by (rewrite <- Hh, (of_Z_add 1 1 : of_Z ord 2 = _); change (of_Z ord 1) with (fone (n := @ord Pr)); ring).
  assert (V1 : verify_single_adaptor (base_mul sk) sg msg (gmul t) = Ok tt).
  { apply verify_adaptor_iff. rewrite At, Hu. unfold chal. rewrite <- EU. fold e. cbn [pneg_if a_R a_s sg]. rewrite Hd', <- gmul_mul, <- gmul_add.
    f_equal. unfold s, r. transitivity (fadd (fmul (fmul (fsub e' e) h) (sval d)) (fmul (fmul e (fadd h h)) (sval d))); [ring|]. rewrite HALF. ring. }
  assert (V2 : verify_single_adaptor (base_mul sk) sg msg (gmul t') = Ok tt).
  { apply verify_adaptor_iff. rewrite At', Hv. unfold chal. rewrite <- EV. fold e'. cbn [pneg_if a_R a_s sg]. rewrite Hd', <- gmul_mul, <- gmul_neg, <- gmul_add.
    f_equal. unfold s, r. transitivity (fadd (fneg (fmul (fmul (fsub e' e) h) (sval d))) (fmul (fmul e' (fadd h h)) (sval d))); [ring|]. rewrite HALF. ring. }
  assert (A1 : exists l, adapt sg t = Some l). { destruct (adapt sg t) as [l|] eqn:E; [eauto|]. apply adapt_None in E. rewrite At in E. contradiction. }
  assert (A2 : exists l, adapt sg t' = Some l). { destruct (adapt sg t') as [l|] eqn:E; [eauto|]. apply adapt_None in E. rewrite At' in E. contradiction. }
  destruct A1 as [l A1], A2 as [l' A2]. exists sg, t, t', l, l'. cbv zeta. rewrite !point_mul_G.
  assert (X1 : pt_x (l_R l) = pt_x U). { apply adapt_Some in A1 as (_ & -> & _). rewrite At, <- EU, to_even_y_x. reflexivity. }
  assert (X2 : pt_x (l_R l') = pt_x V). { apply adapt_Some in A2 as (_ & -> & _). rewrite At', <- EV, to_even_y_x. reflexivity. }
  split; [|split; [exact V1|split; [exact V2|split; [exact A1|split; [exact A2|split; [|split; [|split]]]]]]].
  - intro E. apply DIFF. rewrite <- At, <- At', E. reflexivity.
  - (eapply verified_adapt; [|eassumption]; assumption).
  - (eapply verified_adapt; [|eassumption]; assumption).
  - unfold xbytes. rewrite X1, X2, EU, EV. exact DIFF.
  - unfold xbytes at 1 3. rewrite X1, X2, !chal_int. fold e e'. intro HE.
    assert (HR : a_R sg <> pt_O).
    { cbn [a_R sg]. intro E. apply gmul_eq_O in E. unfold r in E. apply (fmul_integral ord_prime) in E as [E|E]; [|exact (scalar_nz d E)].
      apply (fmul_integral ord_prime) in E as [E|E].
      - apply HE. f_equal. transitivity (fadd e (fsub e' e)); [rewrite E; ring | ring].
      - rewrite E in HALF. apply (f_equal fz) in HALF. unfold n_ in Hn. unfold fadd, fzero, fone in HALF. rewrite !fz_of_Z in HALF.
        rewrite !Z.mod_small in HALF by (rewrite ?Z.mod_small by lia; lia). discriminate. }
    split; [exact HR|]. split.
    + destruct (reveal_complete _ _ _ A1) as [E|[E _]]; [exact E | contradiction].
    + destruct (reveal_complete _ _ _ A2) as [E|[E _]]; [exact E | contradiction].
Qed.
End C68_two_points_for_one_presignature.

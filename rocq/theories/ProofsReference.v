(** Proofs of the theorems of PropertiesReference.v. *)
From Coq Require Import String List ZArith.
From Verif Require Import Bytes BytesFacts Prims PrimsFacts Errors SpecTags SpecBIP327
  KeyAgg Nonces Signature Signing SigAgg Bip340 SpecCtx SpecSecp SpecReference Secp256k1 SecpFacts ReferenceFacts ProofsKeyAgg ProofsSecp ProofsSecpLimits.
Import ListNotations.
Open Scope list_scope.
Open Scope Z_scope.
From Coq Require Import Lia.
From Verif Require Import CodecFacts SpecView SpecFacts SpecSigning KeyAggCodec EncodingFacts NoncesFacts SpecNonces ProofsCodecs ProofsSigning ProofsNonces.
Open Scope Z_scope.

Section ByteArguments.
Context {Pr : prims} {Laws : prims_ok Pr} {Tags : tags_ok Pr}.

(** Every list of byte strings is a list of encodings, or has a first one that is not. *)
Lemma split_bad {A} (dec : bytes -> option A) (ser : A -> bytes) (Hd : forall b a, dec b = Some a <-> b = ser a) (l : list bytes) :
  (exists l1 b l2, l = map ser l1 ++ b :: l2 /\ dec b = None) \/ exists l1, l = map ser l1.
Proof.
  induction l as [|b l IH]; [right; exists []; reflexivity|].
  destruct (dec b) as [a|] eqn:E.
  - apply Hd in E as ->. destruct IH as [(l1 & b & l2 & -> & Hb)|(l1 & ->)].
    + left. exists (a :: l1), b, l2. split; [reflexivity | exact Hb].
    + right. exists (a :: l1). reflexivity.
  - left. exists [], b, l. split; [reflexivity | exact E].
Qed.
Lemma first_bad_of {A} (dec : bytes -> option A) (ser : A -> bytes) (Hd : forall b a, dec b = Some a <-> b = ser a) l1 b l2 :
  dec b = None ->
  nth_error (map ser l1 ++ b :: l2) (length l1) = Some b /\ dec b = None /\
  forall j b', (j < length l1)%nat -> nth_error (map ser l1 ++ b :: l2) j = Some b' -> dec b' <> None.
Proof.
  intro Hb. split; [|split; [exact Hb|]].
  - rewrite nth_error_app2; rewrite map_length; [|apply le_n]. rewrite Nat.sub_diag. reflexivity.
  - intros j b' Hj H. rewrite nth_error_app1 in H by (rewrite map_length; exact Hj).
    rewrite nth_error_map in H. destruct (nth_error l1 j) as [a|]; [|discriminate]. injection H as <-.
    rewrite (proj2 (Hd _ a) eq_refl). discriminate.
Qed.
Lemma Forall2_enc {A} (dec : bytes -> option A) (ser : A -> bytes) (Hd : forall b a, dec b = Some a <-> b = ser a) (l : list A) bs :
  Forall2 (fun b a => dec b = Some a) bs l <-> bs = map ser l.
Proof.
  split.
  - induction 1 as [|b a bs l H _ IH]; [reflexivity|]. apply Hd in H as ->. now rewrite IH.
  - intros ->. induction l as [|a l IH]; constructor; [now apply Hd | exact IH].
Qed.

Lemma firstn_plus {A} (a b : nat) : forall l : list A, firstn (a + b) l = firstn a l ++ firstn b (skipn a l).
Proof. induction a as [|a IH]; intros [|x l]; cbn [Nat.add firstn skipn app]; [reflexivity | reflexivity | now rewrite firstn_nil | now rewrite IH]. Qed.
Lemma apply_zero_tweak (c0 : key_agg_ctx Pr) x : exists g t, apply_tweak (Pr := Pr) (ref_ctx c0) (zeros 32) x =
  Ret (KeyAggCtx (pneg_if (x && pt_odd (pubkey c0)) (pubkey c0)) g t).
Proof.
  unfold apply_tweak. rewrite zeros_length, Nat.eqb_refl. cbn [py_check]. cbv zeta.
  assert (E0 : int_from_bytes (zeros 32) = 0) by reflexivity. rewrite E0.
  rewrite (proj2 (Z.leb_gt n_ 0)) by (unfold n_; reflexivity). cbn [negb py_check].
  assert (Hg : (if x && negb (has_even_y (Q_ (ref_ctx c0))) then n_ - 1 else 1) = gacc_of (x && pt_odd (pubkey c0))).
  { unfold has_even_y, ref_ctx, aggregated_pubkey. cbn [Q_]. rewrite negb_involutive. reflexivity. }
  rewrite !Hg. rewrite point_mul_gacc. replace (point_mul pt_G 0) with (@pt_O Pr) by (symmetry; apply smul_0). rewrite add_O_r.
  unfold ref_ctx at 1 2. unfold aggregated_pubkey. cbn [Q_].
  destruct (is_infinite (pneg_if (x && pt_odd (pubkey c0)) (pubkey c0))) eqn:EI;
    [apply is_infinite_O, pneg_if_eq_O in EI; pose proof (is_infinite_point (pubkey c0)) as F; rewrite EI in F; rewrite (proj2 (is_infinite_O _) eq_refl) in F; discriminate|].
  cbn [negb py_check].
  eexists _, _. reflexivity.
Qed.

Lemma apply_tweak_bad k t x : parse_mscalar (Pr := Pr) t = None -> apply_tweak (Pr := Pr) k t x = ValueError.
Proof.
  intro H. apply parse_mscalar_None in H. unfold apply_tweak. destruct (length t =? 32)%nat eqn:EL; cbn [py_check]; [|reflexivity].
  apply Nat.eqb_eq in EL. destruct H as [H|H]; [contradiction|]. cbv zeta. unfold int_from_bytes, n_.
  rewrite (proj2 (Z.leb_le _ _) H). reflexivity.
Qed.
Lemma apply_tweak_only_value k t x : (exists k', apply_tweak (Pr := Pr) k t x = Ret k') \/ apply_tweak (Pr := Pr) k t x = ValueError.
Proof.
  unfold apply_tweak. cbv zeta.
  destruct (length t =? 32)%nat; cbn [py_check]; [|auto]. destruct (negb (n_ <=? _)); cbn [py_check]; [|auto].
  destruct (negb (is_infinite _)); cbn [py_check]; eauto.
Qed.
Lemma apply_tweaks_bad l : forall k, Exists (fun t => parse_mscalar (Pr := Pr) (fst t) = None) l ->
  apply_tweaks (Pr := Pr) k l = ValueError.
Proof.
  induction l as [|[t x] l IH]; intros k H; [inversion H|]. cbn [apply_tweaks].
  inversion H as [y l' H1|y l' H1]; subst.
  - cbn [fst] in H1. rewrite (apply_tweak_bad _ _ _ H1). reflexivity.
  - destruct (apply_tweak_only_value k t x) as [(k' & ->)| ->]; cbn [py_bind]; [now apply IH | reflexivity].
Qed.
Lemma combine_split_map {A B} (l : list (A * B)) : combine (map fst l) (map snd l) = l.
Proof. induction l as [|[a b] l IH]; [reflexivity|]. cbn [map combine fst snd]. now rewrite IH. Qed.

Variables (pks : list (point Pr)) (ts : list (scalar Pr * bool)) (c0 c : key_agg_ctx Pr).
Hypothesis Hnew : key_agg_new pks = Ok c0.
Hypothesis Htw : with_tweaks c0 ts = Ok c.
Let sess (anb msg : bytes) : session :=
  SessionContext anb (map ser_point pks) (map (fun tx : scalar Pr * bool => ser_scalar (fst tx)) ts) (map snd ts) msg.

Lemma aggnonce_bytes anb an : aggnonce_from_bytes (Pr := Pr) anb = Ok an -> anb = aggnonce_to_bytes an.
Proof.
  unfold aggnonce_from_bytes. destruct (length anb =? 66)%nat eqn:EL; cbn [negb]; [|discriminate].
  destruct (parse_mpoint (firstn 33 anb)) as [P|] eqn:E1; [|discriminate]. destruct (parse_mpoint (skipn 33 anb)) as [Q|] eqn:E2; [|discriminate].
  intros [= <-]. apply parse_mpoint_Some in E1, E2. unfold aggnonce_to_bytes. cbn [aR1 aR2]. rewrite <- E1, <- E2. symmetry. apply firstn_skipn.
Qed.
Lemma bad_aggnonce anb msg : length anb = 66%nat -> aggnonce_from_bytes (Pr := Pr) anb = Err InvalidPoint ->
  get_session_values (Pr := Pr) (sess anb msg) = InvalidContribution None CAggnonce.
Proof.
  intros HL H. unfold get_session_values, sess. cbn [s_pubkeys s_tweaks s_is_xonly s_aggnonce s_msg].
  rewrite (key_agg_and_tweak_eq pks c0 ts Hnew), Htw. cbn [py_bind]. rewrite !cpoint_ext_parse.
  unfold aggnonce_from_bytes in H. rewrite HL, Nat.eqb_refl in H. cbn [negb] in H.
  replace (firstn 33 (skipn 33 anb)) with (skipn 33 anb) by (symmetry; apply firstn_all2; rewrite skipn_length, HL; lia).
  destruct (parse_mpoint (firstn 33 anb)) as [P|]; [|reflexivity]. destruct (parse_mpoint (skipn 33 anb)) as [Q|]; [discriminate|]. reflexivity.
Qed.
Lemma sign_bad_aggnonce anb msg sn sk : length anb = 66%nat -> aggnonce_from_bytes (Pr := Pr) anb = Err InvalidPoint ->
  sign (Pr := Pr) sn sk (sess anb msg) = InvalidContribution None CAggnonce.
Proof. intros HL H. unfold sign. rewrite (bad_aggnonce _ _ HL H). reflexivity. Qed.
Lemma verify_bad_aggnonce anb msg psig pn pk : length anb = 66%nat -> aggnonce_from_bytes (Pr := Pr) anb = Err InvalidPoint ->
  partial_sig_verify_internal (Pr := Pr) psig pn pk (sess anb msg) = InvalidContribution None CAggnonce.
Proof. intros HL H. unfold partial_sig_verify_internal. rewrite (bad_aggnonce _ _ HL H). reflexivity. Qed.
Lemma agg_bad_aggnonce anb msg sigs : length anb = 66%nat -> aggnonce_from_bytes (Pr := Pr) anb = Err InvalidPoint ->
  partial_sig_agg (Pr := Pr) sigs (sess anb msg) = InvalidContribution None CAggnonce.
Proof. intros HL H. unfold partial_sig_agg. rewrite (bad_aggnonce _ _ HL H). reflexivity. Qed.

Lemma range_of_parse b : length b = 32%nat ->
  (0 <? int_from_bytes b) && (int_from_bytes b <? @n_ Pr) = match parse_scalar (Pr := Pr) b with Some _ => true | None => false end.
Proof.
  intro HL. destruct (parse_scalar b) as [k|] eqn:E.
  - apply parse_scalar_Some in E as ->. rewrite int_ser. apply scalar_range.
  - apply not_true_is_false. intro H. apply andb_true_iff in H as [H1 H2]. apply Z.ltb_lt in H1, H2.
    apply parse_scalar_None in E as [E|[E|E]]; [contradiction | |]; unfold int_from_bytes, n_ in *; lia.
Qed.
Lemma sign_bytes an msg snb skb : length snb = 97%nat -> length skb = 32%nat ->
  sign (Pr := Pr) snb skb (sess (aggnonce_to_bytes an) msg) =
  match secnonce_from_bytes (Pr := Pr) snb, parse_scalar (Pr := Pr) skb with
  | Ok sn, Some sk =>
      if bytes_eqb (ser_point (base_mul sk)) (skipn 64 snb) then
        match sign_partial c sk sn an msg with
        | Ok s => Ret (ser_scalar s)
        | Err SE_UnknownKey => ValueError
        | _ => AssertFailed
        end
      else ValueError
  | _, _ => ValueError
  end.
Proof.
  intros HLn HLk.
  assert (L1 : length (firstn 32 snb) = 32%nat) by (rewrite firstn_length, HLn; reflexivity).
  assert (L2 : length (firstn 32 (skipn 32 snb)) = 32%nat) by (rewrite firstn_length, skipn_length, HLn; reflexivity).
  destruct (secnonce_from_bytes snb) as [sn| |] eqn:En; [destruct (parse_scalar skb) as [sk|] eqn:Ek;
    [destruct (bytes_eqb (ser_point (base_mul sk)) (skipn 64 snb)) eqn:Ep|]| |].
  - rewrite <- (sign_ref pks ts c0 c an msg Hnew Htw sk sn). unfold sess, ref_session. f_equal.
    + apply bytes_eqb_eq in Ep. rewrite Ep. rewrite <- (firstn_skipn 64 snb) at 1. f_equal.
      unfold secnonce_from_bytes in En. rewrite HLn in En. cbn [Nat.eqb negb andb] in En.
      destruct (parse_scalar (firstn 32 snb)) as [a|] eqn:E1; [|discriminate].
      destruct (parse_scalar (firstn 32 (skipn 32 snb))) as [b|] eqn:E2; [|discriminate]. injection En as <-.
      apply parse_scalar_Some in E1, E2. unfold secnonce_to_bytes. cbn [k1 k2]. rewrite <- E1, <- E2.
      change 64%nat with (32 + 32)%nat. apply firstn_plus.
    + now apply parse_scalar_Some.
  - unfold sign. change (sess (aggnonce_to_bytes an) msg) with (ref_session an pks ts msg). rewrite (session_values_eq pks ts c0 c an msg Hnew Htw). cbn [py_bind].
    rewrite !range_of_parse by assumption. rewrite Ek.
    destruct (parse_scalar (firstn 32 snb)); cbn [py_check]; [|reflexivity].
    destruct (parse_scalar (firstn 32 (skipn 32 snb))); cbn [py_check]; [|reflexivity].
    apply parse_scalar_Some in Ek as ->. rewrite int_ser, point_mul_G, <- base_mul_val, is_infinite_point. cbn [negb py_assert].
    rewrite cbytes_ser. replace (firstn 33 (skipn 64 snb)) with (skipn 64 snb) by (symmetry; apply firstn_all2; rewrite skipn_length, HLn; lia).
    rewrite Ep. reflexivity.
  - unfold sign. change (sess (aggnonce_to_bytes an) msg) with (ref_session an pks ts msg). rewrite (session_values_eq pks ts c0 c an msg Hnew Htw). cbn [py_bind].
    rewrite !range_of_parse by assumption. rewrite Ek.
    destruct (parse_scalar (firstn 32 snb)); cbn [py_check]; [|reflexivity].
    destruct (parse_scalar (firstn 32 (skipn 32 snb))); cbn [py_check]; reflexivity.
  - unfold sign. change (sess (aggnonce_to_bytes an) msg) with (ref_session an pks ts msg). rewrite (session_values_eq pks ts c0 c an msg Hnew Htw). cbn [py_bind].
    rewrite !range_of_parse by assumption. unfold secnonce_from_bytes in En. rewrite HLn in En. cbn [Nat.eqb negb andb] in En.
    destruct (parse_scalar (firstn 32 snb)); cbn [py_check]; [|reflexivity].
    destruct (parse_scalar (firstn 32 (skipn 32 snb))); cbn [py_check]; [discriminate | reflexivity].
  - unfold secnonce_from_bytes in En. rewrite HLn in En. cbn [Nat.eqb negb andb] in En.
    destruct (parse_scalar (firstn 32 snb)); [|discriminate]. destruct (parse_scalar (firstn 32 (skipn 32 snb))); discriminate.
Qed.

Lemma verify_bytes an msg psig pnb pkb : length psig = 32%nat -> length pnb = 66%nat ->
  partial_sig_verify_internal (Pr := Pr) psig pnb pkb (sess (aggnonce_to_bytes an) msg) =
  match parse_mscalar (Pr := Pr) psig with
  | None => Ret false
  | Some s =>
      match pubnonce_from_bytes (Pr := Pr) pnb, parse_point (Pr := Pr) pkb with
      | Ok pn, Some pk =>
          match verify_partial c s an pk pn msg with
          | Ok _ => Ret true
          | Err VE_BadSignature => Ret false
          | Err VE_UnknownKey => ValueError
          | Panic => AssertFailed
          end
      | _, _ => ValueError
      end
  end.
Proof.
  intros HL HLn. destruct (parse_mscalar psig) as [s|] eqn:Es.
  2:{ apply parse_mscalar_None in Es as [Es|Es]; [contradiction|]. exact (verify_ref_range pks ts c0 c an msg Hnew Htw psig _ _ Es). }
  apply parse_mscalar_Some in Es as ->.
  assert (Hs : (n_ <=? int_from_bytes (ser_scalar s)) = false) by (rewrite int_ser; apply Z.leb_gt, fz_n).
  destruct (pubnonce_from_bytes pnb) as [pn| |] eqn:En; [destruct (parse_point pkb) as [pk|] eqn:Ek| |].
  - assert (EP : pnb = pubnonce_to_bytes pn).
    { unfold pubnonce_from_bytes in En. rewrite HLn in En. cbn [Nat.eqb negb] in En.
      destruct (parse_point (firstn 33 pnb)) as [P|] eqn:E1; [|discriminate]. destruct (parse_point (skipn 33 pnb)) as [Q|] eqn:E2; [|discriminate].
      injection En as <-. apply parse_point_Some in E1, E2. unfold pubnonce_to_bytes. cbn [pR1 pR2]. rewrite <- E1, <- E2. symmetry. apply firstn_skipn. }
    apply parse_point_Some in Ek. subst pnb pkb. exact (verify_ref pks ts c0 c an msg Hnew Htw s pn pk).
  - unfold partial_sig_verify_internal. change (sess (aggnonce_to_bytes an) msg) with (ref_session an pks ts msg). rewrite (session_values_eq pks ts c0 c an msg Hnew Htw). cbn [py_bind]. rewrite Hs.
    rewrite !cpoint_parse, Ek.
    destruct (parse_point (firstn 33 pnb)); cbn [py_bind]; [|reflexivity].
    destruct (parse_point (firstn 33 (skipn 33 pnb))); cbn [py_bind]; reflexivity.
  - unfold partial_sig_verify_internal. change (sess (aggnonce_to_bytes an) msg) with (ref_session an pks ts msg). rewrite (session_values_eq pks ts c0 c an msg Hnew Htw). cbn [py_bind]. rewrite Hs.
    rewrite !cpoint_parse. unfold pubnonce_from_bytes in En. rewrite HLn in En. cbn [Nat.eqb negb] in En.
    replace (firstn 33 (skipn 33 pnb)) with (skipn 33 pnb) by (symmetry; apply firstn_all2; rewrite skipn_length, HLn; lia).
    destruct (parse_point (firstn 33 pnb)); cbn [py_bind]; [|reflexivity].
    destruct (parse_point (skipn 33 pnb)); cbn [py_bind]; [discriminate | reflexivity].
  - unfold pubnonce_from_bytes in En. rewrite HLn in En. cbn [Nat.eqb negb] in En.
    destruct (parse_point (firstn 33 pnb)); [|discriminate]. destruct (parse_point (skipn 33 pnb)); discriminate.
Qed.

Lemma psig_sum_bad (l1 : list (mscalar Pr)) b l2 : (@n_ Pr <= be_dec b) -> forall i s,
  psig_sum (Pr := Pr) i (map ser_scalar l1 ++ b :: l2) s = InvalidContribution (Some (i + length l1)%nat) CPsig.
Proof.
  intro Hb. induction l1 as [|a l1 IH]; intros i s; cbn [map app psig_sum].
  - unfold int_from_bytes. rewrite (proj2 (Z.leb_le _ _) Hb), Nat.add_0_r. reflexivity.
  - rewrite int_ser, (proj2 (Z.leb_gt n_ (fz a))) by apply fz_n. rewrite IH. cbn [length]. rewrite Nat.add_succ_r. reflexivity.
Qed.
Lemma agg_bad an msg (l1 : list (mscalar Pr)) b l2 : (@n_ Pr <= be_dec b) ->
  partial_sig_agg (Pr := Pr) (map ser_scalar l1 ++ b :: l2) (sess (aggnonce_to_bytes an) msg) = InvalidContribution (Some (length l1)) CPsig.
Proof.
  intro Hb. unfold partial_sig_agg. change (sess (aggnonce_to_bytes an) msg) with (ref_session an pks ts msg). rewrite (session_values_eq pks ts c0 c an msg Hnew Htw). cbn [py_bind].
  rewrite (psig_sum_bad l1 b l2 Hb). reflexivity.
Qed.
Lemma agg_bytes an msg (sigs : list (mscalar Pr)) :
  match aggregate_partial_signatures c an sigs msg with
  | Ok sg => partial_sig_agg (Pr := Pr) (map ser_scalar sigs) (sess (aggnonce_to_bytes an) msg) = Ret (lifted_to_bytes sg)
  | Err _ => exists out, partial_sig_agg (Pr := Pr) (map ser_scalar sigs) (sess (aggnonce_to_bytes an) msg) = Ret out /\
      schnorr_verify (Pr := Pr) msg (pt_x (aggregated_pubkey c)) out <> Ret true
  | Panic => False
  end.
Proof.
  destruct (C14_aggregate_reference_bytes_proof pks ts c0 c an sigs msg Hnew Htw) as (out & H1 & H2 & H3).
  destruct (aggregate_partial_signatures c an sigs msg) as [sg|e|] eqn:E.
  - exact (aggregate_ref pks ts c0 c an msg Hnew Htw sigs sg E).
  - exists out. split; [exact H1|]. intro HV. destruct (H2 HV) as (sg & E' & _). discriminate.
  - exact (proj1 (proj2 (C14_aggregate_valid_proof c an sigs msg)) E).
Qed.
End ByteArguments.

Lemma schnorr_bool r msg pk out : @schnorr_verify (Secp r) msg pk out <> Ret true -> py_schnorr_verify msg pk out = false.
Proof. intro H. destruct (py_schnorr_verify msg pk out) eqn:E; [|reflexivity]. exfalso. apply H. now apply secp_schnorr. Qed.

Lemma C71_bytes_keys_proof (r : bytes -> nat -> positive) (pkbs : list bytes) :
  (exists i b, nth_error pkbs i = Some b /\ parse_point (Pr := Secp r) b = None /\
     (forall j b', (j < i)%nat -> nth_error pkbs j = Some b' -> parse_point (Pr := Secp r) b' <> None) /\
     py_key_agg pkbs = InvalidContribution (Some i) CPubkey) \/
  (exists pks : list (point (Secp r)), Forall2 (fun b pk => parse_point b = Some pk) pkbs pks /\
     match key_agg_new pks with
     | Ok c => py_key_agg pkbs = Ret (PyKeyAgg (enc (pval (aggregated_pubkey c))) 1 0) /\ pubkeys c = pks
     | Err KeyAggError => py_key_agg pkbs = AssertFailed
     | Panic => 4294967295 < zlen pkbs \/ pkbs = [] /\ py_key_agg pkbs = AssertFailed
     end).
Proof.
  pose proof (Secp_ok r) as Laws. pose proof (Secp_tags r) as Tags.
  rewrite (key_agg_enc r).
  destruct (split_bad (parse_point (Pr := Secp r)) ser_point parse_point_Some pkbs) as [(l1 & b & l2 & -> & Hb)|(pks & ->)].
  - left. exists (length l1), b. destruct (first_bad_of _ _ (parse_point_Some (Pr := Secp r)) l1 b l2 Hb) as (A & B & C).
    split; [exact A|]. split; [exact B|]. split; [exact C|]. unfold key_agg. rewrite (key_agg_loop_bad _ _ l1 b l2 0 _ Hb). reflexivity.
  - right. exists pks. split; [now apply (Forall2_enc _ _ parse_point_Some)|].
    destruct (C01_new_is_bip327_keyagg_proof pks) as (A & B & C & D).
    destruct (key_agg_new pks) as [c|[]|] eqn:E.
    + destruct (A c eq_refl) as (A1 & A2 & _). rewrite A1. split; [reflexivity | exact A2].
    + destruct (proj1 C eq_refl) as (_ & _ & C1). rewrite C1. reflexivity.
    + destruct (proj1 D eq_refl) as [->|D1]; [right | left; unfold u32_max in D1; unfold zlen in *; rewrite map_length; exact D1].
      split; [reflexivity|]. unfold key_agg. cbn [map key_agg_loop py_bind]. rewrite (proj2 (is_infinite_O _) eq_refl). reflexivity.
Qed.

Lemma C71_bytes_tweaks_proof (r : bytes -> nat -> positive) (pks : list (point (Secp r))) (c0 : key_agg_ctx (Secp r)) (tws : list (bytes * bool)) (Hnew : key_agg_new pks = Ok c0) :
  let ref := py_key_agg_and_tweak (map ser_point pks) (map fst tws) (map snd tws) in
  (Exists (fun t => parse_mscalar (Pr := Secp r) (fst t) = None) tws -> ref = ValueError) /\
  (forall ts : list (scalar (Secp r) * bool),
     Forall2 (fun b t => parse_scalar (fst b) = Some (fst t) /\ snd b = snd t) tws ts ->
     match with_tweaks c0 ts with
     | Ok c => ref = Ret (PyKeyAgg (enc (pval (aggregated_pubkey c)))
                            (if parity_acc c then py_n - 1 else 1) (fz (tweak_acc c)))
     | Err TweakError => ref = ValueError
     | Panic => False
     end) /\
  (forall x, parse_scalar (Pr := Secp r) (zeros 32) = None /\
     exists k, py_key_agg_and_tweak (map ser_point pks) [zeros 32] [x] = Ret k /\
       py_Q k = if x && pt_odd (aggregated_pubkey c0) then py_neg (enc (pval (aggregated_pubkey c0)))
                else enc (pval (aggregated_pubkey c0))).
Proof.
  pose proof (Secp_ok r) as Laws. pose proof (Secp_tags r) as Tags. intro ref. unfold ref. rewrite !(key_agg_and_tweak_enc r).
  assert (H0 : forall l : list (bytes * bool), @key_agg_and_tweak (Secp r) (map ser_point pks) (map fst l) (map snd l) = apply_tweaks (ref_ctx c0) l).
  { intro l. unfold key_agg_and_tweak. rewrite !map_length, Nat.eqb_refl. cbn [py_check]. rewrite (key_agg_new_ref _ _ Hnew). cbn [py_bind]. now rewrite combine_split_map. }
  split; [|split].
  - intro HE. rewrite H0, (apply_tweaks_bad _ _ HE). reflexivity.
  - intros ts HF. rewrite H0.
    assert (E : tws = ref_tweaks ts).
    { clear - HF Laws. induction HF as [|[b x] [t y] l l' [H1 H2] _ IH]; [reflexivity|]. cbn [fst snd] in H1, H2. apply parse_scalar_Some in H1 as ->. subst y.
      rewrite IH. reflexivity. }
    rewrite E, apply_tweaks_eq. destruct (with_tweaks c0 ts) as [c|[]|] eqn:Ec; [reflexivity | reflexivity|].
    exact (with_tweaks_no_panic _ _ Ec).
  - intro x. split; [reflexivity|]. rewrite (key_agg_and_tweak_enc r). change [zeros 32] with (map (@fst bytes bool) [(zeros 32, x)]). change [x] with (map (@snd bytes bool) [(zeros 32, x)]) at 1. rewrite (H0 [(zeros 32, x)]). cbn [apply_tweaks].
    destruct (apply_zero_tweak c0 x) as (g & t & EA).
    rewrite EA. cbn [py_bind py_map]. eexists. split; [reflexivity|]. cbn [enc_ctx py_Q Q_]. unfold aggregated_pubkey, pneg_if.
    destruct (x && pt_odd (pubkey c0)); [|reflexivity]. apply enc_neg.
Qed.

Lemma C71_bytes_sign_proof (r : bytes -> nat -> positive) (pks : list (point (Secp r))) (ts : list (scalar (Secp r) * bool)) (c0 c : key_agg_ctx (Secp r)) (anb snb skb msg : bytes) (Hnew : key_agg_new pks = Ok c0) (Htw : with_tweaks c0 ts = Ok c) (Han : length anb = 66%nat) (Hsn : length snb = 97%nat) (Hsk : length skb = 32%nat) :
  let sc := SessionContext anb (map ser_point pks) (map (fun tx => ser_scalar (sval (fst tx))) ts) (map snd ts) msg in
  match aggnonce_from_bytes (Pr := Secp r) anb with
  | Err _ => py_sign snb skb sc = InvalidContribution None CAggnonce
  | Panic => False
  | Ok an =>
      match secnonce_from_bytes (Pr := Secp r) snb, parse_scalar (Pr := Secp r) skb with
      | Ok sn, Some sk =>
          (skipn 64 snb <> ser_point (base_mul sk) ->
             py_sign snb skb sc = ValueError /\
             (In (base_mul sk) pks -> exists s, sign_partial c sk sn an msg = Ok s)) /\
          (skipn 64 snb = ser_point (base_mul sk) ->
             match sign_partial c sk sn an msg with
             | Ok s => py_sign snb skb sc = Ret (ser_scalar s)
             | Err SE_UnknownKey => py_sign snb skb sc = ValueError
             | Err SE_SelfVerifyFail | Panic => False
             end)
      | Panic, _ => False
      | _, _ => py_sign snb skb sc = ValueError
      end
  end.
Proof.
  pose proof (Secp_ok r) as Laws. pose proof (Secp_tags r) as Tags. intro sc. rewrite (sign_enc r).
  destruct (aggnonce_from_bytes (Pr := Secp r) anb) as [an|e|] eqn:Ea.
  2:{ apply (sign_bad_aggnonce pks ts c0 c Hnew Htw anb msg snb skb Han). rewrite Ea. f_equal.
      unfold aggnonce_from_bytes in Ea. rewrite Han in Ea. cbn [Nat.eqb negb] in Ea.
      destruct (parse_mpoint (firstn 33 anb)); [destruct (parse_mpoint (skipn 33 anb))|]; congruence. }
  2:{ unfold aggnonce_from_bytes in Ea. rewrite Han in Ea. cbn [Nat.eqb negb] in Ea.
      destruct (parse_mpoint (firstn 33 anb)); [destruct (parse_mpoint (skipn 33 anb))|]; discriminate. }
  apply aggnonce_bytes in Ea. unfold sc. rewrite Ea.
  pose proof (sign_bytes pks ts c0 c Hnew Htw an msg snb skb Hsn Hsk) as HS.
  assert (Hr : ctx_reachable c) by (exact (reach_tweaks _ _ _ (reach_new _ _ Hnew) Htw)).
  assert (Hp : pubkeys c = pks) by exact (proj2 (sess_wf pks ts c0 c Hnew Htw)).
  destruct (secnonce_from_bytes snb) as [sn| |] eqn:En; [destruct (parse_scalar skb) as [sk|]| |]; try exact HS.
  - destruct (C11_sign_is_bip327_sign_proof c sk sn an pt_O msg Hr) as (S1 & S2 & S3 & S4 & S5).
    split; intro HK.
    + destruct (bytes_eqb (ser_point (base_mul sk)) (skipn 64 snb)) eqn:Eb; [apply bytes_eqb_eq in Eb; congruence|].
      split; [exact HS|]. intro Hin. rewrite S5. destruct (sign_partial_adaptor c sk sn an pt_O msg) as [s|[]|] eqn:E; [eauto | | |]; exfalso.
      * apply (proj1 S2 eq_refl). now rewrite Hp.
      * now apply S3.
      * now apply S4.
    + rewrite <- HK, bytes_eqb_refl in HS. rewrite <- S5 in S3, S4. destruct (sign_partial c sk sn an msg) as [s|[]|]; try exact HS; [now apply S3 | now apply S4].
  - unfold secnonce_from_bytes in En. rewrite Hsn in En. cbn [Nat.eqb negb andb] in En.
    destruct (parse_scalar (firstn 32 snb)); [|discriminate]. destruct (parse_scalar (firstn 32 (skipn 32 snb))); discriminate.
Qed.

Lemma C71_bytes_verify_proof (r : bytes -> nat -> positive) (pks : list (point (Secp r))) (ts : list (scalar (Secp r) * bool)) (c0 c : key_agg_ctx (Secp r)) (anb psig pnb pkb msg : bytes) (Hnew : key_agg_new pks = Ok c0) (Htw : with_tweaks c0 ts = Ok c) (Han : length anb = 66%nat) (Hps : length psig = 32%nat) (Hpn : length pnb = 66%nat) :
  let sc := SessionContext anb (map ser_point pks) (map (fun tx => ser_scalar (sval (fst tx))) ts) (map snd ts) msg in
  py_partial_sig_verify_internal psig pnb pkb sc =
  match aggnonce_from_bytes (Pr := Secp r) anb with
  | Ok an =>
      match parse_mscalar (Pr := Secp r) psig with
      | None => Ret false
      | Some s =>
          match pubnonce_from_bytes (Pr := Secp r) pnb, parse_point (Pr := Secp r) pkb with
          | Ok pn, Some pk =>
              match verify_partial c s an pk pn msg with
              | Ok _ => Ret true
              | Err VE_BadSignature => Ret false
              | Err VE_UnknownKey => ValueError
              | Panic => AssertFailed
              end
          | _, _ => ValueError
          end
      end
  | _ => InvalidContribution None CAggnonce
  end.
Proof.
  pose proof (Secp_ok r) as Laws. pose proof (Secp_tags r) as Tags. intro sc. rewrite (verify_internal_enc r).
  assert (HE : forall e, aggnonce_from_bytes (Pr := Secp r) anb = Err e -> e = InvalidPoint).
  { intros e Ea. unfold aggnonce_from_bytes in Ea. rewrite Han in Ea. cbn [Nat.eqb negb] in Ea.
    destruct (parse_mpoint (firstn 33 anb)); [destruct (parse_mpoint (skipn 33 anb))|]; congruence. }
  destruct (aggnonce_from_bytes (Pr := Secp r) anb) as [an|e|] eqn:Ea.
  - apply aggnonce_bytes in Ea. unfold sc. rewrite Ea. exact (verify_bytes pks ts c0 c Hnew Htw an msg psig pnb pkb Hps Hpn).
  - rewrite (HE e eq_refl) in Ea. exact (verify_bad_aggnonce pks ts c0 c Hnew Htw anb msg psig pnb pkb Han Ea).
  - exfalso. unfold aggnonce_from_bytes in Ea. rewrite Han in Ea. cbn [Nat.eqb negb] in Ea.
    destruct (parse_mpoint (firstn 33 anb)); [destruct (parse_mpoint (skipn 33 anb))|]; discriminate.
Qed.

Lemma C71_bytes_aggregate_proof (r : bytes -> nat -> positive) (pks : list (point (Secp r))) (ts : list (scalar (Secp r) * bool)) (c0 c : key_agg_ctx (Secp r)) (anb msg : bytes) (psigs : list bytes) (Hnew : key_agg_new pks = Ok c0) (Htw : with_tweaks c0 ts = Ok c) (Han : length anb = 66%nat) (Hps : Forall (fun b => length b = 32%nat) psigs) :
  let sc := SessionContext anb (map ser_point pks) (map (fun tx => ser_scalar (sval (fst tx))) ts) (map snd ts) msg in
  (is_ok (aggnonce_from_bytes (Pr := Secp r) anb) = false -> py_partial_sig_agg psigs sc = InvalidContribution None CAggnonce) /\
  (forall an, aggnonce_from_bytes (Pr := Secp r) anb = Ok an ->
     (exists i b, nth_error psigs i = Some b /\ parse_mscalar (Pr := Secp r) b = None /\
        (forall j b', (j < i)%nat -> nth_error psigs j = Some b' -> parse_mscalar (Pr := Secp r) b' <> None) /\
        py_partial_sig_agg psigs sc = InvalidContribution (Some i) CPsig) \/
     (exists sigs : list (mscalar (Secp r)), Forall2 (fun b s => parse_mscalar b = Some s) psigs sigs /\
        match aggregate_partial_signatures c an sigs msg with
        | Ok sg => py_partial_sig_agg psigs sc = Ret (lifted_to_bytes sg) /\
            py_schnorr_verify msg (pt_x (aggregated_pubkey c)) (lifted_to_bytes sg) = true
        | Err _ => exists out, py_partial_sig_agg psigs sc = Ret out /\
            py_schnorr_verify msg (pt_x (aggregated_pubkey c)) out = false
        | Panic => False
        end)).
Proof.
  pose proof (Secp_ok r) as Laws. pose proof (Secp_tags r) as Tags. intro sc. rewrite (agg_enc r). split.
  - intro Ea. apply (agg_bad_aggnonce pks ts c0 c Hnew Htw anb msg psigs Han).
    unfold aggnonce_from_bytes in *. rewrite Han in *. cbn [Nat.eqb negb] in *.
    destruct (parse_mpoint (firstn 33 anb)); [destruct (parse_mpoint (skipn 33 anb))|]; try reflexivity. discriminate Ea.
  - intros an Ea. apply aggnonce_bytes in Ea. unfold sc. rewrite Ea.
    destruct (split_bad (parse_mscalar (Pr := Secp r)) ser_scalar parse_mscalar_Some psigs) as [(l1 & b & l2 & E & Hb)|(sigs & ->)].
    + left. subst psigs. exists (length l1), b. destruct (first_bad_of _ _ (parse_mscalar_Some (Pr := Secp r)) l1 b l2 Hb) as (A & B & C).
      split; [exact A|]. split; [exact B|]. split; [exact C|]. apply parse_mscalar_None in Hb as [Hb|Hb].
      * exfalso. apply Hb. rewrite Forall_forall in Hps. apply Hps, in_or_app. right. left. reflexivity.
      * exact (agg_bad pks ts c0 c Hnew Htw an msg l1 b l2 Hb).
    + right. exists sigs. split; [now apply (Forall2_enc _ _ parse_mscalar_Some)|].
      pose proof (agg_bytes pks ts c0 c Hnew Htw an msg sigs) as HA.
      destruct (aggregate_partial_signatures c an sigs msg) as [sg|e|] eqn:E; [|destruct HA as (out & H1 & H2); exists out; split; [exact H1|] | exact HA].
      * split; [exact HA|]. exact (proj1 (proj2 (C52_secp256k1_signatures_proof r)) c an sigs msg sg E).
      * exact (schnorr_bool r msg _ out H2).
Qed.

Lemma C71_bytes_nonces_proof (r : bytes -> nat -> positive) :
  (forall (seed : bytes) (sk : scalar (Secp r)) (aggpk : point (Secp r)) (msg extra : bytes),
     length seed = 32%nat -> zlen msg < 2 ^ 64 ->
     let ref := py_nonce_gen_internal seed (Some (ser_scalar sk)) (ser_point (base_mul sk)) (Some (pt_x aggpk)) (Some msg) (Some extra) in
     match generate seed sk aggpk msg extra with
     | Ok sn => ref = Ret (secnonce_to_bytes sn ++ ser_point (base_mul sk), pubnonce_to_bytes (public_nonce sn)) \/
                ref = AssertFailed /\ (sval (k1 sn) = fone \/ sval (k2 sn) = fone)
     | Err _ => False
     | Panic => 4294967295 < zlen extra /\ ref = AssertFailed
     end) /\
  (forall bs : list bytes, Forall (fun b => length b = 66%nat) bs ->
     (exists pns : list (pub_nonce (Secp r)), Forall2 (fun b pn => pubnonce_from_bytes b = Ok pn) bs pns /\
        py_nonce_agg bs = Ret (aggnonce_to_bytes (agg_sum pns))) \/
     (exists i b, nth_error bs i = Some b /\ pubnonce_from_bytes (Pr := Secp r) b = Err InvalidPoint /\
        py_nonce_agg bs = InvalidContribution (Some i) CPubnonce)).
Proof.
  pose proof (Secp_ok r) as Laws. pose proof (Secp_tags r) as Tags. split.
  - intros seed sk aggpk msg extra HL HM ref.
    destruct (C35_generate_is_bip327_proof seed sk aggpk msg extra HL) as [A B]. cbv zeta in A.
    destruct (Z_le_gt_dec (zlen extra) 4294967295) as [HE|HE].
    + destruct (A HE) as (sn & -> & K1 & K2 & HR).
      assert (ER : ref = @nonce_gen_internal (Secp r) seed (Some (ser_scalar sk)) (ser_point (base_mul sk)) (Some (pt_x aggpk)) (Some msg) (Some extra)).
      { apply nonce_gen_enc.
        - unfold zlen. rewrite ser_point_len. reflexivity.
        - intros a [= <-]. unfold zlen. rewrite (x_len (Pr := Secp r)). reflexivity.
        - intros m [= <-]. exact HM.
        - intros e [= <-]. clear - HE. change (2 ^ 32) with 4294967296. apply Z.le_lt_trans with 4294967295; [exact HE | reflexivity]. }
      rewrite ER. clear ER.
      rewrite point_mul_G, <- base_mul_val, cbytes_ser, bytes_from_fz in HR, K1, K2. unfold xbytes in HR, K1, K2. rewrite HR.
      match goal with |- context [if ?a || ?b then _ else _] => destruct a eqn:E1; [|destruct b eqn:E2]; cbn [orb] end.
      * right. split; [reflexivity|]. left. apply fe_ext. rewrite K1. reflexivity.
      * right. split; [reflexivity|]. right. apply fe_ext. rewrite K2. reflexivity.
      * left. reflexivity.
    + rewrite (B HE). split; [apply Z.gt_lt; exact HE|]. unfold ref, py_nonce_gen_internal.
      rewrite to_bytes_ok by (split; [apply zlen_pos | exact HM]). cbn [py_bind]. unfold py_nonce_hash.
      rewrite (to_bytes_ok (zlen (ser_point (base_mul sk))) 1) by (unfold zlen; rewrite ser_point_len; split; [discriminate | reflexivity]).
      rewrite (to_bytes_ok (zlen (pt_x aggpk)) 1) by (unfold zlen; rewrite (x_len (Pr := Secp r)); split; [discriminate | reflexivity]).
      cbn [py_bind]. unfold py_to_bytes at 1. change (256 ^ Z.of_nat 4) with 4294967296.
      rewrite (proj2 (Z.ltb_ge (zlen extra) 4294967296)) by (apply Z.gt_lt in HE; clear - HE; lia). rewrite andb_false_r. reflexivity.
  - intros bs HL. rewrite (nonce_agg_enc r). exact (C43_received_nonces_proof bs HL).
Qed.

Lemma C71_reference_functions_proof (r : bytes -> nat -> positive) :
  let ctx := fun k : @keyagg (Secp r) => PyKeyAgg (enc (Q_ k)) (gacc k) (tacc k) in
  (forall b, py_individual_pk b = @individual_pk (Secp r) b) /\
  (forall pks tw xo, py_key_agg_and_tweak pks tw xo =
     match @key_agg_and_tweak (Secp r) pks tw xo with
     | Ret k => Ret (ctx k) | ValueError => ValueError
     | InvalidContribution i c => InvalidContribution i c | AssertFailed => AssertFailed
     end) /\
  (forall pns, py_nonce_agg pns = @nonce_agg (Secp r) pns) /\
  (forall sn sk sc, py_sign sn sk sc = @sign (Secp r) sn sk sc) /\
  (forall psig pns pks tw xo msg i, py_partial_sig_verify psig pns pks tw xo msg i = @partial_sig_verify (Secp r) psig pns pks tw xo msg i) /\
  (forall psig pn pk sc, py_partial_sig_verify_internal psig pn pk sc = @partial_sig_verify_internal (Secp r) psig pn pk sc) /\
  (forall psigs sc, py_partial_sig_agg psigs sc = @partial_sig_agg (Secp r) psigs sc) /\
  (forall msg pk sig, py_schnorr_verify msg pk sig = true <-> @schnorr_verify (Secp r) msg pk sig = Ret true).
Proof.
  intro ctx. split; [apply individual_pk_enc|]. split; [exact (key_agg_and_tweak_enc r)|]. split; [apply nonce_agg_enc|].
  split; [apply sign_enc|]. split; [apply verify_enc|]. split; [apply verify_internal_enc|]. split; [apply agg_enc|]. apply secp_schnorr.
Qed.

(** Two copies of an encoded point decode as a public nonce. *)
Lemma is_ok_pair (Pr : prims) (Laws : prims_ok Pr) (P : point Pr) :
  is_ok (pubnonce_from_bytes (ser_point P ++ ser_point P)) = true.
Proof.
  change (ser_point P ++ ser_point P) with (pubnonce_to_bytes {| pR1 := P; pR2 := P |}).
  now rewrite (proj2 (EncodingFacts.pubnonce_decode _ {| pR1 := P; pR2 := P |}) eq_refl).
Qed.

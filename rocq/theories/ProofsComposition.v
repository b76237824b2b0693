(** Proofs of the theorems of PropertiesComposition.v. *)
From Coq Require Import String List Permutation.
From Verif Require Import Bytes BytesFacts Prims PrimsFacts TaggedHashes Errors SpecTags SpecBIP327
  KeyAgg Nonces Signature Signing SigAgg Bip340 SpecCtx SpecView SpecSession SpecTaproot Toy ToyData.
Import ListNotations.
Open Scope list_scope.
Open Scope Z_scope.
From Coq Require Import Lia.
From Verif Require Import CodecFacts KeyAggFacts KeyAggCodec SigningFacts SignatureFacts SpecFacts SpecSigning SessionFacts
  Bip340Facts ProofsKeyAgg ProofsSigning ProofsAdaptor ProofsBip340.
Open Scope Z_scope.

Section Helpers.
Context {Pr : prims} {Laws : prims_ok Pr} {Tags : tags_ok Pr}.
Add Ring fring0 : (fe_ring_theory (n := @ord Pr)).

Lemma sum_fsum (l : list (mscalar Pr)) : fold_right Z.add 0 (map fz l) mod n_ = fz (fsum l).
Proof.
  induction l as [|a l IH]; [reflexivity|]. cbn [map fold_right]. rewrite fsum_cons. unfold fadd. rewrite fz_of_Z, <- IH.
  unfold n_. rewrite Zplus_mod_idemp_r. reflexivity.
Qed.
Lemma sum_eq_fsum (l m : list (mscalar Pr)) :
  fold_right Z.add 0 (map fz l) mod n_ = fold_right Z.add 0 (map fz m) mod n_ <-> fsum l = fsum m.
Proof. rewrite !sum_fsum. split; [apply fe_ext | congruence]. Qed.

(** A list of tweaks as plain tweaks. *)
Definition plain (ts : list (scalar Pr)) : list (scalar Pr * bool) := map (fun t => (t, false)) ts.

Lemma plain_step c (t : scalar Pr) :
  with_plain_tweak c t = match not_inf (pt_add (pubkey c) (gmul t)) with
                         | None => Err TweakError
                         | Some Q => Ok (ctx_update c Q (parity_acc c) (fadd (tweak_acc c) t)) end.
Proof. reflexivity. Qed.
Lemma ctx_update_id c : ctx_update c (pubkey c) (parity_acc c) (tweak_acc c) = c :> key_agg_ctx Pr.
Proof. destruct c; reflexivity. Qed.

Lemma plain_tweaks_Ok (ts : list (scalar Pr)) : forall c c', with_tweaks c (plain ts) = Ok c' ->
  pval (pubkey c') = pt_add (pubkey c) (gmul (fsum (map sval ts))) /\
  c' = ctx_update c (pubkey c') (parity_acc c) (fadd (tweak_acc c) (fsum (map sval ts))).
Proof.
  induction ts as [|t ts IH]; intros c c' H; cbn [plain map with_tweaks] in H.
  - injection H as <-. cbn [map]. rewrite fsum_nil, gmul_0, add_O_r. split; [reflexivity|].
    replace (fadd (tweak_acc c) fzero) with (tweak_acc c) by ring. symmetry. apply ctx_update_id.
  - cbn [with_tweak] in H. rewrite plain_step in H. destruct (not_inf _) as [Q|] eqn:E; cbn [bind] in H; [|discriminate].
    apply not_inf_Some in E. apply IH in H as [H1 H2]. cbn [ctx_update pubkey parity_acc tweak_acc] in *.
    cbn [map]. rewrite fsum_cons. split.
    + rewrite H1, <- E, gmul_add, add_assoc. reflexivity.
    + rewrite H2 at 1. unfold ctx_update. cbn [ordered_pubkeys pubkey_indexes key_coefficients effective_pubkeys].
      f_equal. ring.
Qed.

Lemma plain_tweaks_Err (ts : list (scalar Pr)) : forall c,
  with_tweaks c (plain ts) = Err TweakError <->
  exists p q, ts = p ++ q /\ p <> [] /\ pt_add (pubkey c) (gmul (fsum (map sval p))) = pt_O.
Proof.
  induction ts as [|t ts IH]; intros c; cbn [plain map with_tweaks].
  - split; [discriminate|]. intros (p & q & E & N & _). destruct p; [contradiction | discriminate].
  - cbn [with_tweak]. rewrite plain_step. destruct (not_inf _) as [Q|] eqn:E; cbn [bind].
    + apply not_inf_Some in E. rewrite IH. cbn [ctx_update pubkey]. split.
      * intros (p & q & -> & N & H). exists (t :: p), q. split; [reflexivity|]. split; [discriminate|].
        cbn [map]. rewrite fsum_cons, gmul_add, <- add_assoc, E. exact H.
      * intros (p & q & H1 & N & H). destruct p as [|t' p]; [contradiction|]. injection H1 as <- H1.
        cbn [map] in H. rewrite fsum_cons, gmul_add, <- add_assoc, E in H.
        destruct p as [|u p]; [|exists (u :: p), q; split; [exact H1|split; [discriminate|exact H]]].
        cbn [map] in H. rewrite fsum_nil, gmul_0, add_O_r in H. destruct (point_fin Q H).
    + apply not_inf_None in E. split; [|reflexivity]. intros _. exists [t], ts. split; [reflexivity|]. split; [discriminate|].
      cbn [map]. rewrite fsum_cons, fsum_nil. replace (fadd (sval t) fzero) with (sval t) by ring. exact E.
Qed.

Lemma xonly_step c (t : scalar Pr) :
  with_xonly_tweak c t = match not_inf (pt_add (even_point (pubkey c)) (gmul t)) with
                         | None => Err TweakError
                         | Some Q => Ok (ctx_update c Q (xorb (pt_odd (pubkey c)) (parity_acc c)) (fadd t (fneg_if (pt_odd (pubkey c)) (tweak_acc c)))) end.
Proof.
  change (with_xonly_tweak c t) with (with_tweak c t true). rewrite with_tweak_gen. cbv zeta. cbn [andb].
  rewrite even_point_val. unfold to_even_y, pneg_if. reflexivity.
Qed.

Lemma verify_partial_iff c s an T pk pn msg : ctx_reachable c -> In pk (pubkeys c) ->
  (verify_partial_adaptor c s an T pk pn msg = Ok tt <-> partial_eq c an T msg pk pn s).
Proof. intros Hc Hin. rewrite verify_spec_iff by assumption. rewrite psig_valid_eq. tauto. Qed.

Lemma agg_s_fsum c an T sigs sigs' msg : agg_s c an T sigs msg = agg_s c an T sigs' msg :> mscalar Pr <-> fsum sigs = fsum sigs'.
Proof.
  unfold agg_s. split; [|intros ->; reflexivity]. intro H.
  match type of H with fadd _ ?x = _ => replace (fsum sigs) with (fsub (fadd (fsum sigs) x) x) by ring; rewrite H end. ring.
Qed.

Lemma aggregate_same_sum c an T sigs good msg sg : aggregate_partial_adaptor_signatures c an T good msg = Ok sg ->
  (aggregate_partial_adaptor_signatures c an T sigs msg = Ok sg <-> fsum sigs = fsum good) /\
  (aggregate_partial_adaptor_signatures c an T sigs msg = Err VE_BadSignature <-> fsum sigs <> fsum good).
Proof.
  intro H. apply aggregate_Ok_iff in H as [-> H].
  assert (A : aggregate_partial_adaptor_signatures c an T sigs msg
     = if feqb (fsum sigs) (fsum good) then Ok {| a_R := sess_R c an msg; a_s := agg_s c an T good msg |} else Err VE_BadSignature).
  { rewrite aggregate_eq. rewrite <- H. destruct (feqb (fsum sigs) (fsum good)) eqn:E.
    - apply feqb_eq in E. rewrite (proj2 (agg_s_fsum c an T sigs good msg) E). rewrite (proj2 (pt_eqb_eq _ _) eq_refl). reflexivity.
    - apply feqb_neq in E. destruct (pt_eqb _ _) eqn:E2; [|reflexivity]. apply pt_eqb_eq, gmul_inj in E2. apply agg_s_fsum in E2. contradiction. }
  rewrite A. destruct (feqb (fsum sigs) (fsum good)) eqn:E; [apply feqb_eq in E | apply feqb_neq in E].
  - split; split; auto; try discriminate; intro; contradiction.
  - split; split; auto; try discriminate; intro; contradiction.
Qed.
Lemma seckey_Ok (c : key_agg_ctx Pr) sks x : aggregated_seckey c sks = Ok x <->
  exists w, seckey_loop (key_coefficients c) sks fzero = Some w /\
    sval x = fadd (fneg_if (parity_acc c) w) (tweak_acc c) /\ gmul x = pubkey c.
Proof.
  unfold aggregated_seckey. destruct (seckey_loop _ _ _) as [w|].
  2:{ split; [discriminate | intros (w & E & _); discriminate]. }
  destruct (not_zero _) as [y|] eqn:Ey.
  - apply not_zero_Some in Ey. destruct (pt_eqb (gmul y) (pubkey c)) eqn:Eq; cbn [negb].
    + apply pt_eqb_eq in Eq. split.
      * intro H. assert (y = x) as <- by congruence. exists w. rewrite Ey. auto.
      * intros (w' & E & H & _). apply f_equal, scalar_ext. injection E as <-. congruence.
    + apply pt_eqb_neq in Eq. split; [discriminate|]. intros (w' & E & H & G). injection E as <-. exfalso. apply Eq. congruence.
  - apply not_zero_None in Ey. split; [discriminate|]. intros (w' & E & H & _). injection E as <-.
    exfalso. apply (scalar_nz x). congruence.
Qed.

Lemma tweak_fields (c c' : key_agg_ctx Pr) t x : with_tweak c t x = Ok c' ->
  let o := x && pt_odd (pubkey c) in
  key_coefficients c' = key_coefficients c /\ parity_acc c' = xorb o (parity_acc c) /\
  tweak_acc c' = fadd (fneg_if o (tweak_acc c)) t /\ pval (pubkey c') = pt_add (pneg_if o (pubkey c)) (gmul t).
Proof.
  unfold with_tweak, with_xonly_tweak, with_plain_tweak.
  destruct x; cbn [andb]; [destruct (pt_odd (pubkey c)); cbn [negb]|];
    (destruct (not_inf _) as [Q|] eqn:E; [|discriminate]); apply not_inf_Some in E;
    intro H; apply (f_equal (fun r => match r with Ok d => d | _ => c end)) in H; subst c'; cbv zeta;
    unfold ctx_update; cbn [key_coefficients parity_acc tweak_acc pubkey xorb fneg_if pneg_if]; (split; [reflexivity|]);
    (split; [destruct (parity_acc c); reflexivity|]); rewrite <- E.
  - split; [ring|]. unfold psub. apply add_comm.
  - split; reflexivity.
  - split; reflexivity.
Qed.

Lemma seckey_tweaked (c c' : key_agg_ctx Pr) t x sks : with_tweak c t x = Ok c' ->
  (forall d, aggregated_seckey c sks = Ok d ->
     exists d', aggregated_seckey c' sks = Ok d' /\ sval d' = fadd (fneg_if (x && pt_odd (pubkey c)) d) t) /\
  (forall d', aggregated_seckey c' sks = Ok d' -> exists d, aggregated_seckey c sks = Ok d).
Proof.
  intro H. apply tweak_fields in H. cbv zeta in H. set (o := x && pt_odd (pubkey c)) in *. clearbody o.
  destruct H as (Hk & Hp & Ht & HQ).
  assert (N : forall v : mscalar Pr, gmul (fneg_if o v) = pneg_if o (gmul v)) by (intro v; destruct o; cbn [fneg_if pneg_if]; [apply gmul_neg | reflexivity]).
  split.
  - intros d Hd. apply seckey_Ok in Hd as (w & Ew & Hd & Hg).
    set (v := fadd (fneg_if o d) t).
    assert (Hv : gmul v = pubkey c') by (unfold v; rewrite gmul_add, HQ, N, Hg; reflexivity).
    destruct (not_zero v) as [y|] eqn:Ey.
    2:{ apply not_zero_None in Ey. exfalso. apply (point_fin (pubkey c')). rewrite <- Hv, Ey. apply gmul_0. }
    apply not_zero_Some in Ey. exists y. split; [|symmetry; exact Ey]. apply seckey_Ok. exists w. rewrite Hk. split; [exact Ew|].
    split; [|congruence]. rewrite <- Ey. unfold v. rewrite Hp, Ht, Hd. destruct o, (parity_acc c); cbn [xorb fneg_if]; ring.
  - intros d' Hd. apply seckey_Ok in Hd as (w & Ew & Hd & Hg). rewrite Hk in Ew.
    set (v := fadd (fneg_if (parity_acc c) w) (tweak_acc c)).
    assert (Hv : gmul v = pubkey c).
    { assert (E : sval d' = fadd (fneg_if o v) t).
      { rewrite Hd, Hp, Ht. unfold v. destruct o, (parity_acc c); cbn [xorb fneg_if]; ring. }
      rewrite E, gmul_add, HQ, N in Hg. apply add_cancel_r in Hg.
      rewrite <- (pneg_if_invol o (gmul v)), Hg. apply pneg_if_invol. }
    destruct (not_zero v) as [y|] eqn:Ey.
    2:{ apply not_zero_None in Ey. exfalso. apply (point_fin (pubkey c)). rewrite <- Hv, Ey. apply gmul_0. }
    apply not_zero_Some in Ey. exists y. apply seckey_Ok. exists w. split; [exact Ew|]. split; [symmetry; exact Ey | congruence].
Qed.

End Helpers.

Section C54_plain_tweaks_add_up.
Context {Pr : prims}.
Add Ring ring_C54_plain_tweaks_add_up : (fe_ring_theory (n := @ord Pr)).
Lemma C54_plain_tweaks_add_up_proof {Laws : prims_ok Pr} {Tags : tags_ok Pr} (c : key_agg_ctx Pr) (ts : list (scalar Pr)) :
  let plain := map (fun t : scalar Pr => (t, false)) in
  let total (l : list (scalar Pr)) := fold_right Z.add 0 (map (fun t : scalar Pr => fz t) l) mod n_ in
  (forall c', with_tweaks c (plain ts) = Ok c' ->
     pval (aggregated_pubkey c') = pt_add (aggregated_pubkey c) (point_mul pt_G (total ts)) /\
     (forall ts' c'', with_tweaks c (plain ts') = Ok c'' -> (total ts' = total ts <-> c'' = c')) /\
     (forall u : scalar Pr, fz u = total ts -> with_plain_tweak c u = Ok c') /\
     (total ts = 0 -> c' = c)) /\
  (with_tweaks c (plain ts) = Err TweakError <->
     exists before after, ts = before ++ after /\ before <> [] /\
       pt_add (aggregated_pubkey c) (point_mul pt_G (total before)) = pt_O).
Proof.
  cbv zeta. change (map (fun t : scalar Pr => (t, false))) with (plain (Pr := Pr)).
  assert (TT : forall l : list (scalar Pr), fold_right Z.add 0 (map (fun t : scalar Pr => fz t) l) mod n_ = fz (fsum (map sval l))).
  { intro l. rewrite <- sum_fsum, map_map. reflexivity. }
  unfold aggregated_pubkey. split.
  - intros c' H. destruct (plain_tweaks_Ok ts c c' H) as [H1 H2]. rewrite TT, point_mul_G. split; [exact H1|].
    assert (D : forall ts' c'', with_tweaks c (plain ts') = Ok c'' -> (fold_right Z.add 0 (map (fun t : scalar Pr => fz t) ts') mod n_ = fz (fsum (map sval ts)) <-> c'' = c')).
    { intros ts' c'' H'. rewrite TT. destruct (plain_tweaks_Ok ts' c c'' H') as [H1' H2']. split.
      - intro E. apply fe_ext in E. rewrite E in *. rewrite H2, H2'. unfold ctx_update. f_equal. apply point_ext. congruence.
      - intros ->. rewrite H1 in H1'. apply add_cancel_l, gmul_inj in H1'. congruence. }
    split; [exact D|]. split.
    + intros u Eu. assert (Eu' : sval u = fsum (map sval ts)) by (apply fe_ext; exact Eu).
      rewrite plain_step, Eu', <- H1, not_inf_point. f_equal. symmetry. exact H2.
    + intro E. symmetry. apply (D [] c eq_refl). cbn [map fold_right]. rewrite Z.mod_0_l by discriminate. symmetry. exact E.
  - rewrite plain_tweaks_Err. split; intros (p & q & H1 & H2 & H3); exists p, q; (split; [exact H1|split; [exact H2|]]).
    + rewrite TT, point_mul_G. exact H3.
    + rewrite TT, point_mul_G in H3. exact H3.
Qed.
End C54_plain_tweaks_add_up.

Section C54_xonly_tweaks.
Context {Pr : prims}.
Add Ring ring_C54_xonly_tweaks : (fe_ring_theory (n := @ord Pr)).
Lemma C54_xonly_tweaks_proof {Laws : prims_ok Pr} {Tags : tags_ok Pr} (c : key_agg_ctx Pr) (t : scalar Pr) :
  exists P, pt_lift (xbytes (aggregated_pubkey c)) = Some P /\
  (forall c', with_xonly_tweak c t = Ok c' -> pval (aggregated_pubkey c') = pt_add P (point_mul pt_G (fz t)) /\
     forall u : scalar Pr, fz u = n_ - fz t ->
       exists c'', with_plain_tweak c' u = Ok c'' /\ pval (aggregated_pubkey c'') = P) /\
  (with_xonly_tweak c t = Err TweakError <-> pt_add P (point_mul pt_G (fz t)) = pt_O) /\
  (with_xonly_tweak c t <> Panic) /\
  (forall d d', xbytes (aggregated_pubkey d) = xbytes (aggregated_pubkey c) -> with_xonly_tweak d t = Ok d' ->
     exists c', with_xonly_tweak c t = Ok c' /\ aggregated_pubkey c' = aggregated_pubkey d') /\
  (has_even_y (aggregated_pubkey c) = true -> with_xonly_tweak c t = with_plain_tweak c t).
Proof.
  exists (even_point (pubkey c)). unfold aggregated_pubkey, xbytes. split.
  { apply lift_spec. split; [apply point_fin|]. rewrite even_point_val. split; [apply to_even_y_odd, point_fin|apply to_even_y_x]. }
  rewrite xonly_step, point_mul_G. split; [|split; [|split; [|split]]].
  - intros c' H. destruct (not_inf _) as [Q|] eqn:E; [|discriminate]. injection H as <-. cbn [ctx_update pubkey].
    apply not_inf_Some in E. split; [symmetry; exact E|]. intros u Hu.
    assert (Eu : sval u = fneg (sval t)).
    { apply fe_ext. unfold fneg. rewrite fz_of_Z, Hu, <- (Z.mod_small (n_ - fz t) n_).
      - unfold n_. replace (Z.pos ord - fz (sval t)) with (- fz (sval t) + 1 * Z.pos ord) by ring. rewrite Z.mod_add by discriminate. reflexivity.
      - rewrite <- Hu. split; [apply fz_range|apply fz_n]. }
    rewrite plain_step. cbn [ctx_update pubkey]. rewrite <- E, Eu, gmul_neg, add_assoc, add_neg_r, add_O_r, not_inf_point.
    eexists. split; [reflexivity|]. reflexivity.
  - destruct (not_inf _) as [Q|] eqn:E; [apply not_inf_Some in E | apply not_inf_None in E].
    + split; [discriminate|]. intro H. rewrite H in E. symmetry in E. destruct (point_fin _ E).
    + split; auto.
  - destruct (not_inf _); discriminate.
  - intros d d' Hx H. rewrite xonly_step in H.
    assert (E : even_point (pubkey d) = even_point (pubkey c)).
    { apply point_ext. rewrite !even_point_val. destruct (x_inj _ _ (point_fin (pubkey d)) (point_fin (pubkey c)) Hx) as [->| ->]; [reflexivity|].
      unfold to_even_y. rewrite odd_neg by apply point_fin. destruct (pt_odd (pubkey c)); cbn [negb]; [reflexivity|apply neg_neg]. }
    rewrite E in H. destruct (not_inf _) as [Q|]; [|discriminate]. injection H as <-. eexists. split; [reflexivity|]. reflexivity.
  - intro He. unfold has_even_y in He. rewrite <- xonly_step. unfold with_xonly_tweak. rewrite He. reflexivity.
Qed.
End C54_xonly_tweaks.

Section C57_aggregation_sees_only_the_sum.
Context {Pr : prims}.
Add Ring ring_C57_aggregation_sees_only_the_sum : (fe_ring_theory (n := @ord Pr)).
Lemma C57_aggregation_sees_only_the_sum_proof {Laws : prims_ok Pr} {Tags : tags_ok Pr} (c : key_agg_ctx Pr) (pns : list (pub_nonce Pr)) (T : pt) (good sigs : list (mscalar Pr)) (msg : bytes) (Hc : ctx_reachable c) (Hpn : length pns = length (pubkeys c)) (Hs : length good = length (pubkeys c)) (Hv : forall i pk pn s, nth_error (pubkeys c) i = Some pk -> nth_error pns i = Some pn -> nth_error good i = Some s -> verify_partial_adaptor c s (agg_sum pns) T pk pn msg = Ok tt) (HR : spec_R_raw c (agg_sum pns) msg <> pt_O) :
  let sum l := fold_right Z.add 0 (map fz l) mod n_ in
  exists sg, aggregate_partial_adaptor_signatures c (agg_sum pns) T good msg = Ok sg /\
    (sum sigs = sum good -> aggregate_partial_adaptor_signatures c (agg_sum pns) T sigs msg = Ok sg) /\
    (sum sigs <> sum good -> aggregate_partial_adaptor_signatures c (agg_sum pns) T sigs msg = Err VE_BadSignature).
Proof.
  cbv zeta. destruct (@C13_valid_partials_aggregate_proof Pr Laws Tags c pns T good msg Hc Hpn Hs Hv) as [A _].
  destruct (A HR) as (sg & E & _). exists sg. split; [exact E|].
  destruct (aggregate_same_sum c (agg_sum pns) T sigs good msg sg E) as [[_ B] [_ D]].
  split; intro H; [apply B | apply D]; rewrite ?sum_eq_fsum in H; exact H.
Qed.
End C57_aggregation_sees_only_the_sum.

Section C57_one_bad_signature.
Context {Pr : prims}.
Add Ring ring_C57_one_bad_signature : (fe_ring_theory (n := @ord Pr)).
Lemma C57_one_bad_signature_proof {Laws : prims_ok Pr} {Tags : tags_ok Pr} (c : key_agg_ctx Pr) (pns : list (pub_nonce Pr)) (T : pt) (sigs : list (mscalar Pr)) (msg : bytes) (Hc : ctx_reachable c) (Hpn : length pns = length (pubkeys c)) (Hs : length sigs = length (pubkeys c)) (HR : spec_R_raw c (agg_sum pns) msg <> pt_O) :
  let accepted i := forall pk pn s, nth_error (pubkeys c) i = Some pk -> nth_error pns i = Some pn ->
    nth_error sigs i = Some s -> verify_partial_adaptor c s (agg_sum pns) T pk pn msg = Ok tt in
  (forall i, (i < length (pubkeys c))%nat -> (forall j, j <> i -> accepted j) ->
     ((exists sg, aggregate_partial_adaptor_signatures c (agg_sum pns) T sigs msg = Ok sg) <-> accepted i)) /\
  (aggregate_partial_adaptor_signatures c (agg_sum pns) T sigs msg = Err VE_BadSignature ->
     exists i pk pn s, nth_error (pubkeys c) i = Some pk /\ nth_error pns i = Some pn /\ nth_error sigs i = Some s /\
       verify_partial_adaptor c s (agg_sum pns) T pk pn msg = Err VE_BadSignature).
Proof.
  cbv zeta.
  assert (ALL : (forall i pk pn s, nth_error (pubkeys c) i = Some pk -> nth_error pns i = Some pn ->
    nth_error sigs i = Some s -> verify_partial_adaptor c s (agg_sum pns) T pk pn msg = Ok tt) ->
    exists sg, aggregate_partial_adaptor_signatures c (agg_sum pns) T sigs msg = Ok sg).
  { intro Hv. destruct (@C13_valid_partials_aggregate_proof Pr Laws Tags c pns T sigs msg Hc Hpn Hs Hv) as [A _].
    destruct (A HR) as (sg & E & _). eauto. }
  split.
  - intros i Hi Hj. split.
    2: { intro Hacc. apply ALL. intros j. destruct (Nat.eq_dec j i) as [->|N]; [exact Hacc | exact (Hj j N)]. }
    intros [sg E] pk pn s H1 H2 H3.
    destruct (nth_error_split _ _ H3) as (l1 & l2 & El & Hl1).
    assert (Hin : In pk (pubkeys c)) by (eapply nth_error_In; eassumption).
    destruct (partial_eq_exists c (agg_sum pns) T msg pk pn) as [s0 Hs0].
    assert (V0 : verify_partial_adaptor c s0 (agg_sum pns) T pk pn msg = Ok tt) by (apply verify_partial_iff; assumption).
    assert (G : exists sg0, aggregate_partial_adaptor_signatures c (agg_sum pns) T (l1 ++ s0 :: l2) msg = Ok sg0).
    { assert (Hl : length (l1 ++ s0 :: l2) = length (pubkeys c)) by (rewrite <- Hs, El, !app_length; reflexivity).
      destruct (@C13_valid_partials_aggregate_proof Pr Laws Tags c pns T (l1 ++ s0 :: l2) msg Hc Hpn Hl) as [A _].
      - intros j pk' pn' s' K1 K2 K3. destruct (Nat.eq_dec j i) as [->|N].
        + rewrite <- Hl1, nth_error_app2, Nat.sub_diag in K3 by lia. injection K3 as <-. congruence.
        + apply (Hj j N); [exact K1|exact K2|]. rewrite El. rewrite <- K3.
          destruct (Nat.lt_ge_cases j (length l1)) as [L|L].
          * rewrite !nth_error_app1 by lia. reflexivity.
          * rewrite !nth_error_app2 by lia. destruct (j - length l1)%nat eqn:D; [lia|]. reflexivity.
      - destruct (A HR) as (sg0 & E0 & _). eauto. }
    destruct G as [sg0 E0].
    destruct (aggregate_same_sum c (agg_sum pns) T sigs (l1 ++ s0 :: l2) msg sg0 E0) as [_ [_ D]].
    destruct (fe_eq_dec (fsum sigs) (fsum (l1 ++ s0 :: l2))) as [F|F]; [|rewrite (D F) in E; discriminate].
    rewrite El, !fsum_app, !fsum_cons in F.
    replace s with s0; [exact V0|].
    replace s0 with (fsub (fadd (fsum l1) (fadd s0 (fsum l2))) (fadd (fsum l1) (fsum l2))) by ring. rewrite <- F. ring.
  - intro E.
    assert (DEC : forall k, (k <= length sigs)%nat ->
      (forall i pk pn s, (i < k)%nat -> nth_error (pubkeys c) i = Some pk -> nth_error pns i = Some pn ->
         nth_error sigs i = Some s -> verify_partial_adaptor c s (agg_sum pns) T pk pn msg = Ok tt) \/
      exists i pk pn s, nth_error (pubkeys c) i = Some pk /\ nth_error pns i = Some pn /\ nth_error sigs i = Some s /\
       verify_partial_adaptor c s (agg_sum pns) T pk pn msg = Err VE_BadSignature).
    { induction k as [|k IH]; intro Hk; [left; lia|]. destruct IH as [IH|IH]; [lia| |right; exact IH].
      destruct (nth_error (pubkeys c) k) as [pk|] eqn:K1; [|apply nth_error_None in K1; lia].
      destruct (nth_error pns k) as [pn|] eqn:K2; [|apply nth_error_None in K2; lia].
      destruct (nth_error sigs k) as [s|] eqn:K3; [|apply nth_error_None in K3; lia].
      destruct (verify_cases c s (agg_sum pns) T pk pn msg Hc) as [[Hin [V|V]]|[Hin V]].
      - left. intros i pk' pn' s' Hi. destruct (Nat.eq_dec i k) as [->|N].
        + rewrite K1, K2, K3. intros A1 A2 A3. injection A1 as <-. injection A2 as <-. injection A3 as <-. exact V.
        + apply IH. lia.
      - right. exists k, pk, pn, s. auto.
      - destruct Hin. eapply nth_error_In; eassumption. }
    destruct (DEC (length sigs) (le_n _)) as [H|H]; [|exact H]. exfalso.
    destruct ALL as [sg E']; [|rewrite E' in E; discriminate].
    intros i pk pn s K1 K2 K3. apply (H i); auto. apply nth_error_Some. congruence.
Qed.
End C57_one_bad_signature.

Section C57_bad_signatures_can_cancel.
Context {Pr : prims}.
Add Ring ring_C57_bad_signatures_can_cancel : (fe_ring_theory (n := @ord Pr)).
Lemma C57_bad_signatures_can_cancel_proof {Laws : prims_ok Pr} {Tags : tags_ok Pr} (c : key_agg_ctx Pr) (an : agg_nonce Pr) (T : pt) (l1 l2 l3 : list (mscalar Pr)) (a b d : mscalar Pr) (pk1 pk2 : point Pr) (pn1 pn2 : pub_nonce Pr) (msg : bytes) (Hc : ctx_reachable c) (H1 : verify_partial_adaptor c a an T pk1 pn1 msg = Ok tt) (H2 : verify_partial_adaptor c b an T pk2 pn2 msg = Ok tt) (Hd : fz d <> 0) :
  verify_partial_adaptor c (fadd a d) an T pk1 pn1 msg = Err VE_BadSignature /\
  verify_partial_adaptor c (fsub b d) an T pk2 pn2 msg = Err VE_BadSignature /\
  aggregate_partial_adaptor_signatures c an T (l1 ++ fadd a d :: l2 ++ fsub b d :: l3) msg
  = aggregate_partial_adaptor_signatures c an T (l1 ++ a :: l2 ++ b :: l3) msg.
Proof.
  assert (Dz : d <> fzero) by (intros ->; apply Hd; reflexivity).
  assert (REJ : forall s s' pk pn, verify_partial_adaptor c s an T pk pn msg = Ok tt -> s' <> s ->
    verify_partial_adaptor c s' an T pk pn msg = Err VE_BadSignature).
  { intros s s' pk pn V N. pose proof V as V0. apply verify_spec_iff in V as [Hin V]; [|assumption]. rewrite psig_valid_eq in V.
    destruct (verify_cases c s' an T pk pn msg Hc) as [[_ [W|W]]|[Hn _]]; [|exact W|contradiction].
    exfalso. apply N. apply verify_partial_iff in W; [|assumption..]. eapply partial_eq_unique; eassumption. }
  split; [|split].
  - apply (REJ a); [exact H1|]. intro E. apply Dz. replace d with (fsub (fadd a d) a) by ring. rewrite E. ring.
  - apply (REJ b); [exact H2|]. intro E. apply Dz. replace d with (fsub b (fsub b d)) by ring. rewrite E. ring.
  - unfold aggregate_partial_adaptor_signatures.
    replace (fsum (l1 ++ fadd a d :: l2 ++ fsub b d :: l3)) with (fsum (l1 ++ a :: l2 ++ b :: l3)); [reflexivity|].
    rewrite !fsum_app, !fsum_cons, !fsum_app, !fsum_cons. ring.
Qed.
End C57_bad_signatures_can_cancel.

Section C58_published_signature_reveals.
Context {Pr : prims}.
Add Ring ring_C58_published_signature_reveals : (fe_ring_theory (n := @ord Pr)).
Lemma C58_published_signature_reveals_proof {Laws : prims_ok Pr} {Tags : tags_ok Pr} (pk : point Pr) (sg : adaptor_sig Pr) (msg : bytes) (T : pt) (published : bytes) (Hv : verify_single_adaptor pk sg msg T = Ok tt) (HR : a_R sg <> pt_O) (HA : pt_add (a_R sg) T <> pt_O) (Hlen : length published = 64%nat) (Hpub : schnorr_verify msg (xbytes pk) published = Ret true) (Hnonce : firstn 32 published = xbytes (pt_add (a_R sg) T)) :
  exists (final : lifted_sig Pr) (t : mscalar Pr),
    lifted_from_bytes published = Ok final /\
    reveal_secret sg final = Some t /\ point_mul pt_G (fz t) = T /\
    forall (pk2 : point Pr) (sg2 : adaptor_sig Pr) (msg2 : bytes), verify_single_adaptor pk2 sg2 msg2 T = Ok tt ->
      pt_add (a_R sg2) T <> pt_O ->
      exists l2, adapt sg2 t = Some l2 /\ schnorr_verify msg2 (xbytes pk2) (lifted_to_bytes l2) = Ret true.
Proof.
  destruct (dlog T) as [t Ht]. subst T.
  unfold xbytes in Hpub. rewrite schnorr_verify_ref, Hlen in Hpub. cbn [Nat.eqb] in Hpub.
  unfold verify_single_bytes in Hpub.
  destruct (compact_from_bytes published) as [cs| |] eqn:Ecs; cbn [map_err bind is_ok] in Hpub; try discriminate.
  assert (Hcs : verify_single pk cs msg = Ok tt).
  { destruct (verify_single_cases pk cs msg) as [H|H]; [exact H|]. rewrite H in Hpub. discriminate. }
  destruct (@C44_compact_lifted_proof Pr Laws cs {| l_R := pk; l_s := fzero |} pk msg) as (_ & _ & _ & L & _).
  destruct (L Hcs) as (final & Ef & Hvf). clear L.
  assert (Hrx : c_rx cs = firstn 32 published).
  { unfold compact_from_bytes in Ecs. destruct (negb _); [discriminate|]. destruct (parse_mscalar _); [|discriminate].
    injection Ecs as <-. reflexivity. }
  assert (Hl : lifted_from_bytes published = Ok final).
  { unfold lifted_from_bytes. rewrite Ecs. cbn [bind]. rewrite Ef. reflexivity. }
  apply lift_nonce_Some in Ef as (F1 & F2 & F3).
  destruct (adapt sg t) as [l|] eqn:El; [|apply adapt_None in El; contradiction].
  assert (Hvl : verify_single_lifted pk l msg = Ok tt) by (eapply verified_adapt; eassumption).
  pose proof (adapt_even _ _ _ El) as Hev. pose proof El as El0. apply adapt_Some in El as (_ & E2 & E3).
  assert (ER : l_R final = l_R l).
  { apply point_ext. destruct (x_inj _ _ (point_fin (l_R final)) (point_fin (l_R l))) as [E|E]; [|exact E|].
    - rewrite E2, to_even_y_x. unfold xbytes in Hnonce. rewrite <- Hnonce, <- Hrx. auto.
    - exfalso. rewrite E, odd_neg, Hev in F1 by apply point_fin. discriminate. }
  assert (Es : l_s final = l_s l).
  { apply verify_lifted_iff in Hvl; [|exact Hev]. apply verify_lifted_iff in Hvf; [|assumption].
    rewrite ER in Hvf. rewrite <- Hvl in Hvf. apply gmul_inj in Hvf. exact Hvf. }
  assert (final = l) by (destruct final as [fr fs], l as [lr ls]; cbn [l_R l_s] in *; congruence). subst l.
  exists final, t. split; [exact Hl|]. split; [|split; [apply point_mul_G|]].
  - destruct (@C17_reveal_inverts_adapt_proof Pr Laws sg final) as (_ & _ & K & _).
    { unfold has_even_y. rewrite Hev. reflexivity. } apply (K t HR). exact El0.
  - intros pk2 sg2 msg2 V2 A2. destruct (adapt sg2 t) as [l2|] eqn:E; [|apply adapt_None in E; contradiction].
    exists l2. split; [reflexivity|]. destruct (@C16_verified_adaptor_adapts_proof Pr Laws Tags pk2 sg2 msg2 t) as (_ & _ & _ & K).
    destruct (K l2 E) as (_ & _ & K2). apply K2. rewrite point_mul_G. exact V2.
Qed.
End C58_published_signature_reveals.

Section C66_seckey_follows_tweaks.
Context {Pr : prims}.
Add Ring ring_C66_seckey_follows_tweaks : (fe_ring_theory (n := @ord Pr)).
Lemma C66_seckey_follows_tweaks_proof {Laws : prims_ok Pr} {Tags : tags_ok Pr} (c c' : key_agg_ctx Pr) (t : scalar Pr) (is_xonly : bool) (sks : list (scalar Pr)) (Ht : with_tweak c t is_xonly = Ok c') :
  let g := if is_xonly && negb (has_even_y (aggregated_pubkey c)) then -1 else 1 in
  (forall d, aggregated_seckey c sks = Ok d ->
     exists d', aggregated_seckey c' sks = Ok d' /\ fz d' = (g * fz d + fz t) mod n_) /\
  (aggregated_seckey c' sks = Err InvalidSecretKeysError <-> aggregated_seckey c sks = Err InvalidSecretKeysError).
Proof.
  cbv zeta. destruct (seckey_tweaked c c' t is_xonly sks Ht) as [K1 K2]. split.
  - intros d Hd. destruct (K1 d Hd) as (d' & Hd' & E). exists d'. split; [exact Hd'|]. rewrite E. unfold aggregated_pubkey, has_even_y.
    rewrite Bool.negb_involutive, mod_n. f_equal. rewrite of_Z_add, of_Z_mul, !of_Z_fz.
    destruct (is_xonly && pt_odd (pubkey c)); cbn [fneg_if].
    + replace (of_Z ord (-1)) with (fneg fone : mscalar Pr); [ring|]. change (-1) with (- (1)). rewrite of_Z_opp. reflexivity.
    + change (of_Z ord 1) with (fone : mscalar Pr). ring.
  - assert (P : forall e : key_agg_ctx Pr, aggregated_seckey e sks = Err InvalidSecretKeysError \/ exists d, aggregated_seckey e sks = Ok d).
    { intro e. unfold aggregated_seckey. destruct (seckey_loop _ _ _); [|auto]. destruct (not_zero _) as [y|]; [|auto].
      destruct (negb _); [auto | right; exists y; reflexivity]. }
    split; intro H.
    + destruct (P c) as [E|[d E]]; [exact E|]. destruct (K1 d E) as (d' & E' & _). congruence.
    + destruct (P c') as [E|[d E]]; [exact E|]. destruct (K2 d E) as (d' & E'). congruence.
Qed.
End C66_seckey_follows_tweaks.

Section C66_taproot_output_key.
Context {Pr : prims}.
Add Ring ring_C66_taproot_output_key : (fe_ring_theory (n := @ord Pr)).
Lemma C66_taproot_output_key_proof {Laws : prims_ok Pr} {Tags : tags_ok Pr} (c c' : key_agg_ctx Pr) (root : bytes) (Ht : with_taproot_tweak c root = Ok c') :
  exists Q : pt,
    taproot_tweak_pubkey (xbytes (aggregated_pubkey c)) root = Ret Q /\
    (forall an sigs msg l, aggregate_partial_signatures c' an sigs msg = Ok l ->
       schnorr_verify msg (xbytes Q) (lifted_to_bytes l) = Ret true) /\
    (forall sks d, aggregated_seckey c sks = Ok d ->
       exists d', aggregated_seckey c' sks = Ok d' /\
         taproot_tweak_seckey (ser_scalar d) root = Ret (ser_scalar d') /\
         forall msg seed, exists l, sign_solo d' msg seed = Ok l /\
           schnorr_verify msg (xbytes Q) (lifted_to_bytes l) = Ret true).
Proof.
  destruct (@C05_taproot_tweak_is_bip341_proof Pr Laws Tags c root) as (K & _). destruct (K c' Ht) as (HQ & Hr & ts & Hts & Hx). clear K.
  unfold xbytes. exists (aggregated_pubkey c'). split; [exact HQ|]. split.
  - intros an sigs msg l Hl. apply aggregate_plain_verifies in Hl as [V _]. unfold aggregated_pubkey.
    rewrite schnorr_verify_ref. replace (length (lifted_to_bytes l)) with 64%nat by (symmetry; apply lifted_len). cbn [Nat.eqb].
    unfold verify_single_bytes. rewrite compact_of_lifted_bytes. cbn [map_err bind]. fold (verify_single_lifted (pubkey c') l msg). rewrite V. reflexivity.
  - intros sks d Hd. destruct (seckey_tweaked c c' ts true sks Hx) as [K1 _]. destruct (K1 d Hd) as (d' & Hd' & E).
    exists d'. split; [exact Hd'|].
    pose proof Hd as Hd0. apply seckey_Ok in Hd0 as (w & _ & _ & Hg). apply seckey_Ok in Hd' as (w' & _ & _ & Hg').
    split.
    + unfold taproot_tweak_seckey. rewrite int_ser, point_mul_G, Hg.
      replace (is_infinite (pubkey c)) with false by (symmetry; apply is_infinite_point). cbn [negb py_assert].
      unfold aggregated_pubkey in Hts, Hr. unfold xbytes. rewrite <- Hts in Hr |- *. destruct (Z.leb_spec n_ (fz ts)) as [HL|HL]; [lia|].
      f_equal. unfold has_even_y in *. cbn [andb] in E. rewrite <- bytes_from_fz. f_equal. rewrite E.
      destruct (pt_odd (pubkey c)); cbn [negb fneg_if]; (rewrite mod_n; f_equal; rewrite of_Z_add, ?of_Z_sub, !of_Z_fz).
      replace (of_Z ord n_) with (fzero : mscalar Pr) by (apply fe_ext; rewrite !fz_of_Z; unfold n_; rewrite Z_mod_same_full; reflexivity). ring.
    + intros msg seed. destruct (@C20_sign_solo_is_bip340_proof Pr Laws Tags d' msg seed) as (l & El & _ & Vl & _).
      exists l. split; [exact El|]. replace (aggregated_pubkey c') with (base_mul d'); [exact Vl|].
      apply point_ext. rewrite base_mul_val. exact Hg'.
Qed.
End C66_taproot_output_key.

Section C66_nested_groups.
Context {Pr : prims}.
Add Ring ring_C66_nested_groups : (fe_ring_theory (n := @ord Pr)).
Lemma C66_nested_groups_proof {Laws : prims_ok Pr} {Tags : tags_ok Pr} (outer : key_agg_ctx Pr) (inner : list (key_agg_ctx Pr * list (scalar Pr))) (ds : list (scalar Pr)) (Hc : ctx_reachable outer) (Hkeys : pubkeys outer = map (fun p => aggregated_pubkey (fst p)) inner) (Hds : Forall2 (fun p d => aggregated_seckey (fst p) (snd p) = Ok d) inner ds) :
  map base_mul ds = pubkeys outer /\
  exists d, aggregated_seckey outer ds = Ok d /\ base_mul d = aggregated_pubkey outer.
Proof.
  assert (E : map base_mul ds = pubkeys outer).
  { rewrite Hkeys. clear Hkeys. induction Hds as [|p d inner ds H _ IH]; cbn [map]; [reflexivity|]. rewrite IH. f_equal.
    apply seckey_Ok in H as (_ & _ & _ & H). apply point_ext. rewrite base_mul_val. exact H. }
  split; [exact E|]. destruct (@C06_aggregated_seckey_proof Pr Laws Tags outer ds Hc) as (K1 & K2 & _).
  destruct (K2 E) as [d Hd]. exists d. split; [exact Hd | apply (K1 d), Hd].
Qed.
End C66_nested_groups.

(** Facts about key aggregation contexts. *)
From Verif Require Import Bytes BytesFacts Prims PrimsFacts CodecFacts TaggedHashes Errors KeyAgg SpecCtx.
Open Scope Z_scope.

Section KeyAggFacts.
Context {Pr : prims} {Ok_ : prims_ok Pr}.
Add Ring fring : (fe_ring_theory (n := @ord Pr)).

Lemma point_eqb_eq (P Q : point Pr) : point_eqb P Q = true <-> P = Q.
Proof.
  unfold point_eqb. rewrite pt_eqb_eq. split; [apply point_ext | congruence].
Qed.
Lemma point_eqb_refl (P : point Pr) : point_eqb P P = true.
Proof. apply point_eqb_eq. reflexivity. Qed.
Lemma point_eqb_neq (P Q : point Pr) : point_eqb P Q = false <-> P <> Q.
Proof.
  pose proof (point_eqb_eq P Q). destruct (point_eqb P Q); split; intro; try congruence; intuition congruence.
Qed.
Lemma point_eq_dec (P Q : point Pr) : {P = Q} + {P <> Q}.
Proof. destruct (point_eqb P Q) eqn:E; [left; apply point_eqb_eq | right; apply point_eqb_neq]; auto. Qed.

(** *** The index map *)

Lemma map_get_insert m k v k' :
  map_get (Pr := Pr) (map_insert m k v) k' = if point_eqb k' k then Some v else map_get m k'.
Proof.
  induction m as [|[k0 v0] m IH]; cbn [map_insert map_get].
  - reflexivity.
  - destruct (point_eqb k k0) eqn:E; cbn [map_get].
    + apply point_eqb_eq in E; subst k0. destruct (point_eqb k' k); reflexivity.
    + rewrite IH. destruct (point_eqb k' k0) eqn:E1; [|reflexivity].
      apply point_eqb_eq in E1; subst k0.
      destruct (point_eqb k' k) eqn:E2; [|reflexivity].
      apply point_eqb_eq in E2; subst k'. rewrite point_eqb_refl in E. discriminate.
Qed.

Lemma build_indexes_gen l k m pk :
  map_get (fold_left (fun m (e : nat * point Pr) => map_insert m (snd e) (fst e))
                     (combine (seq k (length l)) l) m) pk
  = match map_get (fold_left (fun m (e : nat * point Pr) => map_insert m (snd e) (fst e))
                     (combine (seq k (length l)) l) []) pk with
    | Some i => Some i | None => map_get m pk end.
Proof.
  revert k m. induction l as [|p l IH]; intros k m; cbn [length seq combine fold_left]; [reflexivity|].
  rewrite (IH (S k) (map_insert m _ _)), (IH (S k) (map_insert [] _ _)).
  destruct (map_get (fold_left _ _ []) pk); [reflexivity|].
  rewrite !map_get_insert. cbn [fst snd map_get]. destruct (point_eqb pk p); reflexivity.
Qed.

Lemma build_indexes_app l p pk :
  map_get (build_indexes (l ++ [p])) pk
  = if point_eqb pk p then Some (length l) else map_get (build_indexes l) pk.
Proof.
  unfold build_indexes. rewrite app_length, Nat.add_1_r, seq_S, Nat.add_0_l.
  assert (Hc : forall (a : list nat) b c d, length a = length b ->
             combine (a ++ [c]) (b ++ [d]) = combine a b ++ [(c, d) : nat * point Pr]).
  { induction a as [|x a IH]; intros [|y b] c d; cbn; intro H; try discriminate; [reflexivity|].
    f_equal. apply IH. lia. }
  rewrite Hc by apply seq_length. rewrite fold_left_app. cbn [fold_left fst snd].
  apply map_get_insert.
Qed.

(** The entry of a key is its last position. *)
Lemma build_indexes_Some l pk i :
  map_get (build_indexes l) pk = Some i <->
  nth_error l i = Some pk /\ forall j, (i < j)%nat -> nth_error l j <> Some pk.
Proof.
  revert i. induction l as [|p l IH] using rev_ind; intro i.
  - cbn. split; [discriminate|]. intros [H _]. destruct i; discriminate.
  - rewrite build_indexes_app. destruct (point_eqb pk p) eqn:E.
    + apply point_eqb_eq in E; subst p. split.
      * intro H; injection H as <-. split.
        { rewrite nth_error_app2, Nat.sub_diag by lia. reflexivity. }
        { intros j Hj H. assert (nth_error (l ++ [pk]) j <> None) by congruence.
          apply nth_error_Some in H0. rewrite app_length in H0. cbn in H0. lia. }
      * intros [H1 H2].
        assert (Hi : (i < length (l ++ [pk]))%nat) by (apply nth_error_Some; congruence).
        rewrite app_length in Hi. cbn in Hi.
        destruct (Nat.eq_dec i (length l)) as [->|]; [reflexivity|].
        destruct (H2 (length l) ltac:(lia)).
        rewrite nth_error_app2, Nat.sub_diag by lia. reflexivity.
    + apply point_eqb_neq in E. rewrite IH. split; intros [H1 H2].
      * assert (Hi : (i < length l)%nat) by (apply nth_error_Some; congruence).
        split; [rewrite nth_error_app1 by lia; assumption|].
        intros j Hj H. destruct (Nat.lt_ge_cases j (length l)) as [Hl|Hl].
        { rewrite nth_error_app1 in H by lia. apply (H2 j); assumption. }
        { rewrite nth_error_app2 in H by lia.
          destruct (j - length l)%nat as [|[|?]]; cbn in H; congruence. }
      * destruct (Nat.lt_ge_cases i (length l)) as [Hl|Hl].
        { rewrite nth_error_app1 in H1 by lia. split; [assumption|].
          intros j Hj H. apply (H2 j Hj).
          rewrite nth_error_app1; [assumption|]. apply nth_error_Some. congruence. }
        { rewrite nth_error_app2 in H1 by lia.
          destruct (i - length l)%nat as [|[|?]]; cbn in H1; congruence. }
Qed.

Lemma build_indexes_None l pk : map_get (build_indexes l) pk = None <-> ~ In pk l.
Proof.
  induction l as [|p l IH] using rev_ind; [cbn; tauto|].
  rewrite build_indexes_app, in_app_iff. cbn [In].
  destruct (point_eqb pk p) eqn:E.
  - apply point_eqb_eq in E; subst. split; [discriminate | tauto].
  - apply point_eqb_neq in E. rewrite IH. intuition congruence.
Qed.

(** *** Well-formed contexts *)

(** The coefficient of a key in a list (src/key_agg.rs:108-119, 500-517). *)
Definition coeff_of (pks : list (point Pr)) (pk : point Pr) : mscalar Pr :=
  compute_key_aggregation_coefficient (hash_pubkeys pks) pk (second_pubkey pks).

(** The sum of the keys times their coefficients (src/key_agg.rs:114-124). *)
Definition agg_sum_of (pks : list (point Pr)) : pt :=
  psum (map (fun pk => pmul (coeff_of pks pk) (pval pk)) pks).

(** The invariant of the contexts that src/key_agg.rs can make. *)
Record ctx_wf (c : key_agg_ctx Pr) : Prop := {
  wf_nonempty : ordered_pubkeys c <> [];
  wf_len : zlen (ordered_pubkeys c) <= u32_max;
  wf_idx : pubkey_indexes c = build_indexes (ordered_pubkeys c);
  wf_coeffs : key_coefficients c = map (coeff_of (ordered_pubkeys c)) (ordered_pubkeys c);
  wf_effs : effective_pubkeys c
            = map (fun pk => pmul (coeff_of (ordered_pubkeys c) pk) (pval pk)) (ordered_pubkeys c);
  wf_sum : agg_sum_of (ordered_pubkeys c) <> pt_O;
  wf_key : pval (pubkey c)
           = pt_add (pneg_if (parity_acc c) (agg_sum_of (ordered_pubkeys c))) (gmul (tweak_acc c))
}.

Lemma ctx_wf_ext c d :
  ctx_wf c -> ctx_wf d -> ordered_pubkeys c = ordered_pubkeys d ->
  parity_acc c = parity_acc d -> tweak_acc c = tweak_acc d -> c = d.
Proof.
  intros [] [] H1 H2 H3. destruct c, d; cbn in *. subst.
  f_equal. apply point_ext. congruence.
Qed.

Lemma key_agg_new_eq pks : pks <> [] -> zlen pks <= u32_max ->
  key_agg_new pks =
  match not_inf (agg_sum_of pks) with
  | None => Err KeyAggError
  | Some agg =>
      Ok {| pubkey := agg;
            ordered_pubkeys := pks;
            pubkey_indexes := build_indexes pks;
            key_coefficients := map (coeff_of pks) pks;
            effective_pubkeys := map (fun pk => pmul (coeff_of pks pk) (pval pk)) pks;
            parity_acc := false;
            tweak_acc := fzero |}
  end.
Proof.
  intros Hne Hl. unfold key_agg_new. destruct pks as [|p0 pks0] eqn:Epks; [congruence|].
  rewrite <- Epks in *. rewrite (proj2 (Z.ltb_ge _ _)) by lia. reflexivity.
Qed.

Lemma key_agg_new_Panic pks :
  key_agg_new pks = Panic <-> pks = [] \/ u32_max < zlen pks.
Proof.
  destruct pks as [|p0 pks0] eqn:Epks; [unfold key_agg_new; tauto|].
  rewrite <- Epks in *. assert (Hne : pks <> []) by congruence.
  destruct (Z.lt_ge_cases u32_max (zlen pks)) as [Hl|Hl].
  - split; [auto | intros _]. unfold key_agg_new. rewrite Epks, <- Epks.
    rewrite (proj2 (Z.ltb_lt _ _)) by lia. reflexivity.
  - rewrite key_agg_new_eq by assumption.
    destruct (not_inf _); (split; [discriminate|]); intros [H1|H1]; contradiction || lia.
Qed.

Lemma key_agg_new_domain pks r : key_agg_new pks = r -> r <> Panic -> pks <> [] /\ zlen pks <= u32_max.
Proof.
  intros H Hr. pose proof (key_agg_new_Panic pks) as HP. split.
  - intro E. apply Hr. rewrite <- H. tauto.
  - destruct (Z.lt_ge_cases u32_max (zlen pks)); [|assumption].
    destruct Hr. rewrite <- H. tauto.
Qed.

Lemma key_agg_new_Ok pks c :
  key_agg_new pks = Ok c <->
  pks <> [] /\ zlen pks <= u32_max /\ ctx_wf c /\ ordered_pubkeys c = pks /\
  parity_acc c = false /\ tweak_acc c = fzero.
Proof.
  split.
  - intro H. destruct (key_agg_new_domain _ _ H) as [Hne Hl]; [discriminate|].
    rewrite key_agg_new_eq in H by assumption.
    destruct (not_inf _) as [Q|] eqn:E; [|discriminate].
    injection H as <-. apply not_inf_Some in E.
    split; [exact Hne|]. split; [assumption|]. split; [|auto].
    constructor; cbn [ordered_pubkeys pubkey pubkey_indexes key_coefficients effective_pubkeys
                      parity_acc tweak_acc pneg_if]; try assumption; try reflexivity.
    + rewrite E. apply point_fin.
    + rewrite gmul_0, add_O_r. symmetry. exact E.
  - intros (Hne & Hl & Hwf & Hp & Hpar & Ht). rewrite key_agg_new_eq by assumption.
    destruct Hwf. rewrite Hp, Hpar, Ht in *. cbn [pneg_if] in *. rewrite gmul_0, add_O_r in wf_key0.
    rewrite (proj2 (not_inf_Some _ (pubkey c)) (eq_sym wf_key0)).
    f_equal. destruct c; cbn in *; subst. reflexivity.
Qed.

Lemma key_agg_new_Err pks e :
  key_agg_new pks = Err e <-> pks <> [] /\ zlen pks <= u32_max /\ agg_sum_of pks = pt_O.
Proof.
  split.
  - intro H. destruct (key_agg_new_domain _ _ H) as [Hne Hl]; [discriminate|].
    rewrite key_agg_new_eq in H by assumption.
    destruct (not_inf _) as [Q|] eqn:E; [discriminate|]. apply not_inf_None in E. auto.
  - intros (Hne & Hl & E). rewrite key_agg_new_eq by assumption.
    rewrite (proj2 (not_inf_None _) E). destruct e. reflexivity.
Qed.

(** *** Tweaks *)

Lemma ctx_update_wf c Q par t :
  ctx_wf c ->
  pval Q = pt_add (pneg_if par (agg_sum_of (ordered_pubkeys c))) (gmul t) ->
  ctx_wf (ctx_update c Q par t).
Proof. intros [] H. constructor; cbn; auto. Qed.

Lemma plain_wf c t c' : ctx_wf c -> with_plain_tweak c t = Ok c' ->
  ctx_wf c' /\ ordered_pubkeys c' = ordered_pubkeys c.
Proof.
  intros Hwf. unfold with_plain_tweak. destruct (not_inf _) as [Q|] eqn:E; [|discriminate].
  intro H; injection H as <-. apply not_inf_Some in E. split; [|reflexivity].
  apply ctx_update_wf; [assumption|]. rewrite <- E. destruct Hwf.
  rewrite wf_key0, gmul_add, add_assoc. reflexivity.
Qed.

Lemma xonly_wf c t c' : ctx_wf c -> with_xonly_tweak c t = Ok c' ->
  ctx_wf c' /\ ordered_pubkeys c' = ordered_pubkeys c.
Proof.
  intros Hwf. unfold with_xonly_tweak. destruct (pt_odd (pubkey c)) eqn:Eo; cbn [negb].
  2: apply plain_wf; assumption.
  destruct (not_inf _) as [Q|] eqn:E; [|discriminate].
  intro H; injection H as <-. apply not_inf_Some in E. split; [|reflexivity].
  apply ctx_update_wf; [assumption|]. rewrite <- E. destruct Hwf.
  rewrite wf_key0, gmul_sub. unfold psub. rewrite neg_add.
  replace (pt_neg (pneg_if (parity_acc c) (agg_sum_of (ordered_pubkeys c))))
    with (pneg_if (negb (parity_acc c)) (agg_sum_of (ordered_pubkeys c))).
  - rewrite <- !add_assoc. rewrite (add_comm (gmul t)). reflexivity.
  - destruct (parity_acc c); cbn; [rewrite neg_neg|]; reflexivity.
Qed.

Lemma tweak_wf c t x c' : ctx_wf c -> with_tweak c t x = Ok c' ->
  ctx_wf c' /\ ordered_pubkeys c' = ordered_pubkeys c.
Proof. intro Hwf. destruct x; [apply xonly_wf | apply plain_wf]; assumption. Qed.

Lemma tweaks_wf c ts c' : ctx_wf c -> with_tweaks c ts = Ok c' ->
  ctx_wf c' /\ ordered_pubkeys c' = ordered_pubkeys c.
Proof.
  revert c. induction ts as [|[t x] ts IH]; intros c Hwf; cbn [with_tweaks].
  - intro H; injection H as <-. auto.
  - destruct (with_tweak c t x) as [d| |] eqn:E; cbn [bind]; try discriminate.
    apply tweak_wf in E as [E1 E2]; [|assumption]. intro H. apply IH in H as [H1 H2]; [|assumption].
    split; congruence.
Qed.

Lemma taproot_wf c r c' : ctx_wf c -> with_taproot_tweak_internal c r = Ok c' ->
  ctx_wf c' /\ ordered_pubkeys c' = ordered_pubkeys c.
Proof.
  intros Hwf. unfold with_taproot_tweak_internal. destruct (parse_scalar _); [|discriminate].
  apply xonly_wf; assumption.
Qed.

(** *** Decoding gives well-formed contexts *)

Lemma neg_ctx_wf c : ctx_wf c -> parity_acc c = false -> tweak_acc c = fzero ->
  ctx_wf (ctx_update c (neg_point (pubkey c)) true (tweak_acc c)).
Proof.
  intros Hwf Hp Ht. apply ctx_update_wf; [assumption|]. destruct Hwf.
  rewrite neg_point_val, wf_key0, Hp, Ht. cbn [pneg_if]. rewrite gmul_0, !add_O_r. reflexivity.
Qed.

Lemma slice_Ok {E} b i j r : @slice E b i j = Ok r -> (i <= j <= length b)%nat /\ r = firstn (j - i) (skipn i b).
Proof.
  unfold slice. destruct (Nat.leb_spec i j), (Nat.leb_spec j (length b)); cbn [andb]; try discriminate.
  intro HH; injection HH as <-. auto.
Qed.

Lemma from_bytes_wf tg b c : ctx_from_bytes (Pr := Pr) tg b = Ok c -> ctx_wf c.
Proof.
  unfold ctx_from_bytes. destruct (_ <? _)%nat; [discriminate|].
  destruct b as [|h b']; [discriminate|]. set (b := h :: b').
  destruct (if Z.testbit (b2z h) 1 then _ else _) as [[cursor tw]| |]; cbn [bind]; try discriminate.
  destruct (slice b cursor (cursor + 4)) as [nb| |]; cbn [bind]; try discriminate.
  destruct (usize_mul tg (be_dec nb) 33) as [ex| |]; cbn [bind]; try discriminate.
  destruct (negb _); [discriminate|].
  destruct (parse_points _) as [pks| |]; cbn [bind]; try discriminate.
  destruct (key_agg_new pks) as [c0| |] eqn:E; cbn [bind map_err]; try discriminate.
  apply key_agg_new_Ok in E as (_ & _ & Hwf & _ & Hp & Ht).
  assert (Hwf' : ctx_wf (ctx_update c0 (if Z.testbit (b2z h) 0 then neg_point (pubkey c0) else pubkey c0)
                          (Z.testbit (b2z h) 0) (tweak_acc c0))).
  { destruct (Z.testbit (b2z h) 0).
    - apply neg_ctx_wf; assumption.
    - rewrite <- Hp. destruct c0; exact Hwf. }
  destruct tw as [t|].
  - destruct (with_plain_tweak _ t) as [c1| |] eqn:E1; cbn [map_err]; try discriminate.
    intro H; injection H as <-. eapply plain_wf; eassumption.
  - intro H; injection H as <-. exact Hwf'.
Qed.

Lemma reachable_wf c : ctx_reachable c -> ctx_wf c.
Proof.
  induction 1.
  - apply key_agg_new_Ok in H. tauto.
  - eapply plain_wf; eassumption.
  - eapply xonly_wf; eassumption.
  - eapply tweak_wf; eassumption.
  - eapply tweaks_wf; eassumption.
  - eapply taproot_wf; eassumption.
  - eapply taproot_wf; eassumption.
  - eapply from_bytes_wf; eassumption.
Qed.

(** *** Lookups *)

Lemma member_index c pk : ctx_wf c -> In pk (ordered_pubkeys c) ->
  exists i, pubkey_index c pk = Some i /\ nth_error (ordered_pubkeys c) i = Some pk.
Proof.
  intros Hwf Hin. unfold pubkey_index. rewrite (wf_idx c Hwf).
  destruct (map_get _ pk) as [i|] eqn:E.
  - apply build_indexes_Some in E. exists i. tauto.
  - apply build_indexes_None in E. contradiction.
Qed.

Lemma nonmember_index c pk : ctx_wf c -> (pubkey_index c pk = None <-> ~ In pk (ordered_pubkeys c)).
Proof. intros Hwf. unfold pubkey_index. rewrite (wf_idx c Hwf). apply build_indexes_None. Qed.

Lemma key_coefficient_in c pk : ctx_wf c -> In pk (ordered_pubkeys c) ->
  key_coefficient c pk = Ok (Some (coeff_of (ordered_pubkeys c) pk)).
Proof.
  intros Hwf Hin. destruct (member_index c pk Hwf Hin) as [i [E1 E2]].
  unfold key_coefficient. rewrite E1, (wf_coeffs c Hwf).
  rewrite (map_nth_error _ _ _ E2). reflexivity.
Qed.
Lemma key_coefficient_out c pk : ctx_wf c -> ~ In pk (ordered_pubkeys c) ->
  key_coefficient c pk = Ok None.
Proof.
  intros Hwf Hin. unfold key_coefficient. rewrite (proj2 (nonmember_index c pk Hwf) Hin). reflexivity.
Qed.
Lemma effective_pubkey_in c pk : ctx_wf c -> In pk (ordered_pubkeys c) ->
  effective_pubkey c pk = Ok (Some (pmul (coeff_of (ordered_pubkeys c) pk) pk)).
Proof.
  intros Hwf Hin. destruct (member_index c pk Hwf Hin) as [i [E1 E2]].
  unfold effective_pubkey. rewrite E1, (wf_effs c Hwf).
  rewrite (map_nth_error _ _ _ E2). reflexivity.
Qed.
Lemma effective_pubkey_out c pk : ctx_wf c -> ~ In pk (ordered_pubkeys c) ->
  effective_pubkey c pk = Ok None.
Proof.
  intros Hwf Hin. unfold effective_pubkey. rewrite (proj2 (nonmember_index c pk Hwf) Hin). reflexivity.
Qed.

Lemma in_pks_dec (pk : point Pr) l : {In pk l} + {~ In pk l}.
Proof. apply in_dec. apply point_eq_dec. Qed.

(** *** Untweaked key *)

Lemma untweaked_Ok c : ctx_wf c ->
  exists Q0, aggregated_pubkey_untweaked c = Ok Q0 /\ pval Q0 = agg_sum_of (ordered_pubkeys c).
Proof.
  intro Hwf. unfold aggregated_pubkey_untweaked.
  assert (E : pneg_if (parity_acc c) (psub (pubkey c) (gmul (tweak_acc c))) = agg_sum_of (ordered_pubkeys c)).
  { rewrite (wf_key c Hwf). unfold psub. rewrite add_assoc, add_neg_r, add_O_r. apply pneg_if_invol. }
  rewrite E. destruct (not_inf_fin _ (wf_sum c Hwf)) as [Q0 [E1 E2]].
  exists Q0. rewrite E1. auto.
Qed.

Lemma new_of_wf c : ctx_wf c ->
  exists c0, key_agg_new (ordered_pubkeys c) = Ok c0 /\
             pval (pubkey c0) = agg_sum_of (ordered_pubkeys c).
Proof.
  intro Hwf. destruct (key_agg_new (ordered_pubkeys c)) as [c0|e|] eqn:E.
  - exists c0. split; [reflexivity|]. apply key_agg_new_Ok in E as (_ & _ & H1 & H2 & H3 & H4).
    rewrite (wf_key c0 H1), H2, H3, H4. cbn [pneg_if]. rewrite gmul_0, add_O_r. reflexivity.
  - apply key_agg_new_Err in E as (_ & _ & E). destruct (wf_sum c Hwf E).
  - apply key_agg_new_Panic in E as [E|E]; [destruct (wf_nonempty c Hwf E)|].
    pose proof (wf_len c Hwf). lia.
Qed.

(** *** Aggregated secret keys *)

Lemma seckey_loop_spec coeffs sks acc :
  seckey_loop coeffs sks acc =
  if (length sks <=? length coeffs)%nat
  then Some (fadd acc (fsum (map (fun p => fmul (fst p) (sval (snd p))) (combine coeffs sks))))
  else None.
Proof.
  revert coeffs acc. induction sks as [|sk sks IH]; intros coeffs acc; cbn [seckey_loop].
  - replace (combine coeffs (@nil (scalar Pr))) with (@nil (mscalar Pr * scalar Pr))
      by (destruct coeffs; reflexivity).
    change (length (@nil (scalar Pr)) <=? length coeffs)%nat with true. cbv iota.
    cbn [map]. rewrite fsum_nil. apply f_equal. ring.
  - destruct coeffs as [|a coeffs]; [reflexivity|]. rewrite IH. cbn [length Nat.leb combine map].
    destruct (_ <=? _)%nat; [|reflexivity]. rewrite fsum_cons. cbn [fst snd]. apply f_equal. ring.
Qed.

End KeyAggFacts.

(** Proofs of the theorems of PropertiesWatch.v. *)
From Coq Require Import String List.
From Verif Require Import Bytes BytesFacts Prims PrimsFacts TaggedHashes Errors SpecTags SpecBIP327
  KeyAgg Nonces Signature Signing SigAgg Rounds SpecCtx SpecView SpecSession SpecRounds SpecMachine
  SpecNonces ControlFlow SpecFlow ControlFlowRounds SpecWatch Toy ToyData ToyRounds ToyHistories ToyWatch.
Import ListNotations.
Open Scope string_scope.
Open Scope list_scope.
Open Scope nat_scope.
From Coq Require Import Lia Arith Sorting.Sorted.
From Verif Require Import CodecFacts KeyAggFacts NoncesFacts SigningFacts SignatureFacts SpecFacts SpecSigning SessionFacts
  RoundsFacts ProofsKeyAgg ProofsHistories ProofsFlow.
Open Scope list_scope.
Open Scope nat_scope.

Section WatchSlots.
Context {T : Type} (teqb : T -> T -> bool).

Lemma next_value {A B} (m : traced A) (f : A -> traced B) : value (next m f) = value (f (value m)).
Proof. reflexivity. Qed.
Lemma next_trace {A B} (m : traced A) (f : A -> traced B) : trace (next m f) = trace m ++ trace (f (value m)).
Proof. reflexivity. Qed.
Lemma see_value {A} e (m : traced A) : value (see e m) = value m.
Proof. reflexivity. Qed.
Lemma see_trace {A} e (m : traced A) : trace (see e m) = e :: trace m.
Proof. reflexivity. Qed.

Lemma next_Traced {A B} l (a : A) (f : A -> traced B) l' b : f a = Traced l' b -> next (Traced l a) f = Traced (l ++ l') b.
Proof. unfold next. cbn [trace value]. intros ->. reflexivity. Qed.
Lemma see_Traced {A} e l (a : A) : see e (Traced l a) = Traced (e :: l) a.
Proof. reflexivity. Qed.

Lemma place_t_value (s : slots T) v i : value (place_t teqb s v i) = place teqb s v i.
Proof.
  unfold place_t, place. destruct (_ <=? i); [reflexivity|]. rewrite see_value.
  destruct (nth_error _ i) as [[old|]|]; [|destruct (binary_search _ i); reflexivity|reflexivity].
  rewrite !see_value. destruct (teqb v old); reflexivity.
Qed.
Lemma gaps_missing n (calls : list (nat * T)) : gaps n calls = missing n calls.
Proof. unfold gaps, missing. apply filter_ext. intro j. destruct (on_file calls j); reflexivity. Qed.
Lemma missing_position n (calls : list (nat * T)) p i : i < n -> nth_error (missing n calls) p = Some i -> p = List.length (gaps i calls).
Proof.
  intros Hi Hp. rewrite gaps_missing.
  assert (Hin : on_file calls i = None) by (apply nth_error_In in Hp; apply missing_In in Hp; tauto).
  assert (E : missing n calls = missing i calls ++ i :: filter (fun i => is_none (on_file calls i)) (seq (S i) (n - S i))).
  { unfold missing. replace n with (i + S (n - S i)) at 1 by lia. rewrite seq_app, filter_app. cbn [seq filter Nat.add].
    rewrite Hin. reflexivity. }
  assert (ND : NoDup (missing n calls)) by (apply NoDup_filter, seq_NoDup).
  apply (proj1 (NoDup_nth_error _) ND).
  - apply nth_error_Some. congruence.
  - rewrite Hp, E, nth_error_app2 by lia. rewrite Nat.sub_diag. reflexivity.
Qed.
Lemma place_t_trace n (s : slots T) calls v i : slots_ok n s calls -> trace (place_t teqb s v i) = slot_flow teqb n calls i v.
Proof.
  intros [Hv Ho]. unfold place_t, slot_flow. rewrite Hv, map_length, seq_length.
  destruct (Nat.leb_spec n i) as [H|H]; destruct (Nat.ltb_spec i n) as [H'|H']; try lia; [reflexivity|].
  rewrite see_trace, nth_map_seq by assumption. cbn [app]. f_equal. destruct (on_file calls i) as [w|] eqn:E.
  - rewrite !see_trace. destruct (teqb v w); reflexivity.
  - rewrite !see_trace. destruct (binary_search_found (open_slots s) i) as (p & Hp & Hx).
    { rewrite Ho. apply missing_sorted. } { rewrite Ho, missing_In. auto. }
    rewrite Hp, see_trace. rewrite Ho in Hx. rewrite (missing_position n calls p i H Hx). reflexivity.
Qed.

Lemma collect_t_value (l : list (option T)) : value (collect_t l) = collect l.
Proof.
  induction l as [|[v|] l IH]; [reflexivity| |reflexivity]. cbn [collect_t collect]. rewrite see_value, next_value, IH. reflexivity.
Qed.
Lemma collect_t_trace_from (calls : list (nat * T)) n : forall a,
  trace (collect_t (map (on_file calls) (seq a n))) =
  match filter (fun j => negb (present (on_file calls j))) (seq a n) with
  | [] => repeat (Branch "rounds.rs:62" false) n
  | j :: _ => repeat (Branch "rounds.rs:62" false) (j - a) ++ [ Branch "rounds.rs:62" true ]
  end.
Proof.
  induction n as [|n IH]; intro a; [reflexivity|]. cbn [seq map filter repeat collect_t].
  destruct (on_file calls a) as [v|]; cbn [present negb].
  - rewrite see_trace, next_trace, IH. cbn [ret trace]. rewrite app_nil_r.
    destruct (filter _ (seq (S a) n)) as [|j l] eqn:E; [reflexivity|].
    assert (Hj : S a <= j).
    { assert (HI : In j (filter (fun j => negb (present (on_file calls j))) (seq (S a) n))) by (rewrite E; left; reflexivity).
      apply filter_In in HI as [HI _]. apply in_seq in HI. lia. }
    replace (j - a) with (S (j - S a)) by lia. reflexivity.
  - rewrite Nat.sub_diag. reflexivity.
Qed.
Lemma collect_t_trace n (s : slots T) calls : slots_ok n s calls -> trace (collect_t (slot_vec s)) = collect_flow n calls.
Proof.
  intros [Hv _]. rewrite Hv, collect_t_trace_from. unfold collect_flow, gaps.
  destruct (filter _ (seq 0 n)) as [|j l]; [reflexivity|]. rewrite Nat.sub_0_r. reflexivity.
Qed.
Lemma flat_filed (f : nat -> option T) l : forall vs, map f l = map Some vs ->
  flat_map (fun j => match f j with Some v => [v] | None => [] end) l = vs.
Proof.
  induction l as [|j l IH]; intros [|v vs] H; cbn [map] in H; try discriminate; [reflexivity|].
  assert (H1 : f j = Some v) by congruence. assert (H2 : map f l = map Some vs) by (injection H; auto).
  cbn [flat_map]. rewrite H1, (IH vs H2). reflexivity.
Qed.
Lemma collect_filed n (s : slots T) calls : slots_ok n s calls ->
  (gaps n calls = [] /\ collect (slot_vec s) = Ok (filed n calls) /\ List.length (filed n calls) = n) \/
  (exists j l, gaps n calls = j :: l /\ collect (slot_vec s) = Err FE_Incomplete).
Proof.
  intros Hs. destruct (finalize_complete n s calls Hs) as [(vs & E & Hr & HL & HN)|[E Hr]]; unfold slots_finalize, remaining in *.
  - left. destruct Hs as [Hv Ho]. rewrite gaps_missing, <- Ho. split; [exact Hr|].
    pose proof (proj1 (collect_Ok _ _) E) as HM. rewrite Hv in HM.
    assert (F : filed n calls = vs) by (apply flat_filed, HM). rewrite F. auto.
  - right. destruct Hs as [Hv Ho]. rewrite gaps_missing, <- Ho. destruct (open_slots s) as [|j l]; [congruence|]. eauto.
Qed.
End WatchSlots.

Section Watch.
Context {Pr : prims} {Laws : prims_ok Pr} {Tags : tags_ok Pr}.

Lemma last_position_None (l : list (point Pr)) P : last_position l P = None <-> ~ In P l.
Proof.
  induction l as [|Q l IH]; cbn [last_position In]; [split; auto|].
  destruct (last_position l P) as [j|].
  - split; [discriminate|]. intro H. destruct IH as [_ IH]. exfalso. assert (Some j = None); [|discriminate]. apply IH. tauto.
  - destruct (pt_eqb P Q) eqn:E.
    + split; [discriminate|]. intro H. exfalso. apply H. left. apply pt_eqb_eq in E. apply point_ext. congruence.
    + split; [|reflexivity]. intros _ [H|H]; [|apply (proj1 IH eq_refl H)]. subst Q. apply pt_eqb_neq in E. congruence.
Qed.
Lemma last_position_Some (l : list (point Pr)) P : forall i, last_position l P = Some i ->
  nth_error l i = Some P /\ forall j, i < j -> nth_error l j <> Some P.
Proof.
  induction l as [|Q l IH]; intros i H; cbn [last_position] in H; [discriminate|].
  destruct (last_position l P) as [k|] eqn:EK.
  - assert (i = S k) by congruence. subst i. destruct (IH k eq_refl) as [H1 H2]. split; [exact H1|].
    intros [|j] Hj; [lia|]. cbn [nth_error]. apply H2. lia.
  - destruct (pt_eqb P Q) eqn:E; [|discriminate]. assert (i = 0) by congruence. subst i.
    apply pt_eqb_eq in E. apply point_ext in E. subst Q. split; [reflexivity|].
    intros [|j] Hj; [lia|]. cbn [nth_error]. intro HN. apply nth_error_In in HN. apply (proj1 (last_position_None l P) EK HN).
Qed.
Lemma last_position_index (c : key_agg_ctx Pr) P : ctx_reachable c -> pubkey_index c P = last_position (pubkeys c) P.
Proof.
  intro Hc. pose proof (C02_member_lookup_proof c P Hc) as (H1 & H2 & _).
  destruct (last_position (pubkeys c) P) as [i|] eqn:E.
  - apply H2. apply last_position_Some, E.
  - apply H1. apply last_position_None, E.
Qed.
Lemma sign_t_flow (c : key_agg_ctx Pr) sk sn an T msg : ctx_reachable c ->
  trace (sign_partial_adaptor_t c sk sn an T msg) = key_flow c (base_mul sk) an T msg.
Proof.
  intro Hc. pose proof (C83_signing_proof c sk sn an T msg Hc) as (_ & H1 & H2). unfold key_flow.
  destruct (last_position (pubkeys c) (base_mul sk)) as [i|] eqn:E.
  - destruct (last_position_Some _ _ _ E). auto.
  - apply H2. apply last_position_None, E.
Qed.

Lemma verify_t_flow (c : key_agg_ctx Pr) s an T pk pn msg : ctx_reachable c -> In pk (pubkeys c) ->
  trace (verify_partial_adaptor_t c s an T pk pn msg) =
  checking_flow c pk an T msg (negb (is_ok (verify_partial_adaptor c s an T pk pn msg))).
Proof.
  intros Hc Hin. pose proof (reachable_wf c Hc) as Hwf. rewrite <- (verify_t_value c s an T pk pn msg).
  unfold checking_flow. rewrite <- (last_position_index c pk Hc).
  destruct (member_index c pk Hwf Hin) as (i & Hi & _). rewrite Hi.
  rewrite spec_R_raw_eq, spec_values_eq. cbn [v_R]. change (pt_add (sess_R c an msg) T) with (sess_A c an T msg).
  unfold has_even_y. rewrite Bool.negb_involutive.
  pose proof (effective_pubkey_in c pk Hwf Hin) as E. rewrite <- effective_pubkey_t_value in E.
  assert (ET : trace (effective_pubkey_t c pk) = [ Branch "key_agg.rs:463" false; Index "key_agg.rs:464" i ])
    by (unfold effective_pubkey_t; rewrite Hi; reflexivity).
  unfold verify_partial_adaptor_t. rewrite (traced_eq _ _ _ ET E). cbn [next trace value lookup_or early see nonce_coefficient_t challenge_t ret app].
  rewrite final_nonce_t_eq. cbn [trace value app].
  change (pt_add (final_nonce an (nonce_coefficient an (pubkey c) msg)) T) with (sess_A c an T msg).
  change (pt_add (aR1 an) (pmul (nonce_coefficient an (pubkey c) msg) (aR2 an))) with (raw_nonce c an msg).
  destruct (pt_odd (sess_A c an T msg)); cbn [see ret trace value app]; destruct (negb (pt_eqb _ _)); reflexivity.
Qed.

Lemma aggregate_t_value (c : key_agg_ctx Pr) an T sigs msg :
  value (aggregate_t c an T sigs msg) = aggregate_partial_adaptor_signatures c an T sigs msg.
Proof.
  unfold aggregate_t, aggregate_partial_adaptor_signatures. rewrite !next_value, final_nonce_t_value.
  unfold nonce_coefficient_t, challenge_t, see, ret. cbn [value].
  destruct (pt_odd (pt_add _ T)); cbn [negb value]; destruct (pt_eqb _ _); reflexivity.
Qed.
Lemma aggregate_t_trace (c : key_agg_ctx Pr) an T sigs msg :
  trace (aggregate_t c an T sigs msg) =
  [ Size "nonces.rs:619" (zlen msg); Branch "nonces.rs:639" (is_infinite (spec_R_raw c an msg));
    Size "signing.rs:30" (zlen msg); Branch "sig_agg.rs:39" (has_even_y (pt_add (v_R (spec_values c an T msg)) T));
    Branch "sig_agg.rs:46" (negb (is_ok (aggregate_partial_adaptor_signatures c an T sigs msg))) ].
Proof.
  rewrite <- aggregate_t_value. rewrite spec_R_raw_eq, spec_values_eq. cbn [v_R]. unfold has_even_y.
  unfold aggregate_t. unfold next, nonce_coefficient_t, challenge_t, see, ret. cbn [trace value app].
  rewrite final_nonce_t_eq. cbn [trace value app].
  change (pt_add (aR1 an) (pmul (nonce_coefficient an (pubkey c) msg) (aR2 an))) with (raw_nonce c an msg).
  change (final_nonce an (nonce_coefficient an (pubkey c) msg)) with (sess_R c an msg).
  change (pt_add (sess_R c an msg) T) with (sess_A c an T msg).
  destruct (pt_odd (sess_A c an T msg)); cbn [negb trace value app]; destruct (pt_eqb _ _); reflexivity.
Qed.

(** The machine and the watcher agree. *)
Definition follows (p : phase Pr) (w : watcher Pr) : Prop :=
  match p, w with
  | Collecting r, WNonces c own file =>
      fr_ctx r = c /\ fr_index r = own /\ ctx_reachable c /\ exists hist, file = (own, our_public_nonce r) :: hist /\ fr_ok r hist
  | Signing r, WSignatures c own an T msg file =>
      sr_ctx r = c /\ sr_index r = own /\ ctx_reachable c /\ sr_aggnonce r = an /\ sr_adaptor r = T /\ sr_message r = msg /\
      exists ours hist, file = (own, ours) :: hist /\ sr_ok r ours hist
  | Consumed, WGone => True
  | _, _ => False
  end.
(** What [mstep_t] does against [mstep] and [watch]. *)
Definition step_ok (p : phase Pr) (w : watcher Pr) (k : mcall Pr) : Prop :=
  match mstep p k with
  | None => mstep_t p k = None
  | Some (p', o) => exists m, mstep_t p k = Some m /\ value m = (p', o) /\
      trace m = fst (watch w (public_call k) o) /\ follows p' (snd (watch w (public_call k) o))
  end.

Lemma step_nonce r w i n : follows (Collecting r) w -> step_ok (Collecting r) w (CNonce i n).
Proof.
  destruct w as [c own file| |]; try contradiction. intros (Ec & Ei & Hc & hist & Ef & Hr). destruct Hr as [Hi Hs].
  unfold step_ok. cbn [mstep mstep_t public_call watch fst snd].
  pose proof (place_ok pubnonce_eqb _ _ _ n i Hs) as [Hp1 Hp2].
  unfold receive_nonce. destruct (place pubnonce_eqb (fr_slots r) n i) as [s o] eqn:EP. cbn [fst snd] in *.
  eexists. split; [reflexivity|]. unfold receive_nonce_t. rewrite !next_value, !next_trace, place_t_value, EP.
  split; [reflexivity|]. split.
  - cbn [ret trace]. rewrite !app_nil_r, (place_t_trace pubnonce_eqb _ _ _ _ _ Hs). subst c own file. reflexivity.
  - subst c own file. cbn [follows fr_ctx fr_index]. split; [reflexivity|]. split; [reflexivity|]. split; [exact Hc|].
    exists (hist ++ [(i, n)]). split; [reflexivity|]. split; [exact Hi|exact Hp1].
Qed.

Lemma step_sign_for r w sk T msg an : follows (Collecting r) w -> step_ok (Collecting r) w (CSignFor sk T msg an).
Proof.
  destruct w as [c own file| |]; try contradiction. intros (Ec & Ei & Hc & _).
  unfold step_ok. cbn [mstep mstep_t public_call watch fst snd]. eexists. split; [reflexivity|].
  unfold sign_for_aggregator_adaptor_t. rewrite next_value, next_trace, sign_t_value. split; [reflexivity|].
  cbn [ret trace]. rewrite app_nil_r. subst c. rewrite sign_t_flow by exact Hc. split; [reflexivity|exact I].
Qed.

Lemma step_sign r w sk T msg : follows (Collecting r) w -> step_ok (Collecting r) w (CSign sk T msg).
Proof.
  destruct w as [c own file| |]; try contradiction. intros (Ec & Ei & Hc & hist & Ef & Hr). destruct Hr as [Hi Hs]. subst c own.
  pose proof (reachable_wf _ Hc) as Hwf. rewrite <- Ef in Hs.
  unfold step_ok. cbn [mstep mstep_t public_call watch fst snd].
  unfold fr_finalize_adaptor, fr_finalize_adaptor_t, slots_finalize. unfold nsigners in *.
  destruct (collect_filed _ _ _ Hs) as [(G & E & HL)|(j & l & G & E)]; rewrite G, E; cbn [bind].
  2:{ eexists. split; [reflexivity|]. rewrite !next_value, !next_trace, collect_t_value, E. cbn [early]. rewrite next_value.
      rewrite collect_t_value, E. cbn [early see ret value trace]. split; [reflexivity|].
      rewrite (collect_t_trace _ _ _ Hs), app_nil_r. split; [reflexivity|exact I]. }
  set (an := agg_sum (filed (List.length (pubkeys (fr_ctx r))) file)).
  pose proof (sign_t_flow (fr_ctx r) sk (fr_secnonce r) an T msg Hc) as HF. unfold key_flow in HF.
  pose proof (sign_t_value (fr_ctx r) sk (fr_secnonce r) an T msg) as HV.
  destruct (last_position (pubkeys (fr_ctx r)) (base_mul sk)) as [q|] eqn:EL.
  - assert (Hin : In (base_mul sk) (ordered_pubkeys (fr_ctx r))).
    { apply last_position_Some in EL as [EL _]. apply nth_error_In in EL. exact EL. }
    rewrite (sign_member _ _ (fr_secnonce r) an T msg Hwf Hin) in HV |- *. cbn [map_err bind].
    set (ps := psig_value (fr_ctx r) sk (fr_secnonce r) an T msg) in *. rewrite HL.
    pose proof (slots_new_ok (List.length (pubkeys (fr_ctx r))) (T := mscalar Pr)) as H0.
    pose proof (place_t_trace mscalar_eqb _ _ _ ps (fr_index r) H0) as HPT.
    pose proof (place_t_value mscalar_eqb (slots_new (List.length (pubkeys (fr_ctx r)))) ps (fr_index r)) as HPV.
    destruct (place_spec mscalar_eqb _ _ [] ps (fr_index r) H0) as [[H1 H2]|[(H1 & w & Hw & H2)|(H1 & H2 & s' & H3 & H4)]].
    + lia.
    + discriminate.
    + rewrite H3 in HPV |- *.
      set (sr := {| sr_ctx := fr_ctx r; sr_index := fr_index r; sr_pubnonces := filed (List.length (pubkeys (fr_ctx r))) file;
                    sr_aggnonce := an; sr_adaptor := T; sr_message := msg; sr_slots := s' |}).
      assert (Hsr : sr_ok sr ps []).
      { split; [exact Hi|]. split; [exact HL|]. split; [reflexivity|]. exact H4. }
      rewrite (our_signature_ok sr ps [] Hsr).
      assert (HO : our_signature_t sr = Traced [Index "rounds.rs:362" (fr_index r)] (Ok ps)).
      { pose proof (our_signature_ok sr ps [] Hsr) as HO. unfold our_signature in HO. unfold our_signature_t.
        destruct (nth_error _ _) as [[s0|]|]; try discriminate. assert (s0 = ps) by congruence. subst s0. reflexivity. }
      assert (HFT : fr_finalize_adaptor_t r sk T msg =
        Traced (collect_flow (List.length (pubkeys (fr_ctx r))) file ++ [Branch "rounds.rs:221" false] ++ signing_flow (fr_ctx r) q an T msg
                ++ [Branch "rounds.rs:231" false] ++ slot_flow mscalar_eqb (List.length (pubkeys (fr_ctx r))) [] (fr_index r) ps) (Ok sr)).
      { unfold fr_finalize_adaptor_t. rewrite (traced_eq _ _ _ (collect_t_trace _ _ _ Hs) (eq_trans (collect_t_value _) E)).
        apply next_Traced. cbn [early]. fold an. rewrite (traced_eq _ _ _ HF HV).
        erewrite next_Traced; [apply see_Traced|]. cbn [early map_err]. rewrite HL, (traced_eq _ _ _ HPT HPV).
        erewrite next_Traced; [rewrite app_nil_r; apply see_Traced|]. reflexivity. }
      eexists. split; [reflexivity|]. fold (fr_finalize_adaptor_t r sk T msg). rewrite HFT. unfold next, ret. cbn [trace value].
      rewrite HO. cbn [trace value]. split; [reflexivity|]. cbn [told_signature fst snd].
      split; [rewrite <- !app_assoc; reflexivity|].
      cbn [follows]. split; [reflexivity|]. split; [reflexivity|]. split; [exact Hc|]. split; [reflexivity|]. split; [reflexivity|].
      split; [reflexivity|]. exists ps, []. split; [reflexivity|exact Hsr].
  - assert (Hin : ~ In (base_mul sk) (ordered_pubkeys (fr_ctx r))) by (apply last_position_None in EL; exact EL).
    rewrite (sign_nonmember _ _ (fr_secnonce r) an T msg Hwf Hin) in HV |- *. cbn [map_err bind].
    eexists. split; [reflexivity|]. rewrite (traced_eq _ _ _ (collect_t_trace _ _ _ Hs) (eq_trans (collect_t_value _) E)).
    unfold next. cbn [trace value early]. fold an. rewrite (traced_eq _ _ _ HF HV). unfold see, ret. cbn [trace value early map_err app fst snd].
    split; [reflexivity|]. split; [rewrite <- !app_assoc; reflexivity|exact I].
Qed.

Lemma step_signature r w i s : follows (Signing r) w -> step_ok (Signing r) w (CSignature i s).
Proof.
  destruct w as [|c own an T msg file|]; try contradiction. intros (Ec & Ei & Hc & Ea & Et & Em & ours & hist & Ef & Hr).
  pose proof Hr as (Hi & HL & HA & Hs). subst c own an T msg. rewrite <- Ef in Hs. unfold nsigners in *.
  unfold step_ok. cbn [mstep mstep_t public_call watch fst snd]. unfold receive_signature, receive_signature_t. rewrite !get_pubkey_nth.
  destruct (nth_error (pubkeys (sr_ctx r)) i) as [pk|] eqn:E1.
  2:{ eexists. split; [reflexivity|]. split; [reflexivity|]. split; [reflexivity|]. cbn [snd follows].
      repeat (split; [reflexivity || exact Hc|]). eauto. }
  destruct (nth_error (sr_pubnonces r) i) as [pn|] eqn:E2.
  2:{ apply nth_error_None in E2. assert (i < List.length (pubkeys (sr_ctx r))) by (apply nth_error_Some; congruence). lia. }
  pose proof (verify_t_flow (sr_ctx r) s (sr_aggnonce r) (sr_adaptor r) pk pn (sr_message r) Hc (nth_error_In _ _ E1)) as HF.
  pose proof (verify_t_value (sr_ctx r) s (sr_aggnonce r) (sr_adaptor r) pk pn (sr_message r)) as HV.
  rewrite (verify_member _ _ _ _ _ _ _ (reachable_wf _ Hc) (nth_error_In _ _ E1)) in HF, HV |- *.
  destruct (pt_eqb _ _).
  - pose proof (place_ok mscalar_eqb _ _ _ s i Hs) as [Hp1 Hp2].
    pose proof (place_spec mscalar_eqb _ _ _ s i Hs) as HPS.
    pose proof (place_t_trace mscalar_eqb _ _ _ s i Hs) as HPT.
    pose proof (place_t_value mscalar_eqb (sr_slots r) s i) as HPV.
    destruct (place mscalar_eqb (sr_slots r) s i) as [sl o] eqn:EP. cbn [fst snd] in *.
    eexists. split; [reflexivity|]. rewrite (traced_eq _ _ _ HF HV). unfold next, see, ret. cbn [trace value is_ok negb].
    rewrite (traced_eq _ _ _ HPT HPV). cbn [trace value fst snd].
    assert (HO : o = (if conflict mscalar_eqb file i s then Err (RoundContributionError i InconsistentContribution) else Ok tt)).
    { unfold conflict. assert (i < List.length (pubkeys (sr_ctx r))) by (apply nth_error_Some; congruence).
      destruct HPS as [[H1 H2]|[(H1 & w & Hw & H2)|(H1 & H2 & s' & H3 & H4)]]; [lia| |].
      - rewrite Hw. destruct (mscalar_eqb s w); cbn [negb]; congruence.
      - rewrite H2. congruence. }
    assert (HFo : follows (Signing (sr_set_slots r sl))
                    (WSignatures (sr_ctx r) (sr_index r) (sr_aggnonce r) (sr_adaptor r) (sr_message r) (file ++ [(i, s)]))).
    { cbn [follows]. repeat (split; [reflexivity || exact Hc|]). exists ours, (hist ++ [(i, s)]). rewrite Ef. split; [reflexivity|].
      split; [exact Hi|]. split; [exact HL|]. split; [exact HA|]. rewrite Ef in Hp1. exact Hp1. }
    subst o. destruct (conflict mscalar_eqb file i s); cbn [trace value told_invalid fst snd];
      (split; [reflexivity|]; split; [|exact HFo]); cbn [app]; rewrite ?app_nil_r, <- ?app_assoc; reflexivity.
  - eexists. split; [reflexivity|]. rewrite (traced_eq _ _ _ HF HV). unfold next, see, ret. cbn [trace value is_ok negb].
    cbn [told_invalid fst snd]. split; [reflexivity|]. split; [cbn [app]; rewrite <- ?app_assoc; reflexivity|].
    cbn [follows]. repeat (split; [reflexivity || exact Hc|]). eauto.
Qed.

Lemma finish_eq r c own an T msg file : follows (Signing r) (WSignatures c own an T msg file) ->
  sr_finalize_adaptor_t r = Traced (finish_flow c an T msg file (negb (is_ok (sr_finalize_adaptor r)))) (sr_finalize_adaptor r).
Proof.
  intros (Ec & Ei & Hc & Ea & Et & Em & ours & hist & Ef & Hr). destruct Hr as (Hi & HL & HA & Hs). subst c own an T msg.
  rewrite <- Ef in Hs. unfold nsigners in *. unfold finish_flow.
  unfold sr_finalize_adaptor_t, sr_finalize_adaptor, slots_finalize.
  destruct (collect_filed _ _ _ Hs) as [(G & E & HN)|(j & l & G & E)];
    rewrite (traced_eq _ _ _ (collect_t_trace _ _ _ Hs) (eq_trans (collect_t_value _) E)), G, E; cbn [bind].
  2:{ unfold next, see, ret. cbn [trace value early]. reflexivity. }
  pose proof (aggregate_t_trace (sr_ctx r) (sr_aggnonce r) (sr_adaptor r) (filed (List.length (pubkeys (sr_ctx r))) file) (sr_message r)) as HT.
  pose proof (aggregate_t_value (sr_ctx r) (sr_aggnonce r) (sr_adaptor r) (filed (List.length (pubkeys (sr_ctx r))) file) (sr_message r)) as HV.
  unfold next, early. cbn [trace value]. rewrite (traced_eq _ _ _ HT HV). unfold see, ret. cbn [trace value].
  assert (HNP : aggregate_partial_adaptor_signatures (sr_ctx r) (sr_aggnonce r) (sr_adaptor r) (filed (List.length (pubkeys (sr_ctx r))) file)
                  (sr_message r) <> Panic).
  { unfold aggregate_partial_adaptor_signatures. destruct (negb (pt_eqb _ _)); discriminate. }
  destruct (aggregate_partial_adaptor_signatures _ _ _ _ _) as [sg|e|]; [| |congruence]; cbn [map_err trace value is_ok negb app]; reflexivity.
Qed.

Lemma step_finish_adaptor r w : follows (Signing r) w -> step_ok (Signing r) w CFinishAdaptor.
Proof.
  destruct w as [|c own an T msg file|]; try contradiction. intro HF. unfold step_ok. cbn [mstep mstep_t public_call watch fst snd].
  eexists. split; [reflexivity|]. rewrite (finish_eq _ _ _ _ _ _ _ HF). unfold next, ret. cbn [trace value]. split; [reflexivity|].
  split; [|exact I]. rewrite app_nil_r. f_equal. destruct (sr_finalize_adaptor r); reflexivity.
Qed.
Lemma finalize_finite r sg : sr_finalize_adaptor r = Ok sg -> exists P : point Pr, a_R sg = P.
Proof.
  unfold sr_finalize_adaptor. destruct (slots_finalize _) as [ps| |]; cbn [bind]; try discriminate.
  unfold aggregate_partial_adaptor_signatures. destruct (negb (pt_eqb _ _)); cbn [map_err]; [discriminate|].
  intro H. injection H as <-. cbn [a_R]. eauto.
Qed.
Lemma step_finish r w : follows (Signing r) w -> step_ok (Signing r) w CFinish.
Proof.
  destruct w as [|c own an T msg file|]; try contradiction. intro HF. unfold step_ok. cbn [mstep mstep_t public_call watch fst snd].
  eexists. split; [reflexivity|]. unfold sr_finalize_t, sr_finalize. rewrite (finish_eq _ _ _ _ _ _ _ HF). unfold next, ret. cbn [trace value].
  assert (HNP : sr_finalize_adaptor r <> Panic).
  { destruct HF as (_ & _ & _ & _ & _ & _ & ours & hist & _ & Hr). unfold sr_finalize_adaptor.
    destruct (sr_finalize_spec r ours hist Hr) as [[_ E]|(_ & sigs & E & _)]; rewrite E; cbn [bind]; [discriminate|].
    unfold aggregate_partial_adaptor_signatures. destruct (negb (pt_eqb _ _)); discriminate. }
  pose proof (finalize_finite r) as HP.
  destruct (sr_finalize_adaptor r) as [sg|e|]; [| |congruence]; cbn [early bind is_ok negb].
  - destruct (HP sg eq_refl) as [P EP]. pose proof (adapt_t_eq sg fzero) as HA. 
    assert (EI : is_infinite (pt_add (a_R sg) (gmul fzero)) = false).
    { rewrite EP. unfold is_infinite. apply pt_eqb_neq. rewrite gmul_0, add_O_r. apply point_fin. }
    rewrite EI in HA.
    assert (ES : exists l, adapt sg fzero = Some l).
    { unfold adapt. destruct (not_inf _) eqn:EN; [eauto|]. apply not_inf_None in EN. unfold is_infinite in EI. apply pt_eqb_neq in EI. congruence. }
    destruct ES as [l EA]. rewrite EA in HA |- *. rewrite HA. unfold see. cbn [trace value unwrap told_failure is_ok negb app].
    split; [reflexivity|]. split; [|exact I]. rewrite !app_nil_r. reflexivity.
  - unfold see, ret. cbn [trace value told_failure]. split; [reflexivity|]. split; [|exact I]. rewrite !app_nil_r. reflexivity.
Qed.

Lemma step_all p w k : follows p w -> step_ok p w k.
Proof.
  destruct p as [r|r|].
  - destruct k as [i n|sk T msg|sk T msg an|i s| |]; intro H; try reflexivity;
      [apply step_nonce|apply step_sign|apply step_sign_for]; exact H.
  - destruct k as [i n|sk T msg|sk T msg an|i s| |]; intro H; try reflexivity;
      [apply step_signature|apply step_finish|apply step_finish_adaptor]; exact H.
  - intros _. destruct k; reflexivity.
Qed.
Lemma run_all calls : forall p w, follows p w ->
  mrun_t p calls = Traced (watch_all w (map public_entry (snd (mrun p calls)))) (mrun p calls).
Proof.
  induction calls as [|k ks IH]; intros p w HF; [reflexivity|]. cbn [mrun_t mrun].
  pose proof (step_all p w k HF) as HS. unfold step_ok in HS. destruct (mstep p k) as [[p' o]|].
  - destruct HS as (m & -> & HV & HT & HF'). rewrite (traced_eq _ _ _ HT HV). unfold next. cbn [trace value fst snd].
    rewrite (IH p' _ HF'). unfold ret. cbn [trace value]. rewrite app_nil_r. destruct (mrun p' ks) as [p2 log]. cbn [fst snd map watch_all public_entry].
    destruct (watch w (public_call k) o). reflexivity.
  - rewrite HS. apply IH. exact HF.
Qed.
Lemma round_builder_shape c seed i pk sp (b : builder Pr) : round_builder c seed i pk sp = Ok b -> shape_of b = round_shape sp.
Proof.
  unfold round_builder, with_extra_input, with_spices. cbn [b_extra_inputs with_aggregated_pubkey with_pubkey builder_new app].
  destruct (extra_input_ok _); cbn [bind]; [|discriminate]. unfold set_extra_inputs. cbn [b_extra_inputs app].
  destruct (extra_input_ok _); [|discriminate]. intro H. injection H as <-. unfold shape_of, round_shape.
  cbn [b_seckey b_pubkey b_aggregated_pubkey b_message b_extra_inputs with_aggregated_pubkey with_pubkey builder_new present map].
  f_equal.
  - destruct (sp_seckey sp); reflexivity.
  - destruct (sp_message sp); reflexivity.
Qed.
Lemma zero_nonce_G (b : builder Pr) :
  (zero_nonce b x00 = true -> pR1 (public_nonce (build b)) = gen_point) /\
  (zero_nonce b x01 = true -> pR2 (public_nonce (build b)) = gen_point).
Proof.
  assert (H : forall i, zero_nonce b i = true -> base_mul (nonce_scalar (tagged MUSIG_NONCE_TAG_DIGEST (nonce_preimage b ++ [i]))) = gen_point).
  { intros i Hz. unfold zero_nonce in Hz. rewrite <- zero_nonce_eq, reduce_mod in Hz.
    assert (E : reduce_from (Pr := Pr) (tagged MUSIG_NONCE_TAG_DIGEST (nonce_preimage b ++ [i])) = fzero).
    { apply fe_ext. apply Z.eqb_eq in Hz. rewrite Hz. reflexivity. }
    unfold nonce_scalar. rewrite (proj2 (not_zero_None _) E). apply point_ext. rewrite base_mul_val. apply gmul_1. }
  split; intro Hz; apply H in Hz; exact Hz.
Qed.
End Watch.

Section C84_session.
Context {Pr : prims}.
Add Ring ring_C84_session : (fe_ring_theory (n := @ord Pr)).
Lemma C84_session_proof {Laws : prims_ok Pr} {Tags : tags_ok Pr} (r0 : first_round Pr) (calls : list (mcall Pr)) (Hr : fr_started r0) :
  value (mrun_t (Collecting r0) calls) = mrun (Collecting r0) calls /\
  trace (mrun_t (Collecting r0) calls) =
  watch_all (WNonces (fr_ctx r0) (fr_index r0) [(fr_index r0, our_public_nonce r0)])
            (map public_entry (snd (mrun (Collecting r0) calls))).
Proof.
  rewrite (run_all calls (Collecting r0) (WNonces (fr_ctx r0) (fr_index r0) [(fr_index r0, our_public_nonce r0)])).
  { split; reflexivity. }
  pose proof (started_fr r0 Hr) as [_ Hok]. destruct Hr as (c & seed & i & sp & Hc & H).
  apply first_round_new_ok in H as (H1 & H2 & _). cbn [follows]. split; [reflexivity|]. split; [reflexivity|].
  split; [rewrite H1; exact Hc|]. exists []. split; [reflexivity|exact Hok].
Qed.
End C84_session.

Section C84_start.
Context {Pr : prims}.
Add Ring ring_C84_start : (fe_ring_theory (n := @ord Pr)).
Lemma C84_start_proof {Laws : prims_ok Pr} {Tags : tags_ok Pr} (c : key_agg_ctx Pr) (seed : bytes) (i : nat) (sp : spices Pr) :
  value (first_round_new_t c seed i sp) = first_round_new c seed i sp /\
  (List.length (pubkeys c) <= i -> trace (first_round_new_t c seed i sp) = [ Branch "rounds.rs:106" true ]) /\
  (forall r, first_round_new c seed i sp = Ok r ->
     exists zero1 zero2,
       trace (first_round_new_t c seed i sp) =
       Branch "rounds.rs:106" false :: nonce_flow (round_shape sp) zero1 zero2
       ++ slot_flow pubnonce_eqb (List.length (pubkeys c)) [] i (our_public_nonce r) /\
       (forall pk b, nth_error (pubkeys c) i = Some pk -> round_builder c seed i pk sp = Ok b ->
          zero1 = zero_nonce b x00 /\ zero2 = zero_nonce b x01) /\
       (pR1 (our_public_nonce r) <> gen_point -> zero1 = false) /\
       (pR2 (our_public_nonce r) <> gen_point -> zero2 = false)).
Proof.
  assert (H0 := slots_new_ok (List.length (pubkeys c)) (T := pub_nonce Pr)).
  split; [|split].
  - unfold first_round_new_t, first_round_new. destruct (get_pubkey c i) as [pk|]; [|reflexivity]. rewrite see_value.
    destruct (round_builder c seed i pk sp) as [b| |]; try reflexivity. rewrite !next_value, build_t_eq, place_t_value. cbn [value].
    destruct (place _ _ _ _) as [s [u| |]]; reflexivity.
  - intro Hi. unfold first_round_new_t. rewrite get_pubkey_nth, (proj2 (nth_error_None _ _)) by exact Hi. reflexivity.
  - intros r HR. pose proof (first_round_new_ok c seed i sp r HR) as (E1 & E2 & _ & pk & b & Hpk & Hb & Hsn).
    exists (zero_nonce b x00), (zero_nonce b x01). unfold our_public_nonce. rewrite Hsn. split; [|split; [|split]].
    + unfold first_round_new_t. rewrite Hpk, Hb, see_trace, next_trace, build_t_eq. cbn [trace value].
      rewrite next_trace, (place_t_trace pubnonce_eqb _ _ _ _ _ H0), (round_builder_shape _ _ _ _ _ _ Hb).
      replace (trace (let (s, r1) := value (place_t pubnonce_eqb (slots_new (List.length (pubkeys c))) (public_nonce (build b)) i) in _)) with (@nil event).
      * rewrite app_nil_r. reflexivity.
      * destruct (value _) as [s [u| |]]; reflexivity.
    + intros pk' b' Hpk' Hb'. rewrite get_pubkey_nth in Hpk. assert (pk' = pk) by congruence. subst pk'. assert (b' = b) by congruence. subst b'. auto.
    + intro Hg. destruct (zero_nonce b x00) eqn:E; [|reflexivity]. destruct Hg. apply (proj1 (zero_nonce_G b) E).
    + intro Hg. destruct (zero_nonce b x01) eqn:E; [|reflexivity]. destruct Hg. apply (proj2 (zero_nonce_G b) E).
Qed.
End C84_start.

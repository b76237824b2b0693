(** Proofs of the theorems of PropertiesGroupFork.v. *)
From Coq Require Import String List.
From Verif Require Import Bytes BytesFacts Prims PrimsFacts TaggedHashes Errors SpecTags SpecBIP327
  KeyAgg Nonces Signature Signing SigAgg Bip340 SpecCtx SpecView SpecExtract SpecFork Toy ToyData ToyFork.
Import ListNotations.
Open Scope list_scope.
Open Scope Z_scope.
From Coq Require Import Lia Arith Bool.
From Verif Require Import CodecFacts KeyAggFacts SignatureFacts SigningFacts SpecFacts SpecSigning SessionFacts ProofsSoundness ProofsSingle ProofsExtraction ProofsRare ProofsGuess ForkFacts ProofsFork.
Open Scope Z_scope.

Section GroupCount.
Context {Pr : prims} (P : point Pr) (F : asker (group_forgery Pr)) (inputs digests : list bytes) (q : nat)
  (HF : asks_within inputs digests (fun _ => True) q F).

(** The questions. *)
Definition qs (w : list (bytes * bytes)) : list bytes := asked (hash_in w) F.
Lemma qs_facts w : In w (worlds inputs digests) -> (forall m, In m (qs w) -> In m inputs) /\ (length (qs w) <= q)%nat.
Proof.
  intro Hw. destruct (asked_within _ _ _ q F (hash_in w) HF) as (I1 & I2 & _); [|split; assumption].
  intros m Hm. apply hash_in_in with (M := inputs); assumption.
Qed.
Lemma qs_same w m d i : In w (worlds inputs digests) -> In m inputs -> In d digests -> ~ In m (firstn i (qs w)) ->
  firstn (S i) (qs (put m d w)) = firstn (S i) (qs w).
Proof.
  intros Hw Hm Hd H. unfold qs in *. pose proof (asked_same F (hash_in w) (hash_in (put m d w)) m (fun _ => []) (fun _ => []) i) as E.
  cbv beta in E. rewrite !app_nil_r in E. apply E; [|reflexivity | exact H]. intros x Hx. apply hash_in_put_other, Hx.
Qed.
Lemma group_places w i j : group_forged P F w = Some (i, j) -> place (coefficient_of P F w) (qs w) = Some i /\ place (challenge_of F w) (qs w) = Some j.
Proof.
  unfold group_forged, coefficient_of, challenge_of, qs. cbv zeta. destruct (forged_group _ _) as [c|]; [|discriminate].
  destruct (_ && _); [|discriminate]. destruct (place (group_coefficient _ _ _) _) as [i0|]; [|discriminate].
  destruct (place (group_challenge _ _) _) as [j0|]; [|discriminate]. intros [= <- <-]. auto.
Qed.
Lemma place_new w m i : place m (qs w) = Some i -> new_at qs i w = Some m.
Proof. intro H. apply new_at_spec, place_spec, H. Qed.
Lemma place_in w m i : In w (worlds inputs digests) -> place m (qs w) = Some i -> In m inputs /\ In i (seq 0 q).
Proof.
  intros Hw H. destruct (qs_facts w Hw) as [H1 H2]. split.
  - apply H1. apply place_spec in H as [H _]. exact (nth_error_In _ _ H).
  - apply in_seq. apply place_lt in H. lia.
Qed.
(** Another digest for the question at a place leaves the question there the same. *)
Lemma same_question w w' m m' d i : In w (worlds inputs digests) -> In d digests -> w' = put m d w ->
  place m (qs w) = Some i -> place m' (qs w') = Some i -> m' = m.
Proof.
  intros Hw Hd -> H H'. apply place_new in H, H'.
  pose proof (new_at_put inputs digests qs (fun w m Hw => proj1 (qs_facts w Hw) m) qs_same i w m d Hw Hd H) as E. congruence.
Qed.
Lemma group_forks_spec w d i : group_forks P F w d = Some i ->
  exists j i', group_forged P F w = Some (i, j) /\ group_forged P F (put (challenge_of F w) d w) = Some (i', j) /\
    same_residue (hash_in w (challenge_of F w)) d = false.
Proof.
  unfold group_forks. destruct (group_forged P F w) as [[i0 j]|]; [|discriminate].
  destruct (group_forged P F (put _ d w)) as [[i' j']|]; [|discriminate].
  destruct (Nat.eqb j j' && negb _) eqn:E; [|discriminate]. intros [= <-]. apply andb_true_iff in E as [E1 E2].
  apply Nat.eqb_eq in E1 as <-. apply negb_true_iff in E2. exists j, i'. auto.
Qed.
End GroupCount.

(** Forks at the challenge, whatever else success means. *)
Lemma challenge_count {Pr : prims} (F : asker (group_forgery Pr)) (inputs digests : list bytes) (q c : nat) (HS : NoDup digests)
  (Hc : forall d, In d digests -> (count (same_residue d) digests <= c)%nat) (HF : asks_within inputs digests (fun _ => True) q F)
  (fg : list (bytes * bytes) -> option (nat * nat)) (Hfg : forall w i j, fg w = Some (i, j) -> place (challenge_of F w) (qs F w) = Some j) :
  let W := worlds inputs digests in
  let acc := count (fun w => match fg w with Some _ => true | None => false end) W in
  let B := count (fun wd => match
      (match fg (fst wd), fg (put (challenge_of F (fst wd)) (snd wd) (fst wd)) with
       | Some (i, j), Some (_, j') => if Nat.eqb j j' && negb (same_residue (hash_in (fst wd) (challenge_of F (fst wd))) (snd wd)) then Some i else None
       | _, _ => None
       end) with Some _ => true | None => false end) (list_prod W digests) in
  (length digests * (acc * acc) <= q * (length W * (B + acc * c)))%nat.
Proof.
  cbv zeta. set (W := worlds inputs digests).
  assert (QI : forall w m, In w W -> In m (qs F w) -> In m inputs) by (intros w m Hw; apply (proj1 (qs_facts F inputs digests q HF w Hw))).
  pose proof (qs_same F inputs digests) as QS.
  assert (NW : NoDup W) by apply nodup_worlds, HS.
  pose proof (fork_places Nat.eqb (seq 0 q) W digests (has_new (qs F)) (redraw (qs F)) (drawn (qs F)) (fun w => option_map snd (fg w))) as H.
  cbv zeta in H. rewrite seq_length in H.
  assert (EA : count (fun w => match option_map snd (fg w) with Some _ => true | None => false end) W
    = count (fun w => match fg w with Some _ => true | None => false end) W).
  { rewrite !count_sum. apply sum_ext. intros w _. destruct (fg w); reflexivity. }
  rewrite EA in H. eapply Nat.le_trans; [apply H|].
  + intros. apply Nat.eqb_eq.
  + apply seq_NoDup.
  + exact NW.
  + exact HS.
  + intros w j Hw E. destruct (fg w) as [[i j']|] eqn:G; [|discriminate]. cbn [option_map snd] in E. injection E as ->.
    apply Hfg in G. destruct (place_in F inputs digests q HF w _ j Hw G) as [_ Hj]. split; [exact Hj|].
    unfold has_new. rewrite (place_new F w _ j G). reflexivity.
  + intros. apply (redraw_in inputs digests (qs F) QI QS); assumption.
  + intros. apply (drawn_in inputs digests (qs F) QI); assumption.
  + intros. apply (redraw_drawn inputs digests (qs F) QI); assumption.
  + intros. apply (drawn_redraw inputs digests (qs F) QI QS); assumption.
  + intros. apply (redraw_redraw inputs digests (qs F) QI QS); assumption.
  + apply Nat.mul_le_mono_l, Nat.mul_le_mono_l.
    apply (drop_same W digests (fun w => match fg w with Some _ => true | None => false end) (fun w => hash_in w (challenge_of F w))).
    * intros w Hw E. destruct (fg w) as [[i j]|] eqn:G; [|discriminate]. apply Hfg in G.
      apply hash_in_in with (M := inputs); [exact Hw | apply (place_in F inputs digests q HF w _ j Hw G)].
    * exact Hc.
    * intros w d Hw Hd. unfold again. cbn [fst snd]. destruct (fg w) as [[i j]|] eqn:G; [|discriminate].
      cbn [option_map snd]. pose proof (Hfg w i j G) as G'. unfold redraw. rewrite (place_new F w _ j G').
      destruct (fg (put _ d w)) as [[i' j']|]; [|discriminate]. cbn [option_map snd]. intros ->.
      destruct (same_residue (hash_in w (challenge_of F w)) d); [right; auto | left; reflexivity].
Qed.

Section GroupWorld.
Context {Pr : prims} {Laws : prims_ok Pr} {Tags : tags_ok Pr}.
Add Ring fring0 : (fe_ring_theory (n := @ord Pr)).

Lemma list_not_coefficient pks L (K : point Pr) : list_input pks <> coefficient_input L K.
Proof.
  unfold list_input, coefficient_input, tag_twice. rewrite tag_keyagg_list, tag_keyagg_coeff, <- !app_assoc. intro E.
  apply app_inj_len in E as [E _]; [|reflexivity]. apply (f_equal (hd x00)) in E. vm_compute in E. discriminate E.
Qed.
Lemma list_not_challenge pks rx x msg : list_input (Pr := Pr) pks <> challenge_input rx x msg.
Proof.
  unfold list_input, challenge_input, tag_twice. rewrite tag_keyagg_list, tag_bip340_challenge, <- !app_assoc. intro E.
  apply app_inj_len in E as [E _]; [|reflexivity]. apply (f_equal (hd x00)) in E. vm_compute in E. discriminate E.
Qed.
Lemma coefficient_parts L L' (K K' : point Pr) : coefficient_input L K = coefficient_input L' K' -> L = L' /\ K = K'.
Proof.
  unfold coefficient_input. intro E. apply app_inv_head in E. rewrite !cbytes_ser in E.
  apply app_inj_len_r in E as [-> E]; [|rewrite !ser_point_len; reflexivity]. apply ser_point_inj in E. auto.
Qed.

(** The coefficients in the world of any hash function. *)
Lemma world_coeff (h : bytes -> bytes) (pks : list (point Pr)) (K : point Pr) :
  @coeff_of (with_hash Pr h) (map (rehash h) pks) (rehash h K)
  = if (match second_pubkey pks with Some p => point_eqb K p | None => false end) then fone
    else of_Z ord (be_dec (h (coefficient_input (h (list_input pks)) K))).
Proof.
  unfold coeff_of, compute_key_aggregation_coefficient. rewrite second_rehash.
  assert (SK : (match option_map (rehash h) (second_pubkey pks) with Some p => @point_eqb (with_hash Pr h) (rehash h K) p | None => false end)
      = match second_pubkey pks with Some p => point_eqb K p | None => false end) by (destruct (second_pubkey pks); reflexivity).
  rewrite SK. destruct (match second_pubkey pks with Some p => point_eqb K p | None => false end); [reflexivity|].
  unfold reduce_from, hash_pubkeys, tagged. rewrite flat_rehash. change (@sha256 (with_hash Pr h)) with h.
  change (@ser_point (with_hash Pr h) (rehash h K)) with (ser_point K).
  unfold coefficient_input, list_input, tag_twice. rewrite tag_keyagg_coeff, tag_keyagg_list, cbytes_ser, flat_map_concat_map.
  rewrite (map_ext (fun K : point Pr => cbytes K) (@ser_point Pr)) by (intro; apply cbytes_ser). rewrite <- !app_assoc. reflexivity.
Qed.
Lemma second_not (pks : list (point Pr)) (P : point Pr) : get_second_key (map (fun K : point Pr => cbytes K) pks) <> cbytes P ->
  match second_pubkey pks with Some p => point_eqb P p | None => false end = false.
Proof.
  intro H. destruct (second_pubkey pks) as [p|] eqn:E2; [|reflexivity]. apply point_eqb_neq. intros ->. apply H.
  rewrite (map_ext _ ser_point) by (intro; apply cbytes_ser). rewrite second_key_eq, E2, cbytes_ser. reflexivity.
Qed.

(** The sum of the group a forger ends with, in the group of [Pr]. *)
Definition world_sum_of (h : bytes -> bytes) (pks : list (point Pr)) : @pt Pr :=
  @psum Pr (map (fun K : point Pr => @pmul Pr (@coeff_of (with_hash Pr h) (map (rehash h) pks) (rehash h K)) (pval K)) pks).
Lemma forged_group_key (g : group_forgery Pr) (h : bytes -> bytes) c : prims_ok (with_hash Pr h) -> forged_group g h = Some c ->
  pval (aggregated_pubkey c) = @pt_add Pr (@pneg_if Pr (parity_acc c) (world_sum_of h (g_keys g))) (@gmul Pr (tweak_acc c)) :> @pt Pr.
Proof.
  intros LI H. unfold forged_group in H. destruct (@key_agg_new (with_hash Pr h) _) as [c0| |] eqn:E0; [|discriminate|discriminate].
  destruct (@with_tweaks (with_hash Pr h) _ _) as [c1| |] eqn:E1; [|discriminate|discriminate]. injection H as <-.
  apply (@key_agg_new_Ok _ LI) in E0 as (_ & _ & W0 & Hk & _ & _).
  destruct (@tweaks_wf _ LI _ _ _ W0 E1) as [W1 Hk1]. unfold aggregated_pubkey. rewrite (@wf_key _ _ W1), Hk1, Hk. unfold agg_sum_of, world_sum_of. rewrite map_map. reflexivity.
Qed.

Lemma group_forged_spec (P : point Pr) (F : asker (group_forgery Pr)) w ij : group_forged P F w = Some ij ->
  let g := outcome (hash_in w) F in
  In P (g_keys g) /\ get_second_key (map (fun K : point Pr => cbytes K) (g_keys g)) <> cbytes P /\
  exists c, forged_group g (hash_in w) = Some c /\
    @verify_single_bytes (with_hash Pr (hash_in w)) (aggregated_pubkey c) (g_sig g) (g_msg g) = Ok tt.
Proof.
  cbv zeta. unfold group_forged. cbv zeta. destruct (forged_group _ _) as [c|]; [|discriminate].
  destruct (_ && _) eqn:E; [|discriminate]. intros _. rewrite !andb_true_iff in E. destruct E as [[E1 E2] E3]. split; [|split].
  - apply existsb_exists in E1 as (K & HK & E1). apply same_iff in E1 as ->. exact HK.
  - apply negb_true_iff, bytes_eqb_neq in E2. exact E2.
  - exists c. split; [reflexivity|]. destruct (verify_single_bytes _ _ _) as [[]| |]; [reflexivity | discriminate | discriminate].
Qed.

(** What a fork of the challenge says about the sum. *)
Lemma challenge_equation (F : asker (group_forgery Pr)) inputs digests q w d j c c' :
  (forall d, In d digests -> length d = 32%nat) -> asks_within inputs digests (fun _ => True) q F ->
  In w (worlds inputs digests) -> In d digests ->
  let w' := put (challenge_of F w) d w in
  place (challenge_of F w) (qs F w) = Some j -> place (challenge_of F w') (qs F w') = Some j ->
  same_residue (hash_in w (challenge_of F w)) d = false ->
  forged_group (outcome (hash_in w) F) (hash_in w) = Some c ->
  @verify_single_bytes (with_hash Pr (hash_in w)) (aggregated_pubkey c) (g_sig (outcome (hash_in w) F)) (g_msg (outcome (hash_in w) F)) = Ok tt ->
  forged_group (outcome (hash_in w') F) (hash_in w') = Some c' ->
  @verify_single_bytes (with_hash Pr (hash_in w')) (aggregated_pubkey c') (g_sig (outcome (hash_in w') F)) (g_msg (outcome (hash_in w') F)) = Ok tt ->
  fork_D F w d mod n_ <> 0 /\
  forall y : mscalar Pr, world_sum_of (hash_in w) (g_keys (outcome (hash_in w) F)) = gmul y ->
    fmul (of_Z ord (fork_D F w d)) y = of_Z ord (fork_Y F w d).
Proof.
  cbv zeta. intros HS HF Hw Hd P1 P2 SR HC V HC' V'.
  assert (Hw' : In (put (challenge_of F w) d w) (worlds inputs digests)) by (apply put_in; assumption).
  pose proof (hash_in_len inputs digests w HS Hw) as HL. pose proof (hash_in_len inputs digests _ HS Hw') as HL'. apply with_hash_ok in HL, HL'.
  destruct (place_in F inputs digests q HF w _ j Hw P1) as [HM _].
  pose proof (same_question F inputs digests q HF w _ _ _ d j Hw Hd eq_refl P1 P2) as SC.
  pose proof (hash_in_put_same inputs digests (challenge_of F w) d w Hw HM) as HD.
  split.
  { unfold fork_D. apply Z.eqb_neq in SR. intro F0. apply SR. change 0 with (0 mod n_) in F0. apply of_Z_iff in F0.
    apply of_Z_iff. rewrite of_Z_sub in F0. change (of_Z ord 0) with (fzero : mscalar Pr) in F0.
    match type of F0 with fsub ?a ?b = _ => transitivity (fadd (fsub a b) b : mscalar Pr); [ring | rewrite F0; ring] end. }
  intros y Hy. pose proof (forged_group_key _ _ c HL HC) as HQ. rewrite Hy in HQ.
  unfold fork_Y, fork_D. rewrite HC.
  set (m := challenge_of F w) in *.
  assert (Em : m = challenge_input (firstn 32 (g_sig (outcome (hash_in w) F))) (@xbytes Pr (pval (aggregated_pubkey c))) (g_msg (outcome (hash_in w) F))).
  { unfold m, challenge_of, group_challenge. rewrite HC. reflexivity. }
  assert (Em' : m = challenge_input (firstn 32 (g_sig (outcome (hash_in (put m d w)) F))) (@xbytes Pr (pval (aggregated_pubkey c'))) (g_msg (outcome (hash_in (put m d w)) F))).
  { etransitivity; [symmetry; exact SC|]. unfold challenge_of, group_challenge. rewrite HC'. reflexivity. }
  clearbody m. clear SC. set (w' := put m d w) in *. clearbody w'.
  apply world_verify in V as (R & s & HO & E & G); [|exact HL]. apply world_verify in V' as (R' & s' & HO' & E' & G'); [|exact HL'].
  rewrite E, E', ?sig_first, ?sig_second, ?int_ser in *.
  change (@pt_x Pr (pval (aggregated_pubkey c))) with (@xbytes Pr (pval (aggregated_pubkey c))) in G.
  change (@pt_x Pr (pval (aggregated_pubkey c'))) with (@xbytes Pr (pval (aggregated_pubkey c'))) in G'.
  rewrite <- Em in G. rewrite <- Em', HD in G'. rewrite Em in Em'.
  apply challenge_parts in Em' as (ER & EX & _); try apply x_len.
  assert (R = R') as <- by (apply even_x_inj; assumption).
  set (Q := @Point_ Pr (pval (aggregated_pubkey c)) (p_fin (aggregated_pubkey c))).
  set (Q' := @Point_ Pr (pval (aggregated_pubkey c')) (p_fin (aggregated_pubkey c'))).
  assert (EE : @pneg_if Pr (@pt_odd Pr (pval (aggregated_pubkey c'))) (pval (aggregated_pubkey c')) = @pneg_if Pr (@pt_odd Pr (pval (aggregated_pubkey c))) (pval (aggregated_pubkey c))).
  { change (pneg_if (pt_odd Q') (pval Q') = pneg_if (pt_odd Q) (pval Q)). rewrite <- !even_pneg. f_equal.
    apply even_x_inj; [apply even_point_even | apply even_point_even|]. rewrite !even_point_x. symmetry. exact EX. }
  rewrite EE in G'.
  assert (HQ' : pval Q = gmul (fadd (fneg_if (parity_acc c) y) (tweak_acc c)) :> @pt Pr).
  { change (pval Q) with (pval (aggregated_pubkey c)). rewrite HQ, pneg_if_gmul, <- gmul_add. reflexivity. }
  pose proof (pair_equation (pval Q) R _ s s' _ _ HQ' G G') as PE.
  change (@has_even_y Pr (pval (aggregated_pubkey c))) with (has_even_y (pval Q)). unfold has_even_y.
  unfold int_from_bytes. set (e := be_dec (hash_in w m)) in *. set (e' := be_dec d) in *. set (t := tweak_acc c : mscalar Pr) in *.
  change (of_Z ord (e - e') = of_Z ord (e - e') :> mscalar Pr) with (of_Z ord (e - e') = of_Z ord (e - e') :> mscalar Pr).
  rewrite of_Z_mul, !of_Z_sub, of_Z_mul, !of_Z_sub, of_Z_mul, of_Z_sub, !of_Z_fz.
  set (ee := of_Z ord e : mscalar Pr) in *. set (ee' := of_Z ord e' : mscalar Pr) in *.
  assert (PY : fmul (fsub ee ee') (fneg_if (parity_acc c) y) = fsub (fneg_if (pt_odd (pval Q)) (fsub s s')) (fmul (fsub ee ee') t)) by (rewrite <- PE; ring).
  assert (ON : of_Z ord 1 = (fone : mscalar Pr)) by reflexivity. assert (OM : of_Z ord (-1) = fneg (fone : mscalar Pr)) by (change (-1) with (- (1)); rewrite of_Z_opp; reflexivity).
  destruct (parity_acc c); cbn [fneg_if] in PY.
  - rewrite OM. transitivity (fneg (fmul (fsub ee ee') (fneg y))); [ring|]. rewrite PY. destruct (pt_odd (pval Q)); cbn [negb fneg_if]; rewrite ?ON, ?OM; ring.
  - rewrite ON at 1. rewrite PY. destruct (pt_odd (pval Q)); cbn [negb fneg_if]; rewrite ?ON, ?OM; ring.
Qed.
Lemma fork_equation (P : point Pr) (F : asker (group_forgery Pr)) inputs digests q w d i :
  (forall d, In d digests -> length d = 32%nat) -> asks_within inputs digests (fun _ => True) q F ->
  In w (worlds inputs digests) -> In d digests -> group_forks P F w d = Some i ->
  fork_D F w d mod n_ <> 0 /\
  forall y : mscalar Pr, world_sum_of (hash_in w) (g_keys (outcome (hash_in w) F)) = gmul y ->
    fmul (of_Z ord (fork_D F w d)) y = of_Z ord (fork_Y F w d).
Proof.
  intros HS HF Hw Hd H. apply group_forks_spec in H as (j & i' & G1 & G2 & SR).
  destruct (group_places P F w i j G1) as [_ P1]. destruct (group_places P F _ i' j G2) as [_ P2].
  apply group_forged_spec in G1 as (_ & _ & c & HC & V), G2 as (_ & _ & c' & HC' & V').
  exact (challenge_equation F inputs digests q w d j c c' HS HF Hw Hd P1 P2 SR HC V HC' V').
Qed.
End GroupWorld.

Section C87_double_forking.
Context {Pr : prims}.
Add Ring ring_C87_double_forking : (fe_ring_theory (n := @ord Pr)).
Lemma C87_double_forking_proof (P : point Pr) (F : asker (group_forgery Pr)) (inputs digests : list bytes) (q c : nat) (HS : NoDup digests) (Hc : forall d, In d digests -> (count (same_residue d) digests <= c)%nat) (HF : asks_within inputs digests (fun _ => True) q F) :
  let W := worlds inputs digests in
  let N := length digests in
  let acc := count (fun w => match group_forged P F w with Some _ => true | None => false end) W in
  let B := count (fun wd => match group_forks P F (fst wd) (snd wd) with Some _ => true | None => false end) (list_prod W digests) in
  let C := count (fun wda => group_forks_twice P F (fst (fst wda)) (snd (fst wda)) (snd wda)) (list_prod (list_prod W digests) digests) in
  (N * (acc * acc) <= q * (N ^ length inputs * (B + acc * c)) /\
   N * (B * B) <= q * (N ^ (length inputs + 1) * (C + B * c)))%nat.
Proof.
  cbv zeta. rewrite Nat.pow_add_r, Nat.pow_1_r, <- (length_worlds inputs digests). set (W := worlds inputs digests).
  assert (QI : forall w m, In w W -> In m (qs F w) -> In m inputs) by (intros w m Hw; apply (proj1 (qs_facts F inputs digests q HF w Hw))).
  pose proof (qs_same F inputs digests) as QS.
  assert (NW : NoDup W) by apply nodup_worlds, HS. split.
  - exact (challenge_count F inputs digests q c HS Hc HF (group_forged P F) (fun w i j G => proj2 (group_places P F w i j G))).
  - pose proof (fork_places Nat.eqb (seq 0 q) (list_prod W digests) digests (fun i a => has_new (qs F) i (fst a)) (fun i a b => (redraw (qs F) i (fst a) b, snd a))
      (fun i a => drawn (qs F) i (fst a)) (fun a => group_forks P F (fst a) (snd a))) as H.
    cbv zeta in H. rewrite seq_length, prod_length in H.
    eapply Nat.le_trans; [apply H|].
    + intros. apply Nat.eqb_eq.
    + apply seq_NoDup.
    + apply nodup_prod; assumption.
    + exact HS.
    + intros [w d] i Hwd E. apply in_prod_iff in Hwd as [Hw Hd]. cbn [fst snd] in *. apply group_forks_spec in E as (j & i' & G & _).
      apply group_places in G as [G _]. destruct (place_in F inputs digests q HF w _ i Hw G) as [_ Hi]. split; [exact Hi|].
      unfold has_new. rewrite (place_new F w _ i G). reflexivity.
    + intros i [w d] b Hwd Hh Hb. apply in_prod_iff in Hwd as [Hw Hd]. cbn [fst snd] in *. rewrite in_prod_iff.
      destruct (redraw_in inputs digests (qs F) QI QS i w b Hw Hh Hb). auto.
    + intros i [w d] Hwd Hh. apply in_prod_iff in Hwd as [Hw Hd]. cbn [fst snd] in *. apply (drawn_in inputs digests (qs F) QI); assumption.
    + intros i [w d] Hwd Hh. apply in_prod_iff in Hwd as [Hw Hd]. cbn [fst snd] in *. rewrite (redraw_drawn inputs digests (qs F) QI) by assumption. reflexivity.
    + intros i [w d] b Hwd Hh Hb. apply in_prod_iff in Hwd as [Hw Hd]. cbn [fst snd] in *. apply (drawn_redraw inputs digests (qs F) QI QS); assumption.
    + intros i [w d] b b' Hwd Hh Hb Hb'. apply in_prod_iff in Hwd as [Hw Hd]. cbn [fst snd] in *. rewrite (redraw_redraw inputs digests (qs F) QI QS) by assumption. reflexivity.
    + apply Nat.mul_le_mono_l, Nat.mul_le_mono_l.
      apply (drop_same (list_prod W digests) digests (fun wd => match group_forks P F (fst wd) (snd wd) with Some _ => true | None => false end) (fun wd => hash_in (fst wd) (coefficient_of P F (fst wd)))).
      * intros [w d] Hwd E. apply in_prod_iff in Hwd as [Hw Hd]. cbn [fst snd] in *. destruct (group_forks P F w d) as [i|] eqn:G; [|discriminate].
        apply group_forks_spec in G as (j & i' & G & _). apply group_places in G as [G _].
        apply hash_in_in with (M := inputs); [exact Hw | apply (place_in F inputs digests q HF w _ i Hw G)].
      * exact Hc.
      * intros [w d] b Hwd Hb. apply in_prod_iff in Hwd as [Hw Hd]. unfold again. cbn [fst snd]. unfold group_forks_twice.
        destruct (group_forks P F w d) as [i|] eqn:G; [|discriminate].
        apply group_forks_spec in G as (j & i' & G & _). apply group_places in G as [G _]. unfold redraw. rewrite (place_new F w _ i G).
        destruct (group_forks P F (put _ b w) d) as [i''|]; [|discriminate]. intros ->.
        destruct (same_residue (hash_in w (coefficient_of P F w)) b); [right; auto | left; reflexivity].
Qed.
End C87_double_forking.

Section C87_double_fork_gives_secret.
Context {Pr : prims}.
Add Ring ring_C87_double_fork_gives_secret : (fe_ring_theory (n := @ord Pr)).
Lemma C87_double_fork_gives_secret_proof {Laws : prims_ok Pr} {Tags : tags_ok Pr} (P : point Pr) (F : asker (group_forgery Pr)) (inputs digests : list bytes) (q : nat) (w : list (bytes * bytes)) (d a : bytes) (HS : forall d, In d digests -> length d = 32%nat) (HF : asks_within inputs digests (fun _ => True) q F) (Hw : In w (worlds inputs digests)) (Hd : In d digests) (Ha : In a digests) (Hfork : group_forks_twice P F w d a = true) :
  let m := coefficient_of P F w in
  let w' := put m a w in
  let keys := fun w => g_keys (outcome (hash_in w) F) in
  let weight := fork_D F w d * fork_D F w' d * (copies P (keys w) * (int_from_bytes (hash_in w m) - int_from_bytes a)) in
  let r := fork_D F w' d * fork_Y F w d - fork_D F w d * fork_Y F w' d in
  hash_in w (list_input (keys w)) = hash_in w (list_input (keys w')) /\
  (keys w = keys w' -> copies P (keys w) mod n_ <> 0 ->
   weight mod n_ <> 0 /\ forall x, (weight * x) mod n_ = r mod n_ <-> point_mul pt_G x = pval P).
Proof.
  cbv zeta. unfold group_forks_twice in Hfork. destruct (group_forks P F w d) as [i|] eqn:G1; [|discriminate].
  destruct (group_forks P F (put _ a w) d) as [i'|] eqn:G2; [|discriminate]. apply andb_true_iff in Hfork as [Ei SR]. apply Nat.eqb_eq in Ei as <-.
  apply negb_true_iff in SR.
  assert (Hw' : In (put (coefficient_of P F w) a w) (worlds inputs digests)) by (apply put_in; assumption).
  destruct (fork_equation P F inputs digests q w d i HS HF Hw Hd G1) as [D1 E1].
  destruct (fork_equation P F inputs digests q _ d i HS HF Hw' Hd G2) as [D2 E2].
  apply group_forks_spec in G1 as (j1 & i1 & G1 & _), G2 as (j2 & i2 & G2 & _).
  destruct (group_places P F w i j1 G1) as [P1 _]. destruct (group_places P F _ i j2 G2) as [P2 _].
  pose proof (same_question F inputs digests q HF w _ _ _ a i Hw Ha eq_refl P1 P2) as SC.
  destruct (place_in F inputs digests q HF w _ i Hw P1) as [HM _].
  pose proof (hash_in_put_same inputs digests (coefficient_of P F w) a w Hw HM) as HA.
  pose proof (fun x => hash_in_put_other (coefficient_of P F w) a w x) as HO.
  apply group_forged_spec in G1 as (HP & HN & _), G2 as (_ & _ & _).
  set (m := coefficient_of P F w) in *. assert (Em : m = coefficient_input (hash_in w (list_input (g_keys (outcome (hash_in w) F)))) P) by reflexivity.
  unfold coefficient_of at 1, group_coefficient in SC. clearbody m. set (w' := put m a w) in *. clearbody w'.
  set (keys := g_keys (outcome (hash_in w) F)) in *. set (keys' := g_keys (outcome (hash_in w') F)) in *.
  assert (HL : forall pks, hash_in w' (list_input pks) = hash_in w (list_input pks)).
  { intro pks. apply HO. rewrite Em. apply list_not_coefficient. }
  rewrite HL in SC. split; [rewrite Em in SC; apply coefficient_parts in SC as [SC _]; congruence|].
  intros EK Hcop. rewrite <- EK in E2. clear SC.
  set (D := fork_D F w d) in *. set (D' := fork_D F w' d) in *. set (Y := fork_Y F w d) in *. set (Y' := fork_Y F w' d) in *. clearbody D D' Y Y'.
  set (A := fun K : point Pr => @coeff_of (with_hash Pr (hash_in w)) (map (rehash (hash_in w)) keys) (rehash (hash_in w) K) : mscalar Pr).
  set (A' := fun K : point Pr => @coeff_of (with_hash Pr (hash_in w')) (map (rehash (hash_in w')) keys) (rehash (hash_in w') K) : mscalar Pr).
  assert (AP : A P = of_Z ord (be_dec (hash_in w m))).
  { unfold A. rewrite world_coeff, (second_not keys P HN), Em. reflexivity. }
  assert (AP' : A' P = of_Z ord (be_dec a)).
  { unfold A'. rewrite world_coeff, (second_not keys P HN), HL, <- Em, HA. reflexivity. }
  assert (AK : forall K, In K keys -> K <> P -> A K = fmul fone (A' K)).
  { intros K _ NK. transitivity (A' K); [|ring]. unfold A, A'. rewrite !world_coeff, HL. destruct (match second_pubkey keys with Some p => point_eqb K p | None => false end); [reflexivity|].
    rewrite HO; [reflexivity|]. rewrite Em. intro F0. apply coefficient_parts in F0 as [_ F0]. contradiction. }
  assert (ND : (D * D' * (copies P keys * (int_from_bytes (hash_in w m) - int_from_bytes a))) mod n_ <> 0).
  { intro F0. change 0 with (0 mod n_) in F0. apply of_Z_iff in F0. rewrite !of_Z_mul in F0. change (of_Z ord 0) with (fzero : mscalar Pr) in F0.
    assert (NZ : forall z, z mod n_ <> 0 -> of_Z ord z <> (fzero : mscalar Pr)).
    { intros z Hz F1. apply Hz. rewrite mod_n, F1. reflexivity. }
    apply (fmul_integral ord_prime) in F0 as [F0 | F0]; [apply (fmul_integral ord_prime) in F0 as [F0 | F0]|].
    - exact (NZ _ D1 F0).
    - exact (NZ _ D2 F0).
    - apply (fmul_integral ord_prime) in F0 as [F0 | F0]; [exact (NZ _ Hcop F0)|]. apply Z.eqb_neq in SR. apply SR. apply of_Z_iff. rewrite of_Z_sub in F0.
      match type of F0 with fsub ?u ?v = _ => transitivity (fadd (fsub u v) v : mscalar Pr); [ring | rewrite F0; ring] end. }
  assert (E : forall x : mscalar Pr, gmul x = P ->
    fmul (of_Z ord (D * D' * (copies P keys * (int_from_bytes (hash_in w m) - int_from_bytes a)))) x = of_Z ord (D' * Y - D * Y')).
  { intros x Hx. destruct (two_sums P keys A A' fone x Hx AK) as (o & O1 & O2).
    apply E1 in O1. apply E2 in O2. rewrite !of_Z_mul, !of_Z_sub, !of_Z_mul, <- O1, <- O2, AP, AP'. unfold int_from_bytes. ring. }
  split; [exact ND|]. intro x. rewrite point_mul_gmul_Z. split.
  - intro Hx. apply of_Z_iff in Hx. rewrite of_Z_mul in Hx. apply (only_solution P _ _ E); [|exact Hx]. intro F0. apply ND. rewrite mod_n, F0. reflexivity.
  - intro Hx. apply of_Z_iff. rewrite of_Z_mul. apply E. exact Hx.
Qed.
End C87_double_fork_gives_secret.

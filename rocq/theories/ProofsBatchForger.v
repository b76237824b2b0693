(** Proofs of the theorems of PropertiesBatchForger.v. *)
From Coq Require Import String List.
From Verif Require Import Bytes BytesFacts Prims PrimsFacts TaggedHashes Errors SpecTags SpecBIP327
  KeyAgg Nonces Signature Signing SigAgg Bip340 SpecBatch SpecExtract SpecFork SpecBatchForger Toy ToyData ToyFork ToyBatchForger.
Import ListNotations.
Open Scope list_scope.
Open Scope Z_scope.
From Coq Require Import Lia Arith Bool.
From Verif Require Import CodecFacts KeyAggFacts SignatureFacts SigningFacts SpecFacts SessionFacts Bip340Facts ProofsSoundness ProofsExtraction ForkFacts ProofsFork ProofsConcurrent ProofsCollision.
Open Scope Z_scope.

Lemma count_or {A} (f g h : A -> bool) l : (forall x, In x l -> f x = true -> g x = true \/ h x = true) -> (count f l <= count g l + count h l)%nat.
Proof.
  unfold count. induction l as [|a l IH]; intro H; [apply Nat.le_refl|]. cbn [filter]. specialize (IH (fun x Hx => H x (or_intror Hx))). specialize (H a (or_introl eq_refl)).
  destruct (f a), (g a), (h a); cbn [length]; try lia; destruct (H eq_refl); discriminate.
Qed.
Lemma concat_len {A} (f : A -> bytes) l : (forall a, length (f a) = 32%nat) -> length (concat (map f l)) = (32 * length l)%nat.
Proof. intro H. induction l as [|a l IH]; cbn [map concat length]; [reflexivity|]. rewrite app_length, H, IH. lia. Qed.
Lemma concat_inj {A} (f f' : A -> bytes) l l' : (forall a, length (f a) = 32%nat) -> (forall a, length (f' a) = 32%nat) ->
  concat (map f l) = concat (map f' l') -> Forall2 (fun a a' => f a = f' a') l l'.
Proof.
  intros H H'. revert l'. induction l as [|a l IH]; intros [|a' l'] E; cbn [map concat] in E.
  - constructor.
  - apply (f_equal (@length _)) in E. rewrite app_length, H' in E. discriminate E.
  - apply (f_equal (@length _)) in E. rewrite app_length, H in E. discriminate E.
  - apply app_inj_len in E as [E1 E2]; [|now rewrite H, H']. constructor; [exact E1 | apply IH, E2].
Qed.
Lemma forall2_and {A B} (P Q : A -> B -> Prop) l l' : Forall2 P l l' -> Forall2 Q l l' -> Forall2 (fun a b => P a b /\ Q a b) l l'.
Proof. intro H. induction H; intro K; inversion K; subst; constructor; auto. Qed.
Lemma forall2_nth {A B} (P : A -> B -> Prop) l l' j a b : Forall2 P l l' -> nth_error l j = Some a -> nth_error l' j = Some b -> P a b.
Proof. intro H. revert j. induction H; intros [|j] E1 E2; cbn [nth_error] in *; try discriminate; [congruence | eauto]. Qed.
Lemma forall2_in {A B} (P : A -> B -> Prop) (Q : A -> Prop) (Q' : B -> Prop) l l' : Forall2 P l l' -> (forall a, In a l -> Q a) -> (forall b, In b l' -> Q' b) -> Forall2 (fun a b => P a b /\ Q a /\ Q' b) l l'.
Proof. intro H. induction H; intros K K'; constructor; [split; [assumption | split; [apply K; left; reflexivity | apply K'; left; reflexivity]] | apply IHForall2; intros; [apply K | apply K']; right; assumption]. Qed.
Lemma forall2_map {A B C D} (P : A -> B -> Prop) (Q : C -> D -> Prop) f g l l' : Forall2 P l l' -> (forall a b, P a b -> Q (f a) (g b)) -> Forall2 Q (map f l) (map g l').
Proof. intros H K. induction H; cbn [map]; constructor; auto. Qed.
Lemma in_existsb x l : existsb (bytes_eqb x) l = true -> In x l.
Proof. intro H. apply existsb_exists in H as (y & Hy & E). apply bytes_eqb_eq in E as ->. exact Hy. Qed.

(** An event that leaves at most [c] digests for the question at a place. *)
Section Places.
Context {Pr : prims} {A : Type} (F : asker A) (inputs digests : list bytes) (q : nat) (fin : A -> Prop) (HF : asks_within inputs digests fin q F).
Lemma few_place (p c : nat) (E : list (bytes * bytes) -> bool) : NoDup digests ->
  (forall w, In w (worlds inputs digests) -> E w = true -> has_new (qs F) p w = true) ->
  (forall u x, In u (worlds inputs digests) -> new_at (qs F) p u = Some x -> E u = true -> (count (fun d => E (put x d u)) digests <= c)%nat) ->
  (length digests * count E (worlds inputs digests) <= length (worlds inputs digests) * c)%nat.
Proof.
  intros HS Hnew Hres. set (W := worlds inputs digests) in *.
  pose proof (qs_in F inputs digests q fin HF) as QI. pose proof (qs_same F inputs digests) as QS.
  rewrite (count_filter E (has_new (qs F) p) W Hnew). set (V := filter (has_new (qs F) p) W).
  transitivity (length V * c)%nat; [|apply Nat.mul_le_mono_r; unfold V; clear; induction W as [|w W IH]; cbn [filter length]; [lia | destruct (has_new (qs F) p w); cbn [length]; lia]].
  assert (IV : forall w, In w V <-> In w W /\ has_new (qs F) p w = true) by (intro w; apply filter_In).
  apply (rare_one V digests (redraw (qs F) p) (drawn (qs F) p)).
  - apply NoDup_filter, nodup_worlds, HS.
  - exact HS.
  - intros w d Hw Hd. apply IV in Hw as [Hw Hn]. apply IV. apply (redraw_in inputs digests (qs F) QI QS); assumption.
  - intros w Hw. apply IV in Hw as [Hw Hn]. apply (drawn_in inputs digests (qs F) QI); assumption.
  - intros w Hw. apply IV in Hw as [Hw Hn]. apply (redraw_drawn inputs digests (qs F) QI); assumption.
  - intros w d Hw Hd. apply IV in Hw as [Hw Hn]. apply (drawn_redraw inputs digests (qs F) QI QS); assumption.
  - intros w d d' Hw Hd Hd'. apply IV in Hw as [Hw Hn]. apply (redraw_redraw inputs digests (qs F) QI QS); assumption.
  - intros w Hw. apply IV in Hw as [Hw Hn].
    destruct (existsb (fun d => E (redraw (qs F) p w d)) digests) eqn:X.
    + apply existsb_exists in X as (d & Hd & X). destruct (has_new_some (qs F) p w Hn) as [x Hx]. unfold redraw in X. rewrite Hx in X.
      assert (Hi : In x inputs) by (apply (new_at_in inputs digests (qs F) QI p w x Hw Hx)).
      specialize (Hres (put x d w) x (put_in _ _ _ _ _ Hw Hd) (new_at_put inputs digests (qs F) QI QS p w x d Hw Hd Hx) X).
      eapply Nat.le_trans; [|exact Hres]. apply count_le. intros d' Hd' X'. unfold redraw in X'. rewrite Hx in X'. rewrite put_put. exact X'.
    + rewrite count_none; [lia|]. intros d Hd. destruct (E (redraw (qs F) p w d)) eqn:Y; [|reflexivity].
      rewrite <- X. symmetry. apply existsb_exists. exists d. split; assumption.
Qed.
Definition at_place (m : bytes) (i : nat) (w : list (bytes * bytes)) : bool := match place m (qs F w) with Some k => Nat.eqb k i | None => false end.
Lemma at_place_iff m i w : at_place m i w = true <-> place m (qs F w) = Some i.
Proof. unfold at_place. destruct (place m (qs F w)) as [k|]; [rewrite Nat.eqb_eq; split; congruence | split; discriminate]. Qed.
Lemma place_is_new m i w : place m (qs F w) = Some i -> new_at (qs F) i w = Some m.
Proof. intro H. apply new_at_spec, place_spec, H. Qed.
Lemma distinct_before i w y y' k k' : forallb (fun k2 => forallb (fun k1 => negb (pair_at F k1 k2 w)) (seq 0 k2)) (seq 0 i) = true ->
  place y (qs F w) = Some k -> place y' (qs F w) = Some k' -> (k < i)%nat -> (k' < i)%nat -> same_residue (hash_in w y) (hash_in w y') = true -> y = y'.
Proof.
  intros H. rewrite forallb_forall in H.
  assert (G : forall y y' k k', place y (qs F w) = Some k -> place y' (qs F w) = Some k' -> (k < k')%nat -> (k' < i)%nat -> same_residue (hash_in w y) (hash_in w y') = true -> False).
  { intros a a' b b' P P' B B' R. specialize (H b' ltac:(apply in_seq; lia)). rewrite forallb_forall in H. specialize (H b ltac:(apply in_seq; lia)).
    unfold pair_at in H. rewrite (place_is_new _ _ _ P), (place_is_new _ _ _ P'), R in H. discriminate H. }
  intros P P' B B' R. destruct (Nat.lt_trichotomy k k') as [L | [-> | L]]; [exfalso; eauto | apply (place_inj _ _ _ _ P P') | exfalso].
  apply (G y' y k' k P' P L B). unfold same_residue in *. rewrite Z.eqb_sym. exact R.
Qed.
End Places.

Section Rows.
Context {Pr : prims} {Laws : prims_ok Pr} {Tags : tags_ok Pr}.
(** The challenge of an entry, and its row. *)
Definition chal (h : bytes -> bytes) (e : entry Pr) : mscalar Pr := of_Z ord (be_dec (h (entry_challenge e))).
Definition row_of (h : bytes -> bytes) (e : entry Pr) : batch_row Pr := {| row_pubkey := n_key e; row_challenge := chal h e; row_R := pval (l_R (n_sig e)); row_s := l_s (n_sig e) |}.
Lemma chal_residue h e : fz (chal h e) = int_from_bytes (h (entry_challenge e)) mod n_.
Proof. reflexivity. Qed.
Lemma seed_ser h t : seed_question h t = tag_twice "BIP0340/batch" ++ concat (map (fun e => ser_scalar (chal h e)) t) ++ concat (map (fun e => ser_scalar (l_s (n_sig e))) t).
Proof.
  reflexivity.
Qed.
Lemma seed_inj h h' t t' : seed_question h t = seed_question h' t' -> Forall2 (fun e e' => chal h e = chal h' e' /\ l_s (n_sig e) = l_s (n_sig e')) t t'.
Proof.
  rewrite !seed_ser. intro E. apply app_inv_head in E.
  assert (L1 : forall (h : bytes -> bytes) (e : entry Pr), length (ser_scalar (chal h e)) = 32%nat) by (intros; apply ser_scalar_len).
  assert (L2 : forall e : entry Pr, length (ser_scalar (l_s (n_sig e))) = 32%nat) by (intros; apply ser_scalar_len).
  assert (L : length t = length t').
  { apply (f_equal (@length _)) in E. rewrite !app_length, !concat_len in E by (exact L2 || apply L1). lia. }
  apply app_inj_len in E as [E1 E2]; [|rewrite !concat_len by apply L1; rewrite L; reflexivity].
  apply concat_inj in E1; [|apply L1 | apply L1]. apply concat_inj in E2; [|exact L2 | exact L2].
  pose proof (forall2_and _ _ _ _ E1 E2) as H. clear - H Laws. induction H as [|e e' t t' [H1 H2] _ IH]; constructor; [|exact IH].
  apply ser_scalar_inj in H1, H2. auto.
Qed.
Lemma drawn_coeffs d k : drawn_with d k = coeffs_from d 0 k.
Proof. destruct k as [|k]; [reflexivity|]. unfold coeffs_from. cbn [drawn_with seq map batch_coeff]. f_equal. rewrite <- seq_shift, map_map. reflexivity. Qed.
Lemma seed_accepts_iff rows d : seed_accepts rows d = true <-> defects (coeffs_from d 0 (length rows)) rows = pt_O.
Proof. unfold seed_accepts. cbv zeta. rewrite drawn_coeffs, pt_eqb_eq. apply batch_equation_defects. Qed.

(** Verification with another hash function, in terms of the rows. *)
Lemma chal_with h e : @row_challenge _ (@row_from_signature (with_hash Pr h) (rehash h (n_key e)) (n_msg e) (relift h (n_sig e))) = chal h e.
Proof.
  unfold row_from_signature. cbn [row_challenge]. unfold compute_challenge_hash_tweak, reduce_from, tagged, chal, entry_challenge, challenge_input, tag_twice, xbytes.
  rewrite tag_bip340_challenge, <- app_assoc. reflexivity.
Qed.
Lemma even_rehash h (P : point Pr) : prims_ok (with_hash Pr h) -> pval (@even_point (with_hash Pr h) (rehash h P)) = pval (even_point P) :> @pt Pr.
Proof. intro LI. transitivity (@to_even_y Pr (pval P)); [apply (@even_point_val (with_hash Pr h) LI) | symmetry; apply (@even_point_val Pr Laws)]. Qed.
Lemma loop_with h (LI : prims_ok (with_hash Pr h)) (f : entry Pr -> batch_row (with_hash Pr h)) seed t : (f = fun e => @row_from_signature (with_hash Pr h) (rehash h (n_key e)) (n_msg e) (relift h (n_sig e))) ->
  forall i lhs rhs, @batch_loop (with_hash Pr h) seed i (map f t) lhs rhs = @batch_loop Pr seed i (map (row_of h) t) lhs rhs.
Proof.
  intros ->. induction t as [|e t IH]; intros i lhs rhs; [reflexivity|]. cbn [map batch_loop]. rewrite IH. rewrite chal_with. cbn [row_pubkey row_from_signature]. rewrite (even_rehash h _ LI). reflexivity.
Qed.
Lemma accepted_iff h t : prims_ok (with_hash Pr h) -> batch_accepted h t = true <-> seed_accepts (map (row_of h) t) (h (seed_question h t)) = true.
Proof.
  intro LI. rewrite seed_accepts_iff. unfold batch_accepted, verify_batch. rewrite (loop_with h LI _ _ t eq_refl).
  assert (ES : @batch_seed (with_hash Pr h) (map (fun e => @row_from_signature (with_hash Pr h) (rehash h (n_key e)) (n_msg e) (relift h (n_sig e))) t) = h (seed_question h t)).
  { unfold batch_seed, tagged. rewrite seed_ser. unfold tag_twice. rewrite tag_bip340_batch, !flat_map_concat_map, !map_map, <- app_assoc.
    rewrite (map_ext _ (fun e => ser_scalar (chal h e))) by (intro e; rewrite chal_with; reflexivity). reflexivity. }
  rewrite ES. set (d := h (seed_question h t)). set (rows := map (row_of h) t). pose proof (batch_loop_defects d rows 0%nat fzero []) as H.
  change (is_ok (let (l, r) := @batch_loop Pr d 0 rows fzero [] in if @pt_eqb Pr (gmul l) (psum r) then Ok tt else Err VE_BadSignature) = true
    <-> defects (coeffs_from d 0 (length rows)) rows = pt_O).
  destruct (@batch_loop Pr d 0 rows fzero []) as [l r]. rewrite gmul_0, psum_nil in H. unfold psub in H at 2.
  rewrite neg_O, !add_O_l in H. rewrite <- H, psub_O, <- pt_eqb_eq.
  destruct (@pt_eqb Pr (gmul l) (psum r)); cbn [is_ok]; split; congruence.
Qed.
Lemma each_with h e : prims_ok (with_hash Pr h) -> has_even_y (l_R (n_sig e)) = true ->
  is_ok (@verify_single_lifted (with_hash Pr h) (rehash h (n_key e)) (relift h (n_sig e)) (n_msg e)) = true <-> row_valid (row_of h e).
Proof.
  intros LI HE. pose proof (@item_row_valid (with_hash Pr h) LI (Finished (rehash h (n_key e)) (n_msg e) (relift h (n_sig e))) HE) as H.
  unfold row_valid in H. cbn [item_row item_verdict] in H. rewrite chal_with in H.
  change (row_valid (row_of h e) <-> @verify_single_lifted (with_hash Pr h) (rehash h (n_key e)) (relift h (n_sig e)) (n_msg e) = Ok tt) in H.
  rewrite H. destruct (@verify_single_lifted _ _ _ _) as [[]| |]; cbn [is_ok]; split; congruence.
Qed.
Lemma each_iff h t : prims_ok (with_hash Pr h) -> forallb (fun e => has_even_y (l_R (n_sig e))) t = true -> each_accepted h t = true <-> Forall row_valid (map (row_of h) t).
Proof.
  intros LI HE. rewrite forallb_forall in HE. unfold each_accepted. rewrite forallb_forall, Forall_forall. split.
  - intros H r Hr. apply in_map_iff in Hr as (e & <- & He). apply (each_with h e LI (HE e He)), H, He.
  - intros H e He. apply (each_with h e LI (HE e He)), H. apply in_map, He.
Qed.
(** The challenge decides the nonce and the key up to parity. *)
Lemma same_defect h h' (e e' : entry Pr) : has_even_y (l_R (n_sig e)) = true -> has_even_y (l_R (n_sig e')) = true ->
  entry_challenge e = entry_challenge e' -> chal h e = chal h' e' -> l_s (n_sig e) = l_s (n_sig e') -> defect (row_of h e) = defect (row_of h' e').
Proof.
  intros V V' E C HS. unfold entry_challenge in E. apply challenge_parts in E as (E1 & E2 & _); try apply x_len.
  assert (ER : pval (l_R (n_sig e)) = pval (l_R (n_sig e'))).
  { apply even_x_eq; [apply point_fin | apply point_fin | unfold has_even_y in V; destruct (pt_odd (l_R (n_sig e))); [discriminate V | reflexivity] | unfold has_even_y in V'; destruct (pt_odd (l_R (n_sig e'))); [discriminate V' | reflexivity] | exact E1]. }
  assert (EP : pval (even_point (n_key e)) = pval (even_point (n_key e'))).
  { apply even_x_eq; try apply point_fin; rewrite ?even_point_val; try (apply to_even_y_odd, point_fin). rewrite !to_even_y_x. exact E2. }
  unfold defect. cbn [row_of row_pubkey row_challenge row_R row_s]. rewrite C, HS, ER, EP. reflexivity.
Qed.
Lemma defects_ext cs rows rows' : Forall2 (fun r r' => defect r = defect r') rows rows' -> defects cs rows = defects cs rows'.
Proof. intro H. revert cs. induction H as [|r r' rows rows' E _ IH]; intros [|a cs]; cbn [defects]; [reflexivity | reflexivity | reflexivity|]. rewrite E, IH. reflexivity. Qed.
End Rows.

Section Batches.
Context {Pr : prims} {Laws : prims_ok Pr} {Tags : tags_ok Pr} (M : nat) (F : asker (list (entry Pr))) (inputs digests : list bytes) (q c r : nat) (HS : NoDup digests)
  (HS32 : forall d, In d digests -> length d = 32%nat) (Hc : forall d, In d digests -> (count (same_residue d) digests <= c)%nat)
  (Hr : @generator_good Pr M r digests) (HF : asks_within inputs digests (fun _ => True) q F).
Let W := worlds inputs digests.
Let res (w : list (bytes * bytes)) : list (entry Pr) := outcome (hash_in w) F.
Let seedq (w : list (bytes * bytes)) : bytes := seed_question (hash_in w) (res w).
Lemma fooled_spec w : In w W -> batch_fooled_asking M F w = true ->
  (length (res w) <= M)%nat /\ (forall e, In e (res w) -> has_even_y (l_R (n_sig e)) = true) /\ (forall e, In e (res w) -> In (entry_challenge e) (qs F w)) /\
  In (seedq w) (qs F w) /\ seed_accepts (map (row_of (hash_in w)) (res w)) (hash_in w (seedq w)) = true /\ ~ Forall row_valid (map (row_of (hash_in w)) (res w)).
Proof.
  intros Hw H. unfold batch_fooled_asking, batch_fooled in H. cbv zeta in H. fold (res w) in H. fold (seedq w) in H. rewrite !andb_true_iff in H.
  destruct H as [[[[[H1 H2] H5] H6] H3] H4]. apply Nat.leb_le in H1. apply in_existsb in H4. pose proof (with_hash_ok _ (hash_in_len inputs digests w HS32 Hw)) as LI. apply (accepted_iff _ _ LI) in H5.
  split; [exact H1|]. split; [apply forallb_forall, H2|]. split; [intros e He; rewrite forallb_forall in H3; apply in_existsb, H3, He|].
  split; [exact H4|]. split; [exact H5|]. intro V.
  apply (each_iff _ _ LI H2) in V. rewrite V in H6. discriminate H6.
Qed.
Definition ev_last (p : nat) (w : list (bytes * bytes)) : bool :=
  batch_fooled_asking M F w && at_place F (seedq w) p w
  && forallb (fun e => match place (entry_challenge e) (qs F w) with Some k => Nat.ltb k p | None => false end) (res w)
  && forallb (fun k2 => forallb (fun k1 => negb (pair_at F k1 k2 w)) (seq 0 k2)) (seq 0 p).
Definition ev_late (p p' j : nat) (w : list (bytes * bytes)) : bool :=
  batch_fooled_asking M F w && at_place F (seedq w) p w && match nth_error (res w) j with Some e => at_place F (entry_challenge e) p' w | None => false end.
Lemma late_rare p p' j : (p < p')%nat -> (length digests * count (ev_late p p' j) W <= length W * c)%nat.
Proof.
  intro Hp. apply (rare_place F inputs digests q _ HF p' c _ HS Hc).
  - intros w Hw H. unfold ev_late in H. rewrite !andb_true_iff in H. destruct H as [_ H]. destruct (nth_error (res w) j) as [e|]; [|discriminate H].
    apply at_place_iff, place_is_new in H. unfold has_new. rewrite H. reflexivity.
  - intros u x d Hu Hx Hd E1 E2. unfold ev_late in E1, E2. rewrite !andb_true_iff in E1, E2. destruct E1 as [[_ S1] N1], E2 as [[_ S2] N2]. apply at_place_iff in S1, S2.
    destruct (nth_error (res u) j) as [e|] eqn:J1; [|discriminate N1]. destruct (nth_error (res (put x d u)) j) as [e'|] eqn:J2; [|discriminate N2].
    apply at_place_iff in N1, N2. apply (two_place F inputs digests q _ HF u x d p' Hu Hx Hd) in S2; [|lia]. apply (two_place F inputs digests q _ HF u x d p' Hu Hx Hd) in N2; [|lia].
    pose proof (two_at F u x p' Hx) as TX. pose proof (place_inj _ _ _ _ N1 TX) as X1. pose proof (place_inj _ _ _ _ N2 TX) as X2. pose proof (place_inj _ _ _ _ S1 S2) as SS.
    apply (seed_inj (hash_in u) (hash_in (put x d u)) (res u) (res (put x d u))) in SS. destruct (forall2_nth _ _ _ j e e' SS J1 J2) as [C _]. apply (f_equal fz) in C. rewrite !chal_residue, X1, X2, (two_hash_x F inputs digests q _ HF u x d p' Hu Hx) in C.
    unfold same_residue. apply Z.eqb_eq. exact C.
Qed.
Lemma last_rare p : (length digests * count (ev_last p) W <= length W * r)%nat.
Proof.
  apply (few_place F inputs digests q _ HF p r _ HS).
  - intros w Hw H. unfold ev_last in H. rewrite !andb_true_iff in H. destruct H as [[[_ H] _] _]. apply at_place_iff, place_is_new in H. unfold has_new. rewrite H. reflexivity.
  - intros u x Hu Hx E1. unfold ev_last in E1. rewrite !andb_true_iff in E1. destruct E1 as [[[F1 S1] P1] C1]. apply at_place_iff in S1.
    pose proof (place_inj _ _ _ _ S1 (two_at F u x p Hx)) as X1. apply (fooled_spec u Hu) in F1 as (L1 & V1 & _ & _ & _ & B1).
    eapply Nat.le_trans; [|apply (Hr (map (row_of (hash_in u)) (res u))); [rewrite map_length; exact L1 | exact B1]].
    apply count_le. intros d Hd E2. set (u' := put x d u) in *. unfold ev_last in E2. rewrite !andb_true_iff in E2. destruct E2 as [[[F2 S2] P2] C2]. apply at_place_iff in S2.
    assert (Hu' : In u' W) by (apply put_in; [exact Hu | exact Hd]).
    apply (fooled_spec u' Hu') in F2 as (L2 & V2 & _ & _ & A2 & _).
    apply (two_place F inputs digests q _ HF u x d p Hu Hx Hd) in S2; [|lia]. pose proof (place_inj _ _ _ _ S2 S1) as SS.
    assert (HX : hash_in u' x = d) by (apply (two_hash_x F inputs digests q _ HF u x d p Hu Hx)). rewrite SS, X1, HX in A2.
    apply (seed_inj (hash_in u') (hash_in u) (res u') (res u)) in SS. rewrite forallb_forall in P1, P2.
    assert (FA : Forall2 (fun r' r => defect r' = defect r) (map (row_of (hash_in u')) (res u')) (map (row_of (hash_in u)) (res u))).
    { pose proof (forall2_in _ (fun e' => In e' (res u')) (fun e => In e (res u)) _ _ SS (fun _ H => H) (fun _ H => H)) as SI.
      apply (forall2_map _ _ _ _ _ _ SI). intros e' e [[C1' C2'] [I' I]].
      apply same_defect; [apply V2, I' | apply V1, I | | exact C1' | exact C2'].
      specialize (P1 e I). specialize (P2 e' I'). destruct (place (entry_challenge e) (qs F u)) as [k|] eqn:K; [|discriminate P1].
      destruct (place (entry_challenge e') (qs F u')) as [k'|] eqn:K'; [|discriminate P2]. apply Nat.ltb_lt in P1, P2.
      apply (two_place F inputs digests q _ HF u x d p Hu Hx Hd) in K'; [|lia].
      apply (distinct_before F p u _ _ k' k C1 K' K P2 P1). apply (f_equal fz) in C1'. rewrite !chal_residue in C1'. unfold u' in C1'.
      rewrite (two_hash F u x d p Hx _ k' P2 K') in C1'. unfold same_residue. apply Z.eqb_eq. exact C1'. }
    apply seed_accepts_iff. apply seed_accepts_iff in A2. rewrite <- A2. symmetry.
    replace (length (map (row_of (hash_in u)) (res u))) with (length (map (row_of (hash_in u')) (res u'))); [apply defects_ext, FA|].
    clear - FA. induction FA; cbn [length]; [reflexivity | f_equal; assumption].
Qed.
Definition others : list (list (bytes * bytes) -> bool) :=
  flat_map (fun i2 => flat_map (fun i1 => pair_at F i1 i2 :: map (ev_late i1 i2) (seq 0 M)) (seq 0 i2)) (seq 0 q).
Lemma others_length : (2 * length others = (M + 1) * (q * (q - 1)))%nat.
Proof.
  unfold others.
  assert (E : forall f : nat -> list (list (bytes * bytes) -> bool), (forall i, length (f i) = (i * (M + 1))%nat) -> forall n b, (2 * length (flat_map f (seq b n)) = (M + 1) * (n * (2 * b + n - 1)))%nat).
  { intros f Hf n. induction n as [|n IH]; intro b; cbn [seq flat_map length]; [lia|]. rewrite app_length, Hf, Nat.mul_add_distr_l, IH.
    replace (2 * S b + n - 1)%nat with (2 * b + n + 1)%nat by lia. replace (2 * b + S n - 1)%nat with (2 * b + n)%nat by lia. ring. }
  rewrite E; [replace (2 * 0 + q - 1)%nat with (q - 1)%nat by lia; reflexivity|].
  intro i. rewrite (flat_const _ _ (M + 1)), seq_length; [reflexivity|]. intros a _. cbn [length]. rewrite map_length, seq_length. lia.
Qed.
Lemma batch_not_challenge h t (e : entry Pr) : seed_question h t <> entry_challenge e.
Proof.
  unfold seed_question, entry_challenge, challenge_input, tag_twice. intro H. rewrite <- !app_assoc in H. apply app_inj_len in H as [H _]; [|rewrite !sha_len; reflexivity].
  rewrite tag_bip340_batch, tag_bip340_challenge in H. revert H. vm_compute. discriminate.
Qed.
Lemma fooled_event w : In w W -> batch_fooled_asking M F w = true -> existsb (fun g => g w) (map ev_last (seq 0 q)) = true \/ existsb (fun g => g w) others = true.
Proof.
  intros Hw H. destruct (fooled_spec w Hw H) as (L & _ & HC & HI & _). destruct (qs_facts F inputs digests q _ HF w Hw) as [_ HL].
  destruct (place_some _ _ HI) as [p Pp]. pose proof (place_lt _ _ _ Pp) as Lp.
  assert (IE : forall i2 i1 g, (i1 < i2)%nat -> (i2 < q)%nat -> In g (pair_at F i1 i2 :: map (ev_late i1 i2) (seq 0 M)) -> In g others).
  { intros i2 i1 g H1 H2 H3. unfold others. apply in_flat_map. exists i2. split; [apply in_seq; lia|]. apply in_flat_map. exists i1. split; [apply in_seq; lia | exact H3]. }
  destruct (forallb (fun e => match place (entry_challenge e) (qs F w) with Some k => Nat.ltb k p | None => false end) (res w)) eqn:B.
  - destruct (forallb (fun k2 => forallb (fun k1 => negb (pair_at F k1 k2 w)) (seq 0 k2)) (seq 0 p)) eqn:C.
    + left. apply existsb_exists. exists (ev_last p). split; [apply in_map, in_seq; lia|]. unfold ev_last. rewrite H, B, C, (proj2 (at_place_iff F _ _ _) Pp). reflexivity.
    + right. apply forallb_false in C as (k2 & I2 & C). apply forallb_false in C as (k1 & I1 & C). apply in_seq in I1, I2. apply negb_false_iff in C.
      apply existsb_exists. exists (pair_at F k1 k2). split; [apply (IE k2 k1); [lia | lia | left; reflexivity] | exact C].
  - right. apply forallb_false in B as (e & Ie & B). destruct (place_some _ _ (HC e Ie)) as [k Pk]. rewrite Pk in B. apply Nat.ltb_ge in B. pose proof (place_lt _ _ _ Pk) as Lk.
    assert (N : k <> p) by (intros ->; apply (batch_not_challenge (hash_in w) (res w) e), (place_inj _ _ _ _ Pp Pk)).
    apply In_nth_error in Ie as [j Hj]. assert (Lj : (j < length (res w))%nat) by (apply nth_error_Some; congruence).
    apply existsb_exists. exists (ev_late p k j). split.
    + apply (IE k p); [lia | lia|]. right. apply in_map, in_seq. lia.
    + unfold ev_late. rewrite H, Hj, (proj2 (at_place_iff F _ _ _) Pp), (proj2 (at_place_iff F _ _ _) Pk). reflexivity.
Qed.
Lemma fooled_rare : (2 * (length digests * count (batch_fooled_asking M F) W) <= (2 * q * r + (M + 1) * (q * (q - 1)) * c) * length W)%nat.
Proof.
  pose proof (count_or _ _ _ W fooled_event) as H.
  pose proof (union_bound W (fun w => existsb (fun g => g w) (map ev_last (seq 0 q))) (map ev_last (seq 0 q)) (length digests) (length W * r)) as H1.
  pose proof (union_bound W (fun w => existsb (fun g => g w) others) others (length digests) (length W * c)) as H2.
  rewrite map_length, seq_length in H1. pose proof others_length as OL.
  assert (G1 : (length digests * count (fun w => existsb (fun g => g w) (map ev_last (seq 0 q))) W <= q * (length W * r))%nat).
  { apply H1; [intros w _ E; apply existsb_exists in E; exact E|]. intros g Hg. apply in_map_iff in Hg as (p & <- & _). apply last_rare. }
  assert (G2 : (length digests * count (fun w => existsb (fun g => g w) others) W <= length others * (length W * c))%nat).
  { apply H2; [intros w _ E; apply existsb_exists in E; exact E|]. intros g Hg. unfold others in Hg. apply in_flat_map in Hg as (i2 & _ & Hg). apply in_flat_map in Hg as (i1 & I1 & Hg).
    apply in_seq in I1. destruct Hg as [<- | Hg]; [apply (pair_rare F inputs digests q c HS Hc HF); lia|]. apply in_map_iff in Hg as (j & <- & _). apply late_rare. lia. }
  rewrite Nat.mul_add_distr_r. replace ((M + 1) * (q * (q - 1)) * c * length W)%nat with (2 * (length others * (length W * c)))%nat by (rewrite Nat.mul_assoc, OL; ring).
  apply (Nat.mul_le_mono_l _ _ (length digests)) in H. nia.
Qed.
End Batches.

Section Two.
Context {Pr : prims} {Laws : prims_ok Pr} {Tags : tags_ok Pr}.
Lemma two_rows (digests : list bytes) (r : nat) : (forall d, In d digests -> (count (@same_draw Pr d) digests <= r)%nat) -> @generator_good Pr 2 r digests.
Proof.
  intros H rows HL HB. destruct (existsb (seed_accepts rows) digests) eqn:X.
  2:{ rewrite count_none; [lia|]. intros d Hd. destruct (seed_accepts rows d) eqn:Y; [|reflexivity]. rewrite <- X. symmetry. apply existsb_exists. exists d. split; assumption. }
  apply existsb_exists in X as (d & Hd & X). eapply Nat.le_trans; [|apply (H d Hd)]. apply count_le. intros d' Hd' X'.
  apply seed_accepts_iff in X, X'. destruct rows as [|r1 [|r2 [|r3 rows]]]; cbn [length] in *; [| | |lia].
  - exfalso. apply HB. constructor.
  - exfalso. apply HB. constructor; [|constructor]. apply row_valid_defect. cbn [coeffs_from seq map batch_coeff defects] in X. rewrite pmul_1, add_O_r in X. exact X.
  - cbn [coeffs_from seq map batch_coeff defects] in X, X'. rewrite pmul_1, add_O_r in X, X'.
    assert (N2 : defect r2 <> pt_O).
    { intro E. rewrite E, pmul_O, add_O_r in X. apply HB. constructor; [apply row_valid_defect, X|]. constructor; [apply row_valid_defect, E | constructor]. }
    assert (E : pmul (rng_scalar d 0) (defect r2) = pmul (rng_scalar d' 0) (defect r2)).
    { rewrite <- X' in X. rewrite (add_comm (defect r1)), (add_comm (defect r1)) in X. apply add_cancel_r in X. exact X. }
    apply (pmul_inj _ _ _ N2) in E. unfold same_draw. rewrite E. apply Z.eqb_refl.
Qed.
End Two.

(** The program, followed by the questions of whoever verifies. *)
Section Checked.
Context {Pr : prims} {Laws : prims_ok Pr} {Tags : tags_ok Pr}.
Fixpoint then_ask {B} (t : list (entry Pr)) (h : bytes -> bytes) (k : (bytes -> bytes) -> asker B) : asker B :=
  match t with
  | [] => k h
  | e :: t' => Ask (entry_challenge e) (fun d => then_ask t' (fun m => if bytes_eqb m (entry_challenge e) then d else h m) k)
  end.
Lemma then_ask_spec {B} g (k : (bytes -> bytes) -> asker B) t : forall h, exists h', asked g (then_ask t h k) = map entry_challenge t ++ asked g (k h') /\
  outcome g (then_ask t h k) = outcome g (k h') /\ (forall m, h m = g m -> h' m = g m) /\ forall e, In e t -> h' (entry_challenge e) = g (entry_challenge e).
Proof.
  induction t as [|e t IH]; intro h; cbn [then_ask map app asked outcome].
  - exists h. split; [reflexivity|]. split; [reflexivity|]. split; [auto | intros e []].
  - destruct (IH (fun m => if bytes_eqb m (entry_challenge e) then g (entry_challenge e) else h m)) as (h' & E1 & E2 & E3 & E4).
    exists h'. split; [rewrite E1; reflexivity|]. split; [exact E2|]. split.
    + intros m Hm. apply E3. destruct (bytes_eqb m (entry_challenge e)) eqn:X; [apply bytes_eqb_eq in X as ->; reflexivity | exact Hm].
    + intros e' [<- | He]; [apply E3; rewrite bytes_eqb_refl; reflexivity | apply E4, He].
Qed.
Lemma then_ask_within {B} inputs digests (fin : B -> Prop) q (k : (bytes -> bytes) -> asker B) : (forall h, (forall m, In (h m) digests) -> asks_within inputs digests fin q (k h)) ->
  forall t h, (forall e, In e t -> In (entry_challenge e) inputs) -> (forall m, In (h m) digests) -> asks_within inputs digests fin (length t + q) (then_ask t h k).
Proof.
  intros K t. induction t as [|e t IH]; intros h Ht Hh; cbn [then_ask length Nat.add asks_within]; [apply K, Hh|].
  split; [apply Ht; left; reflexivity|]. intros d Hd. apply IH; [intros e' He; apply Ht; right; exact He|].
  intro m. destruct (bytes_eqb m (entry_challenge e)); [exact Hd | apply Hh].
Qed.
Definition checked (d0 : bytes) (F : asker (list (entry Pr))) : asker (list (entry Pr)) :=
  and_then F (fun t => then_ask t (fun _ => d0) (fun h => Ask (seed_question h t) (fun _ => Give t))).
Lemma outcome_then {A B} h (F : asker A) (k : A -> asker B) : outcome h (and_then F k) = outcome h (k (outcome h F)).
Proof. induction F as [a | m f IH]; [reflexivity|]. cbn [and_then outcome]. apply IH. Qed.
Lemma checked_fooled M d0 F w : batch_fooled M F w = true -> batch_fooled_asking M (checked d0 F) w = true.
Proof.
  intro H. set (t := outcome (hash_in w) F).
  destruct (then_ask_spec (hash_in w) (fun h => Ask (seed_question h t) (fun _ => Give t)) t (fun _ => d0)) as (h' & E1 & E2 & _ & E4).
  assert (EO : outcome (hash_in w) (checked d0 F) = t) by (unfold checked; rewrite outcome_then; fold t; rewrite E2; reflexivity).
  assert (EA : asked (hash_in w) (checked d0 F) = asked (hash_in w) F ++ map entry_challenge t ++ [seed_question (hash_in w) t]).
  { unfold checked. rewrite asked_then. fold t. rewrite E1. cbn [asked]. do 3 f_equal. unfold seed_question. do 2 f_equal. f_equal. apply map_ext_in. intros e He. rewrite (E4 e He). reflexivity. }
  unfold batch_fooled_asking. cbv zeta. rewrite EO, EA. apply andb_true_iff. split; [apply andb_true_iff; split|].
  - unfold batch_fooled in *. cbv zeta in *. rewrite EO. exact H.
  - apply forallb_forall. intros e He. apply existsb_exists. exists (entry_challenge e). split; [|apply bytes_eqb_refl]. apply in_app_iff. right. apply in_app_iff. left. apply in_map, He.
  - apply existsb_exists. exists (seed_question (hash_in w) t). split; [|apply bytes_eqb_refl]. apply in_app_iff. right. apply in_app_iff. right. left. reflexivity.
Qed.
Lemma checked_within M inputs digests q d0 F : In d0 digests -> batch_within M inputs digests q F -> asks_within inputs digests (fun _ => True) (q + (M + 1)) (checked d0 F).
Proof.
  intros Hd H. apply (within_then _ _ _ _ q (M + 1) F _ H). intros t (HL & HC & HQ). apply (within_le _ _ _ (length t + 1)); [lia|].
  apply then_ask_within; [|exact HC | intros _; exact Hd]. intros h Hh. split; [apply HQ, Hh | intros; exact I].
Qed.
End Checked.

Section C96_batch_forger_asking_rare.
Context {Pr : prims}.
Add Ring ring_C96_batch_forger_asking_rare : (fe_ring_theory (n := @ord Pr)).
Lemma C96_batch_forger_asking_rare_proof {Laws : prims_ok Pr} {Tags : tags_ok Pr} (M : nat) (F : asker (list (entry Pr))) (inputs digests : list bytes) (q c r : nat) (HS : NoDup digests) (HS32 : forall d, In d digests -> length d = 32%nat) (Hc : forall d, In d digests -> (count (same_residue d) digests <= c)%nat) (Hr : @generator_good Pr M r digests) (HF : asks_within inputs digests (fun _ => True) q F) :
  let N := length digests in
  (2 * (N * count (batch_fooled_asking M F) (worlds inputs digests)) <= (2 * q * r + (M + 1) * (q * (q - 1)) * c) * N ^ length inputs)%nat.
Proof.
  cbv zeta. rewrite <- (length_worlds inputs digests). apply fooled_rare; assumption.
Qed.
End C96_batch_forger_asking_rare.

Section C96_batch_forger_rare.
Context {Pr : prims}.
Add Ring ring_C96_batch_forger_rare : (fe_ring_theory (n := @ord Pr)).
Lemma C96_batch_forger_rare_proof {Laws : prims_ok Pr} {Tags : tags_ok Pr} (M : nat) (F : asker (list (entry Pr))) (inputs digests : list bytes) (q c r : nat) (HS : NoDup digests) (HS32 : forall d, In d digests -> length d = 32%nat) (Hc : forall d, In d digests -> (count (same_residue d) digests <= c)%nat) (Hr : @generator_good Pr M r digests) (HF : batch_within M inputs digests q F) :
  let N := length digests in
  let q' := (q + M + 1)%nat in
  (2 * (N * count (batch_fooled M F) (worlds inputs digests)) <= (2 * q' * r + (M + 1) * (q' * (q' - 1)) * c) * N ^ length inputs)%nat.
Proof.
  cbv zeta. rewrite <- (length_worlds inputs digests). destruct digests as [|d0 ds] eqn:ED; [cbn [length]; lia|]. rewrite <- ED in *.
  assert (Hd : In d0 digests) by (rewrite ED; left; reflexivity).
  pose proof (fooled_rare M (checked d0 F) inputs digests (q + M + 1) c r HS HS32 Hc Hr) as H.
  eapply Nat.le_trans; [|apply H; replace (q + M + 1)%nat with (q + (M + 1))%nat by lia; apply checked_within; assumption].
  apply Nat.mul_le_mono_l, Nat.mul_le_mono_l. apply count_le. intros w _ Hw. apply checked_fooled, Hw.
Qed.
End C96_batch_forger_rare.

Section C96_two_signatures.
Context {Pr : prims}.
Add Ring ring_C96_two_signatures : (fe_ring_theory (n := @ord Pr)).
Lemma C96_two_signatures_proof {Laws : prims_ok Pr} {Tags : tags_ok Pr} (digests : list bytes) (r : nat) (H : forall d, In d digests -> (count (@same_draw Pr d) digests <= r)%nat) :
  @generator_good Pr 2 r digests.
Proof.
  apply two_rows, H.
Qed.
End C96_two_signatures.

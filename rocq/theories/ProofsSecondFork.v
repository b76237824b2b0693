(** Proofs of the theorems of PropertiesSecondFork.v. *)
From Coq Require Import String List.
From Verif Require Import Bytes BytesFacts Prims PrimsFacts TaggedHashes Errors SpecTags SpecBIP327
  KeyAgg Nonces Signature Signing SigAgg Bip340 SpecCtx SpecView SpecExtract SpecFork Toy ToyData ToyFork.
Import ListNotations.
Open Scope list_scope.
Open Scope Z_scope.
From Coq Require Import Lia Arith Bool Znumtheory Permutation.
From Verif Require Import CodecFacts KeyAggFacts SignatureFacts SigningFacts SpecFacts SpecSigning SessionFacts ProofsSoundness ProofsSingle ProofsExtraction ProofsRare ProofsGuess ForkFacts ProofsFork ProofsGroupFork.
Open Scope Z_scope.

Section Residues.
Context {Pr : prims} {Laws : prims_ok Pr}.

Lemma n_two : 2 <= n_. Proof. pose proof ord_prime as [H _]. unfold n_. lia. Qed.
Lemma n_mod x : 0 <= x mod n_ < n_. Proof. apply Z.mod_pos_bound. pose proof n_two. lia. Qed.
Lemma n_small : n_ < 256 ^ Z.of_nat 32. Proof. exact ord_small. Qed.
Lemma in_residues d : In d residues <-> exists k, d = be_enc 32 k /\ 0 <= k < n_.
Proof.
  unfold residues. rewrite in_map_iff. pose proof n_two. split.
  - intros (i & <- & Hi). apply in_seq in Hi. exists (Z.of_nat i). split; [reflexivity | lia].
  - intros (k & -> & Hk). exists (Z.to_nat k). split; [rewrite Z2Nat.id by lia; reflexivity | apply in_seq; lia].
Qed.
Lemma in_factors g : In g factors <-> 1 <= g < n_.
Proof.
  unfold factors. rewrite in_map_iff. pose proof n_two. split.
  - intros (i & <- & Hi). apply in_seq in Hi. lia.
  - intro Hg. exists (Z.to_nat g). split; [apply Z2Nat.id; lia | apply in_seq; lia].
Qed.
Lemma length_factors : length factors = Z.to_nat (n_ - 1).
Proof. unfold factors. rewrite map_length, seq_length. pose proof n_two. lia. Qed.
Lemma length_residues : length residues = Z.to_nat n_.
Proof. unfold residues. rewrite map_length, seq_length. reflexivity. Qed.
Lemma nodup_factors : NoDup factors.
Proof. unfold factors. apply nodup_map; [intros x y; apply Nat2Z.inj | apply seq_NoDup]. Qed.
Lemma dec_residue k : 0 <= k < n_ -> be_dec (be_enc 32 k) = k.
Proof. intro H. apply be_dec_enc_small. pose proof n_small. lia. Qed.
Lemma nodup_residues : NoDup residues.
Proof.
  unfold residues.
  assert (H : forall l, (forall i, In i l -> 0 <= Z.of_nat i < n_) -> NoDup l -> NoDup (map (fun i => be_enc 32 (Z.of_nat i)) l)).
  { induction l as [|i l IH]; intros Hl N; cbn [map]; [constructor|]. inversion N; subst. constructor.
    - rewrite in_map_iff. intros (j & E & Hj). apply (f_equal be_dec) in E. rewrite !dec_residue in E by (apply Hl; cbn [In]; auto).
      apply Nat2Z.inj in E as ->. contradiction.
    - apply IH; [intros j Hj; apply Hl; right; exact Hj | assumption]. }
  apply H; [|apply seq_NoDup]. intros i Hi. apply in_seq in Hi. pose proof n_two. lia.
Qed.
Lemma residue_len d : In d residues -> length d = 32%nat.
Proof. intro H. apply in_residues in H as (k & -> & _). apply be_enc_length. Qed.
Lemma same_residue_spec d k : 0 <= k < n_ -> same_residue d (be_enc 32 k) = true -> k = be_dec d mod n_.
Proof.
  intros Hk E. unfold same_residue in E. apply Z.eqb_eq in E.
  assert (D : int_from_bytes (be_enc 32 k) = k) by exact (dec_residue k Hk). rewrite D in E. rewrite (Z.mod_small k n_ Hk) in E. symmetry. exact E.
Qed.
Lemma residue_inj d x y : In x residues -> In y residues -> same_residue d x = true -> same_residue d y = true -> x = y.
Proof.
  intros Hx Hy E E'. apply in_residues in Hx as (k & -> & Hk), Hy as (k' & -> & Hk').
  apply (same_residue_spec d k Hk) in E. apply (same_residue_spec d k' Hk') in E'. rewrite E, E'. reflexivity.
Qed.
Lemma count_one {A} (p : A -> bool) (l : list A) : NoDup l -> (forall x y, In x l -> In y l -> p x = true -> p y = true -> x = y) -> (count p l <= 1)%nat.
Proof.
  intros N H. rewrite count_sum. induction l as [|x l IH]; [apply Nat.le_0_l|]. inversion N as [|? ? Nx Nl]; subst. rewrite sum_cons.
  destruct (p x) eqn:E; cbn [ind].
  - enough (sum_over (fun y => ind (p y)) l = 0)%nat by lia. rewrite (sum_ext _ (fun _ => O)); [rewrite sum_const; lia|].
    intros y Hy. destruct (p y) eqn:E'; [|reflexivity]. exfalso. apply Nx. rewrite (H x y); cbn [In]; auto.
  - apply IH; [exact Nl|]. intros y z Hy Hz. apply H; right; assumption.
Qed.
Lemma residues_one d : In d residues -> (count (same_residue d) residues <= 1)%nat.
Proof. intros _. apply count_one; [apply nodup_residues|]. intros x y. apply residue_inj. Qed.
Lemma factor_cancel g x y : In g factors -> 0 <= x < n_ -> 0 <= y < n_ -> (g * x) mod n_ = (g * y) mod n_ -> x = y.
Proof.
  intros Hg Hx Hy E. apply in_factors in Hg.
  assert (D : (n_ | g * (x - y))).
  { apply Z.mod_divide; [lia|]. replace (g * (x - y)) with (g * x - g * y) by ring. rewrite Zminus_mod, E, Z.sub_diag. apply Zmod_0_l. }
  apply prime_mult in D; [|exact ord_prime]. destruct D as [D | D].
  - apply Z.divide_pos_le in D; lia.
  - destruct D as [z D]. assert (z = 0) by nia. subst z. lia.
Qed.
Lemma factor_in g h : In g factors -> In h factors -> In ((g * h) mod n_) factors.
Proof.
  intros Hg Hh. apply in_factors. pose proof (proj1 (in_factors g) Hg). pose proof (proj1 (in_factors h) Hh). pose proof n_two.
  pose proof (n_mod (g * h)). assert (N : (g * h) mod n_ <> 0); [|revert N; generalize dependent ((g * h) mod n_); intros; lia].
  intro E. assert (h = 0); [|lia]. apply (factor_cancel g); [exact Hg | lia | lia|]. rewrite E, Z.mul_0_r, Zmod_0_l. reflexivity.
Qed.
Lemma factors_sum g (f : Z -> nat) : In g factors -> sum_over (fun h => f ((g * h) mod n_)) factors = sum_over f factors.
Proof.
  intro Hg. rewrite <- (sum_map (fun h => (g * h) mod n_) f). apply sum_perm, NoDup_Permutation_bis.
  - assert (H : forall l, incl l factors -> NoDup l -> NoDup (map (fun h => (g * h) mod n_) l)).
    { induction l as [|x l IH]; intros Hi N; cbn [map]; [constructor|]. inversion N as [|? ? Nx Nl]; subst. constructor.
      - rewrite in_map_iff. intros (y & E & Hy). apply Nx.
        assert (Ix : In x factors) by (apply Hi; left; reflexivity). assert (Iy : In y factors) by (apply Hi; right; exact Hy).
        apply in_factors in Ix, Iy. replace x with y; [exact Hy|]. apply (factor_cancel g); [exact Hg | lia | lia | exact E].
      - apply IH; [intros y Hy; apply Hi; right; exact Hy | exact Nl]. }
    apply H; [apply incl_refl | apply nodup_factors].
  - rewrite map_length. apply le_n.
  - intros y Hy. apply in_map_iff in Hy as (x & <- & Hx). apply factor_in; assumption.
Qed.
Lemma scaled_residue g d : In g factors -> In d residues -> In (be_enc 32 ((g * be_dec d) mod n_)) residues.
Proof. intros _ _. apply in_residues. eexists. split; [reflexivity|]. pose proof n_two. apply Z.mod_pos_bound. lia. Qed.

(** ** Scaling a world. *)
Lemma scale_keys L g w : map fst (scale L g w) = map fst w.
Proof. unfold scale. rewrite map_map. apply map_ext. intros [m d]. cbn [fst snd]. destruct (is_coefficient L m); reflexivity. Qed.
Lemma scale_in inputs L g w : In g factors -> In w (worlds inputs residues) -> In (scale L g w) (worlds inputs residues).
Proof.
  intros Hg Hw. apply in_worlds in Hw as [H1 H2]. apply in_worlds. rewrite scale_keys. split; [exact H1|].
  intros e He. unfold scale in He. apply in_map_iff in He as (e' & <- & He'). apply H2 in He'.
  destruct (is_coefficient L (fst e')); [apply scaled_residue; assumption | exact He'].
Qed.
Lemma scale_scale inputs L g h w : In w (worlds inputs residues) -> scale L h (scale L g w) = scale L ((g * h) mod n_) w.
Proof.
  intro Hw. apply in_worlds in Hw as [_ H2]. unfold scale. rewrite map_map. apply map_ext_in. intros [m d] He. cbn [fst snd].
  destruct (is_coefficient L m) eqn:E; cbn [fst snd]; rewrite E; cbn [fst snd]; [|reflexivity]. do 2 f_equal. pose proof n_two.
  rewrite dec_residue by (apply Z.mod_pos_bound; lia). rewrite Zmult_mod_idemp_r, Zmult_mod_idemp_l. f_equal. ring.
Qed.
Lemma scale_inj inputs L g w w' : In g factors -> In w (worlds inputs residues) -> In w' (worlds inputs residues) -> scale L g w = scale L g w' -> w = w'.
Proof.
  intros Hg Hw Hw'. apply in_worlds in Hw as [H1 H2], Hw' as [H1' H2']. rewrite <- H1' in H1. clear H1' inputs.
  revert w' H1 H2'. induction w as [|[m d] w IH]; intros [|[m' d'] w'] H1 H2' E; try discriminate; [reflexivity|].
  cbn [map fst] in H1. injection H1 as <- H1. unfold scale in E. cbn [map fst snd] in E. pose proof (f_equal (hd (m, d)) E) as E1. apply (f_equal (@tl _)) in E. cbn [hd tl] in E1, E.
  f_equal.
  - pose proof (H2 (m, d) (or_introl eq_refl)) as Hd. pose proof (H2' (m, d') (or_introl eq_refl)) as Hd'. cbn [snd] in Hd, Hd'.
    destruct (is_coefficient L m); [|exact E1]. apply (f_equal snd) in E1. cbn [snd] in E1. f_equal.
    apply in_residues in Hd as (k & -> & Hk), Hd' as (k' & -> & Hk'). rewrite !dec_residue in E1 by assumption. f_equal.
    pose proof n_two. pose proof n_small. pose proof (n_mod (g * k)). pose proof (n_mod (g * k')).
    apply be_enc_inj in E1; [|lia|lia]. apply (factor_cancel g); assumption.
  - apply IH; [intros e He; apply H2; right; exact He | exact H1 | intros e He; apply H2'; right; exact He | exact E].
Qed.
Lemma assigned_scale L g w m : assigned (scale L g w) m
  = option_map (fun d => if is_coefficient L m then be_enc 32 ((g * be_dec d) mod n_) else d) (assigned w m).
Proof.
  induction w as [|[m' d'] w IH]; [reflexivity|]. unfold scale. cbn [map fst snd]. fold (scale L g w).
  destruct (is_coefficient L m') eqn:E; cbn [assigned]; destruct (bytes_eqb m m') eqn:EM; try exact IH;
    apply bytes_eqb_eq in EM as ->; cbn [option_map]; rewrite E; reflexivity.
Qed.
Lemma hash_scale_other L g w m : is_coefficient L m = false -> hash_in (scale L g w) m = hash_in w m.
Proof. intro H. unfold hash_in. rewrite assigned_scale, H. destruct (assigned w m); reflexivity. Qed.
Lemma hash_scale_same inputs L g w m : In w (worlds inputs residues) -> In m inputs -> is_coefficient L m = true ->
  hash_in (scale L g w) m = be_enc 32 ((g * be_dec (hash_in w m)) mod n_).
Proof.
  intros Hw Hm H. destruct (assigned_in inputs residues m w Hw Hm) as (d & E & _). unfold hash_in. rewrite assigned_scale, H, E. reflexivity.
Qed.
End Residues.

Section SecondCount.
Context {Pr : prims} {Laws : prims_ok Pr} (P : point Pr) (F : asker (group_forgery Pr)) (inputs : list bytes) (q : nat)
  (HF : asks_within inputs residues (fun _ => True) q F).

(** The list digest of a question for a coefficient. *)
Definition lead (m : bytes) : bytes := skipn 64 (firstn 96 m).
(** The list digest of the question at a place, if it is the first for a coefficient of that digest. *)
Definition coef_at (i : nat) (w : list (bytes * bytes)) : option bytes :=
  match nth_error (qs F w) i with
  | Some m => let L := lead m in
              if is_coefficient L m && negb (existsb (is_coefficient L) (firstn i (qs F w))) then Some L else None
  | None => None
  end.
Lemma coef_at_spec i w L : coef_at i w = Some L ->
  exists m, nth_error (qs F w) i = Some m /\ lead m = L /\ is_coefficient L m = true /\
    forall m', In m' (firstn i (qs F w)) -> is_coefficient L m' = false.
Proof.
  unfold coef_at. destruct (nth_error (qs F w) i) as [m|]; [|discriminate]. destruct (_ && _) eqn:E; [|discriminate]. intros [= <-].
  apply andb_true_iff in E as [E1 E2]. exists m. repeat split; auto. intros m' Hm'. apply negb_true_iff in E2.
  destruct (is_coefficient (lead m) m') eqn:E; [|reflexivity].
  apply Bool.not_true_iff_false in E2. exfalso. apply E2. apply existsb_exists. exists m'. auto.
Qed.
Lemma coef_at_intro i w L m : nth_error (qs F w) i = Some m -> lead m = L -> is_coefficient L m = true ->
  (forall m', In m' (firstn i (qs F w)) -> is_coefficient L m' = false) -> coef_at i w = Some L.
Proof.
  intros H1 H2 H3 H4. unfold coef_at. rewrite H1. cbv zeta. rewrite H2, H3. replace (existsb _ _) with false; [reflexivity|].
  symmetry. apply Bool.not_true_iff_false. intro E. apply existsb_exists in E as (m' & Hm' & E). rewrite (H4 m' Hm') in E. discriminate E.
Qed.
Lemma tag_len tag : length (tag_twice tag) = 64%nat.
Proof. unfold tag_twice. rewrite app_length, !sha_len. reflexivity. Qed.
Lemma lead_spec L m : length L = 32%nat -> is_coefficient L m = true -> lead m = L.
Proof.
  intros HL E. unfold is_coefficient in E. apply bytes_eqb_eq in E. unfold lead. rewrite E, skipn_app, tag_len, Nat.sub_diag.
  rewrite skipn_all2 by (rewrite tag_len; apply le_n). reflexivity.
Qed.
Lemma place_of_spec L l i : place_of L l = Some i -> exists m, nth_error l i = Some m /\ is_coefficient L m = true /\
  forall m', In m' (firstn i l) -> is_coefficient L m' = false.
Proof.
  revert i. induction l as [|x l IH]; intros i H; cbn [place_of] in H; [discriminate|]. destruct (is_coefficient L x) eqn:E.
  - injection H as <-. exists x. repeat split; auto. intros m' [].
  - destruct (place_of L l) as [j|]; [|discriminate]. injection H as <-. destruct (IH j eq_refl) as (m & H1 & H2 & H3). exists m. repeat split; auto.
    intros m' [<- | Hm']; auto.
Qed.
Lemma place_coef_at w L i : length L = 32%nat -> place_of L (qs F w) = Some i -> coef_at i w = Some L.
Proof. intros HL H. apply place_of_spec in H as (m & H1 & H2 & H3). apply (coef_at_intro i w L m); auto. apply lead_spec; assumption. Qed.
Lemma qs_scale w L g i : (forall m', In m' (firstn i (qs F w)) -> is_coefficient L m' = false) ->
  firstn (S i) (qs F (scale L g w)) = firstn (S i) (qs F w).
Proof.
  intro H. unfold qs in *. pose proof (asked_same_where F (hash_in w) (hash_in (scale L g w)) (fun m => is_coefficient L m = true) (fun _ => []) (fun _ => []) i) as E.
  cbv beta in E. rewrite !app_nil_r in E. apply E; [|reflexivity|].
  - intros x Hx. apply hash_scale_other. apply Bool.not_true_iff_false, Hx.
  - intros m Hm. rewrite (H m Hm). discriminate.
Qed.
Lemma coef_at_scale i w L g : coef_at i w = Some L -> coef_at i (scale L g w) = Some L.
Proof.
  intro H. apply coef_at_spec in H as (m & H1 & H2 & H3 & H4). pose proof (qs_scale w L g i H4) as E.
  apply (coef_at_intro i _ L m); auto.
  - rewrite <- nth_firstn, E, nth_firstn. exact H1.
  - rewrite (firstn_S_firstn _ _ _ E). exact H4.
Qed.
(** The world acted on at a place. *)
Definition rescaled (i : nat) (w : list (bytes * bytes)) (g : Z) : list (bytes * bytes) :=
  match coef_at i w with Some L => scale L g w | None => w end.
(** There is such a question. *)
Definition has_coef (i : nat) (w : list (bytes * bytes)) : bool := match coef_at i w with Some _ => true | None => false end.
Lemma has_coef_some i w : has_coef i w = true -> exists L, coef_at i w = Some L.
Proof. unfold has_coef. destruct (coef_at i w) as [L|]; [exists L; reflexivity | discriminate]. Qed.

Lemma second_places w i j : second_forged P F w = Some (i, j) ->
  place_of (list_digest F w) (qs F w) = Some i /\ place (challenge_of F w) (qs F w) = Some j.
Proof.
  unfold second_forged, challenge_of, qs. cbv zeta. destruct (forged_group _ _) as [c|]; [|discriminate].
  destruct (_ && _); [|discriminate]. destruct (place_of _ _) as [i0|]; [|discriminate].
  destruct (place (group_challenge _ _) _) as [j0|]; [|discriminate]. intros [= <- <-]. auto.
Qed.
Lemma second_forks_spec w d i : second_forks P F w d = Some i ->
  exists j i', second_forged P F w = Some (i, j) /\ second_forged P F (put (challenge_of F w) d w) = Some (i', j) /\
    same_residue (hash_in w (challenge_of F w)) d = false.
Proof.
  unfold second_forks. destruct (second_forged P F w) as [[i0 j]|]; [|discriminate].
  destruct (second_forged P F (put _ d w)) as [[i' j']|]; [|discriminate].
  destruct (Nat.eqb j j' && negb _) eqn:E; [|discriminate]. intros [= <-]. apply andb_true_iff in E as [E1 E2].
  apply Nat.eqb_eq in E1 as <-. apply negb_true_iff in E2. exists j, i'. auto.
Qed.
Lemma list_digest_len w : In w (worlds inputs residues) -> length (list_digest F w) = 32%nat.
Proof. intro Hw. apply (hash_in_len inputs residues w residue_len Hw). Qed.
Lemma second_coef_at w d i : In w (worlds inputs residues) -> second_forks P F w d = Some i -> coef_at i w = Some (list_digest F w) /\ In i (seq 0 q).
Proof.
  intros Hw G. apply second_forks_spec in G as (j & i' & G & _). apply second_places in G as [G _]. split.
  - apply place_coef_at; [apply list_digest_len, Hw | exact G].
  - apply place_of_spec in G as (m & G & _). destruct (qs_facts F inputs residues q HF w Hw) as [_ H2]. apply in_seq.
    assert (i < length (qs F w))%nat by (apply nth_error_Some; rewrite G; discriminate). lia.
Qed.

Lemma second_forged_spec w ij : second_forged P F w = Some ij ->
  let g := outcome (hash_in w) F in
  get_second_key (map (fun K : point Pr => cbytes K) (g_keys g)) = cbytes P /\
  (forall K, In K (g_keys g) -> K <> P -> In (coefficient_input (list_digest F w) K) (qs F w)) /\
  exists c, forged_group g (hash_in w) = Some c /\
    @verify_single_bytes (with_hash Pr (hash_in w)) (aggregated_pubkey c) (g_sig g) (g_msg g) = Ok tt.
Proof.
  cbv zeta. unfold second_forged. cbv zeta. destruct (forged_group _ _) as [c|]; [|discriminate].
  destruct (_ && _) eqn:E; [|discriminate]. intros _. rewrite !andb_true_iff in E. destruct E as [[[E1 E2] E3] E4]. split; [|split].
  - apply bytes_eqb_eq in E2. exact E2.
  - intros K HK NK. rewrite forallb_forall in E4. pose proof (E4 K HK) as E. apply orb_true_iff in E as [E | E].
    + apply same_iff in E. congruence.
    + apply existsb_exists in E as (m & Hm & E). apply bytes_eqb_eq in E as ->. exact Hm.
  - exists c. split; [reflexivity|]. destruct (verify_single_bytes _ _ _) as [[]| |]; [reflexivity | discriminate | discriminate].
Qed.
End SecondCount.

(** Repetitions with the factor 1 are few. *)
Lemma drop_one {A} (W : list A) (S : list Z) (ok : A -> bool) (ag good : A * Z -> bool) : NoDup S ->
  (forall a g, In a W -> In g S -> ag (a, g) = true -> good (a, g) = true \/ (ok a = true /\ g = 1)) ->
  (count ag (list_prod W S) <= count good (list_prod W S) + count ok W)%nat.
Proof.
  intros NS H. rewrite !count_sum, !sum_prod.
  apply Nat.le_trans with (sum_over (fun a => sum_over (fun g => ind (good (a, g))) S + ind (ok a))%nat W).
  - apply sum_le. intros a Ha.
    apply Nat.le_trans with (sum_over (fun g => ind (good (a, g)) + ind (ok a) * ind (g =? 1)%Z)%nat S).
    + apply sum_le. intros g Hg. destruct (ag (a, g)) eqn:E; [|apply Nat.le_0_l].
      destruct (H a g Ha Hg E) as [-> | [-> ->]]; [apply Nat.le_add_r | rewrite Z.eqb_refl; cbn [ind]; lia].
    + rewrite sum_add, sum_scale. apply Nat.add_le_mono_l.
      assert (O1 : (sum_over (fun g => ind (g =? 1)%Z) S <= 1)%nat).
      { clear H. induction S as [|x l IH]; [apply Nat.le_0_l|]. inversion NS as [|? ? Nx Nl]; subst. rewrite sum_cons.
        destruct (Z.eqb_spec x 1) as [-> | _]; cbn [ind]; [|apply IH, Nl].
        enough (sum_over (fun g => ind (g =? 1)%Z) l = 0)%nat by lia. rewrite (sum_ext _ (fun _ => O)); [rewrite sum_const; lia|].
        intros y Hy. destruct (Z.eqb_spec y 1) as [-> | _]; [contradiction | reflexivity]. }
      nia.
  - rewrite sum_add. lia.
Qed.

Section SecondWorld.
Context {Pr : prims} {Laws : prims_ok Pr} {Tags : tags_ok Pr}.
Lemma list_no_coefficient L pks : is_coefficient L (list_input (Pr := Pr) pks) = false.
Proof.
  apply Bool.not_true_iff_false. intro E. unfold is_coefficient in E. apply bytes_eqb_eq in E.
  apply (f_equal (hd x00)) in E. unfold list_input, tag_twice in E. rewrite tag_keyagg_list, tag_keyagg_coeff in E. vm_compute in E. discriminate E.
Qed.
Lemma coefficient_is L (K : point Pr) : length L = 32%nat -> is_coefficient L (coefficient_input L K) = true.
Proof.
  intro HL. unfold is_coefficient, coefficient_input. apply bytes_eqb_eq. rewrite app_assoc, firstn_app.
  rewrite firstn_all2 by (rewrite app_length, tag_len, HL; apply le_n).
  rewrite app_length, tag_len, HL. change (96 - (64 + 32))%nat with O. cbn [firstn]. apply app_nil_r.
Qed.
Lemma second_is (pks : list (point Pr)) (P : point Pr) : get_second_key (map (fun K : point Pr => cbytes K) pks) = cbytes P ->
  match second_pubkey pks with Some p => point_eqb P p | None => false end = true /\
  forall K, K <> P -> match second_pubkey pks with Some p => point_eqb K p | None => false end = false.
Proof.
  intro H. rewrite (map_ext _ ser_point) in H by (intro; apply cbytes_ser). rewrite second_key_eq in H.
  destruct (second_pubkey pks) as [p|].
  - rewrite cbytes_ser in H. apply ser_point_inj in H as ->. split; [apply point_eqb_refl|]. intros K NK. apply point_eqb_neq, NK.
  - exfalso. rewrite cbytes_ser in H. apply (f_equal (hd x00)) in H. unfold ser_point in H. destruct (pt_odd P); vm_compute in H; discriminate H.
Qed.
Lemma second_equation (P : point Pr) (F : asker (group_forgery Pr)) inputs q w d i :
  asks_within inputs residues (fun _ => True) q F ->
  In w (worlds inputs residues) -> In d residues -> second_forks P F w d = Some i ->
  fork_D F w d mod n_ <> 0 /\
  forall y : mscalar Pr, world_sum_of (hash_in w) (g_keys (outcome (hash_in w) F)) = gmul y ->
    fmul (of_Z ord (fork_D F w d)) y = of_Z ord (fork_Y F w d).
Proof.
  intros HF Hw Hd H. apply second_forks_spec in H as (j & i' & G1 & G2 & SR).
  destruct (second_places P F w i j G1) as [_ P1]. destruct (second_places P F _ i' j G2) as [_ P2].
  apply second_forged_spec in G1 as (_ & _ & c & HC & V), G2 as (_ & _ & c' & HC' & V').
  exact (challenge_equation F inputs residues q w d j c c' residue_len HF Hw Hd P1 P2 SR HC V HC' V').
Qed.
End SecondWorld.

Section C88_second_key_forking.
Context {Pr : prims}.
Add Ring ring_C88_second_key_forking : (fe_ring_theory (n := @ord Pr)).
Lemma C88_second_key_forking_proof {Laws : prims_ok Pr} (P : point Pr) (F : asker (group_forgery Pr)) (inputs : list bytes) (q : nat) (HF : asks_within inputs residues (fun _ => True) q F) :
  let W := worlds inputs residues in
  let N := Z.to_nat n_ in
  let acc := count (fun w => match second_forged P F w with Some _ => true | None => false end) W in
  let B := count (fun wd => match second_forks P F (fst wd) (snd wd) with Some _ => true | None => false end) (list_prod W residues) in
  let C := count (fun wdg => second_forks_twice P F (fst (fst wdg)) (snd (fst wdg)) (snd wdg)) (list_prod (list_prod W residues) factors) in
  (N * (acc * acc) <= q * (N ^ length inputs * (B + acc)) /\
   (N - 1) * (B * B) <= q * (N ^ (length inputs + 1) * (C + B)))%nat.
Proof.
  cbv zeta. rewrite Nat.pow_add_r, Nat.pow_1_r, <- length_residues, <- (length_worlds inputs residues). set (W := worlds inputs residues).
  assert (NW : NoDup W) by apply nodup_worlds, nodup_residues. split.
  - pose proof (challenge_count F inputs residues q 1 nodup_residues residues_one HF (second_forged P F) (fun w i j G => proj2 (second_places P F w i j G))) as H.
    cbv zeta in H. rewrite Nat.mul_1_r in H. exact H.
  - pose proof (fork_actions Nat.eqb (seq 0 q) (list_prod W residues) factors (fun i a => has_coef F i (fst a)) (fun i a g => (rescaled F i (fst a) g, snd a))
      (fun a => second_forks P F (fst a) (snd a))) as H.
    cbv zeta in H. rewrite seq_length, prod_length, length_factors in H.
    rewrite length_residues at 1. replace (Z.to_nat n_ - 1)%nat with (Z.to_nat (n_ - 1)) by (pose proof n_two; lia).
    eapply Nat.le_trans; [apply H|].
    + intros. apply Nat.eqb_eq.
    + apply seq_NoDup.
    + apply nodup_prod; [exact NW | apply nodup_residues].
    + intros [w d] i Hwd E. apply in_prod_iff in Hwd as [Hw Hd]. cbn [fst snd] in *.
      destruct (second_coef_at P F inputs q HF w d i Hw E) as [G Hi]. split; [exact Hi|]. unfold has_coef. rewrite G. reflexivity.
    + intros i [w d] g Hwd Hh Hg. apply in_prod_iff in Hwd as [Hw Hd]. cbn [fst snd] in *. rewrite in_prod_iff.
      apply has_coef_some in Hh as [L HL]. unfold rescaled, has_coef. rewrite HL, (coef_at_scale F i w L g HL).
      split; [split; [apply scale_in; assumption | exact Hd] | reflexivity].
    + intros i [w d] [w' d'] g Hwd Hwd' Hh Hh' Hg E. apply in_prod_iff in Hwd as [Hw Hd], Hwd' as [Hw' Hd']. cbn [fst snd] in *.
      apply has_coef_some in Hh as [L HL], Hh' as [L' HL']. unfold rescaled in E. rewrite HL, HL' in E. injection E as E ->.
      pose proof (coef_at_scale F i w L g HL) as C1. pose proof (coef_at_scale F i w' L' g HL') as C2. rewrite E, C2 in C1. injection C1 as ->.
      f_equal. apply (scale_inj inputs L g); assumption.
    + intros i k [w d] g Hwd Hh Hg. apply in_prod_iff in Hwd as [Hw Hd]. cbn [fst snd] in *.
      apply has_coef_some in Hh as [L HL]. unfold rescaled. rewrite HL, (coef_at_scale F i w L g HL).
      rewrite <- (factors_sum g (fun h => k (scale L h w, d)) Hg). apply sum_ext. intros h _. rewrite (scale_scale inputs) by exact Hw. reflexivity.
    + apply Nat.mul_le_mono_l, Nat.mul_le_mono_l. apply drop_one; [apply nodup_factors|].
      intros [w d] g Hwd Hg. apply in_prod_iff in Hwd as [Hw Hd]. unfold again. cbn [fst snd]. unfold second_forks_twice.
      destruct (second_forks P F w d) as [i|] eqn:G; [|discriminate].
      destruct (second_coef_at P F inputs q HF w d i Hw G) as [GC _]. unfold rescaled. rewrite GC.
      destruct (second_forks P F (scale _ g w) d) as [i''|]; [|discriminate]. intros ->.
      destruct (Z.eqb_spec g 1) as [-> | _]; [right; auto | left; reflexivity].
Qed.
End C88_second_key_forking.

Section C88_second_fork_gives_secret.
Context {Pr : prims}.
Add Ring ring_C88_second_fork_gives_secret : (fe_ring_theory (n := @ord Pr)).
Lemma C88_second_fork_gives_secret_proof {Laws : prims_ok Pr} {Tags : tags_ok Pr} (P : point Pr) (F : asker (group_forgery Pr)) (inputs : list bytes) (q : nat) (w : list (bytes * bytes)) (d : bytes) (g : Z) (HF : asks_within inputs residues (fun _ => True) q F) (Hw : In w (worlds inputs residues)) (Hd : In d residues) (Hg : In g factors) (Hfork : second_forks_twice P F w d g = true) :
  let w' := scale (list_digest F w) g w in
  let keys := fun w => g_keys (outcome (hash_in w) F) in
  let weight := fork_D F w d * fork_D F w' d * (copies P (keys w) * (g - 1)) in
  let r := g * (fork_D F w' d * fork_Y F w d) - fork_D F w d * fork_Y F w' d in
  hash_in w (list_input (keys w)) = hash_in w (list_input (keys w')) /\
  (keys w = keys w' -> copies P (keys w) mod n_ <> 0 ->
   weight mod n_ <> 0 /\ forall x, (weight * x) mod n_ = r mod n_ <-> point_mul pt_G x = pval P).
Proof.
  cbv zeta. unfold second_forks_twice in Hfork. destruct (second_forks P F w d) as [i|] eqn:G1; [|discriminate].
  destruct (second_forks P F (scale _ g w) d) as [i'|] eqn:G2; [|discriminate]. apply andb_true_iff in Hfork as [Ei SR]. apply Nat.eqb_eq in Ei as <-.
  apply negb_true_iff, Z.eqb_neq in SR.
  assert (Hw' : In (scale (list_digest F w) g w) (worlds inputs residues)) by (apply scale_in; assumption).
  destruct (second_equation P F inputs q w d i HF Hw Hd G1) as [D1 E1].
  destruct (second_equation P F inputs q _ d i HF Hw' Hd G2) as [D2 E2].
  destruct (second_coef_at P F inputs q HF w d i Hw G1) as [C1 _]. destruct (second_coef_at P F inputs q HF _ d i Hw' G2) as [C2 _].
  rewrite (coef_at_scale F i w _ g C1) in C2.
  apply second_forks_spec in G1 as (j1 & i1 & G1 & _). clear G2.
  apply second_forged_spec in G1 as (H2 & HA & _).
  assert (HL : forall pks, hash_in (scale (list_digest F w) g w) (list_input pks) = hash_in w (list_input pks)).
  { intro pks. apply hash_scale_other. apply list_no_coefficient. }
  set (L := list_digest F w) in *. assert (EL : L = hash_in w (list_input (g_keys (outcome (hash_in w) F)))) by reflexivity.
  assert (LL : length L = 32%nat) by (apply (list_digest_len F inputs w Hw)).
  assert (HI : forall K : point Pr, In (coefficient_input L K) (qs F w) ->
    hash_in (scale L g w) (coefficient_input L K) = be_enc 32 ((g * be_dec (hash_in w (coefficient_input L K))) mod n_)).
  { intros K HK. apply (hash_scale_same inputs); [exact Hw | apply (qs_facts F inputs residues q HF w Hw), HK | apply coefficient_is, LL]. }
  unfold list_digest in C2. rewrite HL in C2.
  assert (SL : hash_in w (list_input (g_keys (outcome (hash_in w) F))) = hash_in w (list_input (g_keys (outcome (hash_in (scale L g w)) F)))) by congruence.
  split; [exact SL|].
  clear C1 C2 Hw'. clearbody L. set (w' := scale L g w) in *. clearbody w'.
  set (keys := g_keys (outcome (hash_in w) F)) in *. set (keys' := g_keys (outcome (hash_in w') F)) in *.
  intros EK Hcop. rewrite <- EK in E2.
  set (D := fork_D F w d) in *. set (D' := fork_D F w' d) in *. set (Y := fork_Y F w d) in *. set (Y' := fork_Y F w' d) in *. clearbody D D' Y Y'.
  set (A := fun K : point Pr => @coeff_of (with_hash Pr (hash_in w)) (map (rehash (hash_in w)) keys) (rehash (hash_in w) K) : mscalar Pr).
  set (A' := fun K : point Pr => @coeff_of (with_hash Pr (hash_in w')) (map (rehash (hash_in w')) keys) (rehash (hash_in w') K) : mscalar Pr).
  destruct (second_is keys P H2) as (S1 & S2).
  assert (AP : A P = fone) by (unfold A; rewrite world_coeff, S1; reflexivity).
  assert (AP' : A' P = fone) by (unfold A'; rewrite world_coeff, S1; reflexivity).
  assert (AK : forall K, In K keys -> K <> P -> A' K = fmul (of_Z ord g) (A K)).
  { intros K HK NK. unfold A, A'. rewrite !world_coeff, (S2 K NK), HL, <- EL, HI by (apply HA; assumption). rewrite dec_residue by apply n_mod.
    rewrite <- of_Z_mul. exact (proj1 (of_Z_iff _ _) (Zmod_mod _ _)). }
  apply in_factors in Hg.
  assert (ND : (D * D' * (copies P keys * (g - 1))) mod n_ <> 0).
  { intro F0. change 0 with (0 mod n_) in F0. apply of_Z_iff in F0. rewrite !of_Z_mul in F0. change (of_Z ord 0) with (fzero : mscalar Pr) in F0.
    assert (NZ : forall z, z mod n_ <> 0 -> of_Z ord z <> (fzero : mscalar Pr)).
    { intros z Hz F1. apply Hz. rewrite mod_n, F1. reflexivity. }
    apply (fmul_integral ord_prime) in F0 as [F0 | F0]; [apply (fmul_integral ord_prime) in F0 as [F0 | F0]|].
    - exact (NZ _ D1 F0).
    - exact (NZ _ D2 F0).
    - apply (fmul_integral ord_prime) in F0 as [F0 | F0]; [exact (NZ _ Hcop F0)|]. apply (NZ (g - 1)); [|exact F0]. rewrite Z.mod_small by lia. lia. }
  assert (E : forall x : mscalar Pr, gmul x = P ->
    fmul (of_Z ord (D * D' * (copies P keys * (g - 1)))) x = of_Z ord (g * (D' * Y) - D * Y')).
  { intros x Hx. destruct (two_sums P keys A' A (of_Z ord g) x Hx AK) as (o & O2 & O1).
    apply E1 in O1. apply E2 in O2. rewrite of_Z_sub, !of_Z_mul, of_Z_sub, <- O1, <- O2, AP, AP'. change (of_Z ord 1) with (fone : mscalar Pr). ring. }
  split; [exact ND|]. intro x. rewrite point_mul_gmul_Z. split.
  - intro Hx. apply of_Z_iff in Hx. rewrite of_Z_mul in Hx. apply (only_solution P _ _ E); [|exact Hx]. intro F0. apply ND. rewrite mod_n, F0. reflexivity.
  - intro Hx. apply of_Z_iff. rewrite of_Z_mul. apply E. exact Hx.
Qed.
End C88_second_fork_gives_secret.

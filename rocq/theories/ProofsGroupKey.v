(** Proofs of the theorems of PropertiesGroupKey.v. *)
From Coq Require Import String List.
From Verif Require Import Bytes BytesFacts Prims PrimsFacts TaggedHashes Errors SpecTags SpecBIP327
  KeyAgg SpecExtract SpecFork SpecCollision SpecGroupKey Toy ToyData ToyFork ToyBind ToyGroupKey.
Import ListNotations.
Open Scope list_scope.
Open Scope Z_scope.
From Coq Require Import Lia Arith Bool Znumtheory.
From Verif Require Import CodecFacts KeyAggFacts SpecFacts ProofsSoundness ProofsExtraction ForkFacts ProofsFork ProofsGroupFork ProofsConcurrent ProofsCollision ProofsBatchForger ProofsCommit ProofsFinal.
Open Scope Z_scope.

(** Asking a list of questions before going on. *)
Fixpoint ask_all {A} (l : list bytes) (k : asker A) : asker A := match l with [] => k | m :: l => Ask m (fun _ => ask_all l k) end.
Lemma asked_all {A} h l (k : asker A) : asked h (ask_all l k) = l ++ asked h k.
Proof. induction l as [|m l IH]; [reflexivity|]. cbn [ask_all asked app]. rewrite IH. reflexivity. Qed.
Lemma within_all {A} inputs digests (fin : A -> Prop) q l (k : asker A) : (forall m, In m l -> In m inputs) -> asks_within inputs digests fin q k -> asks_within inputs digests fin (length l + q) (ask_all l k).
Proof.
  induction l as [|m l IH]; intros H K; [exact K|]. cbn [ask_all asks_within length Nat.add]. split; [apply H; left; reflexivity|]. intros _ _. apply IH; [intros m' Hm; apply H; right; exact Hm | exact K].
Qed.
(** The last of some questions. *)
Lemma last_place l (ys : list bytes) : ys <> [] -> (forall y, In y ys -> In y l) -> exists x p, In x ys /\ place x l = Some p /\ forall y, In y ys -> exists k, place y l = Some k /\ (k <= p)%nat.
Proof.
  induction ys as [|y ys IH]; [intro H; contradiction|]. intros _ H. destruct (place_some y l (H y (or_introl eq_refl))) as [k K]. destruct ys as [|z ys].
  - exists y, k. split; [left; reflexivity|]. split; [exact K|]. intros y' [<- | []]. exists k. split; [exact K | lia].
  - destruct IH as (x & p & I & P & Q); [discriminate | intros y' Hy; apply H; right; exact Hy|]. destruct (Nat.le_gt_cases k p) as [B | B].
    + exists x, p. split; [right; exact I|]. split; [exact P|]. intros y' [<- | Hy]; [exists k; split; assumption | apply Q, Hy].
    + exists y, k. split; [left; reflexivity|]. split; [exact K|]. intros y' [<- | Hy]; [exists k; split; [exact K | lia]|]. destruct (Q y' Hy) as (k' & P' & B'). exists k'. split; [exact P' | lia].
Qed.

Section GroupKey.
Context {Pr : prims} {Laws : prims_ok Pr} {Tags : tags_ok Pr}.
Add Ring fring_gk : (fe_ring_theory (n := @ord Pr)).
Definition is_second (pks : list (point Pr)) (K : point Pr) : bool := match second_pubkey pks with Some p => point_eqb K p | None => false end.
Lemma first_not_second K pks : is_second (K :: pks) K = false.
Proof.
  unfold is_second. cbn [second_pubkey]. destruct (find _ pks) as [p|] eqn:E; [|reflexivity]. apply find_some in E as [_ E]. apply negb_true_iff in E. apply point_eqb_neq. apply point_eqb_neq in E. intro X. apply E. symmetry. exact X.
Qed.
(** The question for a coefficient, and the sum with the digests of a hash function. *)
Definition coef_q (h : bytes -> bytes) (pks : list (point Pr)) (K : point Pr) : bytes := coefficient_input (h (list_input pks)) K.
Definition coef_v (h : bytes -> bytes) (pks : list (point Pr)) (K : point Pr) : mscalar Pr := if is_second pks K then fone else of_Z ord (be_dec (h (coef_q h pks K))).
Lemma sum_coefs h pks : world_sum_of h pks = psum (map (fun K : point Pr => pmul (coef_v h pks K) (pval K)) pks).
Proof. unfold world_sum_of. f_equal. apply map_ext. intro K. rewrite world_coeff. reflexivity. Qed.
Lemma agg_x_sum h (LI : prims_ok (with_hash Pr h)) pks x : agg_x h pks = Some x -> world_sum_of h pks <> pt_O /\ pt_x (world_sum_of h pks) = x.
Proof.
  unfold agg_x. destruct (@key_agg_new (with_hash Pr h) _) as [c| |] eqn:E; try discriminate. intro H. injection H as <-.
  apply (@key_agg_new_Ok _ LI) in E as (_ & _ & W0 & Hk & Hp & Ht).
  assert (X : pval (@aggregated_pubkey (with_hash Pr h) c) = world_sum_of h pks :> @pt Pr).
  { unfold aggregated_pubkey. rewrite (@wf_key _ _ W0), Hk, Hp, Ht. unfold agg_sum_of, world_sum_of. rewrite map_map. unfold pneg_if. rewrite (@gmul_0 _ LI), (@add_O_r _ LI). reflexivity. }
  split; [|rewrite <- X; reflexivity]. rewrite <- X. apply pt_eqb_neq. apply (p_fin (@aggregated_pubkey (with_hash Pr h) c)).
Qed.
(** A sum of multiples, as a function of one factor. *)
Lemma sum_linear (K : point Pr) (g : point Pr -> mscalar Pr) pks : exists (n : nat) (R : @pt Pr), (n <= length pks)%nat /\ (In K pks -> (1 <= n)%nat) /\
  forall b, psum (map (fun K' : point Pr => pmul (if point_eqb K' K then b else g K') (pval K')) pks) = pt_add (pmul (fmul (of_Z ord (Z.of_nat n)) b) (pval K)) R.
Proof.
  induction pks as [|K' pks (n & R & B & I & E)].
  - exists 0%nat, pt_O. split; [apply le_n|]. split; [intros []|]. intro b. cbn [map]. rewrite psum_nil. replace (fmul (of_Z ord (Z.of_nat 0)) b) with (@fzero (@ord Pr)) by (change (of_Z ord (Z.of_nat 0)) with (@fzero (@ord Pr)); ring). rewrite pmul_0, add_O_r. reflexivity.
  - destruct (point_eqb K' K) eqn:X.
    + apply point_eqb_eq in X as ->. exists (S n), R. cbn [length]. split; [lia|]. split; [intros _; lia|]. intro b. cbn [map]. rewrite psum_cons, E, point_eqb_refl, Nat2Z.inj_succ, <- Z.add_1_l, of_Z_add. change (of_Z ord 1) with (@fone (@ord Pr)).
      replace (fmul (fadd fone (of_Z ord (Z.of_nat n))) b) with (fadd b (fmul (of_Z ord (Z.of_nat n)) b)) by ring. rewrite pmul_add, add_assoc. reflexivity.
    + exists n, (pt_add (pmul (g K') (pval K')) R). cbn [length]. split; [lia|]. split. { intros [-> | HI]; [rewrite point_eqb_refl in X; discriminate X | apply I, HI]. }
      intro b. cbn [map]. rewrite psum_cons, E, X, <- !add_assoc. f_equal. apply add_comm.
Qed.

Section Count.
Context {A : Type} (F : asker A) (inputs digests : list bytes) (q c u0 : nat) (cands : list (list (point Pr))) (HS : NoDup digests) (HS32 : forall d, In d digests -> length d = 32%nat)
  (Hc : forall d, In d digests -> (count (@same_residue Pr d) digests <= c)%nat) (HF : asks_within inputs digests (fun _ => True) q F) (Hu0 : Z.of_nat u0 < n_) (Hcands : forall l, In l cands -> (length l <= u0)%nat).
Let W := worlds inputs digests.
(** A later digest that is an earlier one, or in an earlier question at the place of the digest of a list. *)
Definition early (y d y' d' : bytes) : bool := bytes_eqb d d' || bytes_eqb (firstn 32 (skipn 64 y)) d'.
Lemma early_few y d y' : (count (early y d y') digests <= 2)%nat.
Proof.
  apply (count_two _ _ HS). intros a b e. unfold early. rewrite !orb_true_iff, !bytes_eqb_eq. intuition congruence.
Qed.
Definition early_at : nat -> nat -> list (bytes * bytes) -> bool := rel_at F early.
Definition none_early (p : nat) (w : list (bytes * bytes)) : bool := forallb (fun k2 => forallb (fun k1 => negb (early_at k1 k2 w)) (seq 0 k2)) (seq 0 p).
Lemma none_early_spec p w y y' k k' : none_early p w = true -> place y (qs F w) = Some k -> place y' (qs F w) = Some k' -> (k < k')%nat -> (k' < p)%nat -> early y (hash_in w y) y' (hash_in w y') = false.
Proof.
  intros H P P' B B'. unfold none_early in H. rewrite forallb_forall in H. specialize (H k' ltac:(apply in_seq; lia)). rewrite forallb_forall in H. specialize (H k ltac:(apply in_seq; lia)). apply negb_true_iff in H.
  destruct (early y (hash_in w y) y' (hash_in w y')) eqn:E; [|reflexivity]. rewrite <- H. symmetry. apply (rel_found F early w y y' k k' P P' E).
Qed.
Lemma distinct_digests p w y y' k k' : none_early p w = true -> place y (qs F w) = Some k -> place y' (qs F w) = Some k' -> (k < p)%nat -> (k' < p)%nat -> hash_in w y = hash_in w y' -> y = y'.
Proof.
  intros H P P' B B' E. destruct (Nat.lt_trichotomy k k') as [L | [-> | L]]; [exfalso | apply (place_inj _ _ _ _ P P') | exfalso].
  - pose proof (none_early_spec p w y y' k k' H P P' L B') as X. unfold early in X. rewrite E, bytes_eqb_refl in X. discriminate X.
  - pose proof (none_early_spec p w y' y k' k H P' P L B) as X. unfold early in X. rewrite E, bytes_eqb_refl in X. discriminate X.
Qed.
Definition before (y : bytes) (p : nat) (w : list (bytes * bytes)) : bool := match place y (qs F w) with Some k => Nat.ltb k p | None => false end.
Lemma before_iff y p w : before y p w = true <-> exists k, place y (qs F w) = Some k /\ (k < p)%nat.
Proof.
  unfold before. destruct (place y (qs F w)) as [k|].
  - rewrite Nat.ltb_lt. split; [intro H; exists k; auto | intros (k' & E & B); injection E as ->; exact B].
  - split; [discriminate | intros (k' & E & _); discriminate E].
Qed.
(** The question at place [p] is the last one for the lists [l] and [l'], and their keys are one. *)
Definition last_test (l l' : list (point Pr)) (x : bytes) (p p2 : nat) (w : list (bytes * bytes)) : bool :=
  let h := hash_in w in
  at_place F (list_input l') p2 w && before (list_input l) p w && none_early p w &&
  existsb (fun K => bytes_eqb x (coef_q h l K) && negb (is_second l K)) l &&
  forallb (fun K => is_second l K || bytes_eqb x (coef_q h l K) || before (coef_q h l K) p w) l &&
  forallb (fun K => is_second l' K || before (coef_q h l' K) p w) l' &&
  negb (pt_eqb (world_sum_of h l) pt_O) && negb (pt_eqb (world_sum_of h l') pt_O) &&
  bytes_eqb (pt_x (world_sum_of h l)) (pt_x (world_sum_of h l')).
Definition last_at (p p2 : nat) (w : list (bytes * bytes)) : bool :=
  match new_at (qs F) p w with
  | Some x => existsb (fun l => existsb (fun l' => last_test l l' x p p2 w) cands) cands
  | None => false
  end.
Lemma last_rare p p2 : (p2 < p)%nat -> (length digests * count (last_at p p2) W <= length W * (2 * c))%nat.
Proof.
  intro Hp. apply (few_place F inputs digests q _ HF p (2 * c) _ HS).
  - intros w Hw H. unfold last_at in H. unfold has_new. destruct (new_at (qs F) p w); [reflexivity | discriminate H].
  - intros u x Hu Hx H. unfold last_at in H. rewrite Hx in H. apply existsb_exists in H as (l & Il & H). apply existsb_exists in H as (l' & Il' & H).
    unfold last_test in H. cbv zeta in H. rewrite !andb_true_iff in H. destruct H as [[[[[[[[T1 T2] T3] T4] T5] T6] T7] T8] T9].
    apply at_place_iff in T1. apply before_iff in T2 as (k1 & T2 & B2). apply existsb_exists in T4 as (K & IK & T4). apply andb_true_iff in T4 as [T4 NK]. apply bytes_eqb_eq in T4. apply negb_true_iff in NK.
    rewrite forallb_forall in T5, T6. pose proof (two_at F u x p Hx) as PX.
    set (L := hash_in u (list_input l)) in *. set (Q' := world_sum_of (hash_in u) l').
    set (g := fun K' : point Pr => coef_v (hash_in u) l K'). destruct (sum_linear K g l) as (n & R & Bn & In1 & Lin). specialize (In1 IK).
    (* what the other digests leave *)
    assert (KEY : forall d, In d digests -> last_at p p2 (put x d u) = true -> pt_add (pmul (fmul (of_Z ord (Z.of_nat n)) (of_Z ord (be_dec d))) (pval K)) R = Q' \/ pt_add (pmul (fmul (of_Z ord (Z.of_nat n)) (of_Z ord (be_dec d))) (pval K)) R = pt_neg Q').
    { intros d Hd H. unfold last_at in H. rewrite (new_at_put inputs digests (qs F) (qs_in F inputs digests q _ HF) (qs_same F inputs digests) p u x d Hu Hd Hx) in H.
      apply existsb_exists in H as (m & Im & H). apply existsb_exists in H as (m' & Im' & H). unfold last_test in H. cbv zeta in H. rewrite !andb_true_iff in H. destruct H as [[[[[[[[S1 S2] S3] S4] S5] S6] S7] S8] S9].
      apply at_place_iff in S1. apply (two_place F inputs digests q _ HF u x d p Hu Hx Hd) in S1; [|lia].
      assert (m' = l') as -> by (apply list_input_inj, (place_inj _ _ _ _ S1 T1)).
      apply before_iff in S2 as (k1' & S2 & C2). apply (two_place F inputs digests q _ HF u x d p Hu Hx Hd) in S2; [|lia].
      assert (m = l) as ->.
      { apply existsb_exists in S4 as (K1 & IK1 & S4). apply andb_true_iff in S4 as [S4 _]. apply bytes_eqb_eq in S4. pose proof (eq_trans (eq_sym T4) S4) as S0. unfold coef_q in S0. clear S4. apply coefficient_parts in S0 as [S4 _].
        rewrite (two_hash F u x d p Hx _ k1' C2 S2) in S4. apply list_input_inj. apply (distinct_digests p u _ _ k1' k1 T3 S2 T2 C2 B2). symmetry. exact S4. }
      assert (HL : hash_in (put x d u) (list_input l) = L) by (apply (two_hash F u x d p Hx _ k1 B2 T2)).
      assert (HL' : hash_in (put x d u) (list_input l') = hash_in u (list_input l')) by (apply (two_hash F u x d p Hx _ p2 Hp T1)).
      assert (D : forall y, before y p u = true -> hash_in (put x d u) y = hash_in u y).
      { intros y Y. apply before_iff in Y as (k & Y & B). apply (two_hash F u x d p Hx _ k B Y). }
      assert (V : world_sum_of (hash_in (put x d u)) l = pt_add (pmul (fmul (of_Z ord (Z.of_nat n)) (of_Z ord (be_dec d))) (pval K)) R).
      { rewrite sum_coefs, <- Lin. f_equal. apply map_ext_in. intros K' HK'. f_equal. unfold coef_v. destruct (point_eqb K' K) eqn:EK.
        - apply point_eqb_eq in EK as ->. rewrite NK. unfold coef_q. rewrite HL. unfold L. change (coefficient_input (hash_in u (list_input l)) K) with (coef_q (hash_in u) l K). rewrite <- T4.
          rewrite (two_hash_x F inputs digests q _ HF u x d p Hu Hx). reflexivity.
        - unfold g, coef_v. specialize (T5 K' HK'). destruct (is_second l K'); [reflexivity|]. cbn [orb] in T5. unfold coef_q at 1. rewrite HL. unfold L. change (coefficient_input (hash_in u (list_input l)) K') with (coef_q (hash_in u) l K').
          apply orb_true_iff in T5 as [T5 | T5]; [|rewrite (D _ T5); reflexivity]. apply bytes_eqb_eq in T5. rewrite T4 in T5. unfold coef_q in T5. apply coefficient_parts in T5 as [_ T5]. rewrite T5, point_eqb_refl in EK. discriminate EK. }
      assert (V' : world_sum_of (hash_in (put x d u)) l' = Q').
      { unfold Q'. rewrite !sum_coefs. f_equal. apply map_ext_in. intros K' HK'. f_equal. unfold coef_v. specialize (T6 K' HK'). destruct (is_second l' K'); [reflexivity|]. cbn [orb] in T6.
        unfold coef_q at 1. rewrite HL'. change (coefficient_input (hash_in u (list_input l')) K') with (coef_q (hash_in u) l' K'). rewrite (D _ T6). reflexivity. }
      rewrite V, V' in *. apply negb_true_iff, pt_eqb_neq in S7. apply negb_true_iff, pt_eqb_neq in S8. apply bytes_eqb_eq in S9. apply x_inj in S9; assumption. }
    assert (U : forall Z, (count (fun d => pt_eqb (pt_add (pmul (fmul (of_Z ord (Z.of_nat n)) (of_Z ord (be_dec d))) (pval K)) R) Z) digests <= c)%nat).
    { intro Z. apply (count_residue digests c _ Hc). intros d d' E E'. apply pt_eqb_eq in E, E'. rewrite <- E' in E. rewrite !(add_comm _ R) in E. apply add_cancel_l, pmul_fin_inj in E. apply (fmul_cancel_l ord_prime) in E.
      - unfold same_residue. apply Z.eqb_eq. apply (f_equal (fun a : mscalar Pr => fz a)) in E. rewrite !fz_of_Z in E. exact E.
      - intro O. apply (f_equal (fun a : mscalar Pr => fz a)) in O. rewrite fz_of_Z in O. change (fz (@fzero (@ord Pr))) with (0 mod Zpos ord) in O. rewrite Z.mod_0_l in O by discriminate. specialize (Hcands l Il). change (Zpos ord) with n_ in O. rewrite Z.mod_small in O by lia. lia. }
    eapply Nat.le_trans; [apply (count_or _ (fun d => pt_eqb (pt_add (pmul (fmul (of_Z ord (Z.of_nat n)) (of_Z ord (be_dec d))) (pval K)) R) Q') (fun d => pt_eqb (pt_add (pmul (fmul (of_Z ord (Z.of_nat n)) (of_Z ord (be_dec d))) (pval K)) R) (pt_neg Q')))|].
    + intros d Hd H. destruct (KEY d Hd H) as [X | X]; [left | right]; apply pt_eqb_eq; exact X.
    + pose proof (U Q'). pose proof (U (pt_neg Q')). lia.
Qed.
Definition early_pairs : list (list (bytes * bytes) -> bool) := rel_pairs F q early.
Definition last_pairs : list (list (bytes * bytes) -> bool) := flat_map (fun p => map (fun p2 => last_at p p2) (seq 0 p)) (seq 0 q).
Lemma length_last : (2 * length last_pairs = q * (q - 1))%nat.
Proof.
  unfold last_pairs. clear. induction q as [|k IH]; [reflexivity|]. rewrite seq_S, flat_map_app, app_length. cbn [flat_map Nat.add]. rewrite app_nil_r, map_length, seq_length.
  rewrite Nat.mul_add_distr_l, IH. destruct k as [|k]; [reflexivity|]. rewrite !Nat.sub_succ, !Nat.sub_0_r. lia.
Qed.
(** Two lists whose questions were all asked and whose keys are one. *)
Definition asked_list (w : list (bytes * bytes)) (l : list (point Pr)) : Prop := In (list_input l) (qs F w) /\ forall K, In K l -> In (coef_q (hash_in w) l K) (qs F w).
Lemma found_event w l l' : In w W -> In l cands -> In l' cands -> l <> l' -> asked_list w l -> asked_list w l' ->
  world_sum_of (hash_in w) l <> pt_O -> world_sum_of (hash_in w) l' <> pt_O -> pt_x (world_sum_of (hash_in w) l) = pt_x (world_sum_of (hash_in w) l') ->
  existsb (fun g => g w) early_pairs = true \/ existsb (fun g => g w) last_pairs = true.
Proof.
  intros Hw Il Il' N [A1 A2] [A1' A2'] O O' X. destruct (existsb (fun g => g w) early_pairs) eqn:EP; [left; reflexivity | right].
  pose proof (proj2 (qs_facts F inputs digests q _ HF w Hw)) as QL.
  assert (NE : forall p, (p <= q)%nat -> none_early p w = true).
  { intros p Bp. unfold none_early. apply forallb_forall. intros k2 H2. apply forallb_forall. intros k1 H1. apply in_seq in H1, H2. apply negb_true_iff. destruct (early_at k1 k2 w) eqn:E; [|reflexivity].
    rewrite <- EP. symmetry. apply existsb_exists. exists (early_at k1 k2). split; [|exact E]. unfold early_pairs, rel_pairs. apply in_flat_map. exists k2. split; [apply in_seq; lia|]. apply in_map_iff. exists k1. split; [reflexivity | apply in_seq; lia]. }
  assert (HL : forall y, length (hash_in w y) = 32%nat) by (apply (hash_in_len inputs digests w HS32 Hw)).
  (* the list comes before its coefficients *)
  assert (AFTER : forall m K k k', place (list_input m) (qs F w) = Some k -> place (coef_q (hash_in w) m K) (qs F w) = Some k' -> (k < k')%nat).
  { intros m K k k' P P'. destruct (Nat.lt_trichotomy k k') as [B | [-> | B]]; [exact B | exfalso | exfalso].
    - apply (list_not_coefficient m (hash_in w (list_input m)) K). apply (place_inj _ _ _ _ P P').
    - pose proof (place_lt _ _ _ P) as B1. pose proof (none_early_spec q w _ _ k' k (NE q (le_n q)) P' P B ltac:(lia)) as E. unfold early in E. apply orb_false_iff in E as [_ E]. revert E.
      unfold coef_q, coefficient_input. assert (TL : length (@tag_twice Pr "KeyAgg coefficient") = 64%nat) by (unfold tag_twice; rewrite tag_keyagg_coeff; reflexivity).
      rewrite skipn_app, TL, skipn_all2 by lia. cbn [app Nat.sub skipn]. rewrite firstn_app, (HL (list_input m)), firstn_all2 by (rewrite HL; apply le_n). cbn [Nat.sub firstn]. rewrite app_nil_r, bytes_eqb_refl. discriminate. }
  assert (LL : hash_in w (list_input l) <> hash_in w (list_input l')).
  { intro E. apply N, list_input_inj. destruct (place_some _ _ A1) as [k P], (place_some _ _ A1') as [k' P']. pose proof (place_lt _ _ _ P). pose proof (place_lt _ _ _ P').
    apply (distinct_digests q w _ _ k k' (NE q (le_n q)) P P'); [lia | lia | exact E]. }
  set (needed := fun m : list (point Pr) => map (coef_q (hash_in w) m) (filter (fun K => negb (is_second m K)) m)).
  assert (IN : forall m y, In y (needed m) <-> exists K, In K m /\ is_second m K = false /\ y = coef_q (hash_in w) m K).
  { intros m y. unfold needed. rewrite in_map_iff. split; [intros (K & E & I); apply filter_In in I as [I1 I2]; apply negb_true_iff in I2; exists K; auto | intros (K & I1 & I2 & E); exists K; split; [symmetry; exact E | apply filter_In; split; [exact I1 | apply negb_true_iff, I2]]]. }
  assert (SOME : forall m, world_sum_of (hash_in w) m <> pt_O -> exists K, In (coef_q (hash_in w) m K) (needed m)).
  { intros [|K m] H; [exfalso; apply H; reflexivity|]. exists K. apply IN. exists K. split; [left; reflexivity|]. split; [apply first_not_second | reflexivity]. }
  destruct (SOME l O) as [K0 I0]. destruct (SOME l' O') as [K0' I0'].
  destruct (last_place (qs F w) (needed l ++ needed l')) as (x & p & Ix & Px & Q).
  { intro E. apply app_eq_nil in E as [E _]. rewrite E in I0. destruct I0. }
  { intros y Hy. apply in_app_iff in Hy as [Hy | Hy]; apply IN in Hy as (K & IK & _ & ->); [apply A2, IK | apply A2', IK]. }
  (* the case of a last question of the first list *)
  assert (CASE : forall m m', In m cands -> In m' cands -> asked_list w m -> asked_list w m' -> world_sum_of (hash_in w) m <> pt_O -> world_sum_of (hash_in w) m' <> pt_O -> pt_x (world_sum_of (hash_in w) m) = pt_x (world_sum_of (hash_in w) m') ->
    hash_in w (list_input m) <> hash_in w (list_input m') -> In x (needed m) -> (forall y, In y (needed m) \/ In y (needed m') -> exists k, place y (qs F w) = Some k /\ (k <= p)%nat) -> existsb (fun g => g w) last_pairs = true).
  { clear l l' Il Il' N A1 A2 A1' A2' O O' X LL K0 I0 K0' I0' Ix Q. intros m m' Im Im' [A1 A2] [A1' A2'] O O' X LL Ix Q.
    destruct (place_some _ _ A1') as [p2 P2]. destruct (place_some _ _ A1) as [k1 P1]. pose proof (place_lt _ _ _ Px) as Bp.
    assert (B1 : (k1 < p)%nat). { apply IN in Ix as (K & _ & _ & ->). apply (AFTER m K); assumption. }
    assert (B2 : (p2 < p)%nat). { destruct (SOME m' O') as [K1 I1]. destruct (Q _ (or_intror I1)) as (k & Pk & Bk). pose proof (AFTER m' K1 p2 k P2 Pk). lia. }
    apply existsb_exists. exists (last_at p p2). split. { unfold last_pairs. apply in_flat_map. exists p. split; [apply in_seq; lia|]. apply in_map_iff. exists p2. split; [reflexivity | apply in_seq; lia]. }
    unfold last_at. rewrite (place_is_new F x p w Px). apply existsb_exists. exists m. split; [exact Im|]. apply existsb_exists. exists m'. split; [exact Im'|].
    unfold last_test. cbv zeta. rewrite !andb_true_iff. repeat split.
    - apply at_place_iff, P2.
    - apply before_iff. exists k1. auto.
    - apply NE. lia.
    - apply IN in Ix as (K & IK & NK & ->). apply existsb_exists. exists K. split; [exact IK|]. rewrite bytes_eqb_refl, NK. reflexivity.
    - apply forallb_forall. intros K IK. destruct (is_second m K) eqn:SK; [reflexivity|]. cbn [orb]. apply orb_true_iff. destruct (Q (coef_q (hash_in w) m K)) as (k & Pk & Bk); [left; apply IN; exists K; auto|].
      destruct (Nat.eq_dec k p) as [-> | D]; [left; apply bytes_eqb_eq, (place_inj _ _ _ _ Px Pk) | right; apply before_iff; exists k; split; [exact Pk | lia]].
    - apply forallb_forall. intros K IK. destruct (is_second m' K) eqn:SK; [reflexivity|]. cbn [orb]. destruct (Q (coef_q (hash_in w) m' K)) as (k & Pk & Bk); [right; apply IN; exists K; auto|].
      apply before_iff. exists k. split; [exact Pk|]. destruct (Nat.eq_dec k p) as [-> | D]; [exfalso | lia]. pose proof (place_inj _ _ _ _ Px Pk) as E. apply IN in Ix as (K1 & _ & _ & E1). rewrite E1 in E. unfold coef_q in E. apply coefficient_parts in E as [E _]. apply LL, E.
    - apply negb_true_iff, pt_eqb_neq, O.
    - apply negb_true_iff, pt_eqb_neq, O'.
    - apply bytes_eqb_eq, X. }
  apply in_app_iff in Ix as [Ix | Ix].
  - apply (CASE l l'); try assumption; [split; assumption | split; assumption|]. intros y Hy. apply Q, in_app_iff, Hy.
  - apply (CASE l' l); try assumption; [split; assumption | split; assumption | symmetry; exact X | intro E; apply LL; symmetry; exact E|]. intros y Hy. apply Q, in_app_iff. tauto.
Qed.
Lemma found_rare (bad : list (bytes * bytes) -> bool) :
  (forall w, In w W -> bad w = true -> exists l l', In l cands /\ In l' cands /\ l <> l' /\ asked_list w l /\ asked_list w l' /\ world_sum_of (hash_in w) l <> pt_O /\ world_sum_of (hash_in w) l' <> pt_O /\ pt_x (world_sum_of (hash_in w) l) = pt_x (world_sum_of (hash_in w) l')) ->
  (length digests * count bad W <= q * (q - 1) * (length W * (1 + c)))%nat.
Proof.
  intro H. assert (C : (count bad W <= count (fun w => existsb (fun g => g w) early_pairs) W + count (fun w => existsb (fun g => g w) last_pairs) W)%nat).
  { apply count_or. intros w Hw B. destruct (H w Hw B) as (l & l' & H1 & H2 & H3 & H4 & H5 & H6 & H7 & H8). apply (found_event w l l'); assumption. }
  assert (C1 : (length digests * count (fun w => existsb (fun g => g w) early_pairs) W <= length early_pairs * (length W * 2))%nat).
  { apply union_bound; [intros w _ B; apply existsb_exists in B as (g & I & G); exists g; auto|]. intros g Hg. unfold early_pairs, rel_pairs in Hg. apply in_flat_map in Hg as (i2 & _ & Hg). apply in_map_iff in Hg as (i1 & <- & I1). apply in_seq in I1.
    apply (rel_rare F inputs digests q 2 early HS early_few HF). lia. }
  assert (C2 : (length digests * count (fun w => existsb (fun g => g w) last_pairs) W <= length last_pairs * (length W * (2 * c)))%nat).
  { apply union_bound; [intros w _ B; apply existsb_exists in B as (g & I & G); exists g; auto|]. intros g Hg. unfold last_pairs in Hg. apply in_flat_map in Hg as (p & _ & Hg). apply in_map_iff in Hg as (p2 & <- & I1). apply in_seq in I1. apply last_rare. lia. }
  pose proof length_last as L2. pose proof (length_rel F q early) as L1. fold early_pairs in L1.
  eapply Nat.le_trans; [apply Nat.mul_le_mono_l, C|]. rewrite Nat.mul_add_distr_l. eapply Nat.le_trans; [apply Nat.add_le_mono; [exact C1 | exact C2]|].
  replace (length early_pairs * (length W * 2))%nat with (2 * length early_pairs * length W)%nat by ring. replace (length last_pairs * (length W * (2 * c)))%nat with (2 * length last_pairs * (length W * c))%nat by ring. rewrite L1, L2. apply Nat.eq_le_incl. ring.
Qed.
End Count.
End GroupKey.

Section C104_lists_one_key.
Context {Pr : prims}.
Add Ring ring_C104_lists_one_key : (fe_ring_theory (n := @ord Pr)).
Lemma C104_lists_one_key_proof {Laws : prims_ok Pr} {Tags : tags_ok Pr} (F : asker (list (point Pr) * list (point Pr))) (inputs digests : list bytes) (q u c : nat) (Hu : Z.of_nat u < n_) (HS : NoDup digests) (HS32 : forall d, In d digests -> length d = 32%nat) (Hc : forall d, In d digests -> (count (@same_residue Pr d) digests <= c)%nat) (HF : key_lists_within inputs digests q u F) :
  let N := length digests in
  (N * count (one_group_key F) (worlds inputs digests) <= (q + 2 * u + 2) * (q + 2 * u + 1) * (N ^ length inputs * (1 + c)))%nat.
Proof.
  cbv zeta. rewrite <- (length_worlds inputs digests).
  set (G := fun r : list (point Pr) * list (point Pr) => Ask (list_input (fst r)) (fun L => ask_all (map (coefficient_input L) (fst r)) (Ask (list_input (snd r)) (fun L' => ask_all (map (coefficient_input L') (snd r)) (Give tt))))).
  assert (HG : asks_within inputs digests (fun _ => True) (q + 2 * u + 2) (and_then F G)).
  { replace (q + 2 * u + 2)%nat with (q + (1 + (u + (1 + (u + 0)))))%nat by lia. apply (within_then _ _ _ _ q _ F _ HF). intros r [(H1 & H2 & H3) (H4 & H5 & H6)]. unfold G. cbn [asks_within Nat.add]. split; [exact H2|]. intros L IL.
    apply (within_le _ _ _ (length (map (coefficient_input L) (fst r)) + (1 + (u + 0)))); [rewrite map_length; lia|]. apply within_all; [intros m Hm; apply in_map_iff in Hm as (K & <- & IK); apply H3; assumption|].
    cbn [asks_within Nat.add]. split; [exact H5|]. intros L' IL'. apply (within_le _ _ _ (length (map (coefficient_input L') (snd r)) + 0)); [rewrite map_length; lia|]. apply within_all; [intros m Hm; apply in_map_iff in Hm as (K & <- & IK); apply H6; assumption | exact I]. }
  set (cands := flat_map (fun w => [fst (outcome (hash_in w) F); snd (outcome (hash_in w) F)]) (worlds inputs digests)).
  assert (OUT : forall w, In w (worlds inputs digests) -> list_covered inputs digests u (fst (outcome (hash_in w) F)) /\ list_covered inputs digests u (snd (outcome (hash_in w) F))).
  { intros w Hw. apply (asked_within inputs digests _ q F (hash_in w) HF). intros m Hm. apply (hash_in_in inputs digests); assumption. }
  assert (HC : forall l, In l cands -> (length l <= u)%nat).
  { intros l Hl. unfold cands in Hl. apply in_flat_map in Hl as (w & Hw & Hl). destruct (OUT w Hw) as [[H1 _] [H2 _]]. destruct Hl as [<- | [<- | []]]; assumption. }
  replace (q + 2 * u + 1)%nat with (q + 2 * u + 2 - 1)%nat by lia.
  apply (found_rare (and_then F G) inputs digests (q + 2 * u + 2) c u cands HS HS32 Hc HG Hu HC).
  intros w Hw H. pose proof (hash_in_len inputs digests w HS32 Hw) as HL. pose proof (with_hash_ok _ HL) as LI. unfold one_group_key in H. cbv zeta in H.
  assert (IC : In (fst (outcome (hash_in w) F)) cands /\ In (snd (outcome (hash_in w) F)) cands) by (split; apply in_flat_map; exists w; (split; [exact Hw|]); [left | right; left]; reflexivity).
  assert (QS : qs (and_then F G) w = asked (hash_in w) F ++ asked (hash_in w) (G (outcome (hash_in w) F))) by apply asked_then.
  destruct (outcome (hash_in w) F) as [l l']. cbn [fst snd] in *. exists l, l'. apply andb_true_iff in H as [D H]. apply negb_true_iff in D.
  destruct (agg_x (hash_in w) l) as [x|] eqn:E1; [|discriminate H]. destruct (agg_x (hash_in w) l') as [x'|] eqn:E2; [|discriminate H]. apply bytes_eqb_eq in H as ->.
  apply (agg_x_sum _ LI) in E1 as [O1 X1]. apply (agg_x_sum _ LI) in E2 as [O2 X2].
  assert (AL : asked_list (and_then F G) w l /\ asked_list (and_then F G) w l').
  { unfold asked_list. revert QS. generalize (qs (and_then F G) w). intros X QS. unfold G in QS. cbn [asked fst snd] in QS. rewrite asked_all in QS. cbn [asked] in QS. rewrite asked_all in QS. cbn [asked] in QS. rewrite QS. split.
    - split; [apply in_app_iff; right; left; reflexivity|]. intros K IK. apply in_app_iff. right. right. apply in_app_iff. left. apply in_map_iff. exists K. split; [reflexivity | exact IK].
    - split; [apply in_app_iff; right; right; apply in_app_iff; right; left; reflexivity|]. intros K IK. apply in_app_iff. right. right. apply in_app_iff. right. right. apply in_app_iff. left. apply in_map_iff. exists K. split; [reflexivity | exact IK]. }
  destruct AL as [AL1 AL2]. destruct IC as [IC1 IC2]. repeat (split; [first [assumption | intro E; rewrite (proj2 (same_keys_iff l l') E) in D; discriminate D]|]). congruence.
Qed.
End C104_lists_one_key.

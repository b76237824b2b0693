(** Proofs of the theorems of PropertiesAim.v. *)
From Coq Require Import String List.
From Verif Require Import Bytes BytesFacts Prims PrimsFacts TaggedHashes Errors SpecTags SpecBIP327
  KeyAgg SpecExtract SpecFork SpecCollision SpecGroupKey SpecAim Toy ToyData ToyFork ToyGroupKey ToyAim.
Import ListNotations.
Open Scope list_scope.
Open Scope Z_scope.
From Coq Require Import Lia Arith Bool Znumtheory.
From Verif Require Import CodecFacts KeyAggFacts SpecFacts ProofsSoundness ProofsExtraction ForkFacts ProofsFork ProofsGroupFork ProofsConcurrent ProofsCollision ProofsBatchForger ProofsCommit ProofsFinal ProofsGroupKey.
Open Scope Z_scope.

Lemma count_any {A B} (f : A -> B -> bool) (zs : list B) (l : list A) (c : nat) : (forall z, In z zs -> (count (fun a => f a z) l <= c)%nat) -> (count (fun a => existsb (f a) zs) l <= length zs * c)%nat.
Proof.
  induction zs as [|z zs IH]; intro H.
  - cbn [length Nat.mul existsb]. clear. unfold count. induction l as [|a l IHl]; [apply le_n | exact IHl].
  - cbn [length Nat.mul existsb]. eapply Nat.le_trans; [apply (count_or _ (fun a => f a z) (fun a => existsb (f a) zs)); intros a _ E; apply orb_true_iff in E; exact E|].
    apply Nat.add_le_mono; [apply H; left; reflexivity | apply IH; intros z' Hz; apply H; right; exact Hz].
Qed.

Section Aim.
Context {Pr : prims} {Laws : prims_ok Pr} {Tags : tags_ok Pr}.
Add Ring fring_aim : (fe_ring_theory (n := @ord Pr)).

Section Count.
Context {A : Type} (F : asker A) (inputs digests : list bytes) (q c u0 : nat) (cands : list (list (point Pr))) (zs : list (@pt Pr)) (HS : NoDup digests) (HS32 : forall d, In d digests -> length d = 32%nat)
  (Hc : forall d, In d digests -> (count (@same_residue Pr d) digests <= c)%nat) (HF : asks_within inputs digests (fun _ => True) q F) (Hu0 : Z.of_nat u0 < n_) (Hcands : forall l, In l cands -> (length l <= u0)%nat).
Let W := worlds inputs digests.
(** The question at place [p] is the last one for the list [l], and its sum is one of the given points. *)
Definition hit_test (l : list (point Pr)) (x : bytes) (p : nat) (w : list (bytes * bytes)) : bool :=
  let h := hash_in w in
  before F (list_input l) p w && none_early F p w &&
  existsb (fun K => bytes_eqb x (coef_q h l K) && negb (is_second l K)) l &&
  forallb (fun K => is_second l K || bytes_eqb x (coef_q h l K) || before F (coef_q h l K) p w) l &&
  existsb (pt_eqb (world_sum_of h l)) zs.
Definition hit_at (p : nat) (w : list (bytes * bytes)) : bool :=
  match new_at (qs F) p w with
  | Some x => existsb (fun l => hit_test l x p w) cands
  | None => false
  end.
Lemma hit_rare p : (length digests * count (hit_at p) W <= length W * (length zs * c))%nat.
Proof.
  apply (few_place F inputs digests q _ HF p (length zs * c) _ HS).
  - intros w Hw H. unfold hit_at in H. unfold has_new. destruct (new_at (qs F) p w); [reflexivity | discriminate H].
  - intros u x Hu Hx H. unfold hit_at in H. rewrite Hx in H. apply existsb_exists in H as (l & Il & H).
    unfold hit_test in H. cbv zeta in H. rewrite !andb_true_iff in H. destruct H as [[[[T2 T3] T4] T5] T6].
    apply before_iff in T2 as (k1 & T2 & B2). apply existsb_exists in T4 as (K & IK & T4). apply andb_true_iff in T4 as [T4 NK]. apply bytes_eqb_eq in T4. apply negb_true_iff in NK.
    rewrite forallb_forall in T5. pose proof (two_at F u x p Hx) as PX.
    set (L := hash_in u (list_input l)) in *.
    set (g := fun K' : point Pr => coef_v (hash_in u) l K'). destruct (sum_linear K g l) as (n & R & Bn & In1 & Lin). specialize (In1 IK).
    assert (KEY : forall d, In d digests -> hit_at p (put x d u) = true -> existsb (pt_eqb (pt_add (pmul (fmul (of_Z ord (Z.of_nat n)) (of_Z ord (be_dec d))) (pval K)) R)) zs = true).
    { intros d Hd H. unfold hit_at in H. rewrite (new_at_put inputs digests (qs F) (qs_in F inputs digests q _ HF) (qs_same F inputs digests) p u x d Hu Hd Hx) in H.
      apply existsb_exists in H as (m & Im & H). unfold hit_test in H. cbv zeta in H. rewrite !andb_true_iff in H. destruct H as [[[[S2 S3] S4] S5] S6].
      apply before_iff in S2 as (k1' & S2 & C2). apply (two_place F inputs digests q _ HF u x d p Hu Hx Hd) in S2; [|lia].
      assert (m = l) as ->.
      { apply existsb_exists in S4 as (K1 & IK1 & S4). apply andb_true_iff in S4 as [S4 _]. apply bytes_eqb_eq in S4. pose proof (eq_trans (eq_sym T4) S4) as S0. unfold coef_q in S0. clear S4. apply coefficient_parts in S0 as [S4 _].
        rewrite (two_hash F u x d p Hx _ k1' C2 S2) in S4. apply list_input_inj. apply (distinct_digests F u0 p u _ _ k1' k1 T3 S2 T2 C2 B2). symmetry. exact S4. }
      assert (HL : hash_in (put x d u) (list_input l) = L) by (apply (two_hash F u x d p Hx _ k1 B2 T2)).
      assert (D : forall y, before F y p u = true -> hash_in (put x d u) y = hash_in u y).
      { intros y Y. apply before_iff in Y as (k & Y & B). apply (two_hash F u x d p Hx _ k B Y). }
      assert (V : world_sum_of (hash_in (put x d u)) l = pt_add (pmul (fmul (of_Z ord (Z.of_nat n)) (of_Z ord (be_dec d))) (pval K)) R).
      { rewrite sum_coefs, <- Lin. f_equal. apply map_ext_in. intros K' HK'. f_equal. unfold coef_v. destruct (point_eqb K' K) eqn:EK.
        - apply point_eqb_eq in EK as ->. rewrite NK. unfold coef_q. rewrite HL. unfold L. change (coefficient_input (hash_in u (list_input l)) K) with (coef_q (hash_in u) l K). rewrite <- T4.
          rewrite (two_hash_x F inputs digests q _ HF u x d p Hu Hx). reflexivity.
        - unfold g, coef_v. specialize (T5 K' HK'). destruct (is_second l K'); [reflexivity|]. cbn [orb] in T5. unfold coef_q at 1. rewrite HL. unfold L. change (coefficient_input (hash_in u (list_input l)) K') with (coef_q (hash_in u) l K').
          apply orb_true_iff in T5 as [T5 | T5]; [|rewrite (D _ T5); reflexivity]. apply bytes_eqb_eq in T5. rewrite T4 in T5. unfold coef_q in T5. apply coefficient_parts in T5 as [_ T5]. rewrite T5, point_eqb_refl in EK. discriminate EK. }
      rewrite V in S6. exact S6. }
    eapply Nat.le_trans; [apply count_le; exact KEY|]. apply (count_any (fun d => pt_eqb (pt_add (pmul (fmul (of_Z ord (Z.of_nat n)) (of_Z ord (be_dec d))) (pval K)) R))). intros Z _.
    apply (count_residue digests c _ Hc). intros d d' E E'. apply pt_eqb_eq in E, E'. rewrite <- E' in E. rewrite !(add_comm _ R) in E. apply add_cancel_l, pmul_fin_inj in E. apply (fmul_cancel_l ord_prime) in E.
    + unfold same_residue. apply Z.eqb_eq. apply (f_equal (fun a : mscalar Pr => fz a)) in E. rewrite !fz_of_Z in E. exact E.
    + intro O. apply (f_equal (fun a : mscalar Pr => fz a)) in O. rewrite fz_of_Z in O. change (fz (@fzero (@ord Pr))) with (0 mod Zpos ord) in O. rewrite Z.mod_0_l in O by discriminate. specialize (Hcands l Il). change (Zpos ord) with n_ in O. rewrite Z.mod_small in O by lia. lia.
Qed.
(** A list whose questions were all asked and whose sum is one of the points. *)
Lemma hit_event w l : In w W -> In l cands -> l <> [] -> asked_list F w l -> existsb (pt_eqb (world_sum_of (hash_in w) l)) zs = true ->
  existsb (fun g => g w) (early_pairs F q) = true \/ existsb (fun g => g w) (map hit_at (seq 0 q)) = true.
Proof.
  intros Hw Il N [A1 A2] X. destruct (existsb (fun g => g w) (early_pairs F q)) eqn:EP; [left; reflexivity | right].
  pose proof (proj2 (qs_facts F inputs digests q _ HF w Hw)) as QL.
  assert (NE : forall p, (p <= q)%nat -> none_early F p w = true).
  { intros p Bp. unfold none_early. apply forallb_forall. intros k2 H2. apply forallb_forall. intros k1 H1. apply in_seq in H1, H2. apply negb_true_iff. destruct (early_at F k1 k2 w) eqn:E; [|reflexivity].
    rewrite <- EP. symmetry. apply existsb_exists. exists (early_at F k1 k2). split; [|exact E]. unfold early_pairs, rel_pairs. apply in_flat_map. exists k2. split; [apply in_seq; lia|]. apply in_map_iff. exists k1. split; [reflexivity | apply in_seq; lia]. }
  assert (HL : forall y, length (hash_in w y) = 32%nat) by (apply (hash_in_len inputs digests w HS32 Hw)).
  assert (AFTER : forall m K k k', place (list_input m) (qs F w) = Some k -> place (coef_q (hash_in w) m K) (qs F w) = Some k' -> (k < k')%nat).
  { intros m K k k' P P'. destruct (Nat.lt_trichotomy k k') as [B | [-> | B]]; [exact B | exfalso | exfalso].
    - apply (list_not_coefficient m (hash_in w (list_input m)) K). apply (place_inj _ _ _ _ P P').
    - pose proof (place_lt _ _ _ P) as B1. pose proof (none_early_spec F u0 q w _ _ k' k (NE q (le_n q)) P' P B ltac:(lia)) as E. unfold early in E. apply orb_false_iff in E as [_ E]. revert E.
      unfold coef_q, coefficient_input. assert (TL : length (@tag_twice Pr "KeyAgg coefficient") = 64%nat) by (unfold tag_twice; rewrite tag_keyagg_coeff; reflexivity).
      rewrite skipn_app, TL, skipn_all2 by lia. cbn [app Nat.sub skipn]. rewrite firstn_app, (HL (list_input m)), firstn_all2 by (rewrite HL; apply le_n). cbn [Nat.sub firstn]. rewrite app_nil_r, bytes_eqb_refl. discriminate. }
  set (needed := map (coef_q (hash_in w) l) (filter (fun K => negb (is_second l K)) l)).
  assert (IN : forall y, In y needed <-> exists K, In K l /\ is_second l K = false /\ y = coef_q (hash_in w) l K).
  { intros y. unfold needed. rewrite in_map_iff. split; [intros (K & E & I); apply filter_In in I as [I1 I2]; apply negb_true_iff in I2; exists K; auto | intros (K & I1 & I2 & E); exists K; split; [symmetry; exact E | apply filter_In; split; [exact I1 | apply negb_true_iff, I2]]]. }
  destruct (last_place (qs F w) needed) as (x & p & Ix & Px & Q).
  { intro E. destruct l as [|K m]; [apply N; reflexivity|]. assert (I0 : In (coef_q (hash_in w) (K :: m) K) needed) by (apply IN; exists K; split; [left; reflexivity|]; split; [apply first_not_second | reflexivity]). rewrite E in I0. destruct I0. }
  { intros y Hy. apply IN in Hy as (K & IK & _ & ->). apply A2, IK. }
  destruct (place_some _ _ A1) as [k1 P1]. pose proof (place_lt _ _ _ Px) as Bp.
  assert (B1 : (k1 < p)%nat). { apply IN in Ix as (K & _ & _ & ->). apply (AFTER l K); assumption. }
  apply existsb_exists. exists (hit_at p). split; [apply in_map, in_seq; lia|].
  unfold hit_at. rewrite (place_is_new F x p w Px). apply existsb_exists. exists l. split; [exact Il|].
  unfold hit_test. cbv zeta. rewrite !andb_true_iff. repeat split.
  - apply before_iff. exists k1. auto.
  - apply NE. lia.
  - apply IN in Ix as (K & IK & NK & ->). apply existsb_exists. exists K. split; [exact IK|]. rewrite bytes_eqb_refl, NK. reflexivity.
  - apply forallb_forall. intros K IK. destruct (is_second l K) eqn:SK; [reflexivity|]. cbn [orb]. apply orb_true_iff. destruct (Q (coef_q (hash_in w) l K)) as (k & Pk & Bk); [apply IN; exists K; auto|].
    destruct (Nat.eq_dec k p) as [-> | D]; [left; apply bytes_eqb_eq, (place_inj _ _ _ _ Px Pk) | right; apply before_iff; exists k; split; [exact Pk | lia]].
  - exact X.
Qed.
Lemma hits_rare (bad : list (bytes * bytes) -> bool) :
  (forall w, In w W -> bad w = true -> exists l, In l cands /\ l <> [] /\ asked_list F w l /\ existsb (pt_eqb (world_sum_of (hash_in w) l)) zs = true) ->
  (length digests * count bad W <= (q * (q - 1) + q * (length zs * c)) * length W)%nat.
Proof.
  intro H. assert (C : (count bad W <= count (fun w => existsb (fun g => g w) (early_pairs F q)) W + count (fun w => existsb (fun g => g w) (map hit_at (seq 0 q))) W)%nat).
  { apply count_or. intros w Hw B. destruct (H w Hw B) as (l & H1 & H2 & H3 & H4). apply (hit_event w l); assumption. }
  assert (C1 : (length digests * count (fun w => existsb (fun g => g w) (early_pairs F q)) W <= length (early_pairs F q) * (length W * 2))%nat).
  { apply union_bound; [intros w _ B; apply existsb_exists in B as (g & I & G); exists g; auto|]. intros g Hg. unfold early_pairs, rel_pairs in Hg. apply in_flat_map in Hg as (i2 & _ & Hg). apply in_map_iff in Hg as (i1 & <- & I1). apply in_seq in I1.
    apply (rel_rare F inputs digests q 2 early HS (early_few digests HS) HF). lia. }
  assert (C2 : (length digests * count (fun w => existsb (fun g => g w) (map hit_at (seq 0 q))) W <= length (map hit_at (seq 0 q)) * (length W * (length zs * c)))%nat).
  { apply union_bound; [intros w _ B; apply existsb_exists in B as (g & I & G); exists g; auto|]. intros g Hg. apply in_map_iff in Hg as (p & <- & _). apply hit_rare. }
  rewrite map_length, seq_length in C2. pose proof (length_rel F q early) as L1. fold (early_pairs F q) in L1.
  eapply Nat.le_trans; [apply Nat.mul_le_mono_l, C|]. rewrite Nat.mul_add_distr_l. eapply Nat.le_trans; [apply Nat.add_le_mono; [exact C1 | exact C2]|].
  replace (length (early_pairs F q) * (length W * 2))%nat with (2 * length (early_pairs F q) * length W)%nat by ring. rewrite L1. apply Nat.eq_le_incl. ring.
Qed.
End Count.

(** The program, followed by the questions about its list. *)
Lemma chosen_rare (F : asker (list (point Pr))) (inputs digests : list bytes) (q u c : nat) (zs : list (@pt Pr)) (bad : list (bytes * bytes) -> bool) : Z.of_nat u < n_ -> NoDup digests -> (forall d, In d digests -> length d = 32%nat) ->
  (forall d, In d digests -> (count (@same_residue Pr d) digests <= c)%nat) -> key_list_within inputs digests q u F ->
  (forall w, In w (worlds inputs digests) -> bad w = true -> outcome (hash_in w) F <> [] /\ existsb (pt_eqb (world_sum_of (hash_in w) (outcome (hash_in w) F))) zs = true) ->
  let Q := (q + u + 1)%nat in
  (length digests * count bad (worlds inputs digests) <= (Q * (Q - 1) + Q * (length zs * c)) * length digests ^ length inputs)%nat.
Proof.
  cbv zeta. intros Hu HS HS32 Hc HF HB. rewrite <- (length_worlds inputs digests).
  set (G := fun r : list (point Pr) => Ask (list_input r) (fun L => ask_all (map (coefficient_input L) r) (Give tt))).
  assert (HG : asks_within inputs digests (fun _ => True) (q + u + 1) (and_then F G)).
  { replace (q + u + 1)%nat with (q + (1 + (u + 0)))%nat by lia. apply (within_then _ _ _ _ q _ F _ HF). intros r (H1 & H2 & H3). unfold G. cbn [asks_within Nat.add]. split; [exact H2|]. intros L IL.
    apply (within_le _ _ _ (length (map (coefficient_input L) r) + 0)); [rewrite map_length; lia|]. apply within_all; [intros m Hm; apply in_map_iff in Hm as (K & <- & IK); apply H3; assumption | exact I]. }
  set (cands := map (fun w => outcome (hash_in w) F) (worlds inputs digests)).
  assert (HC : forall l, In l cands -> (length l <= u)%nat).
  { intros l Hl. unfold cands in Hl. apply in_map_iff in Hl as (w & <- & Hw). apply (asked_within inputs digests _ q F (hash_in w) HF). intros m Hm. apply (hash_in_in inputs digests); assumption. }
  apply (hits_rare (and_then F G) inputs digests (q + u + 1) c u cands zs HS HS32 Hc HG Hu HC).
  intros w Hw B. destruct (HB w Hw B) as [N X]. exists (outcome (hash_in w) F). split; [apply in_map_iff; exists w; split; [reflexivity | exact Hw]|]. split; [exact N|]. split; [|exact X].
  unfold asked_list. assert (QS : qs (and_then F G) w = asked (hash_in w) F ++ asked (hash_in w) (G (outcome (hash_in w) F))) by apply asked_then.
  revert QS. generalize (qs (and_then F G) w). intros Y QS. unfold G in QS. cbn [asked] in QS. rewrite asked_all in QS. cbn [asked] in QS. rewrite QS.
  split; [apply in_app_iff; right; left; reflexivity|]. intros K IK. apply in_app_iff. right. right. apply in_app_iff. left. apply in_map_iff. exists K. split; [reflexivity | exact IK].
Qed.
End Aim.

Section C106_key_not_aimed.
Context {Pr : prims}.
Add Ring ring_C106_key_not_aimed : (fe_ring_theory (n := @ord Pr)).
Lemma C106_key_not_aimed_proof {Laws : prims_ok Pr} {Tags : tags_ok Pr} (x : bytes) (F : asker (list (point Pr))) (inputs digests : list bytes) (q u c : nat) (Hu : Z.of_nat u < n_) (HS : NoDup digests) (HS32 : forall d, In d digests -> length d = 32%nat) (Hc : forall d, In d digests -> (count (@same_residue Pr d) digests <= c)%nat) (HF : key_list_within inputs digests q u F) :
  let N := length digests in let Q := (q + u + 1)%nat in
  (N * count (aimed x F) (worlds inputs digests) <= (Q * (Q - 1) + Q * (2 * c)) * N ^ length inputs)%nat.
Proof.
  cbv zeta. destruct (existsb (aimed x F) (worlds inputs digests)) eqn:EX.
  - apply existsb_exists in EX as (w0 & Hw0 & E0). pose proof (with_hash_ok _ (hash_in_len inputs digests w0 HS32 Hw0)) as LI0. unfold aimed in E0. cbv zeta in E0.
    destruct (agg_x (hash_in w0) (outcome (hash_in w0) F)) as [x0|] eqn:X0; [|discriminate E0]. apply bytes_eqb_eq in E0 as <-. apply (agg_x_sum _ LI0) in X0 as [O0 X0]. set (T := world_sum_of (hash_in w0) (outcome (hash_in w0) F)) in *.
    apply (chosen_rare F inputs digests q u c [T; pt_neg T] (aimed x F) Hu HS HS32 Hc HF). intros w Hw H. pose proof (with_hash_ok _ (hash_in_len inputs digests w HS32 Hw)) as LI. unfold aimed in H. cbv zeta in H.
    destruct (agg_x (hash_in w) (outcome (hash_in w) F)) as [x1|] eqn:X1; [|discriminate H]. apply bytes_eqb_eq in H as <-. apply (agg_x_sum _ LI) in X1 as [O1 X1]. split; [intro Z; rewrite Z in O1; apply O1; reflexivity|].
    rewrite <- X0 in X1. cbn [existsb]. apply x_inj in X1; [|exact O1 | exact O0]. destruct X1 as [-> | ->]; rewrite (proj2 (pt_eqb_eq _ _) eq_refl); [reflexivity | apply orb_true_iff; right; reflexivity].
  - replace (count (aimed x F) (worlds inputs digests)) with 0%nat; [rewrite Nat.mul_0_r; apply Nat.le_0_l|]. symmetry. unfold count. destruct (filter (aimed x F) (worlds inputs digests)) as [|w ws] eqn:E; [reflexivity | exfalso].
    assert (I0 : In w (filter (aimed x F) (worlds inputs digests))) by (rewrite E; left; reflexivity). apply filter_In in I0 as [I1 I2]. assert (existsb (aimed x F) (worlds inputs digests) = true) by (apply existsb_exists; exists w; auto). congruence.
Qed.
End C106_key_not_aimed.

Section C106_aggregation_refused.
Context {Pr : prims}.
Add Ring ring_C106_aggregation_refused : (fe_ring_theory (n := @ord Pr)).
Lemma C106_aggregation_refused_proof {Laws : prims_ok Pr} {Tags : tags_ok Pr} (F : asker (list (point Pr))) (inputs digests : list bytes) (q u c : nat) (Hu : Z.of_nat u < n_) (HS : NoDup digests) (HS32 : forall d, In d digests -> length d = 32%nat) (Hc : forall d, In d digests -> (count (@same_residue Pr d) digests <= c)%nat) (HF : key_list_within inputs digests q u F) :
  let N := length digests in let Q := (q + u + 1)%nat in
  (N * count (refused F) (worlds inputs digests) <= (Q * (Q - 1) + Q * c) * N ^ length inputs)%nat.
Proof.
  cbv zeta. replace ((q + u + 1) * c)%nat with ((q + u + 1) * (length [@pt_O Pr] * c))%nat by (cbn [length]; lia).
  apply (chosen_rare F inputs digests q u c [pt_O] (refused F) Hu HS HS32 Hc HF). intros w Hw H. pose proof (with_hash_ok _ (hash_in_len inputs digests w HS32 Hw)) as LI. unfold refused in H. cbv zeta in H. revert H.
  generalize (outcome (hash_in w) F). intros l H. assert (NL : l <> []) by (intros ->; discriminate H). split; [exact NL|]. cbn [existsb]. rewrite orb_false_r. apply pt_eqb_eq.
  destruct (Z.ltb u32_max (zlen (map (rehash (hash_in w)) l))) eqn:LE.
  { exfalso. unfold key_agg_new in H. rewrite LE in H. destruct l; discriminate H. }
  apply Z.ltb_ge in LE. rewrite key_agg_new_eq in H; [|intro Z; apply NL; destruct l; [reflexivity | discriminate Z] | exact LE].
  assert (SS : @agg_sum_of (with_hash Pr (hash_in w)) (map (rehash (hash_in w)) l) = world_sum_of (hash_in w) l :> @pt Pr) by (unfold agg_sum_of, world_sum_of; rewrite map_map; reflexivity).
  destruct (@not_inf (with_hash Pr (hash_in w)) (agg_sum_of (map (rehash (hash_in w)) l))) as [Q0|] eqn:N; [discriminate H|]. apply (@not_inf_None (with_hash Pr (hash_in w)) LI) in N. rewrite <- SS. exact N.
Qed.
End C106_aggregation_refused.

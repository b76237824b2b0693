(** Proofs of the theorems of PropertiesCommit.v. *)
From Coq Require Import String List.
From Verif Require Import Bytes BytesFacts Prims PrimsFacts TaggedHashes Errors SpecTags SpecBIP327
  KeyAgg SpecExtract SpecFork SpecCommit Toy ToyData ToyFork ToyCommit.
Import ListNotations.
Open Scope list_scope.
Open Scope Z_scope.
From Coq Require Import Lia Arith Bool Znumtheory.
From Verif Require Import CodecFacts KeyAggFacts SpecFacts ProofsSoundness ProofsExtraction ForkFacts ProofsFork ProofsConcurrent ProofsCollision ProofsBatchForger.
Open Scope Z_scope.

(** Two different questions of a program are related to each other by their digests. *)
Section Related.
Context {Pr : prims} {A : Type} (F : asker A) (inputs digests : list bytes) (q c : nat) (E : bytes -> bytes -> bytes -> bytes -> bool) (ES : forall y d y' d', E y d y' d' = E y' d' y d) (HS : NoDup digests)
  (Hc : forall y d y', (count (E y d y') digests <= c)%nat) (HF : asks_within inputs digests (fun _ => True) q F).
Let W := worlds inputs digests.
Definition rel_at (i1 i2 : nat) (w : list (bytes * bytes)) : bool :=
  match new_at (qs F) i1 w, new_at (qs F) i2 w with Some y, Some y' => E y (hash_in w y) y' (hash_in w y') | _, _ => false end.
Lemma rel_rare i1 i2 : (i1 < i2)%nat -> (length digests * count (rel_at i1 i2) W <= length W * c)%nat.
Proof.
  intro Hi. apply (few_place F inputs digests q _ HF i2 c _ HS).
  - intros w Hw H. unfold rel_at in H. unfold has_new. destruct (new_at (qs F) i1 w); [|discriminate H]. destruct (new_at (qs F) i2 w); [reflexivity | discriminate H].
  - intros u x Hu Hx E1. unfold rel_at in E1. destruct (new_at (qs F) i1 u) as [y|] eqn:Y1; [|discriminate E1].
    eapply Nat.le_trans; [|apply (Hc y (hash_in u y) x)]. apply count_le. intros d Hd E2. unfold rel_at in E2.
    destruct (new_at (qs F) i1 (put x d u)) as [y'|] eqn:Y2; [|discriminate E2].
    rewrite (new_at_put inputs digests (qs F) (qs_in F inputs digests q _ HF) (qs_same F inputs digests) i2 u x d Hu Hd Hx) in E2.
    pose proof (two_at F u y i1 Y1) as P1. pose proof (two_at F _ y' i1 Y2) as P2. apply (two_place F inputs digests q _ HF u x d i2 Hu Hx Hd) in P2; [|lia].
    rewrite (place_inj _ _ _ _ P2 P1) in E2. rewrite (two_hash F u x d i2 Hx y i1 Hi P1), (two_hash_x F inputs digests q _ HF u x d i2 Hu Hx) in E2. exact E2.
Qed.
Lemma rel_found w a a' k k' : place a (qs F w) = Some k -> place a' (qs F w) = Some k' -> E a (hash_in w a) a' (hash_in w a') = true -> rel_at k k' w = true.
Proof.
  intros P P' R. unfold rel_at. apply place_spec in P, P'. rewrite (proj2 (new_at_spec (qs F) k w a) P), (proj2 (new_at_spec (qs F) k' w a') P'). exact R.
Qed.
Definition rel_pairs : list (list (bytes * bytes) -> bool) := flat_map (fun i2 => map (fun i1 => rel_at i1 i2) (seq 0 i2)) (seq 0 q).
Lemma length_rel : (2 * length rel_pairs = q * (q - 1))%nat.
Proof.
  unfold rel_pairs. clear. induction q as [|k IH]; [reflexivity|]. rewrite seq_S, flat_map_app, app_length. cbn [flat_map Nat.add]. rewrite app_nil_r, map_length, seq_length.
  rewrite Nat.mul_add_distr_l, IH. destruct k as [|k]; [reflexivity|]. rewrite !Nat.sub_succ, !Nat.sub_0_r. lia.
Qed.
Lemma rel_birthday (bad : list (bytes * bytes) -> bool) :
  (forall w, In w W -> bad w = true -> exists y y', In y (qs F w) /\ In y' (qs F w) /\ y <> y' /\ E y (hash_in w y) y' (hash_in w y') = true) ->
  (2 * (length digests * count bad W) <= q * (q - 1) * (length W * c))%nat.
Proof.
  intro H. rewrite <- length_rel, <- Nat.mul_assoc. apply Nat.mul_le_mono_l. apply union_bound.
  - intros w Hw B. destruct (H w Hw B) as (y & y' & I & I' & N & R).
    destruct (place_some _ _ I) as [k P], (place_some _ _ I') as [k' P']. pose proof (place_lt _ _ _ P) as B1. pose proof (place_lt _ _ _ P') as B2. pose proof (proj2 (qs_facts F inputs digests q _ HF w Hw)) as Q.
    assert (G : forall k1 k2, (k1 < k2)%nat -> (k2 < q)%nat -> In (rel_at k1 k2) rel_pairs).
    { intros k1 k2 L1 L2. apply in_flat_map. exists k2. split; [apply in_seq; lia|]. apply in_map_iff. exists k1. split; [reflexivity | apply in_seq; lia]. }
    destruct (Nat.lt_trichotomy k k') as [L | [-> | L]].
    + exists (rel_at k k'). split; [apply G; lia | apply (rel_found w y y'); assumption].
    + exfalso. apply N, (place_inj _ _ _ _ P P').
    + exists (rel_at k' k). split; [apply G; lia | apply (rel_found w y' y); [assumption | assumption | rewrite ES; exact R]].
  - intros g Hg. unfold rel_pairs in Hg. apply in_flat_map in Hg as (i2 & _ & Hg). apply in_map_iff in Hg as (i1 & <- & I1). apply in_seq in I1. apply rel_rare. lia.
Qed.
(** The same when one of the two questions is always the first one. *)
Lemma rel_first (bad : list (bytes * bytes) -> bool) y0 :
  (forall w, In w W -> place y0 (qs F w) = Some 0%nat) ->
  (forall w, In w W -> bad w = true -> exists y, In y (qs F w) /\ y0 <> y /\ E y0 (hash_in w y0) y (hash_in w y) = true) ->
  (length digests * count bad W <= (q - 1) * (length W * c))%nat.
Proof.
  intros H0 H. replace (q - 1)%nat with (length (map (rel_at 0) (seq 1 (q - 1)))) by (rewrite map_length; apply seq_length). apply union_bound.
  - intros w Hw B. destruct (H w Hw B) as (y & I & N & R). destruct (place_some _ _ I) as [k P]. pose proof (place_lt _ _ _ P) as B1. pose proof (proj2 (qs_facts F inputs digests q _ HF w Hw)) as Q.
    specialize (H0 w Hw). exists (rel_at 0 k). split; [|apply (rel_found w y0 y); assumption]. apply in_map_iff. exists k. split; [reflexivity|]. apply in_seq.
    destruct k as [|k]; [|lia]. exfalso. apply N, (place_inj _ _ _ _ H0 P).
  - intros g Hg. apply in_map_iff in Hg as (i2 & <- & I2). apply in_seq in I2. apply rel_rare. lia.
Qed.
End Related.

(** At most two digests have a property if of any three of them two are equal. *)
Lemma count_two {A} (f : A -> bool) (l : list A) : NoDup l -> (forall a b c, f a = true -> f b = true -> f c = true -> a = b \/ a = c \/ b = c) -> (count f l <= 2)%nat.
Proof.
  intros ND H. unfold count. pose proof (NoDup_filter f ND) as NF. assert (IF : forall x, In x (filter f l) -> f x = true) by (intros x Hx; apply filter_In in Hx; apply Hx).
  destruct (filter f l) as [|a [|b [|c r]]]; cbn [length]; try lia. exfalso. inversion NF as [|? ? N1 NF1]; subst. inversion NF1 as [|? ? N2 _]; subst.
  destruct (H a b c) as [-> | [-> | ->]]; [apply IF; cbn [In]; tauto .. | apply N1; left; reflexivity | apply N1; right; left; reflexivity | apply N2; left; reflexivity].
Qed.

Section Commit.
Context {Pr : prims} {Laws : prims_ok Pr} {Tags : tags_ok Pr}.
(** The output key for a question and its digest. *)
Definition out_of (y d : bytes) : option bytes :=
  match @lift_x Pr (firstn 32 (skipn 64 y)), @parse_mscalar Pr d with
  | Some P, Some t => let K := pt_add P (gmul t) in if pt_eqb K pt_O then None else Some (pt_x K)
  | _, _ => None
  end.
Definition same_out (y d y' d' : bytes) : bool := match out_of y d, out_of y' d' with Some x, Some x' => bytes_eqb x x' | _, _ => false end.
Lemma same_out_sym y d y' d' : same_out y d y' d' = same_out y' d' y d.
Proof. unfold same_out. destruct (out_of y d), (out_of y' d'); try reflexivity. apply eq_true_iff_eq. rewrite !bytes_eqb_eq. split; congruence. Qed.
Lemma same_out_few digests y d y' : NoDup digests -> (count (same_out y d y') digests <= 2)%nat.
Proof.
  intro ND. unfold same_out. apply count_two; [exact ND|]. destruct (out_of y d) as [x|]; [|intros a b c0 Ha; discriminate Ha].
  assert (G : forall a, match out_of y' a with Some x' => bytes_eqb x x' | None => false end = true -> exists P (t : mscalar Pr), lift_x (firstn 32 (skipn 64 y')) = Some P /\ a = ser_scalar t /\ pt_add P (gmul t) <> pt_O /\ pt_x (pt_add P (gmul t)) = x).
  { intros a H. unfold out_of in H. destruct (lift_x (firstn 32 (skipn 64 y'))) as [P|]; [|discriminate H]. destruct (parse_mscalar a) as [t|] eqn:T; [|discriminate H]. cbv zeta in H.
    destruct (pt_eqb (pt_add P (gmul t)) pt_O) eqn:Z; [discriminate H|]. apply bytes_eqb_eq in H. exists P, t. split; [reflexivity|]. split; [apply parse_mscalar_Some, T|]. split; [|symmetry; exact H].
    apply pt_eqb_neq, Z. }
  intros a b c0 Ha Hb Hc. destruct (G a Ha) as (P & ta & L & -> & Na & Xa), (G b Hb) as (P2 & tb & L2 & -> & Nb & Xb), (G c0 Hc) as (P3 & tc & L3 & -> & Nc & Xc).
  rewrite L in L2, L3. injection L2 as <-. injection L3 as <-.
  assert (I : forall t t' : mscalar Pr, pt_add P (gmul t) = pt_add P (gmul t') -> t = t').
  { intros t t' H. apply gmul_inj, (add_cancel_l P). exact H. }
  destruct (x_inj _ _ Na Nb (eq_trans Xa (eq_sym Xb))) as [H | H]; [left; f_equal; apply I, H|].
  destruct (x_inj _ _ Na Nc (eq_trans Xa (eq_sym Xc))) as [H' | H']; [right; left; f_equal; apply I, H'|].
  right; right. f_equal. apply I. apply (f_equal pt_neg) in H, H'. rewrite neg_neg in H, H'. congruence.
Qed.
Lemma tag_len : length (tag_twice "TapTweak") = 64%nat.
Proof. unfold tag_twice. rewrite tag_taptweak. reflexivity. Qed.
Lemma output_out h (o : opening Pr) x : prims_ok (with_hash Pr h) -> output_key h o = Some x -> out_of (tap_question o) (h (tap_question o)) = Some x.
Proof.
  intros LI H. unfold output_key in H. destruct (@with_taproot_tweak (with_hash Pr h) (recontext h (fst o)) (snd o)) as [c' | |] eqn:T; try discriminate H. injection H as <-.
  unfold with_taproot_tweak, with_taproot_tweak_internal in T. cbv zeta in T.
  match type of T with match parse_scalar ?m with _ => _ end = _ => assert (EM : m = h (tap_question o)) end.
  { unfold tagged, tap_question, tag_twice, recontext, xbytes. cbn [pubkey sha256 with_hash]. rewrite tag_taptweak, <- !app_assoc. reflexivity. }
  rewrite EM in T. destruct (@parse_scalar (with_hash Pr h) (h (tap_question o))) as [t|] eqn:PS; [|discriminate T]. apply (@parse_scalar_Some (with_hash Pr h) LI) in PS.
  unfold out_of. assert (X : firstn 32 (skipn 64 (tap_question o)) = pt_x (pubkey (fst o))).
  { unfold tap_question. rewrite skipn_app, tag_len, skipn_all2 by (rewrite tag_len; lia). cbn [app Nat.sub skipn]. unfold xbytes. rewrite firstn_app, x_len, firstn_all2 by (rewrite x_len; lia). cbn [Nat.sub firstn]. apply app_nil_r. }
  rewrite X, lift_x_x. rewrite PS. change (@ser_scalar (with_hash Pr h) (sval t)) with (@ser_scalar Pr (sval t)). rewrite (proj2 (parse_mscalar_Some _ (sval t : mscalar Pr)) eq_refl). cbv zeta. rewrite even_point_val.
  assert (V : pval (pubkey c') = pt_add (to_even_y (pubkey (fst o))) (@gmul Pr (sval t)) /\ @pt_eqb Pr (pval (pubkey c')) (@pt_O Pr) = false).
  { split; [|apply (p_fin (pubkey c'))]. unfold with_xonly_tweak, with_plain_tweak in T. change (pval (pubkey (recontext h (fst o)))) with (pval (pubkey (fst o))) in T. unfold to_even_y, pneg_if.
    change (@pt_odd (with_hash Pr h)) with (@pt_odd Pr) in T.
    destruct (pt_odd (pubkey (fst o))); cbn [negb] in T.
    - destruct (@not_inf (with_hash Pr h) _) as [Q|] eqn:N in T; [|discriminate T]. apply (@not_inf_Some (with_hash Pr h)) in N. injection T as <-. cbn [pubkey ctx_update]. etransitivity; [symmetry; exact N|]. exact (@add_comm Pr Laws (@gmul Pr (sval t)) (pt_neg (pubkey (fst o)))).
    - destruct (@not_inf (with_hash Pr h) _) as [Q|] eqn:N in T; [|discriminate T]. apply (@not_inf_Some (with_hash Pr h)) in N. injection T as <-. cbn [pubkey ctx_update]. symmetry. exact N. }
  destruct V as [V1 V2]. rewrite <- V1, V2. reflexivity.
Qed.
Lemma opened_related h (o o' : opening Pr) : prims_ok (with_hash Pr h) -> opened_twice h o o' = true ->
  tap_question o <> tap_question o' /\ same_out (tap_question o) (h (tap_question o)) (tap_question o') (h (tap_question o')) = true.
Proof.
  intros LI H. unfold opened_twice in H. apply andb_true_iff in H as [D H]. split.
  - intro X. unfold tap_question in X. apply app_inv_head in X. unfold xbytes in X. apply app_inj_len in X as [X1 X2]; [|rewrite !x_len; reflexivity].
    apply negb_true_iff in D. unfold same_opening, xbytes in D. rewrite X1, X2, !bytes_eqb_refl in D. discriminate D.
  - destruct (output_key h o) as [x|] eqn:O1; [|discriminate H]. destruct (output_key h o') as [x'|] eqn:O2; [|discriminate H].
    unfold same_out. rewrite (output_out h o x LI O1), (output_out h o' x' LI O2). exact H.
Qed.
End Commit.

Section C98_taproot_one_opening.
Context {Pr : prims}.
Add Ring ring_C98_taproot_one_opening : (fe_ring_theory (n := @ord Pr)).
Lemma C98_taproot_one_opening_proof {Laws : prims_ok Pr} {Tags : tags_ok Pr} (F : asker (opening Pr * opening Pr)) (inputs digests : list bytes) (q : nat) (HS : NoDup digests) (HS32 : forall d, In d digests -> length d = 32%nat) (HF : asks_within inputs digests (fun r => In (tap_question (fst r)) inputs /\ In (tap_question (snd r)) inputs) q F) :
  let N := length digests in
  (N * count (two_openings F) (worlds inputs digests) <= (q + 2) * (q + 1) * N ^ length inputs)%nat.
Proof.
  cbv zeta. rewrite <- (length_worlds inputs digests).
  set (G := fun r : opening Pr * opening Pr => Ask (tap_question (fst r)) (fun _ => Ask (tap_question (snd r)) (fun _ => Give tt))).
  assert (HG : asks_within inputs digests (fun _ => True) (q + 2) (and_then F G)).
  { apply (within_then _ _ _ _ q 2 F _ HF). intros r [H1 H2]. split; [exact H1|]. intros _ _. split; [exact H2|]. intros; exact I. }
  enough (H : (2 * (length digests * count (two_openings F) (worlds inputs digests)) <= (q + 2) * (q + 2 - 1) * (length (worlds inputs digests) * 2))%nat)
    by (replace (q + 2 - 1)%nat with (q + 1)%nat in H by lia; lia).
  apply (rel_birthday (and_then F G) inputs digests (q + 2) 2 (@same_out Pr) same_out_sym HS (fun y d y' => same_out_few digests y d y' HS) HG).
  intros w Hw H. pose proof (hash_in_len inputs digests w HS32 Hw) as HL. pose proof (with_hash_ok _ HL) as LI. apply (opened_related _ _ _ LI) in H as [D R].
  exists (tap_question (fst (outcome (hash_in w) F))), (tap_question (snd (outcome (hash_in w) F))). unfold qs. rewrite asked_then. cbn [G asked].
  split; [apply in_app_iff; right; left; reflexivity|]. split; [apply in_app_iff; right; right; left; reflexivity|]. split; assumption.
Qed.
End C98_taproot_one_opening.

Section C98_taproot_second_opening.
Context {Pr : prims}.
Add Ring ring_C98_taproot_second_opening : (fe_ring_theory (n := @ord Pr)).
Lemma C98_taproot_second_opening_proof {Laws : prims_ok Pr} {Tags : tags_ok Pr} (o : opening Pr) (F : asker (opening Pr)) (inputs digests : list bytes) (q : nat) (HS : NoDup digests) (HS32 : forall d, In d digests -> length d = 32%nat) (Ho : In (tap_question o) inputs) (HF : asks_within inputs digests (fun r => In (tap_question r) inputs) q F) :
  let N := length digests in
  (N * count (other_opening o F) (worlds inputs digests) <= 2 * (q + 1) * N ^ length inputs)%nat.
Proof.
  cbv zeta. rewrite <- (length_worlds inputs digests).
  set (G := fun r : opening Pr => Ask (tap_question r) (fun _ => Give tt)).
  set (F0 := Ask (tap_question o) (fun _ => and_then F G)).
  assert (HG : asks_within inputs digests (fun _ => True) (S (q + 1)) F0).
  { split; [exact Ho|]. intros _ _. apply (within_then _ _ _ _ q 1 F _ HF). intros r H1. split; [exact H1|]. intros; exact I. }
  enough (H : (length digests * count (other_opening o F) (worlds inputs digests) <= (S (q + 1) - 1) * (length (worlds inputs digests) * 2))%nat) by (rewrite Nat.sub_succ, Nat.sub_0_r in H; lia).
  apply (rel_first F0 inputs digests (S (q + 1)) 2 (@same_out Pr) HS (fun y d y' => same_out_few digests y d y' HS) HG _ (tap_question o)).
  - intros w Hw. unfold qs. cbn [F0 asked place]. rewrite bytes_eqb_refl. reflexivity.
  - intros w Hw H. pose proof (hash_in_len inputs digests w HS32 Hw) as HL. pose proof (with_hash_ok _ HL) as LI. apply (opened_related _ _ _ LI) in H as [D R].
    exists (tap_question (outcome (hash_in w) F)). unfold qs. cbn [F0 asked]. rewrite asked_then. cbn [G asked].
    split; [right; apply in_app_iff; right; left; reflexivity|]. split; assumption.
Qed.
End C98_taproot_second_opening.
